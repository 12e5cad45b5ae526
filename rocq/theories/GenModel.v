(** Model of the code generator (JNI_DEBUG builds): src/jnivm/internal/codegen/class.cpp, namespace.cpp, vm.cpp and the
    parts of method.cpp and field.cpp that are not in SigModel.  [fake] is JNIVM_FAKE_JNI_SYNTAX.  A [std::ostringstream]
    is the text written so far; only ParseJNIType can leave its buffer ([UB]). *)
From Verif Require Import Base SigModel VmState VmModel.
Set Implicit Arguments.
Unset Strict Implicit.
Local Open Scope char_scope.

(** The objects the generator walks through, as a tree: class.h 18-60 [Class] with its inner classes, fields and methods, and
    codegen/namespace.h 8-19 [Namespace]. *)
Inductive gcls := GClass (name prefix : str) (inner : list gcls) (fields : list fld) (methods : list mth).
Inductive gns := GNs (name : str) (classes : list gcls) (subs : list gns).

(** Following the [shared_ptr]s of a state.  [fuel] bounds the nesting; [None]: a pointer to something else or more than
    [fuel] levels (a cycle: the generator would not return). *)
Fixpoint read_all {A B} (f : A -> option B) (l : list A) : option (list B) :=
  match l with
  | [] => Some []
  | x :: r => match f x, read_all f r with Some y, Some t => Some (y :: t) | _, _ => None end
  end.
Definition read_field (s : st) (i : oid) : option fld :=
  match lookup s i with Some o => match o_pay o with PField f => Some f | _ => None end | None => None end.
Definition read_method (s : st) (i : oid) : option mth :=
  match lookup s i with Some o => match o_pay o with PMethod m => Some m | _ => None end | None => None end.
Fixpoint read_class (fuel : nat) (s : st) (i : oid) : option gcls :=
  match fuel with
  | O => None
  | S fuel' =>
    match cls_of s i with
    | None => None
    | Some c =>
      match read_all (read_class fuel' s) (c_inner c), read_all (read_field s) (c_fields c), read_all (read_method s) (c_methods c) with
      | Some ks, Some fs, Some ms => Some (GClass (c_name c) (c_prefix c) ks fs ms)
      | _, _, _ => None
      end
    end
  end.
Fixpoint read_ns (fuel : nat) (s : st) (k : nat) : option gns :=
  match fuel with
  | O => None
  | S fuel' =>
    match nth_error (s_ns s) k with
    | None => None
    | Some x =>
      match read_all (read_class (length (s_heap s)) s) (n_classes x), read_all (read_ns fuel' s) (n_subs x) with
      | Some cs, Some ns => Some (GNs (n_name x) cs ns)
      | _, _ => None
      end
    end
  end.
(** [VM::np] *)
Definition read_np (s : st) : option gns := read_ns (length (s_ns s)) s 0.

(** ** Text *)
(** [for (auto &x : l) ss << f(x);] *)
Section Loop.
Context {A : Type} (g : A -> str) (f : A -> res str).
Fixpoint cat (l : list A) : str := match l with [] => [] | x :: r => g x ++ cat r end.
Fixpoint cat_res (l : list A) : res str :=
  match l with [] => Ok [] | x :: r => let* a := f x in let* b := cat_res r in Ok (a ++ b) end.
End Loop.

(** [std::regex_replace(sub, std::regex("(^|\n)([^\n]+)"), "$1    $2")]: four blanks before every line that is not empty. *)
Fixpoint indent_at (start : bool) (s : str) : str :=
  match s with
  | [] => []
  | c :: r => if Ascii.eqb c (ascii_of_nat 10) then c :: indent_at true r
              else (if start then S_ "    " else []) ++ c :: indent_at false r
  end.
Definition indent (s : str) : str := indent_at true s.
(** class.cpp 26-29, 33-36, 40-43 *)
Definition line (sub : str) : str := match sub with [] => [] | _ => indent sub ++ newline end.

(** [scope += scope.empty() ? name : "::" + name] *)
Definition enter_scope (scope name : str) : str := scope ++ match scope with [] => name | _ => S_ "::" ++ name end.
(** namespace.cpp 9-11 (= 71-73 = 85-87 = 99-101) *)
Definition ns_scope (scope name : str) : str := match name with [] => scope | _ => enter_scope scope name end.

(** class.cpp 8, 11 *)
Definition blacklisted : list str :=
  [S_ "java/lang/Object"; S_ "java/lang/String"; S_ "java/lang/Class"; S_ "java/nio/ByteBuffer"; S_ "java/lang/Throwable";
   S_ "java/lang/reflect/Method"; S_ "java/lang/reflect/Field"; S_ "java/lang/ref/WeakReference"; S_ "internal/lang/Global"].
Definition skipped (prefix : str) : bool := existsb (fun b => str_eqb b prefix) blacklisted.

(** ** Fields and methods *)

Definition is_native (m : mth) : bool := match m_native m with Some _ => true | None => false end.
(** codegen/field.cpp 27-43 [Field::GenerateJNIBinding] *)
Definition Field_GenerateJNIBinding (fake _static : bool) (name scope cname : str) : str :=
  if negb fake then S_ "c->Hook(env, """ ++ name ++ S_ """, &" ++ scope ++ S_ "::" ++ name ++ S_ ");" ++ newline
  else S_ "{FakeJni::Field<&" ++ cname ++ S_ "::" ++ name ++ S_ ">{}, """ ++ name ++ S_ """, FakeJni::JFieldID::PUBLIC"
       ++ (if _static then S_ " | FakeJni::JFieldID::STATIC" else []) ++ S_ " }," ++ newline.

Fixpoint arg_names (i : nat) (l : list str) : str :=
  match l with [] => [] | _ :: r => S_ ", arg" ++ decimal i ++ arg_names (S i) r end.
(** codegen/method.cpp 113-180 [Method::GenerateJNIBinding] *)
Definition Method_GenerateJNIBinding (fake native _static : bool) (name sig scope cname : str) : res str :=
  if native then Ok []
  else
    let* (ps, _) := Gen_types fake sig in
    Ok (if negb fake then
          S_ "c->Hook(env, """ ++ name ++ S_ """, "
          ++ (if str_eqb name (S_ "<init>") then
                S_ "[](jnivm::ENV *env, jnivm::Class* cl" ++ seps false (number_args 0 ps) ++ S_ ") {"
                ++ S_ "   return std::make_shared<" ++ scope ++ S_ ">(env, cl" ++ arg_names 0 ps ++ S_ ");}"
              else S_ "&" ++ scope ++ S_ "::" ++ name)
          ++ S_ ");" ++ newline
        else if str_eqb name (S_ "<init>") then
          S_ "{FakeJni::Constructor<" ++ cname ++ seps false ps ++ S_ ">{}}," ++ newline
        else S_ "{FakeJni::Function<&" ++ cname ++ S_ "::" ++ name ++ S_ ">{}, """ ++ name ++ S_ """, FakeJni::JMethodID::PUBLIC"
             ++ (if _static then S_ " | FakeJni::JMethodID::STATIC" else []) ++ S_ " }," ++ newline).

(** ** Classes *)
Definition g_name (c : gcls) : str := match c with GClass n _ _ _ _ => n end.
Definition g_prefix (c : gcls) : str := match c with GClass _ p _ _ _ => p end.

(** class.cpp 53-58 [Class::GeneratePreDeclaration] *)
Definition Class_GeneratePreDeclaration (c : gcls) : str :=
  if skipped (g_prefix c) then [] else S_ "class " ++ g_name c ++ S_ ";".

Section Generate.
Variable fake : bool.

(** class.cpp 10-51 [Class::GenerateHeader] *)
Fixpoint Class_GenerateHeader (scope : str) (c : gcls) : res str :=
  match c with
  | GClass name prefix inner fields methods =>
    if skipped prefix then Ok []
    else
      let scope := enter_scope scope name in
      let* fs := cat_res (fun f => let* t := Field_GenerateHeader fake (f_static f) (f_name f) (f_type f) in Ok (line t)) fields in
      let* ms := cat_res (fun m => let* t := Method_GenerateHeader fake (is_native m) (m_static m) (m_name m) (m_sig m) name in Ok (line t)) methods in
      let* ks := cat_res (Class_GenerateHeader scope) inner in
      Ok (S_ "class " ++ scope ++ S_ " : " ++ (if fake then S_ "public FakeJni::JObject" else S_ "public jnivm::Object")
          ++ S_ " {" ++ newline ++ S_ "public:" ++ newline
          ++ (if fake then S_ "    DEFINE_CLASS_NAME(""" ++ prefix ++ S_ """)" ++ newline else [])
          ++ cat (fun k => line (Class_GeneratePreDeclaration k)) inner
          ++ fs ++ ms ++ S_ "};" ++ newline ++ newline ++ ks)
  end.

(** class.cpp 60-74 [Class::GenerateStubs] *)
Fixpoint Class_GenerateStubs (scope : str) (c : gcls) : res str :=
  match c with
  | GClass name prefix inner fields methods =>
    if skipped prefix then Ok []
    else
      let scope := enter_scope scope name in
      let* ks := cat_res (Class_GenerateStubs scope) inner in
      let* fs := cat_res (fun f => Field_GenerateStubs fake (f_static f) (f_name f) (f_type f) scope) fields in
      let* ms := cat_res (fun m => Method_GenerateStubs fake (is_native m) (m_static m) (m_name m) (m_sig m) scope name) methods in
      Ok (ks ++ fs ++ ms)
  end.

(** class.cpp 76-88 [Class::GenerateJNIPreDeclaration] *)
Fixpoint Class_GenerateJNIPreDeclaration (c : gcls) : str :=
  match c with
  | GClass name prefix inner fields methods =>
    if skipped prefix then []
    else
      (if negb fake then S_ "env->GetClass<jnivm::" ++ scope_of prefix ++ S_ ">(""" ++ prefix ++ S_ """);" ++ newline
       else S_ "vm->registerClass<jnivm::" ++ scope_of prefix ++ S_ ">();" ++ newline)
      ++ cat Class_GenerateJNIPreDeclaration inner
  end.

(** class.cpp 90-120 [Class::GenerateJNIBinding] *)
Fixpoint Class_GenerateJNIBinding (scope : str) (c : gcls) : res str :=
  match c with
  | GClass name prefix inner fields methods =>
    if skipped prefix then Ok []
    else
      let scope := enter_scope scope name in
      let* ks := cat_res (Class_GenerateJNIBinding scope) inner in
      let fs := cat (fun f => Field_GenerateJNIBinding fake (f_static f) (f_name f) scope name) fields in
      let* ms := cat_res (fun m => Method_GenerateJNIBinding fake (is_native m) (m_static m) (m_name m) (m_sig m) scope name) methods in
      Ok (if negb fake then S_ "{" ++ newline ++ S_ "auto c = env->GetClass(""" ++ prefix ++ S_ """);" ++ newline ++ ks ++ fs ++ ms ++ S_ "}" ++ newline
          else S_ "BEGIN_NATIVE_DESCRIPTOR(" ++ scope ++ S_ ")" ++ newline ++ fs ++ ms ++ S_ "END_NATIVE_DESCRIPTOR" ++ newline ++ ks)
  end.

(** ** Namespaces *)

(** namespace.cpp 14-18 (= 22-26): the text and a line break, unless it ends with one. *)
Definition chunk (sub : str) : str :=
  match sub with [] => [] | _ => sub ++ (if Ascii.eqb (last sub " ") (ascii_of_nat 10) then [] else newline) end.
(** namespace.cpp 7-29 [Namespace::GenerateHeader] *)
Fixpoint Namespace_GenerateHeader (scope : str) (n : gns) : res str :=
  match n with
  | GNs name classes subs =>
    let scope := ns_scope scope name in
    let* cs := cat_res (fun c => let* t := Class_GenerateHeader scope c in Ok (chunk t)) classes in
    let* ns := cat_res (fun k => let* t := Namespace_GenerateHeader scope k in Ok (chunk t)) subs in
    Ok (cs ++ ns)
  end.

(** namespace.cpp 35-48 (= 49-62): the loop over the texts of the parts; [empty] and the text so far. *)
Fixpoint pre_loop (name : str) (l : list str) (empty : bool) (ss : str) : bool * str :=
  match l with
  | [] => (empty, ss)
  | [] :: r => pre_loop name r empty ss
  | sub :: r =>
    let ss := ss ++ (if empty then match name with [] => [] | _ => S_ "namespace " ++ name ++ S_ " {" ++ newline end else newline) in
    pre_loop name r false (ss ++ match name with [] => sub | _ => indent sub end)
  end.
(** namespace.cpp 31-67 [Namespace::GeneratePreDeclaration] *)
Fixpoint Namespace_GeneratePreDeclaration (n : gns) : str :=
  match n with
  | GNs name classes subs =>
    let (empty, ss) := pre_loop name (map Class_GeneratePreDeclaration classes) true [] in
    let (empty, ss) := pre_loop name (map Namespace_GeneratePreDeclaration subs) empty ss in
    ss ++ (if empty then [] else match name with [] => [] | _ => newline ++ S_ "}" end)
  end.

(** namespace.cpp 69-81 [Namespace::GenerateStubs] *)
Fixpoint Namespace_GenerateStubs (scope : str) (n : gns) : res str :=
  match n with
  | GNs name classes subs =>
    let scope := ns_scope scope name in
    let* cs := cat_res (Class_GenerateStubs scope) classes in
    let* ns := cat_res (Namespace_GenerateStubs scope) subs in
    Ok (cs ++ ns)
  end.

(** namespace.cpp 83-95 [Namespace::GenerateJNIPreDeclaration] *)
Fixpoint Namespace_GenerateJNIPreDeclaration (n : gns) : str :=
  match n with
  | GNs name classes subs => cat Class_GenerateJNIPreDeclaration classes ++ cat Namespace_GenerateJNIPreDeclaration subs
  end.

(** namespace.cpp 97-109 [Namespace::GenerateJNIBinding] *)
Fixpoint Namespace_GenerateJNIBinding (scope : str) (n : gns) : res str :=
  match n with
  | GNs name classes subs =>
    let scope := ns_scope scope name in
    let* cs := cat_res (Class_GenerateJNIBinding scope) classes in
    let* ns := cat_res (Namespace_GenerateJNIBinding scope) subs in
    Ok (cs ++ ns)
  end.

(** ** codegen/vm.cpp *)

(** vm.cpp 5-13 [VM::GeneratePreDeclaration] *)
Definition VM_GeneratePreDeclaration (np : gns) : str :=
  S_ "#include " ++ (if fake then S_ "<fake-jni/fake-jni.h>" else S_ "<jnivm.h>") ++ newline ++ Namespace_GeneratePreDeclaration np.
(** vm.cpp 15-29 *)
Definition VM_GenerateHeader (np : gns) : res str := Namespace_GenerateHeader [] np.
Definition VM_GenerateStubs (np : gns) : res str := Namespace_GenerateStubs [] np.
Definition VM_GenerateJNIPreDeclaration (np : gns) : str := Namespace_GenerateJNIPreDeclaration np.
Definition VM_GenerateJNIBinding (np : gns) : res str := Namespace_GenerateJNIBinding [] np.
(** vm.cpp 31-48 [VM::GenerateClassDump]: the contents of the file written (the file system is not modelled: the file can be opened). *)
Definition VM_GenerateClassDump (np : gns) : res str :=
  let* h := VM_GenerateHeader np in
  let* t := VM_GenerateStubs np in
  let* b := VM_GenerateJNIBinding np in
  Ok (VM_GeneratePreDeclaration np ++ newline ++ h ++ t ++
      (if negb fake then S_ "void InitJNIBinding(jnivm::ENV* env) {" ++ newline ++ VM_GenerateJNIPreDeclaration np ++ b ++ newline ++ S_ "}"
       else b ++ newline ++ S_ "void InitJNIBinding(FakeJni::Jvm* vm) {" ++ newline ++ VM_GenerateJNIPreDeclaration np ++ newline ++ S_ "}")).
(** src/baron/jvm.cpp 80-94 [Jvm::printStatistics], the text printed (builds with JNI_DEBUG and JNIVM_FAKE_JNI_SYNTAX). *)
Definition printStatistics (np : gns) : res str :=
  let* h := VM_GenerateHeader np in
  let* t := VM_GenerateStubs np in
  let* b := VM_GenerateJNIBinding np in
  Ok (VM_GeneratePreDeclaration np ++ newline ++ h ++ t ++ b ++ newline ++ S_ "void InitJNIBinding(FakeJni::Jvm* vm) {" ++ newline ++
      VM_GenerateJNIPreDeclaration np ++ newline ++ S_ "}" ++ newline).
End Generate.
