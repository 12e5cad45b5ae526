(** Specification of the generated C++ code: which classes appear and what is written for each of them.  Reads the VM state only;
    types and parameter lists are those of SigSpec. *)
From Verif Require Import Base SigModel SigSpec SigProps VmState VmModel VmReg VmSpec.
Set Implicit Arguments.
Unset Strict Implicit.
Local Open Scope char_scope.

(** Classes that jnivm and FakeJni implement themselves. *)
Definition provided : list str := map S_
  ["java/lang/Object"; "java/lang/String"; "java/lang/Class"; "java/nio/ByteBuffer"; "java/lang/Throwable";
   "java/lang/reflect/Method"; "java/lang/reflect/Field"; "java/lang/ref/WeakReference"; "internal/lang/Global"]%string.
(** [m] is [n] or a class in which [n] is nested. *)
Definition encloses (m n : str) : Prop := m = n \/ exists rest, n = m ++ "$" :: rest /\ ~ In "/" rest.
(** The classes that belong into a dump: all that exist, except arrays and provided classes with what is nested in them. *)
Definition dumped (s : st) (n : str) : Prop :=
  class_exists s n /\ (forall r, n <> "[" :: r) /\ forall m, encloses m n -> ~ In m provided.

(** The C++ name of a class: its packages (empty ones left out) and enclosing classes as scopes below jnivm. *)
Definition full_name (n : str) : str :=
  S_ "jnivm" ++ flat_map (fun x => S_ "::" ++ x) (filter (fun x => match x with [] => false | _ => true end) (ns_part n) ++ cls_part n).
(** ... and its last component *)
Definition last_name (n : str) : str := last (cls_part n) [].

(** Lines of text, with four more blanks in front of those that are not empty. *)
Definition nl : ascii := ascii_of_nat 10.
Definition indented (t : str) : str := join nl (map (fun l => match l with [] => [] | _ => S_ "    " ++ l end) (split_on nl t)).
Definition block (t : str) : str := indented t ++ [nl].

Definition field_at (s : st) (i : oid) (f : fld) : Prop := exists o, lookup s i = Some o /\ o_pay o = PField f.
Definition method_at (s : st) (i : oid) (m : mth) : Prop := exists o, lookup s i = Some o /\ o_pay o = PMethod m.
(** Class [n] has the fields [fs] and the methods [ms]. *)
Definition members (s : st) (n : str) (fs : list fld) (ms : list mth) : Prop :=
  exists i c, class_named s n i /\ contents s i = Some (PClass c) /\ Forall2 (field_at s) (c_fields c) fs /\ Forall2 (method_at s) (c_methods c) ms.
(** The simple names of the classes nested directly in [n]. *)
Definition nested (s : st) (n : str) (ks : list str) : Prop :=
  NoDup ks /\ forall k, In k ks <-> class_exists s (n ++ "$" :: k) /\ ~ In "$" k /\ ~ In "/" k.
(** Methods implemented by native code are not generated. *)
Definition generated (ms : list mth) : list mth := filter (fun m => match m_native m with None => true | Some _ => false end) ms.

Section Texts.
Variable fake : bool.

Definition init_name : str := S_ "<init>".
Definition well_typed (f : fld) (t : jty) : Prop := ty_ok t /\ f_type f = descr t.
Definition well_signed (m : mth) (x : list jty * option jty) : Prop := Forall ty_ok (fst x) /\ ret_ok (snd x) /\ m_sig m = msig (fst x) (snd x).

(** Declarations in the body of the class *)
Definition field_decl (f : fld) (t : jty) : str :=
  (if f_static f then S_ "static " else []) ++ cxx_type fake t ++ S_ " " ++ f_name f ++ S_ ";".
Definition method_decl (cname : str) (m : mth) (x : list jty * option jty) : str :=
  (if str_eqb (m_name m) init_name then cname
   else (if m_static m then S_ "static " else []) ++ cxx_ret fake (snd x) ++ S_ " " ++ m_name m)
  ++ S_ "(" ++ commas (implicit_params fake (m_static m) ++ map (cxx_type fake) (fst x)) ++ S_ ");".
Definition class_decl (n : str) (ks : list str) (fs : list (fld * jty)) (ms : list (mth * (list jty * option jty))) : str :=
  S_ "class " ++ full_name n ++ S_ " : public " ++ S_ (if fake then "FakeJni::JObject" else "jnivm::Object") ++ S_ " {" ++ [nl] ++ S_ "public:" ++ [nl]
  ++ (if fake then S_ "    DEFINE_CLASS_NAME(""" ++ n ++ S_ """)" ++ [nl] else [])
  ++ flat_map (fun k => block (S_ "class " ++ k ++ S_ ";")) ks
  ++ flat_map (fun x => block (field_decl (fst x) (snd x))) fs
  ++ flat_map (fun x => block (method_decl (last_name n) (fst x) (snd x))) ms
  ++ S_ "};" ++ [nl] ++ [nl].

(** Definitions outside of it *)
Definition field_def (scope : str) (f : fld) (t : jty) : str :=
  if f_static f then cxx_type fake t ++ S_ " " ++ scope ++ S_ "::" ++ f_name f ++ S_ " = {};" ++ [nl; nl] else [].
Definition method_def (scope cname : str) (m : mth) (x : list jty * option jty) : str :=
  (if str_eqb (m_name m) init_name then scope ++ S_ "::" ++ cname
   else cxx_ret fake (snd x) ++ S_ " " ++ scope ++ S_ "::" ++ m_name m)
  ++ S_ "(" ++ commas (stub_params fake (m_static m) ++ number_args 0 (map (cxx_type fake) (fst x))) ++ S_ ") {" ++ [nl] ++ S_ "    "
  ++ (if str_eqb (m_name m) init_name then [] else match snd x with None => [] | Some _ => S_ "return {};" end)
  ++ [nl] ++ S_ "}" ++ [nl; nl].
Definition class_def (n : str) (fs : list (fld * jty)) (ms : list (mth * (list jty * option jty))) : str :=
  flat_map (fun x => field_def (full_name n) (fst x) (snd x)) fs ++ flat_map (fun x => method_def (full_name n) (last_name n) (fst x) (snd x)) ms.

(** Registration: one statement per class *)
Definition registration (n : str) : str :=
  (if fake then S_ "vm->registerClass<jnivm::" ++ qualified n ++ S_ ">();"
   else S_ "env->GetClass<jnivm::" ++ qualified n ++ S_ ">(""" ++ n ++ S_ """);") ++ [nl].

(** Binding: the statements that install the members of a class; constructors are wrapped *)
Definition field_hook (scope cname : str) (f : fld) : str :=
  (if fake then S_ "{FakeJni::Field<&" ++ cname ++ S_ "::" ++ f_name f ++ S_ ">{}, """ ++ f_name f ++ S_ """, FakeJni::JFieldID::PUBLIC"
                ++ (if f_static f then S_ " | FakeJni::JFieldID::STATIC" else []) ++ S_ " },"
   else S_ "c->Hook(env, """ ++ f_name f ++ S_ """, &" ++ scope ++ S_ "::" ++ f_name f ++ S_ ");") ++ [nl].
Definition args (n : nat) : list str := map (fun i => S_ "arg" ++ decimal i) (seq 0 n).
Definition method_hook (scope cname : str) (m : mth) (x : list jty * option jty) : str :=
  let ps := map (cxx_type fake) (fst x) in
  (if fake then
     if str_eqb (m_name m) init_name then S_ "{FakeJni::Constructor<" ++ commas (cname :: ps) ++ S_ ">{}},"
     else S_ "{FakeJni::Function<&" ++ cname ++ S_ "::" ++ m_name m ++ S_ ">{}, """ ++ m_name m ++ S_ """, FakeJni::JMethodID::PUBLIC"
          ++ (if m_static m then S_ " | FakeJni::JMethodID::STATIC" else []) ++ S_ " },"
   else S_ "c->Hook(env, """ ++ m_name m ++ S_ """, "
        ++ (if str_eqb (m_name m) init_name then
              S_ "[](" ++ commas (S_ "jnivm::ENV *env" :: S_ "jnivm::Class* cl" :: number_args 0 ps) ++ S_ ") {   return std::make_shared<" ++ scope ++
              S_ ">(" ++ commas (S_ "env" :: S_ "cl" :: args (length ps)) ++ S_ ");}"
            else S_ "&" ++ scope ++ S_ "::" ++ m_name m) ++ S_ ");") ++ [nl].
Definition class_hooks (n : str) (fs : list fld) (ms : list (mth * (list jty * option jty))) : list str :=
  map (field_hook (full_name n) (last_name n)) fs ++ map (fun x => method_hook (full_name n) (last_name n) (fst x) (snd x)) ms.
End Texts.

(** All that the texts of class [n] depend on. *)
Record described (s : st) (n : str) (ks : list str) (fs : list (fld * jty)) (ms : list (mth * (list jty * option jty))) : Prop := {
  ds_nested : nested s n ks;
  ds_members : exists ms', members s n (map fst fs) ms' /\ generated ms' = map fst ms;
  ds_fields : forall f t, In (f, t) fs -> well_typed f t;
  ds_methods : forall m x, In (m, x) ms -> well_signed m x
}.
(** Every field and method that is generated has a well-formed type. *)
Definition well_formed (s : st) : Prop :=
  (forall i f, field_at s i f -> exists t, well_typed f t) /\
  (forall i m, method_at s i m -> m_native m = None -> exists x, well_signed m x).

(** The binding function of the native syntax consists of blocks, in which [c] is the class looked up at the start. *)
Inductive stmt := Enter (n : str) | Do (hook : str) | Leave.
Definition stmt_text (x : stmt) : str :=
  match x with
  | Enter n => S_ "{" ++ [nl] ++ S_ "auto c = env->GetClass(""" ++ n ++ S_ """);" ++ [nl]
  | Do t => t
  | Leave => S_ "}" ++ [nl]
  end.
(** Running it: which hook is installed on which class; [None] if blocks do not match. *)
Fixpoint run_binding (c : list str) (l : list stmt) : option (list (str * str)) :=
  match l, c with
  | [], [] => Some []
  | Enter n :: r, _ => run_binding (n :: c) r
  | Do t :: r, n :: _ => option_map (cons (n, t)) (run_binding c r)
  | Leave :: r, _ :: c' => run_binding c' r
  | _, _ => None
  end.

(** Forward declarations: namespaces with their contents *)
Inductive fwd := FClass (n : str) | FSpace (n : str) (l : list fwd).
Section Print.
Fixpoint fwd_text (f : fwd) : str :=
  match f with
  | FClass n => S_ "class " ++ n ++ S_ ";"
  | FSpace n l => S_ "namespace " ++ n ++ S_ " {" ++ [nl] ++ join nl (map (fun x => indented (fwd_text x)) l) ++ [nl] ++ S_ "}"
  end.
(** the classes declared: scopes and name *)
Fixpoint fwd_classes (f : fwd) : list (list str * str) :=
  match f with
  | FClass n => [([], n)]
  | FSpace n l => map (fun x => (n :: fst x, snd x)) (flat_map fwd_classes l)
  end.
End Print.
(** where a class that is not nested has to be declared *)
Definition ne (x : str) : bool := match x with [] => false | _ => true end.
Definition place (n : str) : list str * str := (S_ "jnivm" :: filter ne (ns_part n), last_name n).
(** every namespace that is opened has a name and contains something *)
Fixpoint no_empty (f : fwd) : Prop :=
  match f with FClass _ => True | FSpace n l => n <> [] /\ l <> [] /\ (fix all l := match l with [] => True | x :: r => no_empty x /\ all r end) l end.
