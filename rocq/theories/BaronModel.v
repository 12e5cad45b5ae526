(** Baron::Jvm: a VM whose lookups consult deny rules before they fabricate classes and members.
    Strings passed to these functions are never null pointers here (name == nullptr is undefined behaviour in
    isMethodDenied, jvm.cpp 101) and one Jvm per process is assumed (CreateEnv throws for a thread that has an
    environment already, jvm.cpp 17-19). *)
From Verif Require Import Base VmState VmModel VmStep.
Set Implicit Arguments.
Unset Strict Implicit.
Local Open Scope vm_scope.

(** baron.h 9-14: an entry of denyMethods / denyFields (multimap from the name to [denyFilter]) *)
Record rule := mkRule { ru_name : str; ru_class : str; ru_sig : str }.
(** baron.h 8, 13, 14 *)
Record rules := mkRules { r_classes : list str; r_methods : list rule; r_fields : list rule }.

(** jvm.cpp 96-98 [isClassDenied] *)
Definition isClassDenied (r : rules) (name : str) : bool := existsb (str_eqb name) (r_classes r).

Definition is_nil (s : str) : bool := match s with [] => true | _ => false end.
(** jvm.cpp 104-112: the body of the inner loop; [true]: return true, [false]: next entry *)
Definition entry_hit (name sig clazz : str) (i : rule) : bool :=
  if negb (is_nil name) && negb (is_nil (ru_name i)) && negb (str_eqb (ru_name i) name) then false
  else if negb (is_nil sig) && negb (is_nil (ru_sig i)) && negb (str_eqb (ru_sig i) sig) then false
  else is_nil clazz || is_nil (ru_class i) || str_eqb (ru_class i) clazz.
(** [equal_range(key)] *)
Definition equal_range (l : list rule) (key : str) : list rule := filter (fun i => str_eqb (ru_name i) key) l.
(** jvm.cpp 100-116 [isMethodDenied] and 118-134 [isFieldDenied]: the same code on two maps *)
Definition isMemberDenied (l : list rule) (name sig clazz : str) : bool :=
  existsb (entry_hit name sig clazz) (equal_range l []) || existsb (entry_hit name sig clazz) (equal_range l name).
Definition isMethodDenied (r : rules) := isMemberDenied (r_methods r).
Definition isFieldDenied (r : rules) := isMemberDenied (r_fields r).

(** jvm.cpp 136-146 *)
Definition denyClass (r : rules) (name : str) : rules := mkRules (name :: r_classes r) (r_methods r) (r_fields r).
Definition denyMethod (r : rules) (name sig clazz : str) : rules := mkRules (r_classes r) (mkRule name clazz sig :: r_methods r) (r_fields r).
Definition denyField (r : rules) (name sig clazz : str) : rules := mkRules (r_classes r) (r_methods r) (mkRule name clazz sig :: r_fields r).

(** [GetNativeInterfaceTemplate<rn>()]: the same build with the other ReturnNull *)
Definition mode (G : cfg) (rn : bool) : cfg := mkCfg (debug G) (ndebug G) rn (csigned G) (ubases G).

Section Cfg.
Variable G : cfg.

(** jvm.cpp 39, 49, 59, 69: [cl ? cl->nativeprefix.data() : ""]; a cast that throws has thrown in the first call *)
Definition prefix_of (s : st) (c : option oid) : str :=
  match jnicast G TClass c s with
  | Ret (Some i) _ => match get_cls i s with Ret k _ => c_prefix k | _ => [] end
  | _ => []
  end.

(** jvm.cpp 24-73: the overriding table entries: look up without creating; if that gives null and no rule denies
    it, look up with creation.  Both are complete calls of table entries. *)
Definition guarded (t : tid) (o : op) (denied : st -> bool) (s : st) : option (obs * st) :=
  match step (mode G true) t o s with
  | Some (OVal (RRef None), s1) => if denied s1 then Some (OVal (RRef None), s1) else step (mode G false) t o s1
  | x => x
  end.
Definition BFindClass (r : rules) (t : tid) (n : str) : st -> option (obs * st) :=
  guarded t (FindClass_ n) (fun _ => isClassDenied r n).
(** A JNI call through the table of Baron.  GetObjectClass of null calls FindClass("Invalid") through the table
    (vm.cpp 241-243); so does Call<Type>Method, which calls GetObjectClass through the table: there the lookup with
    the deny check amounts to a lookup that creates iff "Invalid" is not denied ([BFindClass_eq]).  The other entries
    do not depend on ReturnNull. *)
Definition vstep (r : rules) (t : tid) (o : op) (s : st) : option (obs * st) :=
  match o with
  | FindClass_ n => BFindClass r t n s
  | GetObjectClass_ None => BFindClass r t (S_ "Invalid") s
  | CallMethodA_ _ None _ _ => step (mode G (isClassDenied r (S_ "Invalid"))) t o s
  | GetMethodID_ _ c n g => guarded t o (fun s1 => isMethodDenied r n g (prefix_of s1 c)) s
  | GetFieldID_ _ c n g => guarded t o (fun s1 => isFieldDenied r n g (prefix_of s1 c)) s
  | _ => step (mode G false) t o s
  end.

(** jvm.cpp 150-158 [findClass] (fake-jni.cpp 49-51 for the first call): no local reference *)
Definition findClass (r : rules) (t : tid) (n : str) : M (option oid) :=
  the_env t ;;;
  o <- find_class G true n ;;
  match o with
  | Some _ => ret o
  | None => if isClassDenied r n then ret None else find_class G false n
  end.

Inductive bop :=
| BVm (o : op)
| BFind (name : str)
| BDenyClass (name : str) | BDenyMethod (name sig clazz : str) | BDenyField (name sig clazz : str)
| BIsClassDenied (name : str) | BIsMethodDenied (name sig clazz : str) | BIsFieldDenied (name sig clazz : str).

Definition bstep (t : tid) (o : bop) (x : rules * st) : option (obs * (rules * st)) :=
  let (r, s) := x in
  match o with
  | BVm o => match vstep r t o s with Some (v, s') => Some (v, (r, s')) | None => None end
  | BFind n =>
      match findClass r t n s with
      | Ret v s' => Some (OVal (RRef v), (r, finish s'))
      | Thr e s' => Some (OExn e, (r, finish s'))
      | _ => None
      end
  | BDenyClass n => Some (OVal RUnit, (denyClass r n, s))
  | BDenyMethod n g c => Some (OVal RUnit, (denyMethod r n g c, s))
  | BDenyField n g c => Some (OVal RUnit, (denyField r n g c, s))
  | BIsClassDenied n => Some (OVal (RBool (isClassDenied r n)), x)
  | BIsMethodDenied n g c => Some (OVal (RBool (isMethodDenied r n g c)), x)
  | BIsFieldDenied n g c => Some (OVal (RBool (isFieldDenied r n g c)), x)
  end.
Definition bevent := (tid * bop)%type.
Fixpoint bexec (l : list bevent) (x : rules * st) : option (list obs * (rules * st)) :=
  match l with
  | [] => Some ([], x)
  | (t, o) :: l =>
      match bstep t o x with
      | None => None
      | Some (v, y) => match bexec l y with Some (vs, z) => Some (v :: vs, z) | None => None end
      end
  end.
(** jvm.cpp 7-14: the constructor; [setup] may add rules before the VM is initialized *)
Definition no_rules : rules := mkRules [] [] [].
Definition binit (t0 : tid) (setup : rules) : rules * st := (setup, init_vm (mode G false) t0).
Definition breachable (t0 : tid) (x : rules * st) : Prop :=
  exists setup l vs, bexec l (binit t0 setup) = Some (vs, x).
End Cfg.
