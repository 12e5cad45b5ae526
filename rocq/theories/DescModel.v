(** FakeJni descriptors: how BEGIN_NATIVE_DESCRIPTOR ... END_NATIVE_DESCRIPTOR registers a class and its members (fake-jni.h 161-281), put together
    from the hooks of [WrapModel] and the operations of [VmStep]. *)
From Verif Require Import Base VmState VmModel VmStep WrapModel.
Set Implicit Arguments.
Unset Strict Implicit.
Local Open Scope char_scope.

(** An entry of the list between the two macros (fake-jni.h 228-239): a function, member function, variable or data member (also as Function<&f>, Field<&f>:
    Helper4<U, true> only unwraps these, 221-226) with its name and the flags, if given; or Constructor<U, T...>.  [id]: which C++ function or variable it is.
    Simplified: function objects do not compile here (HookInstance gets a const reference to them, for which function.h has no case). *)
Inductive desc := DMember (f : callable) (id : nat) (name : str) (flags : option Z) | DCtor (U : ccls) (P : list cty) (id : nat).
(** fake-jni.h 37-57: JMethodID::Modifiers, JFieldID::Modifiers *)
Definition PUBLIC : Z := 1.
Definition STATIC : Z := 8.
(** fake-jni.h 191-193, 208-214 Helper5::GetFlags; [compat]: JNIVM_FAKE_JNI_MINECRAFT_LINUX_COMPAT *)
Definition GetFlags (compat : bool) (f : callable) : Z :=
  if b_inst (type f) then PUBLIC else if compat then Z.lor PUBLIC STATIC else PUBLIC.
(** What the closure of a descriptor calls: Class::Hook or Class::HookInstance *)
Inductive act := AHook | AHookInstance.
Record reg := mkReg { r_act : act; r_fun : callable; r_id : nat; r_name : str }.
(** fake-jni.h 182-190, 197-207 Helper5::Get *)
Definition Get (f : callable) (id : nat) (name : str) (ty : Z) : res reg :=
  if negb (Z.eqb (Z.land ty STATIC) 0) then
    if b_inst (type f) then Thrown (Err (S_ "Fatal: Tried to link instance function as static")) else Ok (mkReg AHook f id name)
  else Ok (mkReg AHookInstance f id name).
(** fake-jni.h 168-174, 228-239: the constructors of Descriptor; Constructor<U, T...>::ctr is a function from T... to std::shared_ptr<U> *)
Definition Descriptor (compat : bool) (d : desc) : res reg :=
  match d with
  | DMember f id name (Some ty) => Get f id name ty
  | DMember f id name None => Get f id name (GetFlags compat f)
  | DCtor U P id => Ok (mkReg AHook (Fn (Cshared U) P) id (S_ "<init>"))
  end.
(** fake-jni.h 273: the static vector of descriptors, built before anything else by the first call; an exception leaves it to the next call *)
Fixpoint Descriptors (compat : bool) (ds : list desc) : res (list reg) :=
  match ds with
  | [] => Ok []
  | d :: l => match Descriptor compat d with
              | Ok r => match Descriptors compat l with Ok rs => Ok (r :: rs) | Thrown e => Thrown e | UB => UB | Abort => Abort | Fuel => Fuel end
              | Thrown e => Thrown e | UB => UB | Abort => Abort | Fuel => Fuel
              end
  end.

(** typeid of a class.  Simplified: other array types are never entered in the table. *)
Definition type_of (c : ccls) : option ty :=
  match c with
  | ClObject => Some TObject | ClString => Some TString | ClClass => Some TClass | ClThrowable => Some TThrowable | ClUser n => Some (TUser n)
  | ClPrims p => Some (TPArr p) | ClArr (ClUser n) => Some (TArr (Some n)) | ClArr ClObject => Some (TArr None)
  | ClBools | ClArr _ => None
  end.
Definition entry (s : st) (c : ccls) : option (option oid) := match type_of c with Some T => get_type s T | None => None end.
(** jnitypes.h 276-284: the name of the class registered for [c] *)
Definition reg_name (s : st) (c : ccls) : option str :=
  match entry s c with
  | Some (Some i) => match lookup s i with Some o => match o_pay o with PClass k => Some (c_prefix k) | _ => None end | None => None end
  | _ => None
  end.
(** [own]: T::getClassName() of the types that have it *)
Definition names_in (own : ccls -> option str) (s : st) : names := mkNames (reg_name s) own.
(** class.h 75-78, 88-91 *)
Definition mine_in (s : st) (cl : oid) (c : ccls) : bool := match entry s c with Some (Some i) => Nat.eqb i cl | _ => false end.
(** fake-jni.h 187, 200, 204, 237: registre *)
Definition hooks (own : ccls -> option str) (s : st) (cl : oid) (r : reg) : option (out (list hook)) :=
  match r_act r with
  | AHook => Hook (names_in own s) (mine_in s cl) (r_id r) (r_fun r)
  | AHookInstance => HookInstance (names_in own s) (mine_in s cl) (r_id r) (r_fun r)
  end.

(** The types in the signature of a hook (wrap.h 72-157): of the parameters behind the implicit ones and the result; of the result of a getter; of the parameter
    of a setter *)
Definition sig_types (f : callable) (h : hook) : list cty :=
  match k_what h, f with
  | WMethod, _ => skipn (k_implicit h) (params f) ++ [Return f]
  | WGet, _ | WSet, (Var _ | MemVar _ _) => [Return f]
  | WSet, (Fn _ _ | MemFn _ _ _) => [ParameterAt f (k_implicit h)]
  end.
(** The class whose table entry is read for a type (jnitypes.h 276-284; of arrays the elements', 247-257) *)
Fixpoint leaf (c : ccls) : option ccls := match c with ClArr e => leaf e | ClPrims _ | ClBools => None | _ => Some c end.
Definition class_of (T : cty) : option ccls :=
  match T with
  | Cjobject => Some ClObject | Cjstring => Some ClString | Cjclass => Some ClClass | Cjthrowable => Some ClThrowable
  | Cval c | Cshared c => leaf c
  | Cptr c | Cref c | Ccref c | Ccshared c => Some c
  | Cvoid | Cprim _ | Cbool | CJNIEnv | CENV => None
  end.
(** jnitypes.h 280 dereferences the entry: undefined behaviour if it is a null pointer *)
Definition null_entry (s : st) (T : cty) : bool :=
  match class_of T with Some c => match entry s c with Some None => true | _ => false end | None => false end.
(** jnitypes.h 229-252: the class of an array of objects is looked up and gets the function creating such arrays.  Simplified: only for arrays of a user class,
    other arrays of objects in a signature are not modelled ([None]). *)
Definition arrays (T : cty) : option (list op) :=
  match T with Cval (ClArr (ClUser n)) | Cshared (ClArr (ClUser n)) => Some [UDeclareArray_ n] | Cval (ClArr _) | Cshared (ClArr _) => None | _ => Some [] end.
Fixpoint all_arrays (l : list cty) : option (list op) :=
  match l with
  | [] => Some []
  | T :: r => match arrays T, all_arrays r with Some a, Some b => Some (a ++ b) | _, _ => None end
  end.
(** hookManager.h 46-65, 99-118 *)
Definition hook_op (cl : oid) (name : str) (h : hook) : op :=
  match k_what h with
  | WMethod => UHookMethod_ cl (k_static h) name (k_sig h) (k_handle h)
  | WGet => UHookField_ cl (k_static h) true name (k_sig h) (k_handle h)
  | WSet => UHookField_ cl (k_static h) false name (k_sig h) (k_handle h)
  end.
Definition hook_ops (cl : oid) (name : str) (f : callable) (h : hook) : option (list op) :=
  match all_arrays (sig_types f h) with Some l => Some (l ++ [hook_op cl name h]) | None => None end.
Fixpoint all_ops (cl : oid) (name : str) (f : callable) (hs : list hook) : option (list op) :=
  match hs with
  | [] => Some []
  | h :: l => match hook_ops cl name f h, all_ops cl name f l with Some a, Some b => Some (a ++ b) | _, _ => None end
  end.

Section Cfg.
Variables (G : cfg) (compat : bool) (own : ccls -> option str).

(** Operations one after another; [None]: undefined behaviour *)
Fixpoint run_ops (t : tid) (l : list op) (s : st) : option st :=
  match l with
  | [] => Some s
  | o :: r => match step G t o s with Some (OVal _, s') => run_ops t r s' | _ => None end
  end.
(** One descriptor.  All lookups of the table precede the hooks (they read nothing the hooks write).  Simplified: if the signature cannot be built, array classes
    looked up before that are left out; nothing has been hooked then.  Also simplified: if it throws and some type of the function has a null entry, the result is
    undefined behaviour, whichever comes first in the signature. *)
Definition registre (t : tid) (cl : oid) (r : reg) (s : st) : option (res unit * st) :=
  match hooks own s cl r with
  | None => None
  | Some o =>
      match snd o with
      | Ok hs =>
          if existsb (null_entry s) (flat_map (sig_types (r_fun r)) hs) then None
          else match all_ops cl (r_name r) (r_fun r) hs with
               | Some l => match run_ops t l s with Some s' => Some (Ok tt, s') | None => None end
               | None => None
               end
      | Thrown e => if existsb (null_entry s) (Return (r_fun r) :: params (r_fun r)) then None else Some (Thrown e, s)
      | _ => None
      end
  end.
(** fake-jni.h 277-279 *)
Fixpoint registre_all (t : tid) (cl : oid) (rs : list reg) (s : st) : option (res unit * st) :=
  match rs with
  | [] => Some (Ok tt, s)
  | r :: l => match registre t cl r s with
              | Some (Ok _, s') => registre_all t cl l s'
              | x => x
              end
  end.
(** fake-jni.h 271-281 T::registerClass() of user class [k] called [name]; LocalFrame (141-151) pushes and pops a frame, also when an exception leaves the function.
    The thread is attached (JniEnvContext: [CtxModel]). *)
Definition registerClass (t : tid) (k : nat) (inst : bool) (name : str) (ds : list desc) (s : st) : option (res oid * st) :=
  match Descriptors compat ds with
  | Ok rs =>
      match step G t (PushLocalFrame_ 0) s with
      | Some (OVal _, s0) =>
          match step G t (UBind_ k inst name) s0 with
          | Some (OVal (RRef (Some cl)), s1) =>
              match registre_all t cl rs s1 with
              | Some (r, s2) =>
                  match step G t (PopLocalFrame_ None) s2 with
                  | Some (OVal _, s3) => Some (match r with Ok _ => Ok cl | Thrown e => Thrown e | UB => UB | Abort => Abort | Fuel => Fuel end, s3)
                  | _ => None
                  end
              | None => None
              end
          | _ => None
          end
      | _ => None
      end
  | Thrown e => Some (Thrown e, s)
  | _ => None
  end.
(** fake-jni.h 264-270 T::getDescriptor() *)
Definition getDescriptor (t : tid) (k : nat) (inst : bool) (name : str) (ds : list desc) (s : st) : option (res oid * st) :=
  match step G t (UBind_ k inst name) s with
  | Some (OVal (RRef (Some cl)), s1) =>
      match lookup s1 cl with
      | Some o =>
          match o_pay o with
          | PClass c =>
              if Nat.eqb (length (c_methods c)) 0 && Nat.eqb (length (c_fields c)) 0 && negb (match c_inst c with Some _ => true | None => false end)
                 && negb (match c_bases c with Some _ => true | None => false end)
              then match registerClass t k inst name ds s1 with
                   | Some (Ok _, s2) => Some (Ok cl, s2)
                   | x => x
                   end
              else Some (Ok cl, s1)
          | _ => None
          end
      | None => None
      end
  | _ => None
  end.
End Cfg.
