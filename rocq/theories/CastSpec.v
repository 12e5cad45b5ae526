(** What it means for an object to have a C++ type, and what the parameters of a hook should be.  Specification only. *)
From Verif Require Import Base VmState VmModel VmStep VmSpec RefSpec ArrSpec WrapModel CastModel.
Set Implicit Arguments.
Unset Strict Implicit.

(** The dynamic type of object [j] is [T] or derives from it.  Arrays of a class are arrays of its bases. *)
Inductive has_type (G : cfg) (s : st) (j : oid) : ty -> Prop :=
| ht_object : live s j = true -> has_type G s j TObject
| ht_user n m l : contents s j = Some (PUser m l) -> derives G m n -> has_type G s j (TUser n)
| ht_class c : contents s j = Some (PClass c) -> has_type G s j TClass
| ht_string x : contents s j = Some (PString x) -> has_type G s j TString
| ht_buffer a c : contents s j = Some (PBuffer a c) -> has_type G s j TBuffer
| ht_throw e : contents s j = Some (PThrow e) -> has_type G s j TThrowable
| ht_method m : contents s j = Some (PMethod m) -> has_type G s j TMethod
| ht_field f : contents s j = Some (PField f) -> has_type G s j TField
| ht_weak k : contents s j = Some (PWeak k) -> has_type G s j TWeak
| ht_global k : contents s j = Some (PGlobal k) -> has_type G s j TGlobal
| ht_prim p l : contents s j = Some (PPrim p l) -> has_type G s j (TPArr p)
| ht_vprim p l : contents s j = Some (PPrim p l) -> has_type G s j TVArr
| ht_varr n l : contents s j = Some (PArr n l) -> has_type G s j TVArr
| ht_arr n l : contents s j = Some (PArr n l) -> has_type G s j (TArr None)
| ht_arru n m l : contents s j = Some (PArr (Some m) l) -> derives G m n -> has_type G s j (TArr (Some n)).
(** ... for the classes a parameter can have *)
Inductive instance (G : cfg) (s : st) (j : oid) : ccls -> Prop :=
| in_object : live s j = true -> instance G s j ClObject
| in_string x : contents s j = Some (PString x) -> instance G s j ClString
| in_class c : contents s j = Some (PClass c) -> instance G s j ClClass
| in_throw e : contents s j = Some (PThrow e) -> instance G s j ClThrowable
| in_user n m l : contents s j = Some (PUser m l) -> derives G m n -> instance G s j (ClUser n)
| in_prim p l : contents s j = Some (PPrim p l) -> instance G s j (ClPrims p)
| in_arr n l : contents s j = Some (PArr n l) -> instance G s j (ClArr ClObject)
| in_arru n m l : contents s j = Some (PArr (Some m) l) -> derives G m n -> instance G s j (ClArr (ClUser n)).

(** The object meant when reference [h] is used as a [Y]: wrappers are followed, except when a wrapper is asked for. *)
Definition resolves (s : st) (Y : ty) (h r : option oid) : Prop :=
  match Y with
  | TWeak | TGlobal => r = h /\ forall i, h = Some i -> live s i = true
  | _ => denotes_opt s h r
  end.
Definition type_error (Y : ty) : exn :=
  Err (match Y with
       | TWeak => S_ "Invalid Reference, not a WeakGlobal Reference"
       | TGlobal => S_ "Invalid Reference, not a Global Reference"
       | _ => S_ "Invalid Reference, Unexpected Type"
       end).

(** ** Parameters *)
Inductive by_pointer : cty -> ccls -> Prop :=
| bp_ptr c : by_pointer (Cptr c) c
| bp_class : by_pointer Cjclass ClClass
| bp_throwable : by_pointer Cjthrowable ClThrowable.
Inductive by_value : cty -> ccls -> (oid -> cval) -> Prop :=
| bv_ref c : by_value (Cref c) c KRef
| bv_cref c : by_value (Ccref c) c KRef
| bv_val c : by_value (Cval c) c KCopy.
Definition refers (T : cty) (c : ccls) : Prop := T = Cshared c \/ by_pointer T c \/ exists mk, by_value T c mk.
Inductive handle_of : source -> option oid -> Prop :=
| ho_value h : handle_of (Value (ArgL h)) h
| ho_receiver h : handle_of (Receiver h) h
| ho_class c : handle_of (TheClass c) (Some c).
Definition is_environment (T : cty) : Prop := T = CJNIEnv \/ T = CENV.
(** [x] is what a parameter of type [T] made from [v] should be. *)
Inductive passes (G : cfg) (s : st) : cty -> source -> cval -> Prop :=
| ps_env T v : is_environment T -> (forall a, v <> Value a) -> passes G s T v KEnv
| ps_prim p z : passes G s (Cprim p) (Value (ArgZ z)) (KNum z)
| ps_false : passes G s Cbool (Value (ArgZ 0)) (KNum 0)
| ps_true z : z <> 0%Z -> passes G s Cbool (Value (ArgZ z)) (KNum 1)
| ps_handle v h : handle_of v h -> passes G s Cjobject v (KHandle h)
| ps_shared c v h r : handle_of v h -> denotes_opt s h r -> (forall j, r = Some j -> instance G s j c) -> passes G s (Cshared c) v (KShared r)
| ps_ptr T c v h r : by_pointer T c -> handle_of v h -> denotes_opt s h r -> (forall j, r = Some j -> instance G s j c) -> passes G s T v (KPtr r)
| ps_value T c mk v h j : by_value T c mk -> handle_of v h -> denotes_opt s h (Some j) -> instance G s j c -> passes G s T v (mk j).
(** There is no such value; [e] is reported. *)
Inductive refuses (G : cfg) (s : st) : cty -> source -> exn -> Prop :=
| rf_type T c v h j : refers T c -> handle_of v h -> denotes_opt s h (Some j) -> ~ instance G s j c ->
    refuses G s T v (Err (S_ "Invalid Reference, Unexpected Type"))
| rf_null T c mk v h : by_value T c mk -> handle_of v h -> denotes_opt s h None ->
    refuses G s T v (Err (S_ "Cannot assign null to value type!")).

(** The caller passes a number where the signature says so, and valid references. *)
Definition valid (s : st) (h : option oid) : Prop := forall i, h = Some i -> live s i = true.
Inductive fits (s : st) : cty -> source -> Prop :=
| ft_prim p z : fits s (Cprim p) (Value (ArgZ z))
| ft_bool z : fits s Cbool (Value (ArgZ z))
| ft_env T v : is_environment T -> (forall a, v <> Value a) -> fits s T v
| ft_object h v : (forall c, v <> TheClass c) -> handle_of v h -> fits s Cjobject v
| ft_ref T c h v : (forall c, v <> TheClass c) -> refers T c -> handle_of v h -> valid s h -> fits s T v
| ft_class T c k : T = Cjclass \/ T = Cptr ClClass -> contents s c = Some (PClass k) -> fits s T (TheClass c).
(** Local references and C++ variables that a parameter keeps *)
Definition local_of (p : cty * source) (x : cval) : list oid :=
  match p, x with
  | (Cptr ClClass, TheClass _), _ => []
  | _, KPtr (Some i) => [i]
  | _, _ => []
  end.
Fixpoint locals_of (l : list (cty * source)) (xs : list cval) : list oid :=
  match l, xs with p :: l', x :: xs' => local_of p x ++ locals_of l' xs' | _, _ => [] end.
Definition kept (x : cval) : list oid := match x with KShared (Some i) => [i] | _ => [] end.
Definition all_kept (xs : list cval) : list oid := rev (flat_map kept xs).
Definition all_pass (G : cfg) (s : st) (l : list (cty * source)) (xs : list cval) : Prop := Forall2 (fun p x => passes G s (fst p) (snd p) x) l xs.
(** The C++ type of the pointer from which a pointer parameter is made *)
Inductive static_type : cty -> source -> ty -> Prop :=
| st_ptr c Y v : ty_of c = Some Y -> static_type (Cptr c) v Y
| st_jclass v : (forall k, v <> TheClass k) -> static_type Cjclass v TClass
| st_jthrowable v : static_type Cjthrowable v TThrowable
| st_the_class k : static_type Cjclass (TheClass k) TObject.
(** The first parameter that cannot be converted *)
Definition first_refused (G : cfg) (s : st) (l : list (cty * source)) (xs : list cval) (e : exn) : Prop :=
  exists l1 T v l2, l = l1 ++ (T, v) :: l2 /\ all_pass G s l1 xs /\ refuses G s T v e.
(** Which source each parameter has: the first [k] the implicit one, the others the arguments of the caller in their order; further arguments are
    ignored. *)
Inductive assigned (imp : source) : nat -> list cty -> list arg -> list (cty * source) -> Prop :=
| as_done k args : assigned imp k [] args []
| as_implicit k T ps args l : assigned imp k ps args l -> assigned imp (S k) (T :: ps) args ((T, imp) :: l)
| as_value T ps a args l : assigned imp 0 ps args l -> assigned imp 0 (T :: ps) (a :: args) ((T, Value a) :: l).
