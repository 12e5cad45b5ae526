(** Specification of class hierarchies and member tables; only reads the state. *)
From Verif Require Import Base VmState VmSpec.
From Coq Require Export Relations.
Set Implicit Arguments.
Unset Strict Implicit.

Definition class_at (s : st) (i : oid) : option cls :=
  match contents s i with Some (PClass c) => Some c | _ => None end.
Definition method_at (s : st) (i : oid) : option mth :=
  match contents s i with Some (PMethod m) => Some m | _ => None end.
Definition field_at (s : st) (i : oid) : option fld :=
  match contents s i with Some (PField f) => Some f | _ => None end.

(** Direct base types of a C++ type, as far as jnivm knows them. *)
Definition parents (G : cfg) (T : ty) : list ty :=
  match T with
  | TWeak | TGlobal => [TObject]
  | TUser n =>
      match ubases G n with
      | None => []
      | Some l => map (fun b => match b with Some k => TUser k | None => TObject end) l
      end
  | _ => []
  end.
(** The base classes of a class, and whether all of them have been bound to a class object.  (A build with
    assertions refuses to walk over an unregistered base class.) *)
Definition super_types (G : cfg) (s : st) (cl : oid) : list ty :=
  match class_at s cl with
  | Some c => match c_bases c with Some T => parents G T | None => [] end
  | None => []
  end.
Definition supers (G : cfg) (s : st) (cl : oid) : list oid := somes (map (registered s) (super_types G s cl)).
Definition complete (G : cfg) (s : st) (cl : oid) : Prop :=
  ndebug G = false -> forall B, In B (super_types G s cl) -> registered s B <> None.

(** [dfs cl L]: [L] is [cl] followed by all its ancestors, in depth first order.  It exists exactly if the
    hierarchy above [cl] is finite, i.e. acyclic. *)
Inductive dfs (G : cfg) (s : st) : oid -> list oid -> Prop :=
| dfs_node cl L : class_at s cl <> None -> complete G s cl -> dfs_all G s (supers G s cl) L -> dfs G s cl (cl :: L)
with dfs_all (G : cfg) (s : st) : list oid -> list oid -> Prop :=
| dfs_nil : dfs_all G s [] []
| dfs_cons b bs L M : dfs G s b L -> dfs_all G s bs M -> dfs_all G s (b :: bs) (L ++ M).

Scheme dfs_mut := Minimality for dfs Sort Prop
  with dfs_all_mut := Minimality for dfs_all Sort Prop.
Combined Scheme dfs_both from dfs_mut, dfs_all_mut.

Definition methods_of (s : st) (cl : oid) : list oid :=
  match class_at s cl with Some c => c_methods c | None => [] end.
Definition fields_of (s : st) (cl : oid) : list oid :=
  match class_at s cl with Some c => c_fields c | None => [] end.

(** [x] is the first element of [l] satisfying [P]. *)
Inductive first_in {A} (P : A -> Prop) : list A -> A -> Prop :=
| fi_here x l : P x -> first_in P (x :: l) x
| fi_later x y l : ~ P x -> first_in P l y -> first_in P (x :: l) y.

(** Method [i] has this name, signature, static flag and is (not) bound to a function pointer by
    RegisterNatives. *)
Definition is_method (s : st) (isStatic native : bool) (name sig : str) (i : oid) : Prop :=
  exists m, method_at s i = Some m /\ m_name m = name /\ m_sig m = sig /\ m_static m = isStatic /\
    (m_native m <> None <-> native = true).
Definition is_field (s : st) (isStatic : bool) (name ty : str) (i : oid) : Prop :=
  exists f, field_at s i = Some f /\ f_name f = name /\ f_type f = ty /\ f_static f = isStatic.

(** What a lookup in the hierarchy of [cl] finds. *)
Definition finds_method (G : cfg) (s : st) (isStatic native : bool) (name sig : str) (cl : oid) (r : option oid) : Prop :=
  exists L, dfs G s cl L /\
    match r with
    | Some i => first_in (is_method s isStatic native name sig) (flat_map (methods_of s) L) i
    | None => forall i, In i (flat_map (methods_of s) L) -> ~ is_method s isStatic native name sig i
    end.
Definition finds_field (G : cfg) (s : st) (isStatic : bool) (name ty : str) (cl : oid) (r : option oid) : Prop :=
  exists L, dfs G s cl L /\
    match r with
    | Some i => first_in (is_field s isStatic name ty) (flat_map (fields_of s) L) i
    | None => forall i, In i (flat_map (fields_of s) L) -> ~ is_field s isStatic name ty i
    end.

(** GetMethodID with this name and signature in class [cl] asks for a method with static flag [st'] and
    signature [sg']: constructors are static methods that return the class. *)
Inductive asks (s : st) (cl : oid) (st : bool) (nm sg : str) : bool -> str -> Prop :=
| asks_plain : st = true \/ nm <> S_ "<init>" -> asks s cl st nm sg st sg
| asks_ctor c a b : st = false -> nm = S_ "<init>" -> class_at s cl = Some c ->
    sg = a ++ S_ ")" ++ b -> ~ In ")"%char a ->
    asks s cl st nm sg true (a ++ S_ ")L" ++ c_prefix c ++ S_ ";")
| asks_bad c : st = false -> nm = S_ "<init>" -> class_at s cl = Some c -> ~ In ")"%char sg ->
    asks s cl st nm sg true (S_ "L" ++ c_prefix c ++ S_ ";").

(** Class [cl] has got new members and is unchanged otherwise. *)
Definition grown (s s' : st) (cl : oid) (ms fs : list oid) : Prop :=
  exists c c', class_at s cl = Some c /\ class_at s' cl = Some c' /\
    c_methods c' = c_methods c ++ ms /\ c_fields c' = c_fields c ++ fs /\
    c_name c' = c_name c /\ c_prefix c' = c_prefix c /\ c_natives c' = c_natives c /\ c_inst c' = c_inst c /\
    c_instarr c' = c_instarr c /\ c_bases c' = c_bases c /\ monitor s' cl = monitor s cl.

(** The debug build looks up all classes [l] and leaves local references to them. *)
Definition brought (G : cfg) (t : tid) (l : list str) (s s' : st) : Prop :=
  if debug G then
    exists ks, Forall2 (class_named s') l ks /\
      frames s' t = match frames s t with f :: r => (f ++ ks) :: r | [] => [] end
  else frames s' t = frames s t.

(** Outcome of GetMethodID (GetFieldID below): found; not found and reported; not found and fabricated
    in [cl], where [l] are the classes mentioned in the signature. *)
Inductive got_method (G : cfg) (t : tid) (st : bool) (nm sg : str) (l : list str) (cl : oid) (s s' : VmState.st) : option oid -> Prop :=
| gm_found i : finds_method G s st false nm sg cl (Some i) -> same_but_types s s' ->
    got_method G t st nm sg l cl s s' (Some i)
| gm_null : finds_method G s st false nm sg cl None -> retnull G = true -> same_but_types s s' ->
    got_method G t st nm sg l cl s s' None
| gm_new i : finds_method G s st false nm sg cl None -> retnull G = false ->
    i = length (s_heap s) -> method_at s' i = Some (mkMth nm sg st None None) ->
    grown s s' cl [i] [] -> disturbs (eq cl) t s s' -> brought G t l s s' ->
    got_method G t st nm sg l cl s s' (Some i).
Inductive got_field (G : cfg) (t : tid) (st : bool) (nm ty : str) (l : list str) (cl : oid) (s s' : VmState.st) : option oid -> Prop :=
| gf_found i : finds_field G s st nm ty cl (Some i) -> same_but_types s s' ->
    got_field G t st nm ty l cl s s' (Some i)
| gf_null : finds_field G s st nm ty cl None -> retnull G = true -> same_but_types s s' ->
    got_field G t st nm ty l cl s s' None
| gf_new i : finds_field G s st nm ty cl None -> retnull G = false ->
    i = length (s_heap s) -> field_at s' i = Some (mkFld nm ty st None None) ->
    grown s s' cl [] [i] -> disturbs (eq cl) t s s' -> brought G t l s s' ->
    got_field G t st nm ty l cl s s' (Some i).
