(** Arrays, strings and buffers: what the functions promise.  Specification only. *)
From Verif Require Import Base VmState VmModel VmStep VmSpec RefSpec.
Set Implicit Arguments.
Unset Strict Implicit.

(** ** New objects *)
(** A new object [i] with contents [p] and a local reference to it; apart from new classes nothing else is new, and nothing has
    changed. *)
Record made (t : tid) (i : oid) (p : pay) (s s' : st) : Prop := {
  md_fresh : length (s_heap s) <= i;
  md_contents : contents s' i = Some p;
  md_monitor : monitor s' i = None;
  md_gained : gained t (add_local (frames s t) i) (s_globals s) (s_ext s) s s';
  md_live : forall k, live s' k = true -> live s k = true \/ k = i \/ is_cls s' k = true }.

(** ** Arrays of numbers *)
(** The elements [start .. start+len-1] of [l] *)
Definition is_region (l : list Z) (start len : Z) (r : list Z) : Prop :=
  Z.of_nat (length r) = len /\ forall j, j < length r -> nth_error r j = nth_error l (Z.to_nat start + j).
(** [l'] is [l] with [b] written at [k] *)
Definition is_written (l : list Z) (k : nat) (b l' : list Z) : Prop :=
  length l' = length l /\
  forall j, nth_error l' j = if (Nat.leb k j && Nat.ltb j (k + length b))%bool then nth_error b (j - k) else nth_error l j.
Definition in_range (l : list Z) (start len : Z) : Prop := (0 <= start /\ 0 <= len /\ start + len <= Z.of_nat (length l))%Z.
(** Object [a] now has contents [p]; everything else is as before. *)
Definition changed (t : tid) (a : oid) (p : pay) (s s' : st) : Prop :=
  contents s' a = Some p /\ monitor s' a = monitor s a /\ class_ptr s' a = class_ptr s a /\
  (forall j, live s' j = live s j) /\ disturbs (eq a) t s s' /\ frames s' t = frames s t.
(** The writes to the elements of array [a] in the history [l] from [s] to [s'], oldest first: position and new elements.
    GetArrayElements gives access to the array itself. *)
Inductive writing (G : cfg) (a : oid) : list event -> st -> list (nat * list Z) -> st -> Prop :=
| wr_nil s : writing G a [] s [] s
| wr_region t p h start len buf l s v s1 w s' : denotes_opt s h (Some a) -> step G t (SetArrayRegion_ p h start len buf) s = Some (OVal v, s1) ->
    writing G a l s1 w s' -> writing G a ((t, SetArrayRegion_ p h start len buf) :: l) s ((Z.to_nat start, firstn (Z.to_nat len) buf) :: w) s'
| wr_direct t k z l s v s1 w s' : step G t (ElementsWrite_ a k z) s = Some (v, s1) ->
    writing G a l s1 w s' -> writing G a ((t, ElementsWrite_ a k z) :: l) s ((k, [z]) :: w) s'
| wr_wrong_type t p h start len buf l s e s1 w s' : step G t (SetArrayRegion_ p h start len buf) s = Some (OExn e, s1) ->
    writing G a l s1 w s' -> writing G a ((t, SetArrayRegion_ p h start len buf) :: l) s w s'
| wr_other t o l s v s1 w s' : (forall p h start len buf, o = SetArrayRegion_ p h start len buf -> ~ denotes_opt s h (Some a)) -> (forall k z, o <> ElementsWrite_ a k z) ->
    step G t o s = Some (v, s1) -> writing G a l s1 w s' -> writing G a ((t, o) :: l) s w s'.
(** The most recent value written at position [j] *)
Fixpoint last_written (w : list (nat * list Z)) (j : nat) : option Z :=
  match w with
  | [] => None
  | (k, b) :: r =>
      match last_written r j with
      | Some z => Some z
      | None => if Nat.leb k j then nth_error b (j - k) else None
      end
  end.

(** ** Arrays of objects *)
(** [l'] is [l] with element [k] replaced by [v] *)
Definition is_stored (l : list (option oid)) (k : nat) (v : option oid) (l' : list (option oid)) : Prop :=
  length l' = length l /\ forall j, nth_error l' j = if Nat.eqb j k then Some v else nth_error l j.
(** Object [a] now has contents [p]; what is still referenced is otherwise as before, there are no new objects. *)
Record stored (t : tid) (a : oid) (p : pay) (s s' : st) : Prop := {
  sd_contents : live s' a = true -> contents s' a = Some p;
  sd_monitor : live s' a = true -> monitor s' a = monitor s a;
  sd_obj : forall i, live s i = true -> strong s' i -> i <> a -> intact s s' i;
  sd_live : forall i, live s' i = true -> live s i = true;
  sd_globals : s_globals s' = s_globals s;
  sd_ext : s_ext s' = s_ext s;
  sd_frames : frames s' t = frames s t;
  sd_calm : calm t s s' }.
(** The stores to array [a] in a history, oldest first *)
Inductive storing (G : cfg) (a : oid) : list event -> st -> list (nat * option oid) -> st -> Prop :=
| so_nil s : storing G a [] s [] s
| so_set t h k x v l s s1 w s' : denotes_opt s h (Some a) -> denotes_opt s x v -> step G t (SetObjectArrayElement_ h k x) s = Some (OVal RUnit, s1) ->
    storing G a l s1 w s' -> storing G a ((t, SetObjectArrayElement_ h k x) :: l) s ((Z.to_nat k, v) :: w) s'
| so_refused t h k x l s e s1 w s' : step G t (SetObjectArrayElement_ h k x) s = Some (OExn e, s1) ->
    storing G a l s1 w s' -> storing G a ((t, SetObjectArrayElement_ h k x) :: l) s w s'
| so_other t o l s v s1 w s' : (forall h k x, o = SetObjectArrayElement_ h k x -> ~ denotes_opt s h (Some a)) ->
    step G t o s = Some (v, s1) -> storing G a l s1 w s' -> storing G a ((t, o) :: l) s w s'.
Fixpoint last_stored (w : list (nat * option oid)) (j : nat) : option (option oid) :=
  match w with
  | [] => None
  | (k, v) :: r => match last_stored r j with Some x => Some x | None => if Nat.eqb j k then Some v else None end
  end.
(** The object is an instance of user class [n] *)
Inductive derives (G : cfg) : nat -> nat -> Prop :=
| dv_self n : derives G n n
| dv_base n l k m : ubases G n = Some l -> In (Some k) l -> derives G k m -> derives G n m.
Definition instance_of (G : cfg) (s : st) (i : oid) (n : nat) : Prop := exists m l, contents s i = Some (PUser m l) /\ derives G m n.

(** The base class of [n] that names Object among its bases, following first bases *)
Inductive top_ancestor (G : cfg) : nat -> nat -> Prop :=
| ta_self n : (forall l, ubases G n = Some l -> l = [] \/ In None l) -> top_ancestor G n n
| ta_base n k r m : ubases G n = Some (Some k :: r) -> ~ In None r -> top_ancestor G k m -> top_ancestor G n m.
(** User classes are numbered such that bases come first: the C++ class graph is acyclic. *)
Definition numbered (G : cfg) : Prop := forall n l k, ubases G n = Some l -> In (Some k) l -> k < n.
(** What may be stored in an array with elements of type [p] *)
Definition accepts (G : cfg) (s : st) (p : option nat) (v : option oid) : Prop :=
  match p, v with
  | Some n, Some i => exists m, top_ancestor G n m /\ instance_of G s i m
  | _, _ => True
  end.
(** The name of the class of arrays *)
Definition array_name (p : str) : str :=
  match p with c :: _ => if ascii_dec c "[" then "["%char :: p else S_ "[L" ++ p ++ S_ ";" | [] => S_ "[L;" end.
(** A call that failed: no references, no objects but classes. *)
Definition no_effect (t : tid) (s s' : st) : Prop :=
  gained t (frames s t) (s_globals s) (s_ext s) s s' /\ forall k, live s' k = true -> live s k = true \/ is_cls s' k = true.

(** The elements after the writes [w] *)
Definition updated (l0 : list Z) (w : list (nat * list Z)) (l1 : list Z) : Prop :=
  length l1 = length l0 /\ forall j, nth_error l1 j = match last_written w j with Some z => Some z | None => nth_error l0 j end.
(** The elements after the stores [w] *)
Definition restored (l0 : list (option oid)) (w : list (nat * option oid)) (l1 : list (option oid)) : Prop :=
  length l1 = length l0 /\ forall j, nth_error l1 j = match last_stored w j with Some z => Some z | None => nth_error l0 j end.

(** What a handle means to the string functions: the null handle gives [Some None], a string its bytes; an expired weak
    reference nothing at all; other objects are refused. *)
Definition string_arg (s : st) (h : option oid) (r : option (option str)) : Prop :=
  match h, r with
  | None, Some None => True
  | Some h, Some (Some b) => exists i, denotes s h (Some i) /\ contents s i = Some (PString b)
  | Some h, None => exists i x, denotes s h (Some i) /\ contents s i = Some x /\ forall b, x <> PString b
  | _, _ => False
  end.

(** The element type of the arrays of class name [n]: what C++ code has registered for it, else any object. *)
Definition array_elem (s : st) (n : str) (p : option nat) : Prop :=
  (forall ci ck, class_named s n ci -> contents s ci = Some (PClass ck) -> p = c_instarr ck) /\ (~ class_exists s n -> p = None).
