(** References: what keeps objects alive, and what the reference functions promise.  Specification only. *)
From Verif Require Import Base VmState VmModel VmStep VmSpec.
Set Implicit Arguments.
Unset Strict Implicit.

(** ** What keeps an object alive *)
(** Places outside of objects: global references (and the handles of weak ones), the class registry, local references
    and pending exceptions of all threads, running calls, and variables of C++ code. *)
Inductive anchor (s : st) (i : oid) : Prop :=
| an_global : In i (s_globals s) -> anchor s i
| an_class n : class_named s n i -> anchor s i
| an_local t : local_ref s t i -> anchor s i
| an_pending t : pending s t = Some i -> anchor s i
| an_call t k : In k (running s t) -> In i (k_held k) -> anchor s i
| an_ext : In i (s_ext s) -> anchor s i.
(** An object with contents [p] owns object [i].  Weak references own nothing. *)
Inductive owns : pay -> oid -> Prop :=
| ow_var n l i : In (Some i) l -> owns (PUser n l) i
| ow_elem t l i : In (Some i) l -> owns (PArr t l) i
| ow_global i : owns (PGlobal i) i
| ow_inner c i : In i (c_inner c) -> owns (PClass c) i
| ow_field c i : In i (c_fields c) -> owns (PClass c) i
| ow_method c i : In i (c_methods c) -> owns (PClass c) i.
Definition owner (s : st) (k i : oid) : Prop := exists p, contents s k = Some p /\ owns p i.
Inductive strong (s : st) : oid -> Prop :=
| sr_anchor i : anchor s i -> strong s i
| sr_owner k i : strong s k -> owner s k i -> strong s i.
(** [owned_by k i]: a chain of at least one owner leads from [k] to [i]. *)
Inductive chain_to (s : st) (k : oid) : oid -> Prop :=
| ch_one i : owner s k i -> chain_to s k i
| ch_more i j : chain_to s k i -> owner s i j -> chain_to s k j.
(** [i] belongs to a cycle of owners or is kept by one *)
Definition cyclic (s : st) (i : oid) : Prop := exists k, chain_to s k k /\ (i = k \/ chain_to s k i).

(** ** What functions leave alone *)
(** Everything but objects, the frames of thread [t], global references and C++ variables *)
Record calm (t : tid) (s s' : st) : Prop := {
  cm_types : forall T, registered s' T = registered s T;
  cm_others : forall u, u <> t -> get_env s' u = get_env s u;
  cm_pending : pending s' t = pending s t;
  cm_running : running s' t = running s t;
  cm_envid : option_map e_id (get_env s' t) = option_map e_id (get_env s t) }.
(** References were dropped (and perhaps added): now the frames of [t] are [fs], the global references [gl] and the C++
    variables [ex]; what is still referenced is unchanged, there are no new objects. *)
Record released (t : tid) (fs : list (list oid)) (gl ex : list oid) (s s' : st) : Prop := {
  rl_frames : frames s' t = fs;
  rl_globals : s_globals s' = gl;
  rl_ext : s_ext s' = ex;
  rl_calm : calm t s s';
  rl_obj : forall i, live s i = true -> strong s' i -> intact s s' i;
  rl_live : forall i, live s' i = true -> live s i = true }.
(** The same without dropping anything: all objects are still there. *)
Record gained (t : tid) (fs : list (list oid)) (gl ex : list oid) (s s' : st) : Prop := {
  gn_frames : frames s' t = fs;
  gn_globals : s_globals s' = gl;
  gn_ext : s_ext s' = ex;
  gn_calm : calm t s s';
  gn_obj : forall i, live s i = true -> intact s s' i }.

(** ** Frames *)
Definition add_locals (fs : list (list oid)) (xs : list oid) : list (list oid) :=
  match fs with f :: r => (f ++ xs) :: r | [] => [] end.
(** The frames below the innermost one; there always is a frame. *)
Definition below (fs : list (list oid)) : list (list oid) :=
  match fs with _ :: f :: r => f :: r | _ => [[]] end.
(** One reference to [i] is removed from the innermost frame that has one, the oldest of that frame. *)
Inductive deleted (i : oid) : list (list oid) -> list (list oid) -> Prop :=
| dl_here a b r : ~ In i a -> deleted i ((a ++ i :: b) :: r) ((a ++ b) :: r)
| dl_later f r r' : ~ In i f -> deleted i r r' -> deleted i (f :: r) (f :: r')
| dl_none : deleted i [] [].
(** ... several times *)
Inductive deleted_all : list oid -> list (list oid) -> list (list oid) -> Prop :=
| da_nil fs : deleted_all [] fs fs
| da_cons i l fs fs1 fs2 : deleted i fs fs1 -> deleted_all l fs1 fs2 -> deleted_all (i :: l) fs fs2.
(** One occurrence of [i] is removed. *)
Inductive removed (i : oid) : list oid -> list oid -> Prop :=
| rm_here a b : ~ In i a -> removed i (a ++ i :: b) (a ++ b)
| rm_none a : ~ In i a -> removed i a a.

(** The [n] bottom frames *)
Definition bottom (n : nat) (fs : list (list oid)) : list (list oid) := skipn (length fs - n) fs.
Definition above (n : nat) (fs : list (list oid)) : list (list oid) := firstn (length fs - n) fs.
(** The history [l] of all threads from [s] to [s'] uses the frames of thread [t] like a stack above its [n] bottom frames:
    at least one frame remains above them, and the thread does not detach.  [ds] lists the objects that thread [t] passed to
    DeleteLocalRef while none of the frames above had a reference to them. *)
Inductive nested (G : cfg) (t : tid) (n : nat) : list event -> st -> list oid -> st -> Prop :=
| ne_nil s : nested G t n [] s [] s
| ne_step u o l s v s1 ds s' :
    (forall h, (u, o) <> (t, DeleteLocalRef_ h)) ->
    (forall h, (u, o) = (t, PopLocalFrame_ h) -> S n < length (frames s t)) -> (u, o) <> (t, Detach_) ->
    step G u o s = Some (v, s1) -> nested G t n l s1 ds s' -> nested G t n ((u, o) :: l) s ds s'
| ne_delete_inner h i l s v s1 ds s' f : denotes_opt s h (Some i) -> In f (above n (frames s t)) -> In i f ->
    step G t (DeleteLocalRef_ h) s = Some (v, s1) -> nested G t n l s1 ds s' -> nested G t n ((t, DeleteLocalRef_ h) :: l) s ds s'
| ne_delete_null h l s v s1 ds s' : denotes_opt s h None ->
    step G t (DeleteLocalRef_ h) s = Some (v, s1) -> nested G t n l s1 ds s' -> nested G t n ((t, DeleteLocalRef_ h) :: l) s ds s'
| ne_delete_outer h i l s v s1 ds s' : denotes_opt s h (Some i) -> (forall f, In f (above n (frames s t)) -> ~ In i f) ->
    step G t (DeleteLocalRef_ h) s = Some (v, s1) -> nested G t n l s1 ds s' -> nested G t n ((t, DeleteLocalRef_ h) :: l) s (i :: ds) s'.

(** A history of all threads from [s] to [s'] in which thread [t] neither pops its [n] bottom frames nor detaches, and passes
    object [i] to DeleteLocalRef [k] times. *)
Inductive holding (G : cfg) (t : tid) (n : nat) (i : oid) : list event -> st -> nat -> st -> Prop :=
| ho_nil s : holding G t n i [] s 0 s
| ho_step u o l s v s1 k s' :
    (forall h, (u, o) = (t, DeleteLocalRef_ h) -> ~ denotes_opt s h (Some i)) ->
    (forall h, (u, o) = (t, PopLocalFrame_ h) -> n < length (frames s t)) -> (u, o) <> (t, Detach_) ->
    step G u o s = Some (v, s1) -> holding G t n i l s1 k s' -> holding G t n i ((u, o) :: l) s k s'
| ho_delete h l s v s1 k s' : denotes_opt s h (Some i) ->
    step G t (DeleteLocalRef_ h) s = Some (v, s1) -> holding G t n i l s1 k s' -> holding G t n i ((t, DeleteLocalRef_ h) :: l) s (S k) s'.

(** ** Kinds of references *)
Definition is_weak_handle (s : st) (h j : oid) : Prop := contents s h = Some (PWeak j).
Definition is_global_handle (s : st) (h j : oid) : Prop := contents s h = Some (PGlobal j).
Definition is_local_handle (s : st) (h : oid) : Prop :=
  live s h = true /\ (forall j, ~ is_weak_handle s h j) /\ (forall j, ~ is_global_handle s h j).

(** Number of references to [i] in frames *)
Definition count_refs (i : oid) (fs : list (list oid)) : nat := count_occ Nat.eq_dec (concat fs) i.

(** ** Monitors *)
(** Lock operations on an object's monitor *)
Inductive lock_op := Lock (t : tid) | Unlock (t : tid).
(** What a recursive lock does; [None]: the operation cannot proceed *)
Definition lock_do (m : option (tid * nat)) (o : lock_op) : option (option (tid * nat)) :=
  match o, m with
  | Lock t, None => Some (Some (t, 1))
  | Lock t, Some (u, n) => if Nat.eqb t u then Some (Some (u, S n)) else None
  | Unlock t, Some (u, S n) => if Nat.eqb t u then Some (match n with 0 => None | _ => Some (u, n) end) else None
  | Unlock t, _ => None
  end.
Fixpoint lock_run (m : option (tid * nat)) (l : list lock_op) : option (option (tid * nat)) :=
  match l with
  | [] => Some m
  | o :: r => match lock_do m o with Some m' => lock_run m' r | None => None end
  end.
(** The lock operations on object [i] in the history [l] from [s] to [s'] *)
Inductive locking (G : cfg) (i : oid) : list event -> st -> list lock_op -> st -> Prop :=
| lk_nil s : locking G i [] s [] s
| lk_enter t h l s v s1 r s' : denotes_opt s h (Some i) -> step G t (MonitorEnter_ h) s = Some (v, s1) -> locking G i l s1 r s' ->
    locking G i ((t, MonitorEnter_ h) :: l) s (Lock t :: r) s'
| lk_exit t h l s v s1 r s' : denotes_opt s h (Some i) -> step G t (MonitorExit_ h) s = Some (v, s1) -> locking G i l s1 r s' ->
    locking G i ((t, MonitorExit_ h) :: l) s (Unlock t :: r) s'
| lk_other t o l s v s1 r s' : (forall h, o = MonitorEnter_ h \/ o = MonitorExit_ h -> ~ denotes_opt s h (Some i)) ->
    step G t o s = Some (v, s1) -> locking G i l s1 r s' -> locking G i ((t, o) :: l) s r s'.
(** Enters minus exits of a thread *)
Fixpoint balance (t : tid) (l : list lock_op) : Z :=
  match l with
  | [] => 0
  | Lock u :: r => (if Nat.eqb t u then 1 else 0) + balance t r
  | Unlock u :: r => (if Nat.eqb t u then -1 else 0) + balance t r
  end.
Definition holds (m : option (tid * nat)) (t : tid) : nat :=
  match m with Some (u, n) => if Nat.eqb t u then n else 0 | None => 0 end.

(** ** Clients that keep book of their references *)
(** What a client knows it owns: the local references of each attached thread, frame by frame, its global and its weak
    global references. *)
Record ledger := mkLedger { b_local : tid -> option (list (list oid)); b_global : list oid; b_weak : list oid }.
Definition set_local (L : ledger) (t : tid) (x : option (list (list oid))) : ledger :=
  mkLedger (fun u => if Nat.eqb t u then x else b_local L u) (b_global L) (b_weak L).
(** [h] is null, or a handle that thread [t] may use *)
Definition mine_local (L : ledger) (t : tid) (h : option oid) : Prop :=
  forall i, h = Some i -> exists fs, b_local L t = Some fs /\ In i (concat fs).
Definition mine (L : ledger) (t : tid) (h : option oid) : Prop :=
  forall i, h = Some i -> (exists fs, b_local L t = Some fs /\ In i (concat fs)) \/ In i (b_global L) \/ In i (b_weak L).
(** Functions about references *)
Definition ref_op (o : op) : bool :=
  match o with
  | NewLocalRef_ _ | NewGlobalRef_ _ | NewWeakGlobalRef_ _ | DeleteLocalRef_ _ | DeleteGlobalRef_ _ | DeleteWeakGlobalRef_ _
  | GetObjectRefType_ _ | IsSameObject_ _ _ | PushLocalFrame_ _ | PopLocalFrame_ _ | EnsureLocalCapacity_ _ | FindClass_ _
  | Attach_ | Detach_ => true
  | _ => false
  end.
(** The calls that a careful client makes.  (Weak references are not passed to PopLocalFrame.) *)
Definition allowed (L : ledger) (t : tid) (o : op) : Prop :=
  (o <> Attach_ -> b_local L t <> None) /\
  match o with
  | NewLocalRef_ h | NewGlobalRef_ h | NewWeakGlobalRef_ h | GetObjectRefType_ h => mine L t h
  | IsSameObject_ a b => mine L t a /\ mine L t b
  | DeleteLocalRef_ h => mine_local L t h
  | DeleteGlobalRef_ h => forall i, h = Some i -> In i (b_global L)
  | DeleteWeakGlobalRef_ h => forall i, h = Some i -> In i (b_weak L)
  | PushLocalFrame_ c => (0 <= c)%Z
  | PopLocalFrame_ h => forall i, h = Some i -> (exists fs, b_local L t = Some fs /\ In i (concat fs)) \/ In i (b_global L)
  | EnsureLocalCapacity_ _ | FindClass_ _ | Attach_ | Detach_ => True
  | _ => False
  end.
(** How the client updates its book when thread [t] gets result [v] *)
Inductive booked (L : ledger) (t : tid) : op -> obs -> ledger -> Prop :=
| bk_local o i fs : (exists h, o = NewLocalRef_ h) \/ (exists n, o = FindClass_ n) -> b_local L t = Some fs ->
    booked L t o (OVal (RRef (Some i))) (set_local L t (Some (add_local fs i)))
| bk_null o : (exists h, o = NewLocalRef_ h) \/ (exists n, o = FindClass_ n) \/ (exists h, o = NewGlobalRef_ h) \/ (exists h, o = NewWeakGlobalRef_ h) ->
    booked L t o (OVal (RRef None)) L
| bk_global h g : booked L t (NewGlobalRef_ h) (OVal (RRef (Some g))) (mkLedger (b_local L) (g :: b_global L) (b_weak L))
| bk_weak h g : booked L t (NewWeakGlobalRef_ h) (OVal (RRef (Some g))) (mkLedger (b_local L) (b_global L) (g :: b_weak L))
| bk_del i v fs fs' : b_local L t = Some fs -> deleted i fs fs' -> booked L t (DeleteLocalRef_ (Some i)) v (set_local L t (Some fs'))
| bk_gdel g v l : removed g (b_global L) l -> booked L t (DeleteGlobalRef_ (Some g)) v (mkLedger (b_local L) l (b_weak L))
| bk_wdel g v l : removed g (b_weak L) l -> booked L t (DeleteWeakGlobalRef_ (Some g)) v (mkLedger (b_local L) (b_global L) l)
| bk_push c v fs : b_local L t = Some fs -> booked L t (PushLocalFrame_ c) v (set_local L t (Some ([] :: fs)))
| bk_pop h r fs : b_local L t = Some fs ->
    booked L t (PopLocalFrame_ h) (OVal (RRef r)) (set_local L t (Some (add_locals (below fs) (match r with Some j => [j] | None => [] end))))
| bk_attach v : b_local L t = None -> booked L t Attach_ v (set_local L t (Some [[]]))
| bk_detach v : booked L t Detach_ v (set_local L t None)
| bk_same o v : (exists c, o = EnsureLocalCapacity_ c) \/ (exists a b, o = IsSameObject_ a b) \/ (exists h, o = GetObjectRefType_ h) \/
    o = DeleteLocalRef_ None \/ o = DeleteGlobalRef_ None \/ o = DeleteWeakGlobalRef_ None \/ (o = Attach_ /\ b_local L t <> None) -> booked L t o v L.
(** A history of a careful client; other functions than those about references may be called at will. *)
Inductive client (G : cfg) : list event -> ledger -> st -> ledger -> st -> Prop :=
| cl_nil L s : client G [] L s L s
| cl_ref t o l L s v L1 s1 L' s' : ref_op o = true -> allowed L t o -> step G t o s = Some (v, s1) -> booked L t o v L1 ->
    client G l L1 s1 L' s' -> client G ((t, o) :: l) L s L' s'
| cl_other t o l L s v s1 L' s' : ref_op o = false -> step G t o s = Some (v, s1) -> client G l L s1 L' s' -> client G ((t, o) :: l) L s L' s'.
(** The book is right: everything in it is there. *)
Definition refs_in (x : list oid) (i : oid) : nat := count_occ Nat.eq_dec x i.
Definition sublists (a b : list (list oid)) : Prop :=
  Forall2 (fun x y => forall i, refs_in x i <= refs_in y i) a b.
Record booked_right (L : ledger) (s : st) : Prop := {
  br_local : forall t, match b_local L t with Some fs => attached s t /\ sublists fs (frames s t) | None => get_env s t = None end;
  br_self : forall t fs i, b_local L t = Some fs -> In i (concat fs) -> denotes s i (Some i);
  br_global : forall g, In g (b_global L) -> In g (s_globals s) /\ exists j, is_global_handle s g j /\ denotes s j (Some j);
  br_weak : forall g, In g (b_weak L) -> In g (s_globals s) /\ exists j, is_weak_handle s g j;
  br_gdup : NoDup (b_global L);
  br_wdup : NoDup (b_weak L) }.
