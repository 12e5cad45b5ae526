(** What is claimed of concurrent calls. *)
From Verif Require Import Base SigModel VmState VmModel ConcModel ConcLogic.
Set Implicit Arguments.
Unset Strict Implicit.

(** The hierarchy of classes is acyclic: [height] decreases towards the base classes. *)
Definition ranked (G : ccfg) (height : nat -> nat) : Prop := forall c b, In b (c_bases G c) -> height b < height c.
(** [D]: reached from state [s] with threads that make the given calls *)
Definition reaches (G : ccfg) (height : nat -> nat) (s : shared) (calls : list (list call)) (D : conf) : Prop := exists l, crun G height l (cinit s calls) = Some D.
Definition every (Ok : call -> Prop) (calls : list (list call)) : Prop := forall l c, In l calls -> In c l -> Ok c.
(** Some thread finished call [c] with result [r]. *)
Definition returned (D : conf) (c : call) (r : option nat) : Prop := exists t x, nth_error (thrs D) t = Some x /\ In (c, r) (t_done x).
Definition finished (D : conf) : Prop := forall t x, nth_error (thrs D) t = Some x -> t_cur x = None /\ t_todo x = [].
(** The next access of some thread to [x] happens without mutex [m]. *)
Definition unprotected (D : conf) (x : loc) (m : lock) : Prop := exists t y c p w, nth_error (thrs D) t = Some y /\ t_cur y = Some (c, p) /\ accesses p = Some (x, w) /\ own D m <> Some t.

(** ** Registry *)
(** The class that the registry has for a path *)
Inductive leads (l : list node) : option nat -> list (kind * str) -> option nat -> Prop :=
| ld_nil i : leads l i [] i
| ld_cons p w n i j r : nth_error l i = Some (mkNode p w n) -> leads l (Some i) r j -> leads l p ((w, n) :: r) j.
Definition has_class (debug : bool) (s : shared) (name : str) (i : nat) : Prop := leads (reg s) None (path_of debug name) (Some i).
(** No entry twice, parents before children *)
Definition tidy_reg (s : shared) : Prop := NoDup (reg s) /\ forall i x j, nth_error (reg s) i = Some x -> n_par x = Some j -> j < i.
(** The class names that a call may add without holding the mutex of the VM *)
Definition adds_unlocked (debug : bool) (c : call) : list str :=
  match c with
  | CGetFieldID _ x | CGetMethodID _ x => if debug then match Declare_names (k_type x) with Ok l => l | _ => [] end else []
  | CNewGlobalRef => [S_ "internal/lang/Global"]
  | CNewWeakGlobalRef => [S_ "java/lang/ref/WeakReference"]
  | _ => []
  end.
(** ... and they are all known already *)
Definition settled (debug : bool) (s : shared) (c : call) : Prop := forall n, In n (adds_unlocked debug c) -> exists i, has_class debug s n i.
(** The call asks for the class of this name *)
Definition asks (c : call) (name : str) : Prop := match c with CFindClass n | CGetClassT _ n => n = name | _ => False end.

(** ** Hierarchies *)
Inductive base_of (G : ccfg) (c : nat) : nat -> Prop :=
| bo_direct b : In b (c_bases G c) -> base_of G c b
| bo_further b d : base_of G c b -> In d (c_bases G b) -> base_of G c d.
(** The member a class has or inherits: depth first *)
Fixpoint first (f : nat -> option nat) (l : list nat) : option nat := match l with [] => None | b :: r => match f b with Some i => Some i | None => first f r end end.
Fixpoint inherited (G : ccfg) (T : nat -> list (key * nat)) (x : key) (n : nat) (c : nat) : option nat :=
  match n with
  | 0 => None
  | S n => match find_key (T c) x with Some i => Some i | None => first (inherited G T x n) (c_bases G c) end
  end.

(** The call does not look the field up in a base class of [c] (which might add it there), nor hooks it. *)
Definition in_reach (G : ccfg) (c d : nat) : Prop := d = c \/ base_of G c d.
Definition leaves_bases (G : ccfg) (c : nat) (x : key) (k : call) : Prop := (forall d, base_of G c d -> k <> CGetFieldID d x) /\ (forall d, in_reach G c d -> k <> CHookField d x).
(** The call registers a native method with this key in class [c], among others. *)
Definition registers (k : call) (c : nat) (x : key) : Prop := exists l, k = CRegisterNatives c l /\ In x l.
(** The class has the method itself, or the call neither adds such methods nor removes natives where the search comes by. *)
Definition leaves_methods (G : ccfg) (s : shared) (c : nat) (x : key) (k : call) : Prop := k <> CUnregisterNatives c /\ ((exists i, find_key (methods s c) x = Some i) \/
  ((forall d, base_of G c d -> k <> CUnregisterNatives d) /\ (forall d, in_reach G c d -> ~ registers k d x) /\ (forall d, base_of G c d -> k <> CGetMethodID d x) /\ (forall d, in_reach G c d -> k <> CHookMethod d x))).

(** ** Global references *)
Definition makes_ref (c : call) : bool := match c with CNewGlobalRef | CNewWeakGlobalRef => true | _ => false end.
(** The global references that calls have returned *)
Definition refs_of (l : list (call * option nat)) : list nat := flat_map (fun d => if makes_ref (fst d) then match snd d with Some i => [i] | None => [] end else []) l.
Definition handles (D : conf) : list nat := flat_map (fun x => refs_of (t_done x)) (thrs D).
Definition occurs (i : nat) (l : list nat) : nat := count_occ Nat.eq_dec l i.
Definition no_call (calls : list (list call)) (c : call) : Prop := every (fun k => k <> c) calls.
(** No entry twice, and none of them is the address of a new object *)
Definition tidy_refs (s : shared) : Prop := NoDup (globals s) /\ forall i, In i (globals s) -> i < next s.

(** ** Environments *)
Definition about_env (c : call) (t : nat) : Prop := c = CAttach t \/ c = CDetach t \/ c = CCurrentEnv t.
(** Threads attach and detach themselves. *)
Definition own_ids (calls : list (list call)) : Prop := forall t u l c, nth_error calls t = Some l -> In c l -> about_env c u -> u = t.
(** What a call does to the entry of its thread, if no other thread exists *)
Inductive effect : call -> option (option nat) -> option nat -> option (option nat) -> Prop :=
| ef_again t e : effect (CAttach t) (Some (Some e)) (Some e) (Some (Some e))
| ef_attach t o e : (forall d, o <> Some (Some d)) -> effect (CAttach t) o (Some e) (Some (Some e))
| ef_detach t o : effect (CDetach t) o None None
| ef_env t o : effect (CCurrentEnv t) (Some o) o (Some o)
| ef_no_env t : effect (CCurrentEnv t) None None (Some None)
| ef_other c o r : (forall t, ~ about_env c t) -> effect c o r o.
Inductive alone (o : option (option nat)) : list (call * option nat) -> option (option nat) -> Prop :=
| al_nil : alone o [] o
| al_call l o' c r o'' : alone o l o' -> effect c o' r o'' -> alone o (l ++ [(c, r)]) o''.
(** No environment has two threads. *)
Definition tidy_envs (s : shared) : Prop := (forall t e, envs s t = Some (Some e) -> e < next s) /\ (forall t u e, envs s t = Some (Some e) -> envs s u = Some (Some e) -> t = u).
