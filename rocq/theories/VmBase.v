(** Lemmas about lists, maps, the heap and reference counting. *)
From Verif Require Import Base BaseProofs VmState.
Set Implicit Arguments.

(** ** Lists *)

Lemma list_set_length A (l : list A) i x : length (list_set l i x) = length l.
Proof. revert i. induction l; destruct i; simpl; auto. Qed.

Lemma nth_list_set A (l : list A) i j x :
  nth_error (list_set l i x) j =
  if Nat.eqb i j then match nth_error l j with Some _ => Some x | None => None end else nth_error l j.
Proof.
  revert i j. induction l; intros i j.
  - simpl. destruct j, (Nat.eqb i _); reflexivity.
  - destruct i, j; simpl; auto.
Qed.

Lemma somes_In A (l : list (option A)) x : In x (somes l) <-> In (Some x) l.
Proof.
  induction l as [|[a|] l IH]; simpl; split; intros H; auto.
  - destruct H as [->|H]; auto. right. apply IH. auto.
  - destruct H as [H|H]; [left; congruence|right; apply IH; auto].
  - right. apply IH. auto.
  - destruct H as [H|H]; [discriminate|apply IH; auto].
Qed.

Lemma memb_In i l : memb i l = true <-> In i l.
Proof.
  unfold memb. rewrite existsb_exists. split.
  - intros (x & Hx & E). apply Nat.eqb_eq in E. subst. auto.
  - intros H. exists i. split; auto. apply Nat.eqb_refl.
Qed.

Lemma memb_false i l : memb i l = false <-> ~ In i l.
Proof. rewrite <- memb_In. destruct (memb i l); split; congruence. Qed.

Lemma remove_first_In i j l : In j (remove_first i l) -> In j l.
Proof.
  induction l; simpl; auto. destruct (Nat.eqb a i); simpl; intuition.
Qed.

Lemma remove_first_other i j l : j <> i -> In j l -> In j (remove_first i l).
Proof.
  induction l; simpl; auto. intros N [->|H].
  - destruct (Nat.eqb_spec j i); [congruence|left; auto].
  - destruct (Nat.eqb a i); auto. right. auto.
Qed.

Lemma remove_first_count i j l :
  count_occ Nat.eq_dec (remove_first i l) j =
  if Nat.eqb i j then pred (count_occ Nat.eq_dec l j) else count_occ Nat.eq_dec l j.
Proof.
  induction l; simpl; [destruct (Nat.eqb i j); auto|].
  destruct (Nat.eqb_spec a i).
  - subst. destruct (Nat.eqb_spec i j).
    + subst. destruct (Nat.eq_dec j j); [reflexivity|congruence].
    + destruct (Nat.eq_dec i j); [congruence|reflexivity].
  - simpl. destruct (Nat.eq_dec a j).
    + rewrite IHl. destruct (Nat.eqb_spec i j); [congruence|reflexivity].
    + exact IHl.
Qed.

Lemma forallb_In A f (l : list A) : forallb f l = true <-> forall x, In x l -> f x = true.
Proof. apply forallb_forall. Qed.

(** ** Association lists *)
Section Assoc.
  Context {K V : Type} (eqb : K -> K -> bool) (eqb_spec : forall a b, reflect (a = b) (eqb a b)).
  Lemma aget_aset (m : list (K * V)) k v k' :
    aget eqb (aset eqb m k v) k' = if eqb k k' then Some v else aget eqb m k'.
  Proof.
    induction m as [|[a b] m IH]; simpl.
    - reflexivity.
    - destruct (eqb_spec a k).
      + subst. simpl. destruct (eqb k k'); auto.
      + simpl. destruct (eqb_spec a k'); [|exact IH].
        subst. destruct (eqb_spec k k'); [congruence|reflexivity].
  Qed.
  Lemma aget_aset_same (m : list (K * V)) k v : aget eqb (aset eqb m k v) k = Some v.
  Proof. rewrite aget_aset. destruct (eqb_spec k k); congruence. Qed.
  Lemma aget_aset_other (m : list (K * V)) k v k' : k <> k' -> aget eqb (aset eqb m k v) k' = aget eqb m k'.
  Proof. intros. rewrite aget_aset. destruct (eqb_spec k k'); congruence. Qed.
  Lemma aget_adel (m : list (K * V)) k k' :
    aget eqb (adel eqb m k) k' = if eqb k k' then None else aget eqb m k'.
  Proof.
    induction m as [|[a b] m IH]; simpl.
    - destruct (eqb k k'); auto.
    - destruct (eqb_spec a k).
      + subst. rewrite IH. destruct (eqb k k'); auto.
      + simpl. rewrite IH. destruct (eqb_spec a k'); auto.
        subst. destruct (eqb_spec k k'); congruence.
  Qed.
  Lemma aget_In (m : list (K * V)) k v : aget eqb m k = Some v -> In (k, v) m.
  Proof.
    induction m as [|[a b] m IH]; simpl; [discriminate|].
    destruct (eqb_spec a k); intros H; auto. inversion H. subst. auto.
  Qed.
  Lemma aset_In (m : list (K * V)) k v k' v' :
    In (k', v') (aset eqb m k v) -> (k' = k /\ v' = v) \/ In (k', v') m.
  Proof.
    induction m as [|[a b] m IH]; simpl.
    - intros [H|[]]. inversion H. auto.
    - destruct (eqb_spec a k).
      + subst. intros [H|H]; [inversion H|]; auto.
      + intros [H|H]; auto. destruct (IH H) as [?|?]; auto.
  Qed.
  Lemma adel_In (m : list (K * V)) k k' v' : In (k', v') (adel eqb m k) -> In (k', v') m.
  Proof.
    induction m as [|[a b] m IH]; simpl; auto.
    destruct (eqb_spec a k); simpl; intuition.
  Qed.
  (** without duplicate keys the list is determined by [aget] *)
  Lemma aset_keys (m : list (K * V)) k v x :
    In x (map fst (aset eqb m k v)) <-> x = k \/ In x (map fst m).
  Proof.
    induction m as [|[a b] m IH]; simpl.
    - intuition.
    - destruct (eqb_spec a k); simpl.
      + subst. intuition.
      + rewrite IH. intuition.
  Qed.
  Lemma aset_NoDup (m : list (K * V)) k v : NoDup (map fst m) -> NoDup (map fst (aset eqb m k v)).
  Proof.
    induction m as [|[a b] m IH]; simpl; intros H.
    - constructor; auto using NoDup_nil.
    - inversion H; subst. destruct (eqb_spec a k); simpl.
      + constructor; auto.
      + constructor; auto. rewrite aset_keys. intuition.
  Qed.
  Lemma adel_NoDup (m : list (K * V)) k : NoDup (map fst m) -> NoDup (map fst (adel eqb m k)).
  Proof.
    induction m as [|[a b] m IH]; simpl; intros H; auto.
    inversion H; subst. destruct (eqb_spec a k); simpl; auto.
    constructor; auto. intros Hi. apply H2. rewrite in_map_iff in *.
    destruct Hi as ([x y] & E & Hi). simpl in E. subst.
    exists (a, y). split; auto. eapply adel_In; eauto.
  Qed.
  Lemma NoDup_aget (m : list (K * V)) k v : NoDup (map fst m) -> In (k, v) m -> aget eqb m k = Some v.
  Proof.
    induction m as [|[a b] m IH]; simpl; intros H I; [tauto|].
    inversion H; subst. destruct I as [I|I].
    - inversion I; subst. destruct (eqb_spec k k); congruence.
    - destruct (eqb_spec a k); auto. subst. destruct H2. rewrite in_map_iff. exists (k, v). auto.
  Qed.
End Assoc.

Lemma pty_eqb_spec a b : reflect (a = b) (pty_eqb a b).
Proof. destruct a, b; simpl; constructor; congruence. Qed.
Lemma ty_eqb_spec a b : reflect (a = b) (ty_eqb a b).
Proof.
  destruct a as [| | | | | | | | | |p|[t|]|n], b as [| | | | | | | | | |q|[u|]|m]; simpl;
    try (constructor; congruence).
  - destruct (pty_eqb_spec p q); constructor; congruence.
  - destruct (Nat.eqb_spec t u); constructor; congruence.
  - destruct (Nat.eqb_spec n m); constructor; congruence.
Qed.

(** ** Looking up objects *)

Lemma live_lookup s i : live s i = true <-> exists o, lookup s i = Some o.
Proof.
  unfold live. destruct (lookup s i); split; intros H; eauto.
  - discriminate.
  - destruct H. discriminate.
Qed.

Lemma lookup_lt s i o : lookup s i = Some o -> i < length (s_heap s).
Proof.
  unfold lookup. intros H. apply nth_error_Some. destruct (nth_error (s_heap s) i); congruence.
Qed.

Lemma live_lt s i : live s i = true -> i < length (s_heap s).
Proof. rewrite live_lookup. intros (o & H). eapply lookup_lt; eauto. Qed.

Lemma is_cls_live s i : is_cls s i = true -> live s i = true.
Proof. unfold is_cls, live. destruct (lookup s i); congruence. Qed.
Lemma is_mth_live s i : is_mth s i = true -> live s i = true.
Proof. unfold is_mth, live. destruct (lookup s i); congruence. Qed.
Lemma is_fld_live s i : is_fld s i = true -> live s i = true.
Proof. unfold is_fld, live. destruct (lookup s i); congruence. Qed.
Lemma is_throw_live s i : is_throw s i = true -> live s i = true.
Proof. unfold is_throw, live. destruct (lookup s i); congruence. Qed.

Lemma lookup_alloc s o i :
  lookup (with_heap s (s_heap s ++ [Some o])) i =
  if Nat.eqb i (length (s_heap s)) then Some o else lookup s i.
Proof.
  unfold lookup. simpl. destruct (Nat.eqb_spec i (length (s_heap s))).
  - subst. rewrite nth_error_app2 by lia. rewrite Nat.sub_diag. reflexivity.
  - destruct (Nat.lt_ge_cases i (length (s_heap s))).
    + rewrite nth_error_app1 by lia. reflexivity.
    + rewrite nth_error_app2 by lia. rewrite (proj2 (nth_error_None (s_heap s) i)) by lia.
      destruct (i - length (s_heap s)) eqn:E; [lia|]. simpl. destruct n0; reflexivity.
Qed.

Lemma lookup_set s i x o j :
  lookup s i = Some x ->
  lookup (with_heap s (list_set (s_heap s) i (Some o))) j = if Nat.eqb i j then Some o else lookup s j.
Proof.
  unfold lookup. simpl. rewrite nth_list_set. intros H.
  destruct (Nat.eqb_spec i j); auto. subst. destruct (nth_error (s_heap s) j); [reflexivity|discriminate].
Qed.

(** ** Reference counting *)

Lemma refs_in_heap h i o r : nth_error h i = Some (Some o) -> In r (refs (o_pay o)) -> In r (heap_refs h).
Proof.
  unfold heap_refs. intros H I. rewrite in_flat_map. exists (Some o). split; auto.
  eapply nth_error_In; eauto.
Qed.

Lemma heap_refs_in h r : In r (heap_refs h) -> exists i o, nth_error h i = Some (Some o) /\ In r (refs (o_pay o)).
Proof.
  unfold heap_refs. rewrite in_flat_map. intros ([o|] & H & I); [|destruct I].
  apply In_nth_error in H. destruct H as (i & H). eauto.
Qed.

Lemma nth_sweep held k h i :
  nth_error (sweep_ held k h) i =
  match nth_error h i with
  | Some o => Some (if memb (k + i) held then o else None)
  | None => None
  end.
Proof.
  revert k i. induction h; intros k [|i]; simpl; auto.
  - rewrite Nat.add_0_r. reflexivity.
  - rewrite IHh. replace (S k + i) with (k + S i) by lia. reflexivity.
Qed.

Lemma sweep_length held k h : length (sweep_ held k h) = length h.
Proof. revert k. induction h; simpl; auto. Qed.

(** The objects with a non-zero use count. *)
Definition held (s : st) : list oid := roots s ++ heap_refs (s_heap s).

Lemma lookup_sweep s i : lookup (sweep s) i = if memb i (held s) then lookup s i else None.
Proof.
  unfold lookup, sweep. simpl. rewrite nth_sweep. fold (held s). simpl.
  destruct (nth_error (s_heap s) i) as [[o|]|], (memb i (held s)); reflexivity.
Qed.

Lemma roots_sweep s : roots (sweep s) = roots s.
Proof. reflexivity. Qed.

(** what [collect] does not change *)
Definition same_but_heap (a b : st) : Prop :=
  s_globals a = s_globals b /\ s_classes a = s_classes b /\ s_ns a = s_ns b /\ s_types a = s_types b
  /\ s_envs a = s_envs b /\ s_nextenv a = s_nextenv b /\ s_ext a = s_ext b /\ s_tmp a = s_tmp b
  /\ length (s_heap a) = length (s_heap b).

Lemma same_but_heap_refl a : same_but_heap a a.
Proof. repeat split. Qed.
Lemma same_but_heap_trans a b c : same_but_heap a b -> same_but_heap b c -> same_but_heap a c.
Proof. unfold same_but_heap. intuition congruence. Qed.
Lemma sweep_same s : same_but_heap s (sweep s).
Proof. unfold same_but_heap. cbn. repeat split. symmetry. apply sweep_length. Qed.
Lemma iter_same n s : same_but_heap s (iter n sweep s).
Proof.
  revert s. induction n; intros s; simpl; [apply same_but_heap_refl|].
  eapply same_but_heap_trans; [apply sweep_same|apply IHn].
Qed.
Lemma collect_same s : same_but_heap s (collect s).
Proof. apply iter_same. Qed.
Lemma same_roots a b : same_but_heap a b -> roots a = roots b.
Proof.
  intros (A & B & C & D & E & F & H & I & _). unfold roots. rewrite A, B, C, D, E, H, I. reflexivity.
Qed.
Lemma roots_collect s : roots (collect s) = roots s.
Proof. symmetry. apply same_roots, collect_same. Qed.

(** Objects that survive are unchanged. *)
Lemma iter_sub n s i o : lookup (iter n sweep s) i = Some o -> lookup s i = Some o.
Proof.
  revert s. induction n; simpl; auto. intros s H. apply IHn in H.
  rewrite lookup_sweep in H. destruct (memb i (held s)); [auto|discriminate].
Qed.
Lemma collect_sub s i o : lookup (collect s) i = Some o -> lookup s i = Some o.
Proof. apply iter_sub. Qed.

(** Reachability from the roots through strong references. *)
Inductive reach (s : st) : oid -> Prop :=
| reach_root i : In i (roots s) -> reach s i
| reach_ref i j o : reach s j -> lookup s j = Some o -> In i (refs (o_pay o)) -> reach s i.

Lemma reach_held s i : reach s i -> In i (held s).
Proof.
  unfold held. intros H. rewrite in_app_iff. destruct H; auto. right.
  unfold lookup in H0. destruct (nth_error (s_heap s) j) as [[x|]|] eqn:E; try discriminate.
  inversion H0; subst. eapply refs_in_heap; eauto.
Qed.

Lemma reach_sweep s i : reach s i -> reach (sweep s) i.
Proof.
  induction 1.
  - constructor. auto.
  - eapply reach_ref; eauto. rewrite lookup_sweep.
    rewrite (proj2 (memb_In _ _)); auto. apply reach_held. auto.
Qed.

(** Reachable objects survive unchanged. *)
Lemma iter_reach n s i : reach s i -> lookup (iter n sweep s) i = lookup s i.
Proof.
  revert s. induction n; simpl; auto. intros s H. rewrite IHn by (apply reach_sweep; auto).
  rewrite lookup_sweep. rewrite (proj2 (memb_In _ _)); auto. apply reach_held. auto.
Qed.
Lemma collect_reach s i : reach s i -> lookup (collect s) i = lookup s i.
Proof. apply iter_reach. Qed.

Lemma reach_collect s i : reach s i -> reach (collect s) i.
Proof.
  unfold collect. generalize (length (s_heap s)) as n. intros n. revert s.
  induction n; simpl; auto. intros s H. apply IHn. apply reach_sweep. auto.
Qed.

(** [collect] stops only when every remaining object is referenced. *)
Fixpoint alive (h : list (option obj)) : nat :=
  match h with [] => 0 | Some _ :: r => S (alive r) | None :: r => alive r end.

Lemma alive_le h : alive h <= length h.
Proof. induction h as [|[o|] h IH]; simpl; lia. Qed.

Lemma alive_sweep hd k h : alive (sweep_ hd k h) <= alive h.
Proof.
  revert k. induction h as [|[o|] h IH]; intros k; simpl; auto.
  - specialize (IH (S k)). destruct (memb k hd); simpl; lia.
  - specialize (IH (S k)). destruct (memb k hd); simpl; lia.
Qed.

Lemma alive_sweep_eq hd k h : alive (sweep_ hd k h) = alive h -> sweep_ hd k h = h.
Proof.
  revert k. induction h as [|[o|] h IH]; intros k; simpl; auto.
  - pose proof (alive_sweep hd (S k) h). destruct (memb k hd); simpl; intros E.
    + f_equal. apply IH. lia.
    + lia.
  - destruct (memb k hd); simpl; intros E; f_equal; apply IH; auto.
Qed.

Lemma sweep_fix_or_less s : sweep s = s \/ alive (s_heap (sweep s)) < alive (s_heap s).
Proof.
  pose proof (alive_sweep (held s) 0 (s_heap s)).
  destruct (Nat.eq_dec (alive (sweep_ (held s) 0 (s_heap s))) (alive (s_heap s))).
  - left. apply alive_sweep_eq in e. unfold sweep. unfold held in e. rewrite e. destruct s; reflexivity.
  - right. unfold sweep. cbn. fold (held s). lia.
Qed.

Lemma iter_fix n s : sweep s = s -> iter n sweep s = s.
Proof. intros H. induction n; simpl; auto. rewrite H. auto. Qed.

Lemma iter_fixpoint n s : alive (s_heap s) <= n -> sweep (iter n sweep s) = iter n sweep s.
Proof.
  revert s. induction n; intros s H; simpl.
  - destruct (sweep_fix_or_less s); auto. lia.
  - destruct (sweep_fix_or_less s) as [E|L].
    + rewrite E. rewrite iter_fix; auto.
    + apply IHn. lia.
Qed.

Lemma collect_fix s : sweep (collect s) = collect s.
Proof. apply iter_fixpoint. apply alive_le. Qed.

Lemma collect_idem s : collect (collect s) = collect s.
Proof. unfold collect at 1. apply iter_fix, collect_fix. Qed.

(** Survivors are referenced by a root or by a survivor. *)
Lemma collect_held s i o : lookup (collect s) i = Some o ->
  In i (roots s) \/ exists j p, lookup (collect s) j = Some p /\ In i (refs (o_pay p)).
Proof.
  intros H. pose proof (collect_fix s) as F. rewrite <- F in H. rewrite lookup_sweep in H.
  destruct (memb i (held (collect s))) eqn:E; [|discriminate].
  apply memb_In in E. unfold held in E. rewrite in_app_iff in E. destruct E as [E|E].
  - left. rewrite roots_collect in E. auto.
  - right. apply heap_refs_in in E. destruct E as (j & p & E & I). exists j, p. split; auto.
    unfold lookup. rewrite E. reflexivity.
Qed.

(** In a heap without cycles, exactly the reachable objects survive. *)
Definition acyclic (s : st) : Prop :=
  exists rank : oid -> nat, forall i o j, lookup s i = Some o -> In j (refs (o_pay o)) -> rank j < rank i.

Lemma collect_acyclic s i : acyclic s -> live (collect s) i = true -> reach s i.
Proof.
  intros (rank & R) L. apply live_lookup in L. destruct L as (o & L).
  (* induction on how far below the maximal rank the object is *)
  assert (B : exists b, forall j p, lookup s j = Some p -> rank j <= b).
  { assert (forall n, exists b, forall j p, j < n -> lookup s j = Some p -> rank j <= b) as H.
    { induction n as [|n (b & IH)]; [exists 0; intros; lia|].
      exists (max b (rank n)). intros j p Hj Hl. destruct (Nat.eq_dec j n).
      - subst. lia.
      - specialize (IH j p). assert (j < n) by lia. specialize (IH H Hl). lia. }
    destruct (H (length (s_heap s))) as (b & Hb). exists b. intros j p Hl.
    eapply Hb; eauto. eapply lookup_lt; eauto. }
  destruct B as (b & B).
  remember (b - rank i) as m eqn:Em. revert i o L Em. induction m as [m IH] using lt_wf_ind.
  intros i o L Em. destruct (collect_held _ _ L) as [Hr|(j & p & Hj & Hi)].
  - constructor. auto.
  - pose proof (collect_sub _ _ Hj) as Hj'. pose proof (R _ _ _ Hj' Hi).
    pose proof (B _ _ Hj'). eapply reach_ref; eauto.
    eapply (IH (b - rank j)); eauto. lia.
Qed.
