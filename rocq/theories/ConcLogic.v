(** Reasoning about interleaved threads: a lock discipline for programs and what it implies (races, deadlocks, termination), and
    assertions that other threads respect. *)
From Verif Require Import Base BaseProofs VmState VmModel VmBase ConcModel.
Set Implicit Arguments.
Unset Strict Implicit.

Lemma opt_eqb_spec a b : reflect (a = b) (opt_eqb a b).
Proof. destruct a as [a|], b as [b|]; cbn; try (constructor; congruence). destruct (Nat.eqb_spec a b); constructor; congruence. Qed.
Lemma list_set_get A (l : list A) i j x : nth_error (list_set l i x) j = if Nat.eqb j i then match nth_error l j with Some _ => Some x | None => None end else nth_error l j.
Proof. rewrite nth_list_set, Nat.eqb_sym. reflexivity. Qed.

(** ** Programs that follow a discipline: [A H m] must hold when mutex [m] is taken while [H] are held, [P H x u] when [x] is accessed
    ([u]: the update, None for reading); all mutexes are released in the end.  Continuations may use the invariant [J]. *)
Definition drop (m : lock) (H : list lock) : list lock := remove lock_eq_dec m H.
Inductive disc (J : shared -> Prop) (A : list lock -> lock -> Prop) (P : list lock -> loc -> option (shared -> shared) -> Prop) : list lock -> prog -> Prop :=
| dc_done r : disc J A P [] (Done r)
| dc_acq H m k : A H m -> disc J A P (m :: H) k -> disc J A P H (Acq m k)
| dc_rel H m k : In m H -> disc J A P (drop m H) k -> disc J A P H (Rel m k)
| dc_rd H x f : P H x None -> (forall s, J s -> disc J A P H (f s)) -> disc J A P H (Rd x f)
| dc_wr H x u f : P H x (Some u) -> (forall s, J s -> disc J A P H (f s)) -> disc J A P H (Wr x u f).

Definition holds (C : conf) (t : nat) (H : list lock) : Prop := forall m, In m H <-> own C m = Some t.
Definition done_in (C : conf) (t : nat) (c : call) (r : option nat) : Prop := exists x, nth_error (thrs C) t = Some x /\ In (c, r) (t_done x).
Section Logic.
Variable G : ccfg.
Variable height : nat -> nat.
Notation cstep := (cstep G height).
Notation crun := (crun G height).
Notation prog_of := (prog_of G height).

Definition any_state (s : shared) : Prop := True.
Section Disc.
Notation J := any_state.
Variable A : list lock -> lock -> Prop.
Variable P : list lock -> loc -> option (shared -> shared) -> Prop.
(** What is said about the calls to come *)
Definition todo_ok (Ok : call -> Prop) (C : conf) : Prop := forall t x, nth_error (thrs C) t = Some x -> Forall Ok (t_todo x).
Definition thread_disc (C : conf) (t : nat) (x : thread) : Prop :=
  match t_cur x with
  | None => forall m, own C m <> Some t
  | Some (_, p) => exists H, holds C t H /\ disc J A P H p
  end.
Definition owned (C : conf) : Prop := forall m t, own C m = Some t -> exists x, nth_error (thrs C) t = Some x.
Definition disciplined (C : conf) : Prop := owned C /\ forall t x, nth_error (thrs C) t = Some x -> thread_disc C t x.
Definition good_call (c : call) : Prop := disc J A P [] (prog_of c).

Lemma disc_init s calls : disciplined (cinit s calls) /\ (forall Ok, (forall l, In l calls -> Forall Ok l) -> todo_ok Ok (cinit s calls)).
Proof.
  split; [split; [intros m t H; discriminate|]|].
  - intros t x H. unfold cinit in H. cbn in H. rewrite nth_error_map in H. destruct (nth_error calls t); [|discriminate]. injection H as <-. intros m Q. discriminate.
  - intros Ok H t x Q. unfold cinit in Q. cbn in Q. rewrite nth_error_map in Q. destruct (nth_error calls t) eqn:E; [|discriminate]. injection Q as <-. cbn. apply H. eapply nth_error_In; eauto.
Qed.
Lemma todo_step Ok t C D : todo_ok Ok C -> cstep t C = Some D -> todo_ok Ok D.
Proof.
  intros T E u y Hy. unfold ConcModel.cstep in E. destruct (nth_error (thrs C) t) as [x|] eqn:Ex; [|discriminate].
  assert (forall s o z, D = mkConf s o (set_thr (thrs C) t z) -> (forall c, In c (t_todo z) -> In c (t_todo x)) -> Forall Ok (t_todo y)) as K.
  { intros s o z -> Hz. unfold set_thr in Hy. cbn in Hy. rewrite list_set_get in Hy. destruct (Nat.eqb_spec u t) as [->|]; [|eapply T; eauto].
    rewrite Ex in Hy. injection Hy as <-. apply Forall_forall. intros c Hc. eapply Forall_forall; [exact (T t x Ex)|auto]. }
  destruct (t_cur x) as [[c p]|].
  - destruct p; try (injection E as <-; eapply K; [reflexivity|cbn; auto]).
    + destruct (own C m); [discriminate|]. injection E as <-. eapply K; [reflexivity|cbn; auto].
    + destruct (opt_eqb _ _); [|discriminate]. injection E as <-. eapply K; [reflexivity|cbn; auto].
  - destruct (t_todo x) as [|c r] eqn:Et; [discriminate|]. injection E as <-. eapply K; [reflexivity|cbn; auto].
Qed.
Lemma holds_other C t u H o m : holds C t H -> t <> u -> own C m <> Some t -> o <> Some t -> forall s l, holds (mkConf s (set_own (own C) m o) l) t H.
Proof.
  intros Hh Ne Om Oo s l n. cbn. unfold set_own. destruct (lock_eq_dec n m) as [->|]; [|apply Hh]. split; [intros Q; apply Hh in Q; contradiction|contradiction].
Qed.
Lemma disc_step t C D : disciplined C -> todo_ok good_call C -> cstep t C = Some D -> disciplined D.
Proof.
  intros [Ow Di] T E. unfold ConcModel.cstep in E. destruct (nth_error (thrs C) t) as [x|] eqn:Ex; [|discriminate]. pose proof (Di t x Ex) as Dx. unfold thread_disc in Dx.
  assert (forall s o z, D = mkConf s o (set_thr (thrs C) t z) -> thread_disc D t z -> (forall m, o m = own C m \/ (own C m = None /\ o m = Some t) \/ (own C m = Some t /\ o m = None)) -> disciplined D) as K.
  { intros s o z -> Hz Ho. split.
    - intros m u Hm. cbn in *. unfold set_thr. rewrite list_set_get. assert (exists y, nth_error (thrs C) u = Some y) as (y & Hy).
      { destruct (Ho m) as [Q|[[_ Q]|[_ Q]]]; rewrite Q in Hm; [eapply Ow; eauto|injection Hm as <-; eauto|discriminate]. }
      rewrite Hy. destruct (Nat.eqb u t); eauto.
    - intros u y Hy. cbn in Hy. unfold set_thr in Hy. rewrite list_set_get in Hy. destruct (Nat.eqb_spec u t) as [->|Ne].
      + rewrite Ex in Hy. injection Hy as <-. exact Hz.
      + pose proof (Di u y Hy) as Du. unfold thread_disc in *. cbn.
        assert (forall m, o m = Some u <-> own C m = Some u) as Q by (intros m; destruct (Ho m) as [Q|[[Q1 Q2]|[Q1 Q2]]]; rewrite ?Q, ?Q1, ?Q2; try tauto; split; congruence).
        destruct (t_cur y) as [[c p]|]; [|intros m Hm; apply Q in Hm; exact (Du m Hm)]. destruct Du as (H & Hh & Hd). exists H. split; [|exact Hd]. intros m. cbn. rewrite Q. apply Hh. }
  destruct (t_cur x) as [[c p]|] eqn:Ec.
  - destruct Dx as (H & Hh & Hd). destruct p as [r|m k|m k|l f|l u f].
    + injection E as <-. eapply K; [reflexivity| |auto]. inversion Hd; subst. intros m Hm. apply Hh in Hm. destruct Hm.
    + destruct (own C m) eqn:Om; [discriminate|]. injection E as <-. inversion Hd; subst. eapply K; [reflexivity| |].
      * exists (m :: H). cbn. split; [|assumption]. intros n. cbn. unfold set_own. destruct (lock_eq_dec n m) as [->|Nm]; [tauto|]. split; [intros [Q|Q]; [congruence|apply Hh; exact Q]|intros Q; right; apply Hh; exact Q].
      * intros n. unfold set_own. destruct (lock_eq_dec n m) as [->|]; auto.
    + destruct (opt_eqb_spec (own C m) (Some t)) as [Om|]; [|discriminate]. injection E as <-. inversion Hd; subst. eapply K; [reflexivity| |].
      * exists (drop m H). cbn. split; [|assumption]. intros n. cbn. unfold set_own, drop. destruct (lock_eq_dec n m) as [->|Nm].
        -- split; [intros Q; apply remove_In in Q; destruct Q|discriminate].
        -- split; [intros Q; apply in_remove in Q; apply Hh; tauto|intros Q; apply in_in_remove; [auto|apply Hh; exact Q]].
      * intros n. unfold set_own. destruct (lock_eq_dec n m) as [->|]; auto.
    + injection E as <-. inversion Hd; subst. eapply K; [reflexivity| |auto]. exists H. cbn. split; [exact Hh|]. match goal with X : forall s, any_state s -> _ |- _ => apply X; exact I end.
    + injection E as <-. inversion Hd; subst. eapply K; [reflexivity| |auto]. exists H. cbn. split; [exact Hh|]. match goal with X : forall s, any_state s -> _ |- _ => apply X; exact I end.
  - destruct (t_todo x) as [|c r] eqn:Et; [discriminate|]. injection E as <-. eapply K; [reflexivity| |auto]. exists []. cbn. split.
    + intros m. cbn. split; [intros []|intros Q; destruct (Dx m Q)].
    + pose proof (T t x Ex) as Ft. rewrite Et in Ft. inversion Ft; subst. assumption.
Qed.
Lemma disc_run l C D : disciplined C -> todo_ok good_call C -> crun l C = Some D -> disciplined D /\ todo_ok good_call D.
Proof.
  revert C; induction l as [|t l IH]; intros C Di T E; simpl in E; [injection E as <-; auto|]. destruct (cstep t C) as [C1|] eqn:E1; [|discriminate].
  eapply IH; [eapply disc_step; eauto|eapply todo_step; eauto|exact E].
Qed.
End Disc.

(** ** Races *)
(** Two threads are about to access the same data, one of them writing. *)
Definition race (C : conf) (x : loc) : Prop := exists t u y z c d p q w v, t <> u /\ nth_error (thrs C) t = Some y /\ nth_error (thrs C) u = Some z /\
  t_cur y = Some (c, p) /\ t_cur z = Some (d, q) /\ accesses p = Some (x, w) /\ accesses q = Some (x, v) /\ (w = true \/ v = true).
(** Accesses to [x] happen with mutex [m] *)
Definition guarded (x : loc) (m : lock) (H : list lock) (y : loc) (u : option (shared -> shared)) : Prop := y = x -> In m H.
Theorem guarded_no_race A x m C : disciplined A (guarded x m) C -> ~ race C x.
Proof.
  intros [_ Di] (t & u & y & z & c & d & p & q & w & v & Ne & Hy & Hz & Cy & Cz & Ap & Aq & _).
  pose proof (Di t y Hy) as Dt. pose proof (Di u z Hz) as Du. unfold thread_disc in *. rewrite Cy in Dt. rewrite Cz in Du. destruct Dt as (H1 & Hh1 & D1). destruct Du as (H2 & Hh2 & D2).
  assert (forall H r a, disc any_state A (guarded x m) H r -> accesses r = Some (x, a) -> In m H) as K by (intros H r a D Q; destruct D; try discriminate; injection Q as -> _; auto).
  pose proof (proj1 (Hh1 m) (K _ _ _ D1 Ap)) as E1. pose proof (proj1 (Hh2 m) (K _ _ _ D2 Aq)) as E2. congruence.
Qed.

(** ** Deadlocks *)
Definition unfinished (x : thread) : Prop := t_cur x <> None \/ t_todo x <> [].
Definition in_order (rank : lock -> nat) (H : list lock) (m : lock) : Prop := forall h, In h H -> rank m < rank h.
Definition anything (H : list lock) (x : loc) (u : option (shared -> shared)) : Prop := True.
Theorem no_deadlock rank C : disciplined (in_order rank) anything C -> (exists t x, nth_error (thrs C) t = Some x /\ unfinished x) -> exists t D, cstep t C = Some D.
Proof.
  intros [Ow Di] (t & x & Hx & U).
  assert (forall n t x c m k, nth_error (thrs C) t = Some x -> t_cur x = Some (c, Acq m k) -> rank m <= n -> exists t D, cstep t C = Some D) as K.
  { induction n as [n IH] using lt_wf_ind. intros t1 x1 c m k H1 E1 Le. destruct (own C m) as [t2|] eqn:Om.
    - destruct (Ow m t2 Om) as (x2 & H2). pose proof (Di t2 x2 H2) as D2. unfold thread_disc in D2. destruct (t_cur x2) as [[c2 p2]|] eqn:E2; [|destruct (D2 m Om)].
      destruct D2 as (H & Hh & Hd). destruct p2 as [r|m2 k2|m2 k2|l f|l u f].
      + exists t2. unfold ConcModel.cstep. rewrite H2, E2. eauto.
      + inversion Hd as [|? ? ? Ho|?|?|?]; subst. assert (rank m2 < rank m) as Lt by (apply Ho; apply Hh; exact Om). eapply (IH (rank m2)); [lia|exact H2|exact E2|lia].
      + exists t2. unfold ConcModel.cstep. rewrite H2, E2. inversion Hd as [| |? ? ? Hin| |]; subst. apply Hh in Hin. rewrite Hin. cbn. rewrite Nat.eqb_refl. eauto.
      + exists t2. unfold ConcModel.cstep. rewrite H2, E2. eauto.
      + exists t2. unfold ConcModel.cstep. rewrite H2, E2. eauto.
    - exists t1. unfold ConcModel.cstep. rewrite H1, E1, Om. eauto. }
  destruct (t_cur x) as [[c p]|] eqn:Ec.
  - destruct p as [r|m k|m k|l f|l u f]; try (exists t; unfold ConcModel.cstep; rewrite Hx, Ec; eauto; fail).
    + eapply K; eauto.
    + pose proof (Di t x Hx) as D2. unfold thread_disc in D2. rewrite Ec in D2. destruct D2 as (H & Hh & Hd). inversion Hd as [| |? ? ? Hin| |]; subst. apply Hh in Hin.
      exists t. unfold ConcModel.cstep. rewrite Hx, Ec, Hin. cbn. rewrite Nat.eqb_refl. eauto.
  - destruct U as [U|U]; [congruence|]. destruct (t_todo x) as [|d l] eqn:Et; [congruence|]. exists t. unfold ConcModel.cstep. rewrite Hx, Ec, Et. eauto.
Qed.

(** ** Termination: no thread can run forever. *)
Inductive after_prog : prog -> prog -> Prop :=
| af_acq m k : after_prog k (Acq m k)
| af_rel m k : after_prog k (Rel m k)
| af_rd x f s : after_prog (f s) (Rd x f)
| af_wr x u f s : after_prog (f s) (Wr x u f).
Lemma after_wf p : Acc after_prog p.
Proof. induction p; constructor; intros q Hq; inversion Hq; subst; auto. Qed.
Inductive after_thread : thread -> thread -> Prop :=
| at_start c r d : after_thread (mkThread (Some (c, prog_of c)) r d) (mkThread None (c :: r) d)
| at_done c v r d : after_thread (mkThread None r (d ++ [(c, v)])) (mkThread (Some (c, Done v)) r d)
| at_prog c p q r d : after_prog q p -> after_thread (mkThread (Some (c, q)) r d) (mkThread (Some (c, p)) r d).
Lemma thread_wf x : Acc after_thread x.
Proof.
  destruct x as [cur todo dn]. revert cur dn. induction todo as [|c r IH]; intros cur dn.
  - assert (forall d, Acc after_thread (mkThread None [] d)) as N by (intros d; constructor; intros y H; inversion H).
    destruct cur as [[c p]|]; [|apply N]. pose proof (after_wf p) as Ap. revert dn. induction Ap as [p _ IHp]. intros dn. constructor. intros y H. inversion H; subst; [apply N|apply IHp; assumption].
  - assert (forall d, Acc after_thread (mkThread None (c :: r) d)) as N by (intros d; constructor; intros y H; inversion H; subst; apply IH).
    destruct cur as [[c' p]|]; [|apply N]. pose proof (after_wf p) as Ap. revert dn. induction Ap as [p _ IHp]. intros dn. constructor. intros y H. inversion H; subst; [apply N|apply IHp; assumption].
Qed.
Inductive after_list : list thread -> list thread -> Prop :=
| al_head x y l : after_thread y x -> after_list (y :: l) (x :: l)
| al_tail x l m : after_list m l -> after_list (x :: m) (x :: l).
Lemma list_wf l : Acc after_list l.
Proof.
  induction l as [|x l IH]; [constructor; intros y H; inversion H|]. pose proof (thread_wf x) as Ax. revert x Ax. induction IH as [l Al IHl]. intros x Ax. induction Ax as [x Ax IHx].
  constructor. intros m H. inversion H; subst; [apply IHx; assumption|]. apply IHl; [assumption|]. apply thread_wf.
Qed.
Lemma after_set l t x y : nth_error l t = Some x -> after_thread y x -> after_list (list_set l t y) l.
Proof.
  revert t; induction l as [|z l IH]; intros [|t] H A; simpl in *; try discriminate.
  - injection H as ->. constructor. exact A.
  - constructor. auto.
Qed.
Definition after_conf (D C : conf) : Prop := exists t, cstep t C = Some D.
Lemma after_conf_list t C D : cstep t C = Some D -> after_list (thrs D) (thrs C).
Proof.
  intros E. unfold ConcModel.cstep in E. destruct (nth_error (thrs C) t) as [x|] eqn:Ex; [|discriminate]. destruct x as [cur todo dn]. cbn in E.
  destruct cur as [[c p]|].
  - destruct p as [r|m k|m k|l f|l u f].
    + injection E as <-. eapply after_set; [exact Ex|constructor].
    + destruct (own C m); [discriminate|]. injection E as <-. eapply after_set; [exact Ex|constructor; constructor].
    + destruct (opt_eqb _ _); [|discriminate]. injection E as <-. eapply after_set; [exact Ex|constructor; constructor].
    + injection E as <-. eapply after_set; [exact Ex|]. constructor. exact (@af_rd l f (sh C)).
    + injection E as <-. eapply after_set; [exact Ex|]. constructor. exact (@af_wr l u f (sh C)).
  - destruct todo as [|c r]; [discriminate|]. injection E as <-. eapply after_set; [exact Ex|constructor].
Qed.
Theorem terminates C : Acc after_conf C.
Proof.
  remember (thrs C) as l eqn:E. revert C E. pose proof (list_wf l) as Al. induction Al as [l _ IH]. intros C ->. constructor. intros D (t & H). eapply IH; [eapply after_conf_list; eauto|reflexivity].
Qed.

(** ** Assertions.  [Gt H s s']: a step that a thread holding [H] may make; others rely on it. *)
Section Rely.
Variable Gt : list lock -> shared -> shared -> Prop.
Definition disjoint (H H' : list lock) : Prop := forall m, In m H -> In m H' -> False.
Definition rely (H : list lock) (s s' : shared) : Prop := exists H', disjoint H H' /\ Gt H' s s'.
Definition stable (H : list lock) (L : shared -> Prop) : Prop := forall s s', L s -> rely H s s' -> L s'.
(** The program, started with [H] held and [L] true, only makes allowed steps and ends with a result for which [Q] holds. *)
Inductive safe (Q : option nat -> shared -> Prop) : list lock -> (shared -> Prop) -> prog -> Prop :=
| sf_done (L : shared -> Prop) r : (forall s, L s -> Q r s) -> safe Q [] L (Done r)
| sf_acq H (L : shared -> Prop) m k : safe Q (m :: H) L k -> safe Q H L (Acq m k)
| sf_rel H (L M : shared -> Prop) m k : In m H -> (forall s, L s -> M s) -> stable (drop m H) M -> safe Q (drop m H) M k -> safe Q H L (Rel m k)
| sf_rd H (L : shared -> Prop) x f : (forall s, L s -> exists M : shared -> Prop, M s /\ stable H M /\ safe Q H M (f s)) -> safe Q H L (Rd x f)
| sf_wr H (L : shared -> Prop) x u f : (forall s, L s -> Gt H s (u s) /\ exists M : shared -> Prop, M (u s) /\ stable H M /\ safe Q H M (f s)) -> safe Q H L (Wr x u f).
Variable Q : call -> option nat -> shared -> Prop.
Hypothesis Q_stable : forall c r, stable [] (Q c r).
Variable I : shared -> Prop.
Hypothesis I_stable : stable [] I.
Hypothesis I_keep : forall H s s', I s -> Gt H s s' -> I s'.
Definition safe_call (c : call) : Prop := safe (Q c) [] I (prog_of c).
Definition thread_safe (C : conf) (t : nat) (x : thread) : Prop :=
  Forall (fun d => Q (fst d) (snd d) (sh C)) (t_done x) /\
  match t_cur x with
  | None => forall m, own C m <> Some t
  | Some (c, p) => exists H L, holds C t H /\ L (sh C) /\ stable H L /\ safe (Q c) H L p
  end.
Definition all_safe (C : conf) : Prop := I (sh C) /\ forall t x, nth_error (thrs C) t = Some x -> thread_safe C t x.
Lemma safe_init s calls : I s -> all_safe (cinit s calls).
Proof.
  intros Hi. split; [exact Hi|]. intros t x H. unfold cinit in H. cbn in H. rewrite nth_error_map in H. destruct (nth_error calls t); [|discriminate]. injection H as <-.
  split; [constructor|]. intros m Qm. discriminate.
Qed.
Lemma stable_sub H H' L : (forall m, In m H -> In m H') -> stable H L -> stable H' L.
Proof. intros S St s s' Ls (K & D & Gs). apply (St s s' Ls). exists K. split; [|exact Gs]. intros m A B. apply (D m); auto. Qed.
Lemma safe_step t C D : all_safe C -> todo_ok safe_call C -> cstep t C = Some D -> all_safe D.
Proof.
  intros [Hi Sa] T E. unfold ConcModel.cstep in E. destruct (nth_error (thrs C) t) as [x|] eqn:Ex; [|discriminate]. destruct (Sa t x Ex) as [Fd Sx].
  assert (forall s o z, D = mkConf s o (set_thr (thrs C) t z) -> thread_safe D t z -> (forall m, o m = own C m \/ (own C m = None /\ o m = Some t) \/ (own C m = Some t /\ o m = None)) ->
     (s = sh C \/ exists H, holds C t H /\ Gt H (sh C) s) -> all_safe D) as K.
  { intros s o z -> Hz Ho Hs. split.
    { destruct Hs as [->|(H & _ & Gs)]; [exact Hi|eapply I_keep; eauto]. }
    intros u y Hy. cbn in Hy. unfold set_thr in Hy. rewrite list_set_get in Hy. destruct (Nat.eqb_spec u t) as [->|Ne].
    - rewrite Ex in Hy. injection Hy as <-. exact Hz.
    - destruct (Sa u y Hy) as [Fu Su]. split.
      + cbn. apply Forall_forall. intros [c r] Hc. eapply Forall_forall in Fu; [|exact Hc]. cbn in *. destruct Hs as [->|(H & _ & Gs)]; [exact Fu|]. eapply Q_stable; [exact Fu|].
        exists H. split; [intros m []|exact Gs].
      + cbn. assert (forall m, o m = Some u <-> own C m = Some u) as Qo by (intros m; destruct (Ho m) as [Qm|[[Q1 Q2]|[Q1 Q2]]]; rewrite ?Qm, ?Q1, ?Q2; try tauto; split; congruence).
        destruct (t_cur y) as [[c p]|]; [|intros m Hm; apply Qo in Hm; exact (Su m Hm)]. destruct Su as (H & L & Hh & Ls & St & Sf). exists H, L.
        split; [intros m; cbn; rewrite Qo; apply Hh|]. split; [|auto]. destruct Hs as [->|(H' & Hh' & Gs)]; [exact Ls|]. eapply St; [exact Ls|]. exists H'. split; [|exact Gs].
        intros m A B. apply Hh in A. apply Hh' in B. congruence. }
  destruct (t_cur x) as [[c p]|] eqn:Ec.
  - destruct Sx as (H & L & Hh & Ls & St & Sf). destruct p as [r|m k|m k|l f|l u f].
    + injection E as <-. eapply K; [reflexivity| |auto|auto]. inversion Sf; subst. split; [|intros m Hm; apply Hh in Hm; destruct Hm].
      cbn. apply Forall_app. split; [exact Fd|]. constructor; [|constructor]. cbn. auto.
    + destruct (own C m) eqn:Om; [discriminate|]. injection E as <-. inversion Sf; subst. eapply K; [reflexivity| | |auto].
      * split; [exact Fd|]. exists (m :: H), L. cbn. split; [|split; [exact Ls|split; [eapply stable_sub; [|exact St]; simpl; auto|assumption]]].
        intros n. cbn. unfold set_own. destruct (lock_eq_dec n m) as [->|Nm]; [tauto|]. split; [intros [X|X]; [congruence|apply Hh; exact X]|intros X; right; apply Hh; exact X].
      * intros n. unfold set_own. destruct (lock_eq_dec n m) as [->|]; auto.
    + destruct (opt_eqb_spec (own C m) (Some t)) as [Om|]; [|discriminate]. injection E as <-. inversion Sf; subst. eapply K; [reflexivity| | |auto].
      * split; [exact Fd|]. exists (drop m H), M. cbn. split; [|auto]. intros n. cbn. unfold set_own, drop. destruct (lock_eq_dec n m) as [->|Nm].
        -- split; [intros X; apply remove_In in X; destruct X|discriminate].
        -- split; [intros X; apply in_remove in X; apply Hh; tauto|intros X; apply in_in_remove; [auto|apply Hh; exact X]].
      * intros n. unfold set_own. destruct (lock_eq_dec n m) as [->|]; auto.
    + injection E as <-. inversion Sf as [| | |? ? ? ? Hf|]; subst. destruct (Hf _ Ls) as (M & Ms & Mst & Msf). eapply K; [reflexivity| |auto|auto].
      split; [exact Fd|]. exists H, M. cbn. auto.
    + injection E as <-. inversion Sf as [| | | |? ? ? ? ? Hf]; subst. destruct (Hf _ Ls) as (Gs & M & Ms & Mst & Msf). eapply K; [reflexivity| |auto|right; eauto].
      split; [|exists H, M; cbn; auto]. cbn. apply Forall_forall. intros [c' r'] Hc. eapply Forall_forall in Fd; [|exact Hc]. cbn in *. eapply Q_stable; [exact Fd|]. exists H. split; [intros m []|exact Gs].
  - destruct (t_todo x) as [|c r] eqn:Et; [discriminate|]. injection E as <-. eapply K; [reflexivity| |auto|auto]. split; [exact Fd|]. exists [], I. cbn. split.
    + intros m. cbn. split; [intros []|intros X; destruct (Sx m X)].
    + split; [exact Hi|]. split; [exact I_stable|]. pose proof (T t x Ex) as Ft. rewrite Et in Ft. inversion Ft; subst. assumption.
Qed.
Theorem safe_run l C D : all_safe C -> todo_ok safe_call C -> crun l C = Some D -> all_safe D.
Proof.
  revert C; induction l as [|t l IH]; intros C Sa T E; simpl in E; [injection E as <-; auto|]. destruct (cstep t C) as [C1|] eqn:E1; [|discriminate].
  eapply IH; [eapply safe_step; eauto|eapply todo_step; eauto|exact E].
Qed.
(** Programs that only make allowed steps, whatever the state *)
Definition permitted (J : shared -> Prop) (H : list lock) (x : loc) (u : option (shared -> shared)) : Prop := match u with None => True | Some u => forall s, J s -> Gt H s (u s) end.
Lemma disc_safe A (q : option nat -> shared -> Prop) H p : (forall r s, I s -> q r s) -> (forall K s s', I s -> Gt K s s' -> I s') -> disc I A (permitted I) H p -> safe q H I p.
Proof.
  intros Hq Hk D. assert (forall H, stable H I) as Hs by (intros H0; eapply stable_sub; [|exact I_stable]; intros m []).
  induction D as [r|H m k Am D IH|H m k Im D IH|H x f Px D IH|H x u f Px D IH].
  - constructor. intros s. apply Hq.
  - constructor. exact IH.
  - econstructor; [exact Im| |apply Hs|exact IH]. auto.
  - constructor. intros s Is. exists I. auto.
  - constructor. intros s Is. cbn in Px. split; [auto|]. exists I. split; [eapply Hk; eauto|auto].
Qed.
End Rely.
End Logic.
