(** Global references and environments under concurrent calls: proofs. *)
From Verif Require Import Base BaseProofs SigModel VmState VmModel ConcModel ConcLogic ConcSpec ConcDisc ConcReg ConcMem.
Set Implicit Arguments.
Unset Strict Implicit.

(** All writes of the program satisfy [P]. *)
Inductive quiet (P : (shared -> shared) -> Prop) : prog -> Prop :=
| qt_done r : quiet P (Done r)
| qt_acq m k : quiet P k -> quiet P (Acq m k)
| qt_rel m k : quiet P k -> quiet P (Rel m k)
| qt_rd x f : (forall s, quiet P (f s)) -> quiet P (Rd x f)
| qt_wr x u f : P u -> (forall s, quiet P (f s)) -> quiet P (Wr x u f).
Definition writes (P : (shared -> shared) -> Prop) (H : list lock) (x : loc) (u : option (shared -> shared)) : Prop := match u with None => True | Some u => P u end.
Lemma disc_quiet A P H p : disc any_state A (writes P) H p -> quiet P p.
Proof. intros D. induction D as [r|H m k Am D IH|H m k Im D IH|H x f Px D IH|H x u f Px D IH]; constructor; auto; intros s; apply IH; exact I. Qed.

Section Thr.
Variable G : ccfg.
Variable height : nat -> nat.
Hypothesis Hr : ranked G height.
Notation cstep := (cstep G height).
Notation prog_of := (prog_of G height).

Lemma quiet_call (P : (shared -> shared) -> Prop) k :
  (forall z, P (add_node z)) -> (forall T i, P (set_type T i)) -> (forall d y, P (add_field d y)) -> (forall d y, P (add_method d y)) ->
  (k = CNewGlobalRef \/ k = CNewWeakGlobalRef -> P new_global) -> (forall g, k = CDeleteGlobalRef g -> P (del_global g)) ->
  (forall t, k = CAttach t -> P (add_env t)) -> (forall t, k = CDetach t -> P (set_env t None)) -> (forall t, k = CCurrentEnv t -> P (set_env t (Some None))) ->
  (forall d y, P (add_native d y)) -> (forall d, k = CUnregisterNatives d -> P (drop_natives d)) -> quiet P (prog_of k).
Proof. intros. eapply disc_quiet with (H := []). apply disc_call; cbn [writes]; auto; intros; exact I. Qed.

(** One step, seen from the thread *)
Inductive tstep : thread -> shared -> thread -> shared -> Prop :=
| ts_start c r d s : tstep (mkThread None (c :: r) d) s (mkThread (Some (c, prog_of c)) r d) s
| ts_done c r td d s : tstep (mkThread (Some (c, Done r)) td d) s (mkThread None td (d ++ [(c, r)])) s
| ts_acq c m k td d s : tstep (mkThread (Some (c, Acq m k)) td d) s (mkThread (Some (c, k)) td d) s
| ts_rel c m k td d s : tstep (mkThread (Some (c, Rel m k)) td d) s (mkThread (Some (c, k)) td d) s
| ts_rd c x f td d s : tstep (mkThread (Some (c, Rd x f)) td d) s (mkThread (Some (c, f s)) td d) s
| ts_wr c x u f td d s : tstep (mkThread (Some (c, Wr x u f)) td d) s (mkThread (Some (c, f s)) td d) (u s).
Lemma cstep_inv t C D : cstep t C = Some D -> exists x y, nth_error (thrs C) t = Some x /\ thrs D = list_set (thrs C) t y /\ tstep x (sh C) y (sh D).
Proof.
  unfold ConcModel.cstep, set_thr. destruct (nth_error (thrs C) t) as [[cu td d]|]; [|discriminate]. intros E. exists (mkThread cu td d). cbn [t_cur t_todo t_done] in E.
  destruct cu as [[c p]|].
  - destruct p as [r|m k|m k|x f|x u f].
    + injection E as <-. eexists. split; [reflexivity|]. split; [reflexivity|]. constructor.
    + destruct (own C m); [discriminate|]. injection E as <-. eexists. split; [reflexivity|]. split; [reflexivity|]. constructor.
    + destruct (opt_eqb _ _); [|discriminate]. injection E as <-. eexists. split; [reflexivity|]. split; [reflexivity|]. constructor.
    + injection E as <-. eexists. split; [reflexivity|]. split; [reflexivity|]. constructor.
    + injection E as <-. eexists. split; [reflexivity|]. split; [reflexivity|]. constructor.
  - destruct td as [|c r]; [discriminate|]. injection E as <-. eexists. split; [reflexivity|]. split; [reflexivity|]. constructor.
Qed.
(** An invariant of every thread (which may know its number) and of the state *)
Lemma run_inv (T : nat -> thread -> shared -> Prop) (J : conf -> Prop) l C D :
  (forall t x s y s', T t x s -> tstep x s y s' -> T t y s') ->
  (forall t u x z s y s', T t x s -> T u z s -> t <> u -> tstep x s y s' -> T u z s') ->
  (forall t C D x y, J C -> (forall t x, nth_error (thrs C) t = Some x -> T t x (sh C)) -> nth_error (thrs C) t = Some x -> thrs D = list_set (thrs C) t y -> tstep x (sh C) y (sh D) -> J D) ->
  J C -> (forall t x, nth_error (thrs C) t = Some x -> T t x (sh C)) -> crun G height l C = Some D -> J D /\ forall t x, nth_error (thrs D) t = Some x -> T t x (sh D).
Proof.
  intros H1 H2 H3. revert C. induction l as [|t l IH]; intros C Jc Tc E; simpl in E; [injection E as <-; auto|]. destruct (cstep t C) as [C1|] eqn:E1; [|discriminate].
  apply cstep_inv in E1. destruct E1 as (x & y & Hx & Hl & Ts). eapply IH; [|intros u z Hz|exact E].
  - eapply H3; eauto.
  - rewrite Hl, list_set_get in Hz. destruct (Nat.eqb_spec u t) as [->|Ne].
    + rewrite Hx in Hz. injection Hz as <-. eapply H1; eauto.
    + eapply H2; [exact (Tc t x Hx)|eauto|congruence|exact Ts].
Qed.

(** *** States *)
Lemma state_inv (K : shared -> Prop) s calls D : (forall k, quiet (fun u => forall s, K s -> K (u s)) (prog_of k)) -> K s -> reaches G height s calls D -> K (sh D).
Proof.
  intros Hq Hs (l & E). set (P := fun u : shared -> shared => forall s, K s -> K (u s)) in *.
  destruct (run_inv (T := fun _ x _ => match t_cur x with Some (_, p) => quiet P p | None => True end) (J := fun C => K (sh C))) with (l := l) (C := cinit s calls) (D := D) as [Q _]; auto.
  - intros t x u y u' Tx Ts. destruct Ts; cbn in *; auto; inversion Tx; subst; auto.
  - intros t C E' x y Jc Tc Hx _ Ts. specialize (Tc t x Hx). destruct Ts; cbn in *; try assumption. inversion Tc; subst. auto.
  - intros t x Hx. cbn in Hx. rewrite nth_error_map in Hx. destruct (nth_error calls t); [|discriminate]. injection Hx as <-. exact I.
Qed.
Lemma state_inv_in (Ok : call -> Prop) (K : shared -> Prop) s calls D : (forall k, Ok k -> quiet (fun u => forall s, K s -> K (u s)) (prog_of k)) -> every Ok calls -> K s -> reaches G height s calls D -> K (sh D).
Proof.
  intros Hq He Hs (l & E). set (P := fun u : shared -> shared => forall s, K s -> K (u s)) in *.
  destruct (run_inv (T := fun _ x _ => (forall k, In k (t_todo x) -> Ok k) /\ match t_cur x with Some (_, p) => quiet P p | None => True end) (J := fun C => K (sh C))) with (l := l) (C := cinit s calls) (D := D) as [Q _]; auto.
  - intros t x u y u' [Td Tx] Ts. destruct Ts; cbn [t_todo t_cur] in *; (split; [intros; apply Td; simpl; auto|]); auto; try (inversion Tx; subst; auto; fail). apply Hq. apply Td. left. reflexivity.
  - intros t C E' x y Jc Tc Hx _ Ts. destruct (Tc t x Hx) as [_ Tx]. destruct Ts; cbn in *; try assumption. inversion Tx; subst. auto.
  - intros t x Hx. cbn in Hx. rewrite nth_error_map in Hx. destruct (nth_error calls t) as [lc|] eqn:El; [|discriminate]. injection Hx as <-. split; [|exact I]. intros k Hk. eapply He; [eapply nth_error_In; exact El|exact Hk].
Qed.
Lemma without_in g l i : In i (without g l) -> In i l.
Proof. induction l as [|a l IH]; cbn; [auto|]. destruct (Nat.eqb a g); [auto|]. intros [->|H]; auto. Qed.
Lemma without_nodup g l : NoDup l -> NoDup (without g l).
Proof. induction l as [|a l IH]; cbn; [auto|]. intros Nd. inversion Nd; subst. destruct (Nat.eqb a g); [assumption|]. constructor; [|auto]. intros Q. apply without_in in Q. contradiction. Qed.
Lemma nodup_snoc (l : list nat) i : NoDup l -> ~ In i l -> NoDup (l ++ [i]).
Proof. intros H N. apply NoDup_rev in H. rewrite <- (rev_involutive (l ++ [i])). apply NoDup_rev. rewrite rev_app_distr. cbn. constructor; [rewrite <- in_rev; exact N|exact H]. Qed.
Lemma tidy_refs_all s calls D : tidy_refs s -> reaches G height s calls D -> tidy_refs (sh D).
Proof.
  intros Ht Re. eapply state_inv; [|exact Ht|exact Re]. clear - Hr. assert (forall s s', globals s' = globals s -> next s <= next s' -> tidy_refs s -> tidy_refs s') as K.
  { intros s s' E L [A B]. split; rewrite E; [exact A|]. intros i Hi. apply B in Hi. lia. }
  intros k. apply quiet_call; try (intros; eapply K; [| |eassumption]; [reflexivity|cbn; lia]).
  - intros _ s [A B]. split; cbn.
    + apply nodup_snoc; [exact A|]. intros Q. apply B in Q. lia.
    + intros i Hi. apply in_app_or in Hi. destruct Hi as [Hi|[<-|[]]]; [apply B in Hi|]; lia.
  - intros g _ s [A B]. split; cbn; [apply without_nodup; exact A|]. intros i Hi. apply without_in in Hi. auto.
Qed.
Lemma tidy_envs_all s calls D : tidy_envs s -> reaches G height s calls D -> tidy_envs (sh D).
Proof.
  intros Ht Re. eapply state_inv; [|exact Ht|exact Re]. clear - Hr. assert (forall s s', envs s' = envs s -> next s <= next s' -> tidy_envs s -> tidy_envs s') as K.
  { intros s s' E L [A B]. split; rewrite E; [|exact B]. intros t e He. apply A in He. lia. }
  intros k. apply quiet_call; try (intros; eapply K; [| |eassumption]; [reflexivity|cbn; lia]).
  - intros t _ s [E F]. split; cbn; unfold upd.
    + intros u e He. destruct (Nat.eqb u t); [injection He as <-; lia|]. apply E in He. lia.
    + intros u v e Hu Hv. destruct (Nat.eqb_spec u t) as [->|], (Nat.eqb_spec v t) as [->|]; auto.
      * injection Hu as <-. apply E in Hv. lia.
      * injection Hv as <-. apply E in Hu. lia.
      * eapply F; eauto.
  - intros t _ s [E F]. split; cbn; unfold upd.
    + intros u e He. destruct (Nat.eqb u t); [discriminate|eauto].
    + intros u v e Hu Hv. destruct (Nat.eqb_spec u t) as [->|], (Nat.eqb_spec v t) as [->|]; try discriminate. eapply F; eauto.
  - intros t _ s [E F]. split; cbn; unfold upd.
    + intros u e He. destruct (Nat.eqb u t); [discriminate|eauto].
    + intros u v e Hu Hv. destruct (Nat.eqb_spec u t) as [->|], (Nat.eqb_spec v t) as [->|]; try discriminate. eapply F; eauto.
Qed.

(** *** Global references *)
Section Count.
Variable i : nat.
Notation occ := (occurs i).
Lemma occ_app l m : occ (l ++ m) = occ l + occ m.
Proof. apply count_occ_app. Qed.
Definition keeps (u : shared -> shared) : Prop := forall s, occ (globals (u s)) = occ (globals s).
(** NewGlobalRef before the handle is made *)
Inductive pre : prog -> Prop :=
| pr_rd x f : (forall s, pre (f s)) -> pre (Rd x f)
| pr_wr x u f : keeps u -> (forall s, pre (f s)) -> pre (Wr x u f)
| pr_acq m k : pre k -> pre (Acq m k)
| pr_new : pre (Wr XGlobals new_global (fun s => Rel LVm (Done (Some (next s))))).
Definition pend (c : call) (p : prog) : list nat := if makes_ref c then match p with Rel _ (Done (Some n)) | Done (Some n) => [n] | _ => [] end else [].
Definition has (x : thread) : list nat := refs_of (t_done x) ++ match t_cur x with Some (c, p) => pend c p | None => [] end.
Definition goes (x : thread) : Prop := ~ In (CDeleteGlobalRef i) (t_todo x) /\
  match t_cur x with
  | Some (c, p) => if makes_ref c then pre p \/ exists n, p = Rel LVm (Done (Some n)) \/ p = Done (Some n) else quiet keeps p
  | None => True
  end.
Lemma pre_walk k path : (forall r, pre (k r)) -> forall cur, pre (walk false cur path k).
Proof.
  intros Hk. induction path as [|[w n] r IH]; intros cur; cbn [walk]; [apply Hk|]. constructor. intros s. destruct (child (reg s) _); [apply IH|].
  constructor; [intros s'; reflexivity|]. intros s'. apply IH.
Qed.
Lemma pre_new c : makes_ref c = true -> pre (prog_of c).
Proof. destruct c; try discriminate; intros _; cbn; unfold NewGlobalRef, NewWeakGlobalRef, NewRef, InternalFindClass; apply pre_walk; intros r; apply pr_acq; apply pr_new. Qed.
Lemma occ_without_other g l : g <> i -> occ (without g l) = occ l.
Proof.
  intros N. unfold occurs. induction l as [|a l IH]; cbn; [reflexivity|]. destruct (Nat.eqb_spec a g) as [->|]; cbn; [destruct (Nat.eq_dec g i); [congruence|reflexivity]|].
  rewrite IH. reflexivity.
Qed.
Lemma quiet_keeps c : makes_ref c = false -> c <> CDeleteGlobalRef i -> quiet keeps (prog_of c).
Proof.
  intros Hm Hd. apply quiet_call; try (intros; intros s; reflexivity).
  - intros [->| ->]; discriminate.
  - intros g -> s. cbn. apply occ_without_other. intros ->. auto.
Qed.
Lemma pre_pend c p : pre p -> pend c p = [].
Proof. intros H. unfold pend. destruct (makes_ref c); [|reflexivity]. destruct H; reflexivity. Qed.
Lemma goes_step x s y s' : goes x -> tstep x s y s' -> goes y.
Proof.
  intros [Hd Hc] Ts. destruct Ts; cbn in *.
  - split; [intros Q; apply Hd; right; exact Q|]. cbn. destruct (makes_ref c) eqn:Em; [left; apply pre_new; exact Em|]. apply quiet_keeps; [exact Em|]. intros ->. apply Hd. left. reflexivity.
  - split; [exact Hd|exact I].
  - split; [exact Hd|]. cbn. destruct (makes_ref c); [|inversion Hc; assumption]. destruct Hc as [H|(n & [H|H])]; [|discriminate..]. left. inversion H; assumption.
  - split; [exact Hd|]. cbn. destruct (makes_ref c); [|inversion Hc; assumption]. destruct Hc as [H|(n & [H|H])]; [inversion H| |discriminate]. injection H as -> ->. right. eauto.
  - split; [exact Hd|]. cbn. destruct (makes_ref c); [|inversion Hc; subst; auto]. destruct Hc as [H|(n & [H|H])]; [|discriminate..]. left. inversion H; subst; auto.
  - split; [exact Hd|]. cbn. destruct (makes_ref c); [|inversion Hc; subst; auto]. destruct Hc as [H|(n & [H|H])]; [|discriminate..]. inversion H; subst; [left; auto|]. right. eauto.
Qed.
Lemma refs_app l m : refs_of (l ++ m) = refs_of l ++ refs_of m.
Proof. apply flat_map_app. Qed.
Lemma has_step x s y s' : goes x -> tstep x s y s' -> occ (globals s') + occ (has x) = occ (globals s) + occ (has y).
Proof.
  intros [Hd Hc] Ts. unfold has. destruct Ts; cbn [t_done t_cur t_todo] in *; rewrite ?occ_app.
  - destruct (makes_ref c) eqn:Em; [rewrite (pre_pend c (pre_new Em)); reflexivity|]. unfold pend. rewrite Em. reflexivity.
  - rewrite refs_app, occ_app. unfold pend, refs_of. cbn. destruct (makes_ref c); cbn; [|lia]. destruct r; cbn; unfold occurs; cbn; lia.
  - destruct (makes_ref c) eqn:Em; [|unfold pend; rewrite Em; reflexivity]. destruct Hc as [H|(n & [H|H])]; [|discriminate..]. inversion H; subst. rewrite !pre_pend by assumption. reflexivity.
  - destruct (makes_ref c) eqn:Em; [|unfold pend; rewrite Em; reflexivity]. destruct Hc as [H|(n & [H|H])]; [inversion H| |discriminate]. injection H as -> ->. unfold pend. rewrite Em. reflexivity.
  - destruct (makes_ref c) eqn:Em; [|unfold pend; rewrite Em; reflexivity]. destruct Hc as [H|(n & [H|H])]; [|discriminate..]. rewrite (pre_pend c H). inversion H; subst. rewrite pre_pend by auto. reflexivity.
  - destruct (makes_ref c) eqn:Em; [|unfold pend; rewrite Em; inversion Hc; subst; match goal with H : keeps _ |- _ => rewrite H end; lia]. destruct Hc as [H|(n & [H|H])]; [|discriminate..]. rewrite (pre_pend c H). inversion H; subst.
    + rewrite pre_pend by auto. match goal with H : keeps _ |- _ => rewrite H end. reflexivity.
    + unfold pend. rewrite Em. cbn [globals new_global]. rewrite occ_app. unfold occurs. cbn [count_occ]. lia.
Qed.
Lemma has_set l t x y : nth_error l t = Some x -> occ (flat_map has (list_set l t y)) + occ (has x) = occ (flat_map has l) + occ (has y).
Proof.
  revert t. induction l as [|z l IH]; intros t H; destruct t as [|t]; cbn in H; try discriminate.
  - injection H as ->. change (list_set (x :: l) 0 y) with (y :: l). cbn [flat_map]. rewrite !occ_app. lia.
  - specialize (IH t H). assert (list_set (z :: l) (S t) y = z :: list_set l t y) as -> by reflexivity. cbn [flat_map]. rewrite !occ_app. lia.
Qed.
Lemma count_run s calls D : no_call calls (CDeleteGlobalRef i) -> reaches G height s calls D ->
  occ (globals (sh D)) = occ (globals s) + occ (flat_map has (thrs D)) /\ forall t x, nth_error (thrs D) t = Some x -> goes x.
Proof.
  intros Hn (l & E). apply (run_inv (T := fun _ x _ => goes x) (J := fun C => occ (globals (sh C)) = occ (globals s) + occ (flat_map has (thrs C)))) with (l := l) (C := cinit s calls); auto.
  - intros t x u y u'. apply goes_step.
  - intros t C E' x y Jc Tc Hx Hl Ts. pose proof (has_step (Tc t x Hx) Ts) as A. pose proof (has_set y Hx) as B. rewrite Hl. lia.
  - cbn. assert (flat_map has (map (fun l : list call => mkThread None l []) calls) = []) as ->; [|unfold occurs; cbn; lia]. clear. induction calls as [|a r IH]; cbn; auto.
  - intros t x Hx. cbn in Hx. rewrite nth_error_map in Hx. destruct (nth_error calls t) as [cl|] eqn:Ec; [|discriminate]. injection Hx as <-. split; [|exact I]. cbn.
    intros Q. eapply Hn; [eapply nth_error_In; exact Ec|exact Q|reflexivity].
Qed.
End Count.
Lemma handles_has i D : occurs i (handles D) <= occurs i (flat_map has (thrs D)) /\ (finished D -> occurs i (handles D) = occurs i (flat_map has (thrs D))).
Proof.
  unfold handles, finished. induction (thrs D) as [|x l IH]; cbn [flat_map]; [split; auto|]. rewrite !occ_app. unfold has at 1 3. rewrite !occ_app. destruct IH as [A B]. split; [lia|]. intros F. rewrite B.
  - destruct (F 0 x eq_refl) as [-> _]. unfold occurs at 4. cbn. lia.
  - intros t y Hy. exact (F (S t) y Hy).
Qed.
(** Their results *)
Inductive yields : prog -> Prop :=
| yl_done n : yields (Done (Some n))
| yl_acq m k : yields k -> yields (Acq m k)
| yl_rel m k : yields k -> yields (Rel m k)
| yl_rd x f : (forall s, yields (f s)) -> yields (Rd x f)
| yl_wr x u f : (forall s, yields (f s)) -> yields (Wr x u f).
Lemma yields_walk k path : (forall r, yields (k r)) -> forall cur, yields (walk false cur path k).
Proof.
  intros Hk. induction path as [|[w n] r IH]; intros cur; cbn [walk]; [apply Hk|]. constructor. intros s. destruct (child (reg s) _); [apply IH|]. constructor. intros s'. apply IH.
Qed.
Lemma yields_new c : makes_ref c = true -> yields (prog_of c).
Proof. destruct c; try discriminate; intros _; cbn; unfold NewGlobalRef, NewWeakGlobalRef, NewRef, InternalFindClass; apply yields_walk; intros r; constructor; constructor; intros s; constructor; constructor. Qed.
Lemma refs_some s calls D c r : reaches G height s calls D -> returned D c r -> makes_ref c = true -> exists i, r = Some i.
Proof.
  intros (l & E) (t & x & Hx & Hin) Hm.
  set (T := fun (t : nat) (x : thread) (_ : shared) => (forall c r, In (c, r) (t_done x) -> makes_ref c = true -> exists i, r = Some i) /\ forall c p, t_cur x = Some (c, p) -> makes_ref c = true -> yields p).
  assert (T t x (sh D)) as [A _]; [|eauto]. destruct (run_inv (T := T) (J := fun _ => True)) with (l := l) (C := cinit s calls) (D := D) as [_ Q]; auto.
  - intros u y v z v' [A B] Ts. destruct Ts; cbn in *; (split; cbn; [|try discriminate; intros c' p' Q Hc; injection Q as <- <-]); try exact A.
    + apply yields_new. exact Hc.
    + intros c' r' Q Hc. apply in_app_or in Q. destruct Q as [Q|[Q|[]]]; [eauto|]. injection Q as <- <-. specialize (B _ _ eq_refl Hc). inversion B; subst. eauto.
    + specialize (B _ _ eq_refl Hc). inversion B; subst; auto.
    + specialize (B _ _ eq_refl Hc). inversion B; subst; auto.
    + specialize (B _ _ eq_refl Hc). inversion B; subst; auto.
    + specialize (B _ _ eq_refl Hc). inversion B; subst; auto.
  - intros u y Hy. cbn in Hy. rewrite nth_error_map in Hy. destruct (nth_error calls u); [|discriminate]. injection Hy as <-. split; [intros c' r' []|discriminate].
Qed.

(** *** Environments *)
Section Env.
Variable t : nat.
(** The program of thread [t] whose entry is [e] ends with [R], keeping [K]; it leaves the entries of other threads alone. *)
Inductive okp (R : option nat -> option (option nat) -> Prop) (K : option (option nat) -> Prop) : prog -> option (option nat) -> Prop :=
| ok_done r e : R r e -> okp R K (Done r) e
| ok_acq m k e : okp R K k e -> okp R K (Acq m k) e
| ok_rel m k e : okp R K k e -> okp R K (Rel m k) e
| ok_rd x f e : (forall s, envs s t = e -> okp R K (f s) e) -> okp R K (Rd x f) e
| ok_wr x u f e : (forall s, envs s t = e -> okp R K (f s) (envs (u s) t) /\ K (envs (u s) t) /\ forall v, v <> t -> envs (u s) v = envs s v) -> okp R K (Wr x u f) e.
Definition same_envs (u : shared -> shared) : Prop := forall s, envs (u s) = envs s.
Lemma quiet_ok (R : option nat -> option (option nat) -> Prop) (K : option (option nat) -> Prop) e p : quiet same_envs p -> (forall r, R r e) -> K e -> okp R K p e.
Proof.
  intros Q HR HK. induction Q as [r|m k Q IH|m k Q IH|x f Q IH|x u f Hu Q IH]; constructor; auto. intros s E. rewrite (Hu s), E. auto.
Qed.
Definition stays (c : call) (o e : option (option nat)) : Prop := c <> CDetach t -> forall v, o = Some (Some v) -> e = Some (Some v).
Lemma ok_call c o : (forall u, about_env c u -> u = t) -> okp (effect c o) (stays c o) (prog_of c) o.
Proof.
  intros Hc. assert ((forall u, ~ about_env c u) -> quiet same_envs (prog_of c)) as Q.
  { intros N. apply quiet_call; try (intros; intros s; reflexivity).
    - intros u ->. destruct (N u). left. reflexivity.
    - intros u ->. destruct (N u). right. left. reflexivity.
    - intros u ->. destruct (N u). right. right. reflexivity. }
  assert ((forall u, ~ about_env c u) -> okp (effect c o) (stays c o) (prog_of c) o) as O.
  { intros N. apply quiet_ok; [auto|intros r; constructor; exact N|intros _ v E; exact E]. }
  destruct c as [n|d y|d y| | |T n|T|T|d y|g|d y|d y|u|u|u|cu]; try (apply O; intros u [H|[H|H]]; discriminate); assert (u = t) as -> by (apply Hc; unfold about_env; auto); clear O Q Hc; cbn [ConcModel.prog_of].
  - unfold Attach. constructor. constructor. intros s E. rewrite E. destruct o as [[e|]|].
    + constructor. constructor. constructor.
    + constructor. intros s' E'. cbn. unfold upd. rewrite Nat.eqb_refl. split; [constructor; constructor; constructor; discriminate|]. split; [intros _ v Q; discriminate|].
      intros v Nv. destruct (Nat.eqb_spec v t); [congruence|reflexivity].
    + constructor. intros s' E'. cbn. unfold upd. rewrite Nat.eqb_refl. split; [constructor; constructor; constructor; discriminate|]. split; [intros _ v Q; discriminate|].
      intros v Nv. destruct (Nat.eqb_spec v t); [congruence|reflexivity].
  - unfold Detach. constructor. constructor. intros s E. rewrite E. destruct o as [e|].
    + constructor. intros s' E'. cbn. unfold upd. rewrite Nat.eqb_refl. split; [constructor; constructor; constructor|]. split; [intros N; congruence|].
      intros v Nv. destruct (Nat.eqb_spec v t); [congruence|reflexivity].
    + constructor. constructor. constructor.
  - unfold CurrentEnv. constructor. intros s E. rewrite E. destruct o as [e|].
    + constructor. constructor.
    + constructor. intros s' E'. cbn. unfold upd. rewrite Nat.eqb_refl. split; [constructor; constructor|]. split; [intros _ v Q; discriminate|].
      intros v Nv. destruct (Nat.eqb_spec v t); [congruence|reflexivity].
Qed.
End Env.
Section Alone.
Variable s0 : shared.
Definition by_itself (t : nat) (x : thread) (s : shared) : Prop :=
  (forall c u, In c (t_todo x) -> about_env c u -> u = t) /\
  exists o, alone (envs s0 t) (t_done x) o /\
    match t_cur x with
    | None => envs s t = o
    | Some (c, p) => okp t (effect c o) (stays t c o) p (envs s t) /\ stays t c o (envs s t)
    end.
Lemma by_itself_step t x s y s' : by_itself t x s -> tstep x s y s' -> by_itself t y s' /\ forall v, v <> t -> envs s' v = envs s v.
Proof.
  intros (Hd & o & Al & Hc) Ts. destruct Ts; cbn [t_done t_cur t_todo] in *; (split; [split; cbn [t_todo]; [intros; eapply Hd; simpl; eauto|]; cbn [t_done t_cur]|auto]).
  - exists o. split; [exact Al|]. rewrite Hc. split; [apply ok_call; intros u; apply Hd; left; reflexivity|]. intros _ v E. exact E.
  - destruct Hc as [Hc _]. inversion Hc; subst. exists (envs s t). split; [econstructor; eauto|reflexivity].
  - destruct Hc as [Hc Hs]. inversion Hc; subst. eauto.
  - destruct Hc as [Hc Hs]. inversion Hc; subst. eauto.
  - destruct Hc as [Hc Hs]. inversion Hc; subst. eauto.
  - destruct Hc as [Hc Hs]. inversion Hc as [| | | |? ? ? ? Hu]; subst. destruct (Hu s eq_refl) as (A & B & _). eauto.
  - destruct Hc as [Hc Hs]. inversion Hc as [| | | |? ? ? ? Hu]; subst. destruct (Hu s eq_refl) as (_ & _ & A). exact A.
Qed.
Lemma alone_run calls D : own_ids calls -> reaches G height s0 calls D -> forall t x, nth_error (thrs D) t = Some x -> by_itself t x (sh D).
Proof.
  intros Ho (l & E). apply (run_inv (T := by_itself) (J := fun _ => True)) with (l := l) (C := cinit s0 calls); auto.
  - intros t x s y s' B Ts. exact (proj1 (by_itself_step B Ts)).
  - intros t u x z s y s' Bt (Hd & o & Al & Hc) Ne Ts. destruct (by_itself_step Bt Ts) as [_ Q]. split; [exact Hd|]. exists o. split; [exact Al|]. rewrite (Q u) by congruence. exact Hc.
  - intros t x Hx. cbn in Hx. rewrite nth_error_map in Hx. destruct (nth_error calls t) as [cl|] eqn:Ec; [|discriminate]. injection Hx as <-. split.
    + intros c u Hc Ha. eapply Ho; eauto.
    + exists (envs s0 t). split; [constructor|reflexivity].
Qed.
End Alone.
(** The entry of a thread that has attached and not detached *)
Lemma alone_attached o l o' t : alone o l o' -> (forall r, ~ In (CDetach t, r) l) -> (forall c r u, In (c, r) l -> about_env c u -> u = t) -> forall e, In (CAttach t, Some e) l -> o' = Some (Some e).
Proof.
  intros Al Nd Ho. induction Al as [|l o' c r o'' Al IH Ef]; intros e Hin; [destruct Hin|]. assert (forall e, In (CAttach t, Some e) l -> o' = Some (Some e)) as IH'.
  { apply IH; [intros q Hq; apply (Nd q); apply in_or_app; auto|intros c' r' u Hc; apply (Ho c' r'); apply in_or_app; auto]. }
  apply in_app_or in Hin. destruct Hin as [Hin|[Hin|[]]].
  - specialize (IH' e Hin). subst o'. inversion Ef; subst; auto.
    + exfalso. eapply H. reflexivity.
    + exfalso. assert (t0 = t) as -> by (apply (Ho (CDetach t0) None); [apply in_or_app; right; left; reflexivity|right; left; reflexivity]). apply (Nd None). apply in_or_app. right. left. reflexivity.
  - injection Hin as -> ->. inversion Ef; subst; auto. exfalso. apply (H t). left. reflexivity.
Qed.
Lemma attach_some o l o' t r : alone o l o' -> In (CAttach t, r) l -> exists e, r = Some e.
Proof.
  intros Al. induction Al as [|l o' c q o'' Al IH Ef]; intros Hin; [destruct Hin|]. apply in_app_or in Hin. destruct Hin as [Hin|[Hin|[]]]; [auto|]. injection Hin as -> ->.
  inversion Ef; subst; eauto. exfalso. apply (H t). left. reflexivity.
Qed.
End Thr.
(** *** Members that the class has *)
Section Known.
Variable G : ccfg.
Variable height : nat -> nat.
Hypothesis Hr : ranked G height.
Variable c i : nat.
Variable x : key.
Definition kept (J : shared -> Prop) (H : list lock) (s s' : shared) : Prop := J s -> J s'.
Lemma kept_stable J H : stable (kept J) H J.
Proof. intros s s' Is (K & _ & Gs). auto. Qed.
Definition has_method (s : shared) : Prop := find_key (methods s c) x = Some i.
Definition has_field (s : shared) : Prop := find_key (fields s c) x = Some i.
Lemma known_run (J : shared -> Prop) (Q : call -> option nat -> shared -> Prop) s calls D k r : (forall k r s s', Q k r s -> kept J [] s s' -> Q k r s') -> (forall k l, In l calls -> In k l -> safe_call G height (kept J) Q J k) -> J s ->
  reaches G height s calls D -> returned D k r -> Q k r (sh D).
Proof.
  intros Qs Hs Js (l & E) (t & z & Hz & Hin). assert (all_safe (kept J) Q J (cinit s calls)) as A0 by (apply safe_init; exact Js).
  eapply safe_run with (Q := Q) in E; [|intros k' r' s1 s2 H1 (K & _ & H2); eapply Qs; [exact H1|exact H2]|apply kept_stable|intros K s1 s2 H1 H2; auto|exact A0|].
  - destruct E as [_ Sa]. destruct (Sa t z Hz) as [Fd _]. eapply Forall_forall in Fd; [|exact Hin]. exact Fd.
  - intros t' x' H. unfold cinit in H. cbn in H. rewrite nth_error_map in H. destruct (nth_error calls t') as [lc|] eqn:Ec; [|discriminate]. injection H as <-. cbn.
    apply Forall_forall. intros c' Hc. eapply Hs; [eapply nth_error_In; exact Ec|exact Hc].
Qed.
Lemma keep_method d y s : has_method s -> has_method (add_method d y s).
Proof. unfold has_method. intros H. rewrite find_methods, H. reflexivity. Qed.
Lemma keep_native d y s : has_method s -> has_method (add_native d y s).
Proof. unfold has_method. rewrite find_natives. apply keep_method. Qed.
Lemma keep_drop d s : d <> c -> has_method s -> has_method (drop_natives d s).
Proof. intros N. unfold has_method. rewrite drop_other by congruence. auto. Qed.
Lemma keep_field d y s : has_field s -> has_field (add_field d y s).
Proof. unfold has_field. intros H. rewrite find_fields, H. reflexivity. Qed.
Lemma other_safe (J : shared -> Prop) (Q : call -> option nat -> shared -> Prop) k : (forall r s, J s -> Q k r s) ->
  (forall z s, J s -> J (add_node z s)) -> (forall T e s, J s -> J (set_type T e s)) -> (forall d y s, J s -> J (add_field d y s)) -> (forall d y s, J s -> J (add_method d y s)) ->
  (forall s, J s -> J (new_global s)) -> (forall g s, J s -> J (del_global g s)) -> (forall t s, J s -> J (add_env t s)) -> (forall t e s, J s -> J (set_env t e s)) ->
  (forall d y s, J s -> J (add_native d y s)) -> (forall d s, k = CUnregisterNatives d -> J s -> J (drop_natives d s)) -> safe_call G height (kept J) Q J k.
Proof.
  intros HQ. intros. unfold safe_call. eapply disc_safe; [apply kept_stable|exact HQ|intros K s s' A B; auto|].
  apply disc_call; cbn [permitted]; unfold kept; auto.
Qed.
Lemma call_is (k k' : call) : k' = CHookMethod c x \/ k' = CGetMethodID c x \/ k' = CHookField c x \/ k' = CGetFieldID c x -> {k = k'} + {k <> k'}.
Proof.
  intros H. destruct k' as [n|d y|d y| | |T n|T|T|d y|g|d y|d y|t|t|t|cu]; try (exfalso; destruct H as [H|[H|[H|H]]]; discriminate);
    destruct k as [n|e z|e z| | |T n|T|T|e z|g|e z|e z|t|t|t|cu]; try (right; discriminate);
    (destruct (Nat.eq_dec e d) as [->|]; [|right; congruence]); (destruct (key_eqb_spec z y) as [->|]; [left; reflexivity|right; congruence]).
Qed.
Lemma known_method s calls D k r : no_call calls (CUnregisterNatives c) -> has_method s -> reaches G height s calls D -> k = CHookMethod c x \/ k = CGetMethodID c x -> returned D k r -> r = Some i.
Proof.
  intros Nu Hs Re Hk Rt. set (Q := fun (k' : call) (r' : option nat) (_ : shared) => k' = CHookMethod c x \/ k' = CGetMethodID c x -> r' = Some i).
  eapply (@known_run has_method Q); [| |exact Hs|exact Re|exact Rt|exact Hk]; [auto|]. intros q lq Hl Hq.
  destruct (@call_is q (CHookMethod c x)) as [->|N1]; [auto| |destruct (@call_is q (CGetMethodID c x)) as [->|N2]; [auto| |]].
  - unfold safe_call. cbn [prog_of]. unfold HookMethod. constructor. intros s1 H1. exists has_method. split; [exact H1|]. split; [apply kept_stable|]. rewrite H1. constructor. intros s2 _ _. reflexivity.
  - unfold safe_call. cbn [prog_of method_prog]. constructor. constructor. intros s1 H1. exists has_method. split; [exact H1|]. split; [apply kept_stable|]. rewrite H1.
    eapply sf_rel with (M := has_method); [left; reflexivity|auto|apply kept_stable|]. rewrite drop_cons by (intros []). constructor. intros s2 _ _. reflexivity.
  - apply other_safe; auto; try apply keep_method; try apply keep_native; [intros r0 s1 _ [E|E]; congruence|]. intros d s1 E. apply keep_drop. intros ->. exact (Nu _ _ Hl Hq E).
Qed.
(** Methods without native functions: no call removes them. *)
Definition has_plain (s : shared) : Prop := has_method s /\ ~ In i (natives s) /\ i < next s.
Lemma find_filter p (l : list (key * nat)) : find_key l x = Some i -> p (x, i) = true -> find_key (filter p l) x = Some i.
Proof.
  intros H Hp. induction l as [|[y j] l IH]; cbn in *; [discriminate|]. destruct (key_eqb_spec y x) as [->|N].
  - injection H as ->. rewrite Hp. cbn. destruct (key_eqb_spec x x); [reflexivity|congruence].
  - destruct (p (y, j)); cbn; [|auto]. destruct (key_eqb_spec y x); [congruence|auto].
Qed.
Lemma plain_drop d s : has_plain s -> has_plain (drop_natives d s).
Proof.
  intros (A & B & C). split; [|split; [exact B|exact C]]. destruct (Nat.eq_dec d c) as [->|Ne]; [|apply keep_drop; assumption]. unfold has_method. cbn. unfold upd. rewrite Nat.eqb_refl. apply find_filter; [exact A|].
  unfold is_native. cbn. destruct (existsb (Nat.eqb i) (natives s)) eqn:E; [|reflexivity]. apply existsb_exists in E. destruct E as (j & Hj & E). apply Nat.eqb_eq in E. subst j. contradiction.
Qed.
Lemma plain_method d y s : has_plain s -> has_plain (add_method d y s).
Proof. intros (A & B & C). split; [apply keep_method; exact A|]. split; [exact B|cbn; lia]. Qed.
Lemma plain_native d y s : has_plain s -> has_plain (add_native d y s).
Proof. intros (A & B & C). split; [apply keep_native; exact A|]. split; [intros [E|E]; [lia|contradiction]|cbn; lia]. Qed.
Lemma plain_same s s' : methods s' = methods s -> natives s' = natives s -> next s <= next s' -> has_plain s -> has_plain s'.
Proof. intros A B L. unfold has_plain, has_method. rewrite A, B. intros (E & F & N). split; [exact E|]. split; [exact F|lia]. Qed.
Lemma plain_method_found s calls D k r : has_plain s -> reaches G height s calls D -> k = CHookMethod c x \/ k = CGetMethodID c x -> returned D k r -> r = Some i.
Proof.
  intros Hs Re Hk Rt. set (Q := fun (k' : call) (r' : option nat) (_ : shared) => k' = CHookMethod c x \/ k' = CGetMethodID c x -> r' = Some i).
  eapply (@known_run has_plain Q); [| |exact Hs|exact Re|exact Rt|exact Hk]; [auto|]. intros q _ _ _.
  destruct (@call_is q (CHookMethod c x)) as [->|N1]; [auto| |destruct (@call_is q (CGetMethodID c x)) as [->|N2]; [auto| |]].
  - unfold safe_call. cbn [prog_of]. unfold HookMethod. constructor. intros s1 H1. exists has_plain. split; [exact H1|]. split; [apply kept_stable|]. destruct H1 as [H1 _]. rewrite H1. constructor. intros s2 _ _. reflexivity.
  - unfold safe_call. cbn [prog_of method_prog]. constructor. constructor. intros s1 H1. exists has_plain. split; [exact H1|]. split; [apply kept_stable|]. destruct H1 as [H1 _]. rewrite H1.
    eapply sf_rel with (M := has_plain); [left; reflexivity|auto|apply kept_stable|]. rewrite drop_cons by (intros []). constructor. intros s2 _ _. reflexivity.
  - apply other_safe; auto using plain_method, plain_native, plain_drop; [intros r0 s1 _ [E|E]; congruence|..]; intros; (eapply plain_same; [| | |eassumption]; [reflexivity|reflexivity|cbn; lia]).
Qed.
Lemma plain_method_kept s calls D : reaches G height s calls D -> has_plain s -> has_plain (sh D).
Proof.
  intros Re H. eapply state_inv; [|exact H|exact Re]. intros k. apply quiet_call; auto using plain_method, plain_native, plain_drop; intros; (eapply plain_same; [| | |eassumption]; [reflexivity|reflexivity|cbn; lia]).
Qed.
Lemma known_field s calls D k r : has_field s -> reaches G height s calls D -> k = CHookField c x \/ k = CGetFieldID c x -> returned D k r -> r = Some i.
Proof.
  intros Hs Re Hk Rt. set (Q := fun (k' : call) (r' : option nat) (_ : shared) => k' = CHookField c x \/ k' = CGetFieldID c x -> r' = Some i).
  eapply (@known_run has_field Q); [| |exact Hs|exact Re|exact Rt|exact Hk]; [auto|]. intros q lq Hl Hq.
  destruct (@call_is q (CHookField c x)) as [->|N1]; [auto| |destruct (@call_is q (CGetFieldID c x)) as [->|N2]; [auto| |]].
  - unfold safe_call. cbn [prog_of]. unfold HookField. constructor. intros s1 H1. exists has_field. split; [exact H1|]. split; [apply kept_stable|]. rewrite H1. constructor. intros s2 _ _. reflexivity.
  - unfold safe_call. cbn [prog_of field_prog]. constructor. constructor. intros s1 H1. exists has_field. split; [exact H1|]. split; [apply kept_stable|]. rewrite H1.
    eapply sf_rel with (M := has_field); [left; reflexivity|auto|apply kept_stable|]. rewrite drop_cons by (intros []). constructor. intros s2 _ _. reflexivity.
  - apply other_safe; auto; try apply keep_field. intros r0 s1 _ [E|E]; congruence.
Qed.
Lemma known_keep s calls D : reaches G height s calls D -> has_field s -> has_field (sh D).
Proof.
  intros Re H. eapply state_inv; [|exact H|exact Re]. intros k. apply quiet_call; auto using keep_field.
Qed.
Lemma known_keep_method s calls D : no_call calls (CUnregisterNatives c) -> reaches G height s calls D -> has_method s -> has_method (sh D).
Proof.
  intros Nu Re H. eapply (@state_inv_in G height (fun k => k <> CUnregisterNatives c)); [|exact Nu|exact H|exact Re]. intros k Nk. apply quiet_call; auto using keep_method, keep_native.
  intros d -> s1. apply keep_drop. congruence.
Qed.
End Known.

(** *** Deleted references *)
Section Deleted.
Variable G : ccfg.
Variable height : nat -> nat.
Hypothesis Hr : ranked G height.
Variable i : nat.
Lemma without_gone l : NoDup l -> ~ In i (without i l).
Proof.
  induction l as [|a l IH]; cbn; [auto|]. intros Nd. inversion Nd; subst. destruct (Nat.eqb_spec a i) as [->|N]; [assumption|]. intros [E|H]; [congruence|]. exact (IH H2 H).
Qed.
Definition once (s : shared) : Prop := i < next s /\ NoDup (globals s) /\ forall j, In j (globals s) -> j < next s.
Definition GDel (H : list lock) (s s' : shared) : Prop := once s -> once s' /\ (~ In i (globals s) -> ~ In i (globals s')).
Lemma once_keep H s s' : once s -> GDel H s s' -> once s'.
Proof. intros O Gs. apply Gs. exact O. Qed.
Definition gone (s : shared) : Prop := once s /\ ~ In i (globals s).
Lemma gone_stable H : stable GDel H gone.
Proof. intros s s' [O N] (K & _ & Gs). destruct (Gs O) as [A B]. split; auto. Qed.
Lemma once_stable H : stable GDel H once.
Proof. intros s s' O (K & _ & Gs). apply Gs. exact O. Qed.
Lemma once_same s s' H : globals s' = globals s -> next s <= next s' -> GDel H s s'.
Proof. intros E L (A & B & C). unfold once. rewrite E. split; [|auto]. split; [lia|]. split; [exact B|]. intros j Hj. apply C in Hj. lia. Qed.
Lemma once_new s H : GDel H s (new_global s).
Proof.
  intros (A & B & C). unfold once. cbn. split; [split; [lia|split]|].
  - apply nodup_snoc; [exact B|]. intros Q. apply C in Q. lia.
  - intros j Hj. apply in_app_or in Hj. destruct Hj as [Hj|[<-|[]]]; [apply C in Hj|]; lia.
  - intros N Q. apply in_app_or in Q. destruct Q as [Q|[Q|[]]]; [auto|lia].
Qed.
Lemma once_del g s H : GDel H s (del_global g s).
Proof.
  intros (A & B & C). unfold once. cbn. split; [split; [exact A|split]|].
  - apply without_nodup. exact B.
  - intros j Hj. apply without_in in Hj. auto.
  - intros N Q. apply without_in in Q. auto.
Qed.
Definition QDel (k : call) (r : option nat) (s : shared) : Prop := once s /\ (k = CDeleteGlobalRef i -> ~ In i (globals s)).
Lemma delete_safe k : safe_call G height GDel QDel once k.
Proof.
  assert ({k = CDeleteGlobalRef i} + {k <> CDeleteGlobalRef i}) as [->|N].
  { destruct k as [n|d y|d y| | |T n|T|T|d y|g|d y|d y|t|t|t|cu]; try (right; discriminate). destruct (Nat.eq_dec g i) as [->|]; [left; reflexivity|right; congruence]. }
  - unfold safe_call. cbn [prog_of]. unfold DeleteRef. constructor. constructor. intros s O.
    assert (safe GDel (QDel (CDeleteGlobalRef i)) [LVm] gone (Rel LVm (Done None))) as Rl.
    { eapply sf_rel with (M := gone); [left; reflexivity|auto|apply gone_stable|]. rewrite drop_cons by (intros []). constructor. intros s' [O' N']. split; auto. }
    destruct (existsb (Nat.eqb i) (globals s)) eqn:Ex.
    + exists once. split; [exact O|]. split; [apply once_stable|]. constructor. intros s' O'. split; [apply once_del|]. exists gone. split; [|split; [apply gone_stable|exact Rl]].
      split; [apply (once_del i [] O')|]. cbn. apply without_gone. apply O'.
    + exists gone. split; [|split; [apply gone_stable|exact Rl]]. split; [exact O|]. intros Q. assert (existsb (Nat.eqb i) (globals s) = true); [|congruence]. apply existsb_exists. exists i. split; [exact Q|apply Nat.eqb_refl].
  - unfold safe_call. eapply disc_safe; [apply once_stable|intros r s O; split; [exact O|intros E; congruence]|apply once_keep|].
    apply disc_call; cbn [permitted]; auto using once_new, once_del; intros; apply once_same; reflexivity || (cbn; lia).
Qed.
Lemma deleted s calls D r : once s -> reaches G height s calls D -> returned D (CDeleteGlobalRef i) r -> ~ In i (globals (sh D)).
Proof.
  intros O (l & E) (t & z & Hz & Hin). assert (all_safe GDel QDel once (cinit s calls)) as A0 by (apply safe_init; exact O).
  eapply safe_run with (Q := QDel) (Gt := GDel) (I := once) in E; [|intros k' r' s1 s2 [H1 H2] (K & _ & H3); split; [apply H3; exact H1|intros E'; apply H3; auto]|apply once_stable|apply once_keep|exact A0|].
  - destruct E as [_ Sa]. destruct (Sa t z Hz) as [Fd _]. eapply Forall_forall in Fd; [|exact Hin]. apply Fd. reflexivity.
  - intros t' x' H. apply Forall_forall. intros c' _. apply delete_safe.
Qed.
End Deleted.

(** The calls that a thread makes are the given ones. *)
Lemma made G height s calls D : reaches G height s calls D -> forall t x, nth_error (thrs D) t = Some x -> exists l, nth_error calls t = Some l /\ (forall c r, In (c, r) (t_done x) -> In c l) /\
  (forall c p, t_cur x = Some (c, p) -> In c l).
Proof.
  intros (n & E). set (T := fun (t : nat) (x : thread) (_ : shared) => exists l, nth_error calls t = Some l /\ (forall c r, In (c, r) (t_done x) -> In c l) /\ (forall c p, t_cur x = Some (c, p) -> In c l) /\ (forall c, In c (t_todo x) -> In c l)).
  assert (forall t x, nth_error (thrs D) t = Some x -> T t x (sh D)) as H; [|intros t x Hx; destruct (H t x Hx) as (l & A & B & C & _); eauto].
  apply (run_inv (G := G) (height := height) (T := T) (J := fun _ => True)) with (l := n) (C := cinit s calls); auto.
  - intros t x u y u' (l & A & B & C & F) Ts. exists l. split; [exact A|]. destruct Ts; cbn in *; (split; [|split]); auto; try (intros c' q Q; injection Q as <- <-; eauto); try discriminate.
    intros c' r' Q. apply in_app_or in Q. destruct Q as [Q|[Q|[]]]; [eauto|]. injection Q as <- <-. eauto.
  - intros t x Hx. cbn in Hx. rewrite nth_error_map in Hx. destruct (nth_error calls t) as [cl|] eqn:Ec; [|discriminate]. injection Hx as <-. exists cl. split; [exact Ec|]. cbn. split; [intros c r []|]. split; [discriminate|auto].
Qed.
