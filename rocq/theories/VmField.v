(** Data members that hold objects, over histories. *)
From Verif Require Import Base BaseProofs VmState VmModel VmStep VmBase VmWf VmPrim VmInv VmReg VmRegInv VmFrame VmFine VmSpec MemSpec HookSpec CallSpec RefSpec ArrSpec
  VmExact VmQuiet VmClass VmMember VmMember2 VmMember3 VmTables VmHook VmMemHist VmEnvInv VmCall VmCall2 VmThread VmRef VmRef2 VmRef3 VmObj VmArr VmArr2.
Set Implicit Arguments.
Unset Strict Implicit.
Local Open Scope vm_scope.

(** The assignments to member [k] of object [a] in a history, oldest first *)
Inductive assigning (G : cfg) (a : oid) : list event -> st -> list (nat * option oid) -> st -> Prop :=
| as_nil s : assigning G a [] s [] s
| as_set t k v l s y s1 w s' : step G t (USetVar_ a k v) s = Some (y, s1) -> assigning G a l s1 w s' -> assigning G a ((t, USetVar_ a k v) :: l) s ((k, v) :: w) s'
| as_other t o l s y s1 w s' : (forall k v, o <> USetVar_ a k v) -> step G t o s = Some (y, s1) -> assigning G a l s1 w s' -> assigning G a ((t, o) :: l) s w s'.
(** The members after the assignments [w]; assignments to members that do not exist have no effect. *)
Definition reassigned (l0 : list (option oid)) (w : list (nat * option oid)) (l1 : list (option oid)) : Prop :=
  length l1 = length l0 /\ forall j, j < length l0 -> nth_error l1 j = match last_stored w j with Some z => Some z | None => nth_error l0 j end.

Ltac ap := first [apply AP_heap; reflexivity|apply AP_add|eapply AP_put; [eassumption|]; simpl; first [reflexivity|match goal with H : o_pay _ = _ |- _ => rewrite H; simpl; first [discriminate|congruence] end]].
Section Cfg.
Variable G : cfg.

Definition q_user (p : pay) : bool := match p with PUser _ _ => true | _ => false end.
Lemma user_fine t : fine G t (fun p => p <> PrUser) (AP q_user).
Proof.
  constructor; intros; try congruence; try ap; try (apply AP_newm; auto; fail); try (apply AP_newf; auto; fail); try apply AP_collect; try (eapply AP_trans; eauto; fail).
  - apply (@find_fine G (AP q_user)); auto; intros; try ap. eapply AP_trans; eauto.
Qed.
Definition user_op (o : op) : bool := match o with USetVar_ _ _ _ => true | _ => false end.
Lemma user_step t o s v s' : wf s -> user_op o = false -> step G t o s = Some (v, s') -> AP q_user s s'.
Proof.
  intros W N St. eapply (fine_step (user_fine t)); eauto.
  destruct o; try discriminate; simpl; intros pr H; repeat (destruct H as [<-|H]; [discriminate|]); destruct H.
Qed.
Theorem USetVar_step t a k v n l s : good G s -> attached s t -> In a (s_ext s) -> (forall i, v = Some i -> In i (s_ext s)) -> contents s a = Some (PUser n l) ->
  exists s', step G t (USetVar_ a k v) s = Some (OVal RUnit, s') /\ good G s' /\ stored t a (PUser n (list_set l k v)) s s'.
Proof.
  intros Gs A Ha Hv C. pose proof (good_wf Gs) as W. destruct (deref_eq C) as (o & L & P & De).
  set (l' := list_set l k v). set (s1 := put s a (set_pay o (PUser n l'))).
  assert (obj_ok s (set_pay o (PUser n l')) = true) as Ok.
  { pose proof (wf_obj W _ L) as K. unfold obj_ok in *. apply andb_true_iff in K. destruct K as [K1 K2]. apply andb_true_iff. split; [|exact K2].
    simpl. rewrite P in K1. simpl in K1. rewrite forallb_forall in *. intros j Hj.
    assert (In (Some j) l') as Hj' by (apply somes_In; exact Hj).
    apply In_nth_error in Hj'. destruct Hj' as (q & Hq). unfold l' in Hq. rewrite nth_list_set in Hq. destruct (Nat.eqb_spec k q).
    - destruct (nth_error l q); [|discriminate]. injection Hq as ->. apply (wf_ext W), Hv. reflexivity.
    - apply K1. apply somes_In. eapply nth_error_In; eauto. }
  assert (body G t (USetVar_ a k v) s = Ret RUnit s1) as B.
  { cbn [body]. unfold as_unit, USetVar, bind, gets. rewrite (proj2 (memb_In _ _) Ha). cbn [andb].
    assert (forallb (fun j => memb j (s_ext s)) (opt_list v) = true) as ->.
    { destruct v as [i|]; auto. cbn [opt_list forallb]. rewrite (proj2 (memb_In _ _) (Hv i eq_refl)). reflexivity. }
    unfold upd_user, bind. rewrite De, P. unfold put_obj, check, bind. fold l'. rewrite Ok. reflexivity. }
  assert (step G t (USetVar_ a k v) s = Some (OVal RUnit, finish s1)) as St by (unfold step; rewrite run_attached, B by auto; reflexivity).
  pose proof (step_good Gs St) as G'. exists (finish s1). split; [exact St|]. split; [exact G'|]. apply (@put_stored G); auto.
  - rewrite P. simpl. unfold l'. rewrite list_set_length. auto.
  - discriminate.
  - apply G'.
Qed.
(** Everything else is undefined: the object and the value have to be in variables. *)
Lemma USetVar_inv t a k v s y s' : good G s -> step G t (USetVar_ a k v) s = Some (y, s') ->
  y = OVal RUnit /\ attached s t /\ In a (s_ext s) /\ (forall i, v = Some i -> In i (s_ext s)) /\ exists n l, contents s a = Some (PUser n l) /\ stored t a (PUser n (list_set l k v)) s s'.
Proof.
  intros Gs St. pose proof (step_attached St eq_refl) as A. pose proof St as St0.
  unfold step in St. rewrite run_attached in St by auto. cbn [body] in St. unfold as_unit, USetVar, bind, gets in St.
  destruct (memb a (s_ext s)) eqn:Ha; [|discriminate]. cbn [andb] in St. destruct (forallb _ (opt_list v)) eqn:Hv; [|discriminate].
  apply memb_In in Ha. assert (forall i, v = Some i -> In i (s_ext s)) as Hv'.
  { intros i ->. cbn [opt_list forallb] in Hv. apply andb_prop in Hv. apply memb_In. apply Hv. }
  unfold upd_user, bind, deref in St. destruct (lookup s a) as [o|] eqn:L; [|discriminate]. destruct (o_pay o) as [|n l| | | | | | | | | |] eqn:P; try discriminate.
  assert (contents s a = Some (PUser n l)) as C by (unfold contents; rewrite L; simpl; congruence).
  destruct (USetVar_step k Gs A Ha Hv' C) as (s1 & E & _ & Sd). rewrite E in St0. injection St0 as <- <-. eauto 10.
Qed.
(** Other objects keep their members. *)
Lemma USetVar_other t a k v s y s' i x : good G s -> step G t (USetVar_ a k v) s = Some (y, s') -> i <> a -> contents s i = Some x -> live s' i = true -> contents s' i = Some x.
Proof.
  intros Gs St Ne C Lv. pose proof (step_attached St eq_refl) as A. unfold step in St. rewrite run_attached in St by auto. cbn [body] in St. unfold as_unit, USetVar, bind, gets in St.
  destruct (memb a (s_ext s)) eqn:Ha; [|discriminate]. cbn [andb] in St. destruct (forallb _ (opt_list v)) eqn:Hv; [|discriminate].
  assert (keeps (fun s s1 => forall i, i <> a -> lookup s1 i = lookup s i) (upd_user a (fun l => list_set l k v))) as K.
  { apply I_upd_user. intros s0 o p l Lo Po _ q Nq. rewrite (lookup_put _ _ Lo). destruct (Nat.eqb_spec a q); congruence. }
  specialize (K s). destruct (upd_user a _ s); try discriminate; injection St as <- <-; eapply collect_other; eauto.
Qed.
Lemma assigning_exec a l s w s' : assigning G a l s w s' -> exists vs, exec G l s = Some (vs, s').
Proof.
  induction 1; [exists []; reflexivity| |]; destruct IHassigning as (vs & E); eexists (_ :: vs); simpl; match goal with H : step _ _ _ _ = Some _ |- _ => rewrite H end; rewrite E; reflexivity.
Qed.
Lemma reassigned_cons k v w l l2 : reassigned (list_set l k v) w l2 -> reassigned l ((k, v) :: w) l2.
Proof.
  intros [C D]. rewrite list_set_length in *. split; [exact C|]. intros j Lj. rewrite D by auto. cbn [last_stored]. destruct (last_stored w j) as [z|]; auto. rewrite nth_list_set. rewrite (Nat.eqb_sym k j).
  destruct (Nat.eqb j k); auto. apply nth_error_Some in Lj. destruct (nth_error l j); [reflexivity|congruence].
Qed.
Theorem assigning_contents a l s w s' n l0 : good G s -> assigning G a l s w s' -> contents s a = Some (PUser n l0) -> live s' a = true ->
  exists l1, contents s' a = Some (PUser n l1) /\ reassigned l0 w l1.
Proof.
  intros Gs H. revert Gs l0. induction H; intros Gs l0 C Lv.
  - exists l0. split; auto. split; auto.
  - pose proof (step_good Gs H) as G1. destruct (assigning_exec H0) as (vs & Ex).
    assert (a < length (s_heap s)) as La. { unfold contents in C. destruct (lookup s a) eqn:L; [|discriminate]. eapply lookup_lt; eauto. }
    pose proof (live_back (good_wf Gs) H Ex La Lv) as L1.
    destruct (USetVar_inv Gs H) as (_ & _ & _ & _ & m & l' & C' & Sd). rewrite C in C'. injection C' as <- <-.
    destruct (IHassigning G1 (list_set l0 k v)) as (l1 & C1 & U); auto; [apply (sd_contents Sd); auto|]. exists l1. split; auto. apply reassigned_cons; auto.
  - pose proof (step_good Gs H0) as G1. pose proof (good_wf Gs) as W. destruct (assigning_exec H1) as (vs & Ex).
    assert (a < length (s_heap s)) as La. { unfold contents in C. destruct (lookup s a) eqn:L; [|discriminate]. eapply lookup_lt; eauto. }
    pose proof (live_back W H0 Ex La Lv) as L1. apply IHassigning; auto.
    destruct (user_op o) eqn:Po.
    + destruct o; try discriminate. assert (i <> a) as Ne by (intros ->; eapply H; eauto). eapply (USetVar_other (i := a) Gs H0); auto.
    + destruct (user_step W Po H0) as [_ M]. apply M; auto.
Qed.
(** Resolving a reference to a variable *)
Theorem UHold_step t h r s : good G s -> attached s t -> denotes_opt s h r ->
  exists s', step G t (UHold_ TObject h) s = Some (OVal (RRef r), s') /\ good G s' /\ s' = match r with Some i => with_ext s (i :: s_ext s) | None => s end.
Proof.
  intros Gs A D. pose proof (good_wf Gs) as W.
  assert (forall i, r = Some i -> live s i = true) as Lr.
  { intros i ->. destruct h as [h|]; [|discriminate]. simpl in D. eapply denotes_target_live; eauto. }
  set (s1 := match r with Some i => with_ext s (i :: s_ext s) | None => s end).
  assert (body G t (UHold_ TObject h) s = Ret (RRef r) s1) as B.
  { cbn [body]. unfold as_ref, UHold. unfold bind at 1 2. rewrite (jnicast_obj G W D). destruct r as [i|]; [|reflexivity]. unfold bind, add_ext, live_all, check, bind. cbn [forallb].
    rewrite (Lr i eq_refl). reflexivity. }
  assert (tidy s1) as T1.
  { unfold s1. destruct r as [i|]; [|exact (g_tidy Gs)]. destruct (g_tidy Gs) as [T K]. split; [exact T|]. intros j Lj. destruct (K j Lj) as [H|H]; [|tauto]. left.
    apply In_held in H. apply In_held. destruct H as [H|H]; [left|right; exact H]. rewrite In_roots in *. simpl. tauto. }
  assert (step G t (UHold_ TObject h) s = Some (OVal (RRef r), s1)) as St by (unfold step; rewrite run_attached, B by auto; rewrite (tidy_finish_id T1); reflexivity).
  exists s1. split; [exact St|]. split; [eapply step_good; eauto|reflexivity].
Qed.
(** What an object is does not change. *)
Lemma isa_kind Y p q : same_kind p q -> isa G p Y = isa G q Y.
Proof.
  destruct p, q; simpl; try tauto; intros H; try (destruct Y; reflexivity); try (destruct H as [-> ?]; destruct Y; reflexivity).
Qed.
End Cfg.
