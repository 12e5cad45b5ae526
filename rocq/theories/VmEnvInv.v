(** Invariants of the environments of all threads: spare frames are empty, and the C++ stack frames of running calls
    hold classes only. *)
From Verif Require Import Base BaseProofs VmState VmModel VmStep VmSpec VmBase VmFrame VmWf VmPrim VmInv VmReg
  VmFine VmRegInv VmExact VmQuiet VmTables.
Set Implicit Arguments.
Unset Strict Implicit.

Record env_inv (s : st) (e : env) : Prop := {
  ei_free : forall f, In f (e_free e) -> f = [];
  ei_held : forall k i, In k (e_calls e) -> In i (k_held k) -> is_cls s i = true }.
Definition einv (s : st) : Prop := forall t e, get_env s t = Some e -> env_inv s e.
Definition EP (s s' : st) : Prop := einv s -> einv s'.

Lemma EP_keep s s' : (forall t, get_env s' t = get_env s t) -> (forall i, is_cls s i = true -> is_cls s' i = true) -> EP s s'.
Proof. intros A B N t e E. rewrite A in E. destruct (N t e E) as [F H]. constructor; eauto. Qed.
Lemma EP_heap s s' : s_envs s' = s_envs s -> s_heap s' = s_heap s -> EP s s'.
Proof. intros A B. apply EP_keep; [intros; unfold get_env; rewrite A; auto|]. intros i. unfold is_cls, lookup. rewrite B. auto. Qed.
Lemma EP_add s o : EP s (add s o).
Proof.
  apply EP_keep; auto. intros i H. pose proof (is_cls_lt H) as L. unfold is_cls in *. rewrite lookup_add.
  destruct (Nat.eqb_spec i (length (s_heap s))); [lia|auto].
Qed.
Lemma EP_put s i o o' : lookup s i = Some o -> (forall c, o_pay o = PClass c -> exists c', o_pay o' = PClass c') -> EP s (put s i o').
Proof.
  intros L H. apply EP_keep; auto. intros j. unfold is_cls. rewrite (lookup_put _ _ L). destruct (Nat.eqb_spec i j); auto. subst.
  rewrite L. destruct (o_pay o) eqn:P; try discriminate. destruct (H _ eq_refl) as (c' & ->). auto.
Qed.
Lemma EP_penv s t e e' : get_env s t = Some e -> (env_inv s e -> env_inv s e') -> EP s (penv s t e').
Proof.
  intros E H N u x Ex. rewrite get_env_penv in Ex. assert (forall y, env_inv s y -> env_inv (penv s t e') y) as K by (intros y [A B]; constructor; auto).
  destruct (Nat.eqb t u); [injection Ex as <-|]; eauto.
Qed.
Ltac ep_put L := eapply EP_put; [exact L|]; cbn [o_pay set_pay]; intros; eauto; congruence.
Lemma einv_fine G t : fine G t (fun _ => True) EP.
Proof.
  constructor; intros; try (apply EP_heap; reflexivity).
  - intros N. auto.
  - apply (@find_fine G EP); auto.
    + intros x N. auto.
    + intros a b c A B N. auto.
    + intros. apply EP_add.
    + intros s0 i o c k W L E K. ep_put L.
    + intros. apply EP_heap; reflexivity.
    + intros. apply EP_heap; reflexivity.
  - apply EP_add.
  - ep_put H1.
  - ep_put H0.
  - intros N. unfold newm. assert (lookup (add s (new_obj None (PMethod m))) i = Some o) as L.
    { rewrite lookup_add. pose proof (lookup_lt _ _ H1). destruct (Nat.eqb_spec i (length (s_heap s))); [lia|auto]. }
    refine (EP_put L _ (@EP_add _ _ N)). cbn [o_pay set_pay]. eauto.
  - intros N. unfold newf. assert (lookup (add s (new_obj None (PField f))) i = Some o) as L.
    { rewrite lookup_add. pose proof (lookup_lt _ _ H1). destruct (Nat.eqb_spec i (length (s_heap s))); [lia|auto]. }
    refine (EP_put L _ (@EP_add _ _ N)). cbn [o_pay set_pay]. eauto.
  - ep_put H1.
  - ep_put H1.
  - apply (EP_penv H0). intros [A B]. destruct H2; constructor; simpl; auto.
    + destruct (e_free e) as [|f r] eqn:Ef; simpl; [rewrite Ef; auto|]. intros g Hg. apply A. simpl. auto.
    + intros k i. destruct (e_free e); simpl; apply B.
    + intros g [<-|Hg]; auto.
    + intros k0 i [<-|Hk]; eauto.
    + intros k0 i Hk. apply B. rewrite H3. simpl. auto.
  - ep_put H1.
  - ep_put H1.
  - ep_put H1.
  - ep_put H1.
  - intros N u e E. unfold get_env in E. simpl in E. rewrite (aget_aset Nat.eqb Nat.eqb_spec) in E. destruct (Nat.eqb_spec t u).
    + injection E as <-. constructor; simpl; tauto.
    + destruct (N u e E) as [A B]. constructor; auto.
  - intros N u x E. unfold get_env in E. simpl in E. rewrite (aget_adel Nat.eqb Nat.eqb_spec) in E. destruct (Nat.eqb t u); [discriminate|].
    destruct (N u x E) as [A B]. constructor; auto.
  - intros N u x E. pose proof (collect_same s) as Sa. unfold same_but_heap in Sa.
    assert (s_envs (collect s) = s_envs s) as Ee by (symmetry; apply Sa). unfold get_env in E. rewrite Ee in E.
    destruct (N u x E) as [A B]. constructor; auto. intros k i Hk Hi. unfold is_cls. rewrite collect_reach; [apply (B k); auto|].
    constructor. eapply env_root; [exact E|]. unfold env_roots. rewrite !in_app_iff, in_flat_map. eauto 10.
Qed.
Theorem reachable_einv G t s : reachable G t s -> einv s.
Proof.
  intros (l & vs & E). assert (einv (init_vm G t)) as O.
  { apply (fine_init (einv_fine G t)). intros u e H. discriminate. }
  eapply (fine_history (einv_fine G)); eauto. apply (inv_wf (init_inv G t)).
Qed.
Lemma exec_einv G l s vs s' : wf s -> einv s -> exec G l s = Some (vs, s') -> einv s'.
Proof. intros W O E. eapply (fine_history (einv_fine G)); eauto. Qed.
