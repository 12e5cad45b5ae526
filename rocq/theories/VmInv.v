(** Every history keeps the VM well formed and the identity of objects. *)
From Verif Require Import Base BaseProofs VmState VmModel VmStep VmBase VmFrame VmWf VmPrim.
Set Implicit Arguments.
Local Open Scope vm_scope.

Definition wfi (s s' : st) : Prop := wf s -> wf s' /\ ident s s'.

Lemma wfi_refl s : wfi s s.
Proof. intros W. auto using ident_refl. Qed.
Lemma wfi_trans a b c : wfi a b -> wfi b c -> wfi a c.
Proof. intros H1 H2 W. destruct (H1 W) as [W1 I1]. destruct (H2 W1) as [W2 I2]. eauto using ident_trans. Qed.

Lemma ident_same s s' : s_heap s = s_heap s' -> ident s s'.
Proof. intros H. apply grow_same in H. apply H. Qed.

Lemma In_list_set A (l : list A) k x y : In y (list_set l k x) -> y = x \/ In y l.
Proof. revert k. induction l; intros k H; destruct k; simpl in *; intuition. destruct (IHl _ H0); auto. Qed.

Lemma wf_types_only s l :
  wf s -> (forall T i, In (T, Some i) l -> is_cls s i = true) -> wf (with_types s l).
Proof. intros W H. constructor; try apply W. exact H. Qed.
Lemma wf_classes_only s l :
  wf s -> (forall n i, In (n, i) l -> is_cls s i = true) -> wf (with_classes s l).
Proof. intros W H. constructor; try apply W. exact H. Qed.
Lemma wf_globals_only s l : wf s -> (forall i, In i l -> live s i = true) -> wf (with_globals s l).
Proof. intros W H. constructor; try apply W. exact H. Qed.
Lemma wf_ext_only s l : wf s -> (forall i, In i l -> live s i = true) -> wf (with_ext s l).
Proof. intros W H. constructor; try apply W. exact H. Qed.
Lemma wf_tmp_only s l : wf s -> (forall i, In i l -> live s i = true) -> wf (with_tmp s l).
Proof. intros W H. constructor; try apply W. exact H. Qed.

Lemma wf_attach s t : wf s -> get_env s t = None ->
  wf (with_nextenv (penv s t (new_env (s_nextenv s))) (S (s_nextenv s))).
Proof.
  intros W N. constructor; try apply W; simpl.
  - intros u e H. destruct (aset_In Nat.eqb Nat.eqb_spec _ _ _ _ _ H) as [[-> ->]|H'].
    + repeat split; simpl; auto. discriminate.
    + destruct (wf_envs W _ _ H') as (A & B & C). repeat split; auto.
  - apply aset_NoDup; [apply Nat.eqb_spec|apply W].
  - assert (map (fun x : tid * env => e_id (snd x)) (aset Nat.eqb (s_envs s) t (new_env (s_nextenv s)))
      = map (fun x : tid * env => e_id (snd x)) (s_envs s) ++ [s_nextenv s]) as E.
    { unfold get_env in N. clear -N. induction (s_envs s) as [|[u x] l IH]; simpl in *; auto.
      destruct (Nat.eqb u t); [discriminate|]. simpl. f_equal. auto. }
    rewrite E. clear E. pose proof (wf_ids W) as D. apply NoDup_app_comm_1 || idtac.
    apply NoDup_Add with (a := s_nextenv s) (l := map (fun x : tid * env => e_id (snd x)) (s_envs s)).
    + replace (map (fun x : tid * env => e_id (snd x)) (s_envs s)) with
        (map (fun x : tid * env => e_id (snd x)) (s_envs s) ++ []) at 1 by apply app_nil_r.
      apply Add_app.
    + split; auto. rewrite in_map_iff. intros ([u e] & E & H). simpl in E.
      destruct (wf_envs W _ _ H) as (_ & _ & C). lia.
Qed.

Lemma wf_detach s t : wf s -> wf (with_envs s (adel Nat.eqb (s_envs s) t)).
Proof.
  intros W. constructor; try apply W; simpl.
  - intros u e H. apply (wf_envs W u). eapply (adel_In Nat.eqb Nat.eqb_spec); eauto.
  - apply adel_NoDup; [apply Nat.eqb_spec|apply W].
  - pose proof (wf_ids W) as D. revert D. generalize (s_envs s) as l. induction l as [|[u x] l IH]; simpl; intros D; auto.
    inversion D; subst. destruct (Nat.eqb u t); auto. simpl. constructor; auto.
    intros H. apply H1. rewrite in_map_iff in *. destruct H as ([v y] & E & H).
    exists (v, y). split; auto. eapply (adel_In Nat.eqb Nat.eqb_spec); eauto.
Qed.

Theorem wfi_coarse : coarse wfi.
Proof.
  constructor.
  - apply wfi_refl.
  - apply wfi_trans.
  - intros s x O W. split; [apply alloc_wf; auto|apply (alloc_grow s x)].
  - intros s i x y L K O W. split; [eapply put_wf; eauto|eapply put_grow; eauto].
  - intros s u e e' E O Id F W. split; [|apply ident_same; reflexivity].
    apply wf_envs_aset; auto.
    + apply F. apply (wf_envs W u e). eapply (aget_In Nat.eqb Nat.eqb_spec); eauto.
    + intros e0 E0. rewrite E in E0. inversion E0. congruence.
    + congruence.
  - intros s l H W. split; [|apply ident_same; reflexivity].
    apply wf_globals_only; auto. intros i Hi. destruct (H _ Hi); auto. apply (wf_globals W); auto.
  - intros s l H W. split; [|apply ident_same; reflexivity].
    apply wf_ext_only; auto. intros i Hi. destruct (H _ Hi); auto. apply (wf_ext W); auto.
  - intros s l H W. split; [|apply ident_same; reflexivity]. apply wf_tmp_only; auto.
  - intros s n i H W. split; [|apply ident_same; reflexivity]. apply wf_classes_only; auto.
    intros m j Hj. destruct (aset_In str_eqb str_eqb_spec _ _ _ _ _ Hj) as [[-> ->]|Hj']; auto.
    eapply wf_classes; eauto.
  - intros s T x H W. split; [|apply ident_same; reflexivity]. apply wf_types_only; auto.
    intros m j Hj. destruct (aset_In ty_eqb ty_eqb_spec _ _ _ _ _ Hj) as [[-> E]|Hj']; auto.
    eapply wf_types; eauto.
  - intros s k p n H W. split; [|apply ident_same; reflexivity]. constructor; try apply W; simpl.
    + intros x i. rewrite in_app_iff. intros [Hx|[<-|[]]]; simpl; [|tauto].
      apply In_list_set in Hx. destruct Hx as [->|Hx]; simpl; intros Hi; [apply (wf_nsc W p)|apply (wf_nsc W x)]; eauto using nth_error_In.
    + rewrite app_length, list_set_length. simpl.
      intros x j. rewrite in_app_iff. intros [Hx|[<-|[]]]; simpl; [|tauto].
      apply In_list_set in Hx. destruct Hx as [->|Hx]; simpl.
      * rewrite in_app_iff. simpl. intros [Hi|[<-|[]]]; [|lia].
        pose proof (wf_subs W _ _ (nth_error_In _ _ H) Hi). lia.
      * intros Hi. pose proof (wf_subs W _ _ Hx Hi). lia.
    + intros E. apply app_eq_nil in E. destruct E as [_ E]. discriminate.
  - intros s k p i H C W. split; [|apply ident_same; reflexivity]. constructor; try apply W; simpl.
    + intros x j Hx. apply In_list_set in Hx. destruct Hx as [->|Hx]; simpl.
      * rewrite in_app_iff. simpl. intros [Hi|[<-|[]]]; auto. eapply (wf_nsc W); eauto. eapply nth_error_In; eauto.
      * intros. eapply (wf_nsc W); eauto.
    + rewrite list_set_length. intros x j Hx. apply In_list_set in Hx. destruct Hx as [->|Hx]; simpl.
      * intros. eapply (wf_subs W); eauto. eapply nth_error_In; eauto.
      * intros. eapply (wf_subs W); eauto.
    + intros E. apply f_equal with (f := @length _) in E. rewrite list_set_length in E. simpl in E.
      pose proof (wf_root W). destruct (s_ns s); simpl in *; [congruence|discriminate].
  - intros s W. split; [apply collect_wf; auto|apply collect_ident].
  - intros s u N W. split; [apply wf_attach; auto|apply ident_same; reflexivity].
  - intros s u W. split; [apply wf_detach; auto|apply ident_same; reflexivity].
Qed.

Lemma finish_wf s : wf s -> wf (finish s) /\ ident s (finish s).
Proof.
  intros W. assert (wf (with_tmp s [])) as W' by (apply wf_tmp_only; auto; simpl; tauto).
  split.
  - apply collect_wf. auto.
  - eapply ident_trans; [|apply collect_ident]. apply ident_same. reflexivity.
Qed.

Theorem step_wf G t o s v s' : wf s -> step G t o s = Some (v, s') -> wf s' /\ ident s s'.
Proof.
  intros W. unfold step. pose proof (coarse_run G wfi_coarse t o s) as K.
  destruct (run G t o s); try discriminate; intros H; inversion H; subst; destruct (K W) as [W' I];
    destruct (finish_wf W') as [W'' I']; eauto using ident_trans.
Qed.

Theorem exec_wf G l s vs s' : wf s -> exec G l s = Some (vs, s') -> wf s' /\ ident s s'.
Proof.
  revert s vs. induction l as [|[t o] l IH]; simpl; intros s vs W H.
  - inversion H; subst. auto using ident_refl.
  - destruct (step G t o s) as [[v s1]|] eqn:E; [|discriminate].
    destruct (exec G l s1) as [[vs2 s2]|] eqn:E2; [|discriminate]. inversion H; subst.
    destruct (step_wf _ _ _ W E) as [W1 I1]. destruct (IH _ _ W1 E2) as [W2 I2]. eauto using ident_trans.
Qed.

(** [exec] composes *)
Lemma exec_app G l m s vs s' : exec G (l ++ m) s = Some (vs, s') <->
  exists v1 s1 v2, exec G l s = Some (v1, s1) /\ exec G m s1 = Some (v2, s') /\ vs = v1 ++ v2.
Proof.
  revert s vs. induction l as [|[t o] l IH]; simpl; intros s vs.
  - split.
    + intros H. exists [], s, vs. auto.
    + intros (v1 & s1 & v2 & H1 & H2 & ->). inversion H1; subst. auto.
  - destruct (step G t o s) as [[v s1]|]; [|split; [discriminate|intros (? & ? & ? & ? & _); discriminate]].
    split.
    + destruct (exec G (l ++ m) s1) as [[vs2 s2]|] eqn:E; [|discriminate]. intros H. inversion H; subst.
      apply IH in E. destruct E as (v1 & s3 & v2 & E1 & E2 & ->). rewrite E1. exists (v :: v1), s3, v2. auto.
    + intros (v1 & s3 & v2 & H1 & H2 & ->).
      destruct (exec G l s1) as [[vs2 s2]|] eqn:E; [|discriminate]. inversion H1; subst.
      assert (exec G (l ++ m) s1 = Some (vs2 ++ v2, s')) as -> by (apply IH; eauto 10). auto.
Qed.

Lemma empty_wf : wf empty_vm.
Proof.
  constructor; simpl; try tauto; try discriminate.
  - intros [|i]; discriminate.
  - intros [|i]; discriminate.
  - intros x i [<-|[]]; simpl; tauto.
  - constructor.
  - constructor.
  - intros x k [<-|[]]; simpl; tauto.
Qed.

(** ** The initial state *)

Lemma initialize_ok G t : exists s, initialize G t empty_vm = Ret tt s.
Proof. unfold initialize. destruct G as [[|] nd rn cs ub]; eexists; vm_compute; reflexivity. Qed.

Theorem init_wf G t : wf (init_vm G t).
Proof.
  unfold init_vm. destruct (initialize_ok G t) as (s & E). pose proof (coarse_initialize G wfi_coarse t empty_vm) as K.
  rewrite E in *. apply finish_wf. apply K. apply empty_wf.
Qed.

Theorem reachable_wf G t s : reachable G t s -> wf s.
Proof. intros (l & vs & H). eapply exec_wf; [|exact H]. apply init_wf. Qed.

Lemma reachable_exec G t s l vs s' : reachable G t s -> exec G l s = Some (vs, s') -> reachable G t s'.
Proof. intros (m & ws & H) E. exists (m ++ l), (ws ++ vs). apply exec_app. eauto 10. Qed.
