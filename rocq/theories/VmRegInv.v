(** The registry invariant over all histories. *)
From Verif Require Import Base BaseProofs VmState VmModel VmStep VmBase VmFrame VmWf VmPrim VmInv VmReg VmFine.
Set Implicit Arguments.
Local Open Scope vm_scope.

(** what the registry depends on *)
Definition skel (c : cls) := (c_name c, c_prefix c, c_inner c).
Definition same_reg (s s' : st) : Prop :=
  s_ns s = s_ns s' /\ s_classes s = s_classes s' /\
  forall i, option_map skel (cls_of s i) = option_map skel (cls_of s' i).

Lemma same_find s s' l n : same_reg s s' -> find_cls s l n = find_cls s' l n.
Proof.
  intros (_ & _ & H). apply find_ext. intros i _. specialize (H i).
  destruct (cls_of s i), (cls_of s' i); simpl in H; try discriminate; auto. unfold skel in H. congruence.
Qed.
Lemma same_winner s s' c q : same_reg s s' -> winner s c q = winner s' c q.
Proof.
  intros H. revert c. induction q; intros c; simpl; auto. pose proof H as (_ & _ & K). specialize (K c).
  destruct (cls_of s c) eqn:E1, (cls_of s' c) eqn:E2; simpl in K; try discriminate; auto.
  rewrite (same_find _ _ H). assert (c_inner c0 = c_inner c1) as -> by (unfold skel in K; congruence).
  destruct (find_cls s' (c_inner c1) a); auto.
Qed.
Lemma same_tget s s' a b : same_reg s s' -> tget s a b = tget s' a b.
Proof.
  intros H. pose proof H as (N & _ & _). unfold tget. rewrite (wns_ext s s' 0 a N). destruct (wns s' 0 a); auto.
  rewrite N. destruct (nth_error (s_ns s') n); auto. destruct b; auto. rewrite (same_find _ _ H).
  destruct (find_cls s' (n_classes n0) l); auto. apply same_winner. auto.
Qed.

Definition kept (s s' : st) : Prop := forall n i, get_class s n = Some i -> get_class s' n = Some i.

Lemma same_reg_reg G s s' : same_reg s s' -> reg G s -> reg G s' /\ kept s s'.
Proof.
  intros H [(p & T) A B C]. pose proof H as (N & Cl & K).
  assert (forall m, get_class s' m = get_class s m) as E by (intros; unfold get_class; rewrite Cl; auto).
  split; [|intros n i; rewrite E; auto]. constructor.
  - exists p. apply tree_ok_ext with (s := s); auto.
  - intros. rewrite E, <- (same_tget _ _ H). auto.
  - intros n i. rewrite E. intros Hn. destruct (B _ _ Hn) as (c & H1 & H2). specialize (K i). rewrite H1 in K.
    destruct (cls_of s' i) as [c'|]; [|discriminate]. exists c'. split; auto. simpl in K. unfold skel in K. congruence.
  - intros i c Hc. specialize (K i). rewrite Hc in K. destruct (cls_of s i) as [c0|] eqn:E0; [|discriminate].
    rewrite E. assert (c_prefix c = c_prefix c0) as -> by (simpl in K; unfold skel in K; congruence). auto.
Qed.

Lemma same_reg_heap s s' : s_ns s = s_ns s' -> s_classes s = s_classes s' -> s_heap s = s_heap s' -> same_reg s s'.
Proof. intros A B C. repeat split; auto. intros i. rewrite (cls_of_heap s s') by auto. auto. Qed.

Lemma same_reg_put s i x o : lookup s i = Some x ->
  (forall c, o_pay x = PClass c -> exists d, o_pay o = PClass d /\ skel c = skel d) ->
  ((forall c, o_pay x <> PClass c) -> not_class (o_pay o)) -> same_reg s (put s i o).
Proof.
  intros L H N. repeat split; auto. intros j. rewrite (cls_of_put s i o j L).
  destruct (Nat.eqb_spec i j); auto. subst. unfold cls_of. rewrite L. destruct (o_pay x) eqn:E.
  3:{ destruct (H c) as (d & -> & Es); auto. simpl. congruence. }
  all: destruct (o_pay o) eqn:Eo; auto; exfalso; refine (N _ _ eq_refl); intros; congruence.
Qed.

Lemma same_reg_add s o : not_class (o_pay o) -> same_reg s (add s o).
Proof.
  intros N. repeat split; auto. intros i. unfold cls_of at 2. unfold add. rewrite lookup_alloc.
  destruct (Nat.eqb_spec i (length (s_heap s))); auto. subst. unfold cls_of, lookup.
  rewrite (proj2 (nth_error_None _ _)) by lia. destruct (o_pay o) eqn:E; auto. exfalso. eapply N; eauto.
Qed.

Lemma same_reg_collect G s : reg G s -> same_reg s (collect s).
Proof.
  intros R. destruct (collect_same s) as (S1 & S2 & S3 & _). repeat split; auto. intros i.
  destruct (cls_of s i) as [c|] eqn:E.
  - assert (lookup (collect s) i = lookup s i) as L.
    { apply collect_reach. apply reach_root. apply In_roots. right. left. exists (c_prefix c).
      eapply (aget_In str_eqb str_eqb_spec). apply (r_all R); auto. }
    unfold cls_of in *. rewrite L. rewrite E. auto.
  - unfold cls_of in *. destruct (lookup (collect s) i) as [o|] eqn:L; auto.
    apply collect_sub in L. rewrite L in E. destruct (o_pay o); auto. discriminate.
Qed.

Lemma same_reg_trans a b c : same_reg a b -> same_reg b c -> same_reg a c.
Proof. intros (A & B & C) (D & E & F). split; [congruence|]. split; [congruence|]. intros i. rewrite C. auto. Qed.
Lemma same_reg_newm s i o c m : lookup s i = Some o -> o_pay o = PClass c -> same_reg s (newm s i o c m).
Proof.
  intros L E. eapply same_reg_trans; [apply same_reg_add with (o := new_obj None (PMethod m)); intros ? ?; discriminate|].
  eapply same_reg_put with (x := o).
  - unfold add. rewrite lookup_alloc. pose proof (lookup_lt _ _ L). destruct (Nat.eqb_spec i (length (s_heap s))); [lia|auto].
  - intros d Ed. assert (d = c) by congruence. subst. eexists. split; reflexivity.
  - intros N. exfalso. eapply N; eauto.
Qed.
Lemma same_reg_newf s i o c f : lookup s i = Some o -> o_pay o = PClass c -> same_reg s (newf s i o c f).
Proof.
  intros L E. eapply same_reg_trans; [apply same_reg_add with (o := new_obj None (PField f)); intros ? ?; discriminate|].
  eapply same_reg_put with (x := o).
  - unfold add. rewrite lookup_alloc. pose proof (lookup_lt _ _ L). destruct (Nat.eqb_spec i (length (s_heap s))); [lia|auto].
  - intros d Ed. assert (d = c) by congruence. subst. eexists. split; reflexivity.
  - intros N. exfalso. eapply N; eauto.
Qed.

Definition RP (G : cfg) (s s' : st) : Prop := reg G s -> reg G s' /\ kept s s'.
Lemma RP_refl G s : RP G s s.
Proof. intros R. split; auto. intros n i H; auto. Qed.
Lemma RP_trans G a b c : RP G a b -> RP G b c -> RP G a c.
Proof. intros H1 H2 R. destruct (H1 R) as [R1 K1]. destruct (H2 R1) as [R2 K2]. split; auto. intros n i H; auto. Qed.
Lemma RP_same G s s' : same_reg s s' -> RP G s s'.
Proof. intros H R. eapply same_reg_reg; eauto. Qed.

Lemma RP_find G z n s : wf s -> match find_class G z n s with Ret _ s' | Thr _ s' => RP G s s' | _ => True end.
Proof.
  intros W. assert (forall o, find_class G z n s = o -> match o with Ret _ s' | Thr _ s' => RP G s s' | _ => True end) as H; [|exact (H _ eq_refl)].
  intros o E. assert (forall R : reg G s, match o with Ret _ s' | Thr _ s' => reg G s' /\ kept s s' | _ => True end) as H.
  { intros R. assert (inv G s) as I by (constructor; auto). destruct z.
    - rewrite find_class_true in E by auto. subst. split; auto. intros m i H; auto.
    - destruct (find_class_false n I) as (i & s' & E' & I' & Hn & C). rewrite E' in E. subst.
      split; [apply I'|]. intros m j H. apply C. auto. }
  destruct o; auto; intros R; apply H; auto.
Qed.

Ltac sput := apply RP_same; eapply same_reg_put; [eassumption| |]; simpl;
  [let c := fresh in let H := fresh in intros c H; first [congruence | eexists; split; [eassumption|reflexivity]]
  |let N := fresh in intros N; try (intros ? ?; congruence); try exact N].

Theorem reg_fine G t : fine G t (fun _ => True) (RP G).
Proof.
  constructor; intros; try (apply RP_same; apply same_reg_heap; reflexivity).
  - eapply RP_trans; eauto.
  - apply RP_find. auto.
  - apply RP_same, same_reg_add. auto.
  - sput.
  - apply RP_same. eapply same_reg_put; eauto; simpl.
    + intros c0 E. assert (c0 = c) by congruence. subst. eexists; split; [reflexivity|].
      inversion H2; subst; reflexivity.
    + intros N. exfalso. eapply N; eauto.
  - apply RP_same, same_reg_newm; auto.
  - apply RP_same, same_reg_newf; auto.
  - sput.
  - sput.
  - sput.
  - sput.
  - sput.
  - sput.
  - intros R. apply same_reg_reg; auto. eapply same_reg_collect; eauto.
Qed.

Lemma empty_reg G : reg G empty_vm.
Proof.
  constructor.
  - exists (fun _ => []). constructor; auto. intros k x j y. simpl. destruct k as [|[|k]]; simpl; try discriminate.
    intros E. inversion E; subst. simpl. tauto.
  - intros _ a b _ _. unfold tget. destruct a as [|x a]; simpl; auto. destruct b; auto.
  - intros n i. discriminate.
  - intros i c. unfold cls_of, lookup. simpl. destruct i; discriminate.
Qed.

Section Init.
Variable G : cfg.
Let Q (s s' : st) : Prop := inv G s -> inv G s' /\ kept s s'.
Lemma Qi_refl s : Q s s.
Proof. intros I. split; auto. intros n i H; auto. Qed.
Lemma Qi_trans a b c : Q a b -> Q b c -> Q a c.
Proof. intros H1 H2 R. destruct (H1 R) as [R1 K1]. destruct (H2 R1) as [R2 K2]. split; auto. intros n i H; auto. Qed.
Lemma Qi_both A (m : M A) : keeps wfi m -> (forall s, wf s -> match m s with Ret _ s' | Thr _ s' => RP G s s' | _ => True end) -> keeps Q m.
Proof.
  intros H1 H2 s. specialize (H1 s). specialize (H2 s). destruct (m s); auto; intros [W R];
    destruct (H1 W); destruct (H2 W R); split; auto; constructor; auto.
Qed.
Lemma Qi_GetClassT T i n : keeps Q (GetClassT G T i n).
Proof.
  apply Qi_both; [apply coarse_GetClassT, wfi_coarse|]. intros s W. unfold GetClassT.
  assert (forall A (m : M A), keeps (RP G) m -> forall s, match m s with Ret _ s' | Thr _ s' => RP G s s' | _ => True end) as K by auto.
  pose proof (RP_find G false n W) as F. unfold bind at 1. destruct (find_class G false n s) as [o s1|e s1| | | |]; auto.
  assert (keeps (RP G) (i0 <- nonnull o;; set_type T (Some i0);;; bind_cls i0 T i;;; ret i0)) as X.
  { apply keeps_bind; [apply RP_trans|apply keeps_nonnull, RP_refl|]. intros j.
    apply keeps_bind; [apply RP_trans| |].
    - apply I_set_type. intros. apply RP_same, same_reg_heap; reflexivity.
    - intros _. apply keeps_bind; [apply RP_trans| |intros; apply keeps_ret, RP_refl].
      apply I_upd_cls. intros s0 o0 c L E O. apply RP_same. eapply same_reg_put; eauto; simpl.
      + intros d Ed. assert (d = c) by congruence. subst. eexists. split; [reflexivity|]. reflexivity.
      + intros N. exfalso. eapply N; eauto. }
  specialize (X s1). match goal with |- match ?m with _ => _ end => destruct m end; auto; eapply RP_trans; eauto.
Qed.
Lemma Qi_initialize t : keeps Q (initialize G t).
Proof.
  unfold initialize. apply keeps_bind; [apply Qi_trans| |].
  - apply Qi_both; [apply I_Attach; [apply wfi_refl|intros; apply (c_attach wfi_coarse); auto]|].
    intros s _. pose proof (@I_Attach (RP G) (RP_refl (G:=G)) t) as H. apply H. intros. apply RP_same, same_reg_heap; reflexivity.
  - intros _. repeat (apply keeps_bind; [apply Qi_trans|apply Qi_GetClassT|intros _]). apply keeps_ret, Qi_refl.
Qed.
End Init.

Lemma finish_inv G s : inv G s -> inv G (finish s) /\ kept s (finish s).
Proof.
  intros [W R]. pose proof (finish_wf W) as [W' _].
  assert (reg G (with_tmp s []) /\ kept s (with_tmp s [])) as [R1 K1].
  { apply same_reg_reg; auto. apply same_reg_heap; reflexivity. }
  destruct (same_reg_reg (same_reg_collect R1) R1) as [R2 K2]. split; [constructor; auto|].
  intros n i H. apply K2, K1. auto.
Qed.

Theorem init_inv G t : inv G (init_vm G t).
Proof.
  unfold init_vm. destruct (initialize_ok G t) as (s & E). pose proof (Qi_initialize G t empty_vm) as K.
  rewrite E in *. apply finish_inv. apply K. constructor; [apply empty_wf|apply empty_reg].
Qed.

Theorem step_inv G t o s v s' : inv G s -> step G t o s = Some (v, s') -> inv G s' /\ kept s s'.
Proof.
  intros [W R] E. pose proof (fine_step (reg_fine G t) o (fun _ _ => I) W E R) as [R' K].
  split; auto. constructor; auto. eapply step_wf; eauto.
Qed.

Theorem exec_inv G l s vs s' : inv G s -> exec G l s = Some (vs, s') -> inv G s' /\ kept s s'.
Proof.
  intros [W R] E. destruct (exec_wf _ _ W E) as [W' _].
  assert (RP G s s') as K.
  { refine (@fine_exec G (fun _ _ => True) (fun _ _ => True) (RP G) _ _ l s vs s' W _ E); auto using reg_fine. apply Forall_forall. auto. }
  destruct (K R). split; auto. constructor; auto.
Qed.

Theorem reachable_inv G t s : reachable G t s -> inv G s.
Proof. intros (l & vs & H). eapply exec_inv; [|exact H]. apply init_inv. Qed.
