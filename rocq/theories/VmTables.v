(** How the member tables of classes evolve over a history. *)
From Verif Require Import Base BaseProofs VmState VmModel VmStep VmSpec VmBase VmFrame VmWf VmPrim VmInv VmReg
  VmFine VmRegInv VmExact VmQuiet VmClass MemSpec.
Set Implicit Arguments.
Unset Strict Implicit.
Local Open Scope vm_scope.

(** ** The erase loop of UnregisterNatives *)
Definition nonnative (s : st) (i : oid) : bool := negb (is_native s i).
Lemma unreg_loop_gen s f i l : length l - i <= f ->
  unreg_loop s f i l = firstn i l ++ filter (nonnative s) (skipn i l).
Proof.
  revert i l. induction f as [|f IH]; intros i l H.
  - simpl. assert (length l <= i) by lia. rewrite firstn_all2, skipn_all2 by auto. simpl. rewrite app_nil_r. auto.
  - cbn [unreg_loop]. destruct (nth_error l i) as [m|] eqn:E.
    + assert (i < length l) as Li by (apply nth_error_Some; congruence).
      assert (l = firstn i l ++ m :: skipn (S i) l) as El.
      { clear -E. revert i E. induction l; intros [|i] E; simpl in *; try discriminate; [congruence|]. f_equal. auto. }
      assert (length (firstn i l) = i) as Lf by (rewrite firstn_length; lia).
      assert (skipn i l = m :: skipn (S i) l) as Es.
      { clear -E. revert i E. induction l; intros [|i] E; simpl in *; try discriminate; [congruence|]. rewrite (IHl _ E). auto. }
      rewrite Es. cbn [filter]. unfold nonnative at 1. destruct (is_native s m) eqn:N; cbn [negb].
      * rewrite IH.
        -- rewrite firstn_app, skipn_app, Lf, firstn_firstn, Nat.min_id, Nat.sub_diag. cbn [firstn]. change (skipn 0 (skipn (S i) l)) with (skipn (S i) l).
           rewrite app_nil_r. rewrite (skipn_all2 (firstn i l)) by lia. auto.
        -- rewrite app_length, Lf, skipn_length. lia.
      * rewrite IH by lia.
        assert (firstn (S i) l = firstn i l ++ [m]) as ->.
        { clear -E. revert i E. induction l; intros [|i] E; simpl in *; try discriminate; [congruence|]. f_equal. apply IHl. auto. }
        rewrite <- app_assoc. auto.
    + apply nth_error_None in E. rewrite firstn_all2, skipn_all2 by auto. simpl. rewrite app_nil_r. auto.
Qed.
Theorem unreg_loop_filter s l : unreg_loop s (length l) 0 l = filter (nonnative s) l.
Proof. rewrite unreg_loop_gen by lia. reflexivity. Qed.

(** ** Reading tables *)
Definition pmeths (p : pay) : list oid := match p with PClass c => c_methods c | _ => [] end.
Definition pfields (p : pay) : list oid := match p with PClass c => c_fields c | _ => [] end.
Lemma methods_of_eq s i : methods_of s i = match lookup s i with Some o => pmeths (o_pay o) | None => [] end.
Proof. unfold methods_of, class_at, contents, option_map. destruct (lookup s i) as [o|]; auto. destruct (o_pay o); auto. Qed.
Lemma fields_of_eq s i : fields_of s i = match lookup s i with Some o => pfields (o_pay o) | None => [] end.
Proof. unfold fields_of, class_at, contents, option_map. destruct (lookup s i) as [o|]; auto. destruct (o_pay o); auto. Qed.

Lemma lookup_put s i x o j : lookup s i = Some x -> lookup (put s i o) j = if Nat.eqb i j then Some o else lookup s j.
Proof. intros L. apply (lookup_set _ _ _ _ L). Qed.
Lemma lookup_add s o j : lookup (add s o) j = if Nat.eqb j (length (s_heap s)) then Some o else lookup s j.
Proof. apply lookup_alloc. Qed.
Lemma methods_wf s cl i : wf s -> In i (methods_of s cl) -> is_mth s i = true.
Proof.
  intros W. rewrite methods_of_eq. destruct (lookup s cl) as [o|] eqn:L; [|simpl; tauto]. intros H.
  pose proof (wf_obj W _ L) as O. unfold obj_ok in O. apply andb_true_iff in O. destruct O as [O _].
  destruct (o_pay o); simpl in *; try tauto. rewrite !andb_true_iff in O. destruct O as [_ O].
  rewrite forallb_forall in O. auto.
Qed.
Lemma fields_wf s cl i : wf s -> In i (fields_of s cl) -> is_fld s i = true.
Proof.
  intros W. rewrite fields_of_eq. destruct (lookup s cl) as [o|] eqn:L; [|simpl; tauto]. intros H.
  pose proof (wf_obj W _ L) as O. unfold obj_ok in O. apply andb_true_iff in O. destruct O as [O _].
  destruct (o_pay o); simpl in *; try tauto. rewrite !andb_true_iff in O. destruct O as [[_ O] _].
  rewrite forallb_forall in O. auto.
Qed.
Lemma is_mth_lt s i : is_mth s i = true -> i < length (s_heap s).
Proof. unfold is_mth. destruct (lookup s i) eqn:L; [|discriminate]. intros _. eapply lookup_lt; eauto. Qed.
Lemma is_fld_lt s i : is_fld s i = true -> i < length (s_heap s).
Proof. unfold is_fld. destruct (lookup s i) eqn:L; [|discriminate]. intros _. eapply lookup_lt; eauto. Qed.

Lemma is_native_eq s i : is_native s i = match method_at s i with Some m => match m_native m with Some _ => true | None => false end | None => false end.
Proof.
  unfold is_native, mth_of, method_at, contents, option_map, bool_of. destruct (lookup s i) as [o|]; auto.
Qed.

(** ** Every member belongs to one class *)
Record owned (s : st) : Prop := {
  ow_m : forall a, NoDup (methods_of s a);
  ow_mx : forall a b i, In i (methods_of s a) -> In i (methods_of s b) -> a = b;
  ow_f : forall a, NoDup (fields_of s a);
  ow_fx : forall a b i, In i (fields_of s a) -> In i (fields_of s b) -> a = b
}.
Definition OP (s s' : st) : Prop := owned s -> owned s'.
Definition shrinks (s s' : st) : Prop := forall a,
  (NoDup (methods_of s a) -> NoDup (methods_of s' a)) /\ incl (methods_of s' a) (methods_of s a) /\
  (NoDup (fields_of s a) -> NoDup (fields_of s' a)) /\ incl (fields_of s' a) (fields_of s a).
Lemma OP_shrinks s s' : shrinks s s' -> OP s s'.
Proof.
  intros H O. constructor.
  - intros a. apply H, O.
  - intros a b i A B. apply H in A. apply H in B. eapply ow_mx; eauto.
  - intros a. apply H, O.
  - intros a b i A B. apply H in A. apply H in B. eapply ow_fx; eauto.
Qed.
Lemma shrinks_same s s' : (forall a, methods_of s' a = methods_of s a) -> (forall a, fields_of s' a = fields_of s a) -> shrinks s s'.
Proof. intros H K a. rewrite H, K. auto using incl_refl. Qed.
Lemma shrinks_heap s s' : s_heap s' = s_heap s -> shrinks s s'.
Proof.
  intros H. assert (forall j, lookup s' j = lookup s j) as E by (intros; unfold lookup; rewrite H; auto).
  apply shrinks_same; intros a; [rewrite !methods_of_eq|rewrite !fields_of_eq]; rewrite E; auto.
Qed.
Lemma shrinks_add s o : pmeths (o_pay o) = [] -> pfields (o_pay o) = [] -> shrinks s (add s o).
Proof.
  intros H K. apply shrinks_same; intros a; [rewrite !methods_of_eq|rewrite !fields_of_eq]; rewrite lookup_add;
    destruct (Nat.eqb_spec a (length (s_heap s))); auto; subst; unfold lookup;
    rewrite (proj2 (nth_error_None _ _)) by lia; auto.
Qed.
Lemma shrinks_put s i x o : lookup s i = Some x -> 
  (NoDup (pmeths (o_pay x)) -> NoDup (pmeths (o_pay o))) -> incl (pmeths (o_pay o)) (pmeths (o_pay x)) ->
  pfields (o_pay o) = pfields (o_pay x) -> shrinks s (put s i o).
Proof.
  intros L A B C a. rewrite !methods_of_eq, !fields_of_eq, (lookup_put _ _ L).
  destruct (Nat.eqb_spec i a); [|auto using incl_refl]. subst. rewrite L, C. auto using incl_refl.
Qed.
Lemma shrinks_collect s : shrinks s (collect s).
Proof.
  intros a. rewrite !methods_of_eq, !fields_of_eq. destruct (lookup (collect s) a) as [o|] eqn:L.
  - rewrite (collect_sub _ _ L). auto using incl_refl.
  - split; [constructor|]. split; [intros ? []|]. split; [constructor|intros ? []].
Qed.
Lemma In_app1 A (l : list A) x y : In y (l ++ [x]) -> y = x \/ In y l.
Proof. rewrite in_app_iff. simpl. intuition. Qed.
Lemma NoDup_app1 A (l : list A) x : NoDup l -> ~ In x l -> NoDup (l ++ [x]).
Proof.
  intros N H. apply NoDup_Add with (a := x) (l := l); [|auto].
  replace l with (l ++ []) at 1 by apply app_nil_r. apply Add_app.
Qed.

Lemma methods_newm s i o c m a : lookup s i = Some o -> o_pay o = PClass c ->
  methods_of (newm s i o c m) a = methods_of s a ++ (if Nat.eqb i a then [length (s_heap s)] else []) /\
  fields_of (newm s i o c m) a = fields_of s a.
Proof.
  intros L E. pose proof (lookup_lt _ _ L) as Lt. unfold newm.
  assert (lookup (add s (new_obj None (PMethod m))) i = Some o) as L'.
  { rewrite lookup_add. destruct (Nat.eqb_spec i (length (s_heap s))); [lia|auto]. }
  rewrite !methods_of_eq, !fields_of_eq, (lookup_put _ _ L'), lookup_add.
  destruct (Nat.eqb_spec i a).
  - subst. rewrite L, E. simpl. auto.
  - rewrite app_nil_r. destruct (Nat.eqb_spec a (length (s_heap s))); auto. subst. unfold lookup.
    rewrite (proj2 (nth_error_None _ _)) by lia. auto.
Qed.
Lemma methods_newf s i o c m a : lookup s i = Some o -> o_pay o = PClass c ->
  fields_of (newf s i o c m) a = fields_of s a ++ (if Nat.eqb i a then [length (s_heap s)] else []) /\
  methods_of (newf s i o c m) a = methods_of s a.
Proof.
  intros L E. pose proof (lookup_lt _ _ L) as Lt. unfold newf.
  assert (lookup (add s (new_obj None (PField m))) i = Some o) as L'.
  { rewrite lookup_add. destruct (Nat.eqb_spec i (length (s_heap s))); [lia|auto]. }
  rewrite !methods_of_eq, !fields_of_eq, (lookup_put _ _ L'), lookup_add.
  destruct (Nat.eqb_spec i a).
  - subst. rewrite L, E. simpl. auto.
  - rewrite app_nil_r. destruct (Nat.eqb_spec a (length (s_heap s))); auto. subst. unfold lookup.
    rewrite (proj2 (nth_error_None _ _)) by lia. auto.
Qed.

Ltac put_same L E := apply OP_shrinks; eapply shrinks_put; [exact L|..]; cbn [o_pay set_pay]; try rewrite E; simpl;
  auto using incl_refl.
Lemma owned_fine G t : fine G t (fun _ => True) OP.
Proof.
  constructor; intros; try (apply OP_shrinks, shrinks_heap; reflexivity).
  - intros O. auto.
  - apply (@find_fine G OP); auto.
    + intros x O. auto.
    + intros a b c A B O. auto.
    + intros. apply OP_shrinks, shrinks_add; reflexivity.
    + intros s0 i o c k W L E K. put_same L E.
    + intros. apply OP_shrinks, shrinks_heap; reflexivity.
    + intros. apply OP_shrinks, shrinks_heap; reflexivity.
  - apply OP_shrinks, shrinks_add; destruct p; simpl; auto; exfalso; eapply H1; eauto.
  - put_same H1 H1.
  - apply OP_shrinks. eapply shrinks_put; [eassumption|..]; cbn [o_pay set_pay]; rewrite H1; destruct H2; cbn [pmeths pfields c_methods c_fields]; auto using incl_refl; subst l; rewrite unreg_loop_filter.
    + apply NoDup_filter.
    + intros j Hj. apply filter_In in Hj. tauto.
  - intros O. assert (forall a, ~ In (length (s_heap s)) (methods_of s a)) as Fr.
    { intros a Ha. apply (methods_wf H0) in Ha. apply is_mth_lt in Ha. lia. }
    constructor.
    + intros a. rewrite (proj1 (methods_newm m a H1 H2)). destruct (Nat.eqb i a); [|rewrite app_nil_r; apply O].
      apply NoDup_app1; [apply O|auto].
    + intros a b j. rewrite (proj1 (methods_newm m a H1 H2)), (proj1 (methods_newm m b H1 H2)), !in_app_iff.
      intros [A|A] [B|B].
      * eapply ow_mx; eauto.
      * destruct (Nat.eqb i b); [|destruct B]. destruct B as [<-|[]]. exfalso. eapply Fr; eauto.
      * destruct (Nat.eqb i a); [|destruct A]. destruct A as [<-|[]]. exfalso. eapply Fr; eauto.
      * destruct (Nat.eqb_spec i a); [|destruct A]. destruct (Nat.eqb_spec i b); [|destruct B]. congruence.
    + intros a. rewrite (proj2 (methods_newm m a H1 H2)). apply O.
    + intros a b j. rewrite (proj2 (methods_newm m a H1 H2)), (proj2 (methods_newm m b H1 H2)). apply O.
  - intros O. assert (forall a, ~ In (length (s_heap s)) (fields_of s a)) as Fr.
    { intros a Ha. apply (fields_wf H0) in Ha. apply is_fld_lt in Ha. lia. }
    constructor.
    + intros a. rewrite (proj2 (methods_newf f a H1 H2)). apply O.
    + intros a b j. rewrite (proj2 (methods_newf f a H1 H2)), (proj2 (methods_newf f b H1 H2)). apply O.
    + intros a. rewrite (proj1 (methods_newf f a H1 H2)). destruct (Nat.eqb i a); [|rewrite app_nil_r; apply O].
      apply NoDup_app1; [apply O|auto].
    + intros a b j. rewrite (proj1 (methods_newf f a H1 H2)), (proj1 (methods_newf f b H1 H2)), !in_app_iff.
      intros [A|A] [B|B].
      * eapply ow_fx; eauto.
      * destruct (Nat.eqb i b); [|destruct B]. destruct B as [<-|[]]. exfalso. eapply Fr; eauto.
      * destruct (Nat.eqb i a); [|destruct A]. destruct A as [<-|[]]. exfalso. eapply Fr; eauto.
      * destruct (Nat.eqb_spec i a); [|destruct A]. destruct (Nat.eqb_spec i b); [|destruct B]. congruence.
  - put_same H1 H2.
  - put_same H1 H2.
  - put_same H1 H2.
  - put_same H1 H2.
  - put_same H1 H2.
  - put_same H1 H1.
  - apply OP_shrinks, shrinks_collect.
Qed.

(** ** The initial state *)
Section Init.
Variables (G : cfg) (t : tid) (P : st -> st -> Prop).
Hypothesis F : fine G t (fun _ => True) P.
Let Q (s s' : st) : Prop := wf s -> wf s' /\ P s s'.
Lemma Qf_trans a b c : Q a b -> Q b c -> Q a c.
Proof. intros H1 H2 W. destruct (H1 W) as [W1 K1]. destruct (H2 W1) as [W2 K2]. split; auto. eapply (f_trans F); eauto. Qed.
Lemma Qf_refl s : Q s s.
Proof. intros W. split; auto. apply (f_refl F). Qed.
Lemma Qf_GetClassT T i n : keeps Q (GetClassT G T i n).
Proof.
  unfold GetClassT. apply keeps_bind; [apply Qf_trans| |].
  { intros s. pose proof (coarse_find_class G wfi_coarse false n s) as A. pose proof (@f_find _ _ _ _ F I false n s) as B.
    destruct (find_class G false n s); auto; intros W; split; auto; apply A; auto. }
  intros o. apply keeps_bind; [apply Qf_trans|apply keeps_nonnull, Qf_refl|]. intros j.
  apply keeps_bind; [apply Qf_trans| |].
  - apply I_set_type. intros s H W. split; [|apply (f_bind F); auto].
    apply (c_types wfi_coarse); auto.
  - intros _. apply keeps_bind; [apply Qf_trans| |intros; apply keeps_ret, Qf_refl].
    apply I_upd_cls. intros s0 o0 c L E O W. split.
    + eapply (c_put wfi_coarse); eauto. rewrite E. simpl. auto.
    + eapply (f_cls F); eauto. apply cc_bind; auto.
Qed.
Lemma Qf_initialize : keeps Q (initialize G t).
Proof.
  unfold initialize. apply keeps_bind; [apply Qf_trans| |].
  - apply I_Attach; [apply Qf_refl|]. intros s N W. split; [apply (c_attach wfi_coarse); auto|apply (f_attach F); auto].
  - intros _. repeat (apply keeps_bind; [apply Qf_trans|apply Qf_GetClassT|intros _]). apply keeps_ret, Qf_refl.
Qed.
Theorem fine_init : P empty_vm (init_vm G t).
Proof.
  unfold init_vm. destruct (initialize_ok G t) as (s & E). pose proof (Qf_initialize empty_vm) as K.
  rewrite E in *. destruct (K empty_wf) as [W1 P1]. eapply (f_trans F); [exact P1|]. unfold finish.
  assert (wf (with_tmp s [])) by (apply wf_tmp_only; auto; simpl; tauto).
  eapply (f_trans F); [apply (f_tmp F) with (l := [])|apply (f_collect F)]; auto; simpl; tauto.
Qed.
End Init.

Lemma fine_history G P : (forall t, fine G t (fun _ => True) P) ->
  forall l s vs s', wf s -> exec G l s = Some (vs, s') -> P s s'.
Proof.
  intros F l s vs s' W E. refine (@fine_exec G (fun _ _ => True) (fun _ _ => True) P _ _ l s vs s' W _ E); auto.
  apply Forall_forall. auto.
Qed.

Theorem reachable_owned G t s : reachable G t s -> owned s.
Proof.
  intros (l & vs & E).
  assert (owned (init_vm G t)) as O.
  { apply (fine_init (owned_fine G t)). constructor; intros; try (destruct a; constructor); destruct a; destruct H. }
  eapply (fine_history (owned_fine G)); eauto. apply (inv_wf (init_inv G t)).
Qed.
Lemma exec_owned G l s vs s' : wf s -> owned s -> exec G l s = Some (vs, s') -> owned s'.
Proof. intros W O E. eapply (fine_history (owned_fine G)); eauto. Qed.

(** ** Tables keep their order *)
Definition plain (s : st) (cl : oid) : list oid := filter (nonnative s) (methods_of s cl).
(** Until the class object dies, its methods that are not native and its fields stay in place. *)
Definition tab (s s' : st) : Prop := ident s s' /\ forall cl, is_cls s cl = true -> is_cls s' cl = true ->
  exists l m, plain s' cl = plain s cl ++ l /\ fields_of s' cl = fields_of s cl ++ m.
Lemma tab_refl s : tab s s.
Proof. split; [apply ident_refl|]. intros. exists [], []. rewrite !app_nil_r. auto. Qed.
Lemma ident_is_cls s s' i : ident s s' -> i < length (s_heap s) -> is_cls s' i = true -> is_cls s i = true.
Proof.
  intros [_ H] L. specialize (H i L). unfold is_cls. destruct (lookup s i) as [o|], (lookup s' i) as [o'|]; try discriminate; try tauto.
  destruct (o_pay o), (o_pay o'); simpl in *; auto; tauto.
Qed.
Lemma is_cls_lt s i : is_cls s i = true -> i < length (s_heap s).
Proof. unfold is_cls. destruct (lookup s i) eqn:L; [|discriminate]. intros _. eapply lookup_lt; eauto. Qed.
Lemma tab_trans a b c : tab a b -> tab b c -> tab a c.
Proof.
  intros [I1 H1] [I2 H2]. split; [eapply ident_trans; eauto|]. intros cl A C.
  assert (is_cls b cl = true) as B.
  { eapply ident_is_cls; eauto. apply is_cls_lt in A. destruct I1. lia. }
  destruct (H1 _ A B) as (l & m & E1 & E2). destruct (H2 _ B C) as (l' & m' & E3 & E4).
  exists (l ++ l'), (m ++ m'). rewrite E3, E1, E4, E2, !app_assoc. auto.
Qed.
Lemma tab_same s s' : ident s s' -> 
  (forall cl, is_cls s cl = true -> is_cls s' cl = true ->
    exists l m, methods_of s' cl = methods_of s cl ++ l /\ fields_of s' cl = fields_of s cl ++ m) ->
  (forall cl i, is_cls s' cl = true -> In i (methods_of s cl) -> is_native s' i = is_native s i) -> tab s s'.
Proof.
  intros I H N. split; auto. intros cl A B. destruct (H cl A B) as (l & m & E1 & E2).
  exists (filter (nonnative s') l), m. split; auto. unfold plain. rewrite E1, filter_app. f_equal.
  apply filter_ext_in. intros i Hi. unfold nonnative. rewrite (N cl i B Hi). auto.
Qed.
Lemma tab_heap s s' : s_heap s' = s_heap s -> tab s s'.
Proof.
  intros H. assert (forall j, lookup s' j = lookup s j) as E by (intros; unfold lookup; rewrite H; auto).
  apply tab_same.
  - apply ident_same. auto.
  - intros. exists [], []. rewrite !methods_of_eq, !fields_of_eq, !app_nil_r, E. auto.
  - intros. unfold is_native, mth_of. rewrite E. auto.
Qed.
Definition pnative (p : pay) : option (option nat) := match p with PMethod m => Some (m_native m) | _ => None end.
Lemma native_put s i x o j : lookup s i = Some x -> pnative (o_pay o) = pnative (o_pay x) ->
  is_native (put s i o) j = is_native s j.
Proof.
  intros L H. unfold is_native, mth_of. rewrite (lookup_put _ _ L). destruct (Nat.eqb_spec i j); auto. subst. rewrite L.
  destruct (o_pay o), (o_pay x); simpl in *; try discriminate; auto. congruence.
Qed.
Lemma native_add s o j : j < length (s_heap s) -> is_native (add s o) j = is_native s j.
Proof.
  intros L. unfold is_native, mth_of. rewrite lookup_add. destruct (Nat.eqb_spec j (length (s_heap s))); [lia|auto].
Qed.
Lemma tab_put s i x o : wf s -> lookup s i = Some x -> same_kind (o_pay x) (o_pay o) ->
  filter (nonnative s) (pmeths (o_pay o)) = filter (nonnative s) (pmeths (o_pay x)) ->
  pfields (o_pay o) = pfields (o_pay x) -> tab s (put s i o).
Proof.
  intros W L K M Fd. split; [apply (put_grow _ _ _ L K)|]. intros cl _ _. exists [], []. rewrite !app_nil_r.
  assert (forall j, is_native (put s i o) j = is_native s j) as N.
  { intros j. eapply native_put; eauto. destruct (o_pay o), (o_pay x); simpl in *; try tauto. destruct K as (_ & _ & _ & ->). auto. }
  unfold plain. rewrite (filter_ext _ (nonnative s)) by (intros; unfold nonnative; rewrite N; auto).
  rewrite !methods_of_eq, !fields_of_eq, (lookup_put _ _ L). destruct (Nat.eqb_spec i cl); auto. subst. rewrite L. auto.
Qed.
Lemma tab_add s o : wf s -> tab s (add s o).
Proof.
  intros W. apply tab_same.
  - apply (alloc_grow s o).
  - intros cl A _. exists [], []. rewrite !app_nil_r, !methods_of_eq, !fields_of_eq, lookup_add.
    apply is_cls_lt in A. destruct (Nat.eqb_spec cl (length (s_heap s))); [lia|auto].
  - intros cl i _ H. apply native_add. eapply is_mth_lt, methods_wf; eauto.
Qed.
Lemma tab_collect s : wf s -> tab s (collect s).
Proof.
  intros W. apply tab_same; [apply collect_ident| |].
  - intros cl _ B. exists [], []. rewrite !app_nil_r, !methods_of_eq, !fields_of_eq. unfold is_cls in B.
    destruct (lookup (collect s) cl) as [o|] eqn:L; [|discriminate]. rewrite (collect_sub _ _ L). auto.
  - intros cl i B H. assert (In i (methods_of (collect s) cl)) as H'.
    { rewrite methods_of_eq in *. unfold is_cls in B. destruct (lookup (collect s) cl) as [o|] eqn:L; [|discriminate].
      rewrite (collect_sub _ _ L) in H. auto. }
    apply (methods_wf (collect_wf W)) in H'. unfold is_mth in H'. unfold is_native, mth_of.
    destruct (lookup (collect s) i) as [o|] eqn:L; [|discriminate]. rewrite (collect_sub _ _ L). auto.
Qed.
Lemma tab_newm s i o c m : wf s -> lookup s i = Some o -> o_pay o = PClass c -> tab s (newm s i o c m).
Proof.
  intros W L E. pose proof (lookup_lt _ _ L) as Lt.
  assert (lookup (add s (new_obj None (PMethod m))) i = Some o) as L'.
  { rewrite lookup_add. destruct (Nat.eqb_spec i (length (s_heap s))); [lia|auto]. }
  apply tab_same.
  - eapply ident_trans; [apply (alloc_grow s (new_obj None (PMethod m)))|]. refine (proj1 (put_grow _ _ _ L' _)).
    rewrite E. simpl. auto.
  - intros cl _ _. destruct (methods_newm m cl L E) as [-> ->]. eexists _, []. split; [reflexivity|rewrite app_nil_r; auto].
  - intros cl j _ H. unfold newm. rewrite (native_put (x := o)); auto; [|rewrite E; auto].
    apply native_add. eapply is_mth_lt, methods_wf; eauto.
Qed.
Lemma tab_newf s i o c m : wf s -> lookup s i = Some o -> o_pay o = PClass c -> tab s (newf s i o c m).
Proof.
  intros W L E. pose proof (lookup_lt _ _ L) as Lt.
  assert (lookup (add s (new_obj None (PField m))) i = Some o) as L'.
  { rewrite lookup_add. destruct (Nat.eqb_spec i (length (s_heap s))); [lia|auto]. }
  apply tab_same.
  - eapply ident_trans; [apply (alloc_grow s (new_obj None (PField m)))|]. refine (proj1 (put_grow _ _ _ L' _)).
    rewrite E. simpl. auto.
  - intros cl _ _. destruct (methods_newf m cl L E) as [-> ->]. eexists [], _. split; [rewrite app_nil_r; auto|reflexivity].
  - intros cl j _ H. unfold newf. rewrite (native_put (x := o)); auto; [|rewrite E; auto].
    apply native_add. eapply is_mth_lt, methods_wf; eauto.
Qed.

Ltac put_tab L E := eapply tab_put; [eassumption|exact L|..]; cbn [o_pay set_pay]; try rewrite E; simpl;
  auto using same_kind_refl, list_set_length.
Lemma tab_fine G t : fine G t (fun _ => True) tab.
Proof.
  constructor; intros; try (apply tab_heap; reflexivity).
  - eapply tab_trans; eauto.
  - apply (@find_fine G tab); auto using tab_refl, tab_add.
    + apply tab_trans.
    + intros s0 i o c k W L E K. put_tab L E.
    + intros. apply tab_heap; reflexivity.
    + intros. apply tab_heap; reflexivity.
  - apply tab_add. auto.
  - put_tab H1 H1.
  - eapply tab_put; [eassumption|exact H0|..]; cbn [o_pay set_pay]; rewrite H1; destruct H2; simpl; auto.
    subst l. rewrite unreg_loop_filter. clear. induction (c_methods c) as [|x l IH]; simpl; auto.
    destruct (nonnative s x) eqn:E; simpl; auto. rewrite E. f_equal. auto.
  - apply tab_newm; auto.
  - apply tab_newf; auto.
  - put_tab H1 H2.
  - put_tab H1 H2.
  - put_tab H1 H2.
  - put_tab H1 H2.
  - put_tab H1 H2.
  - put_tab H1 H1.
  - apply tab_collect. auto.
Qed.

(** ** Classes live for ever *)
Lemma class_at_is_cls s cl : is_cls s cl = true <-> class_at s cl <> None.
Proof.
  unfold is_cls, class_at, contents, option_map. destruct (lookup s cl) as [o|]; [|split; congruence].
  destruct (o_pay o); split; congruence.
Qed.
Lemma class_at_named s cl c : class_at s cl = Some c <-> exists o, lookup s cl = Some o /\ o_pay o = PClass c.
Proof.
  unfold class_at, contents, option_map. destruct (lookup s cl) as [o|].
  - destruct (o_pay o) eqn:E; split; try congruence; try (intros (o' & H & H'); congruence). intros H. exists o. split; congruence.
  - split; [discriminate|intros (o' & H & _); discriminate].
Qed.
Theorem class_forever G l s vs s' cl : good G s -> exec G l s = Some (vs, s') -> is_cls s cl = true ->
  is_cls s' cl = true /\ option_map c_prefix (class_at s' cl) = option_map c_prefix (class_at s cl).
Proof.
  intros Gs E C. destruct (exec_inv l (g_inv Gs) E) as [I' K].
  apply class_at_is_cls in C. destruct (class_at s cl) as [c|] eqn:Ec; [|congruence].
  apply class_at_named in Ec. destruct Ec as (o & L & Pc).
  assert (class_named s (c_prefix c) cl) as N by (exists o, c; auto).
  apply (class_named_iff _ _ (g_inv Gs)) in N. apply K in N. apply (class_named_iff _ _ I') in N.
  destruct N as (o' & c' & L' & Pc' & Ep). unfold is_cls, class_at, contents, option_map. rewrite L', Pc', Ep. auto.
Qed.

(** What a history does to the tables of an existing class *)
Theorem tables_history G l s vs s' cl : good G s -> exec G l s = Some (vs, s') -> is_cls s cl = true ->
  ident s s' /\ exists ms fs, plain s' cl = plain s cl ++ ms /\ fields_of s' cl = fields_of s cl ++ fs.
Proof.
  intros Gs E C. pose proof (fine_history (tab_fine G) (inv_wf (g_inv Gs)) E) as [I H]. split; auto.
  apply H; auto. eapply class_forever; eauto.
Qed.
