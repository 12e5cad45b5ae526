(** Well-formed states: no dangling shared pointers, and the parts of objects that never change. *)
From Verif Require Import Base BaseProofs VmState VmModel VmStep VmBase VmFrame.
Set Implicit Arguments.
Local Open Scope vm_scope.

(** ** Objects keep their identity *)

(** The parts of an object that never change. *)
Definition same_kind (p q : pay) : Prop :=
  match p, q with
  | PPlain, PPlain => True
  | PUser n v, PUser m w => n = m /\ length v = length w
  | PClass c, PClass d => c_name c = c_name d /\ c_prefix c = c_prefix d
  | PString a, PString b => a = b
  | PBuffer a c, PBuffer b d => a = b /\ c = d
  | PThrow a, PThrow b => a = b
  | PMethod a, PMethod b => m_name a = m_name b /\ m_sig a = m_sig b /\ m_static a = m_static b
                            /\ m_native a = m_native b
  | PField a, PField b => f_name a = f_name b /\ f_type a = f_type b /\ f_static a = f_static b
  | PWeak a, PWeak b => a = b
  | PGlobal a, PGlobal b => a = b
  | PPrim p l, PPrim q m => p = q /\ length l = length m
  | PArr t l, PArr u m => t = u /\ length l = length m
  | _, _ => False
  end.

Lemma same_kind_refl p : same_kind p p.
Proof. destruct p; simpl; auto. Qed.
Lemma same_kind_trans p q r : same_kind p q -> same_kind q r -> same_kind p r.
Proof.
  destruct p, q; simpl; try tauto; destruct r; simpl; try tauto; intuition congruence.
Qed.

(** Two-state relation: identities are never reused and destroyed objects stay destroyed. *)
Definition ident (s s' : st) : Prop :=
  length (s_heap s) <= length (s_heap s') /\
  forall i, i < length (s_heap s) ->
    match lookup s i, lookup s' i with
    | Some o, Some o' => same_kind (o_pay o) (o_pay o')
    | None, Some _ => False
    | _, None => True
    end.
(** ... and all objects still exist. *)
Definition grow (s s' : st) : Prop :=
  ident s s' /\ forall i, live s i = true -> live s' i = true.

Lemma ident_refl s : ident s s.
Proof. split; auto. intros i _. destruct (lookup s i); auto using same_kind_refl. Qed.
Lemma ident_trans a b c : ident a b -> ident b c -> ident a c.
Proof.
  intros [L1 H1] [L2 H2]. split; [lia|]. intros i L. specialize (H1 i L). specialize (H2 i ltac:(lia)).
  destruct (lookup a i), (lookup b i), (lookup c i); auto; try tauto. eapply same_kind_trans; eauto.
Qed.
Lemma grow_refl s : grow s s.
Proof. split; auto using ident_refl. Qed.
Lemma grow_trans a b c : grow a b -> grow b c -> grow a c.
Proof. intros [A B] [C D]. split; eauto using ident_trans. Qed.

Lemma ident_lookup s s' i o o' :
  ident s s' -> lookup s i = Some o -> lookup s' i = Some o' -> same_kind (o_pay o) (o_pay o').
Proof.
  intros [L H] E E'. specialize (H i (lookup_lt _ _ E)). rewrite E, E' in H. auto.
Qed.
Lemma grow_lookup s s' i o :
  grow s s' -> lookup s i = Some o -> exists o', lookup s' i = Some o' /\ same_kind (o_pay o) (o_pay o').
Proof.
  intros [I L] E. assert (live s i = true) as Li by (apply live_lookup; eauto).
  apply L, live_lookup in Li. destruct Li as (o' & E'). exists o'. split; auto. eapply ident_lookup; eauto.
Qed.

Lemma grow_live s s' i : grow s s' -> live s i = true -> live s' i = true.
Proof. intros [_ H]. auto. Qed.
Lemma grow_is_cls s s' i : grow s s' -> is_cls s i = true -> is_cls s' i = true.
Proof.
  unfold is_cls. intros Gr H. destruct (lookup s i) eqn:E; [|discriminate].
  destruct (grow_lookup _ Gr E) as (o' & -> & K). destruct (o_pay o), (o_pay o'); simpl in *; auto; tauto.
Qed.
Lemma grow_is_mth s s' i : grow s s' -> is_mth s i = true -> is_mth s' i = true.
Proof.
  unfold is_mth. intros Gr H. destruct (lookup s i) eqn:E; [|discriminate].
  destruct (grow_lookup _ Gr E) as (o' & -> & K). destruct (o_pay o), (o_pay o'); simpl in *; auto; tauto.
Qed.
Lemma grow_is_fld s s' i : grow s s' -> is_fld s i = true -> is_fld s' i = true.
Proof.
  unfold is_fld. intros Gr H. destruct (lookup s i) eqn:E; [|discriminate].
  destruct (grow_lookup _ Gr E) as (o' & -> & K). destruct (o_pay o), (o_pay o'); simpl in *; auto; tauto.
Qed.
Lemma grow_is_throw s s' i : grow s s' -> is_throw s i = true -> is_throw s' i = true.
Proof.
  unfold is_throw. intros Gr H. destruct (lookup s i) eqn:E; [|discriminate].
  destruct (grow_lookup _ Gr E) as (o' & -> & K). destruct (o_pay o), (o_pay o'); simpl in *; auto; tauto.
Qed.

Lemma forallb_mono A (f g : A -> bool) l : (forall x, f x = true -> g x = true) -> forallb f l = true -> forallb g l = true.
Proof. rewrite !forallb_forall. auto. Qed.

Lemma grow_pay_ok s s' p : grow s s' -> pay_ok s p = true -> pay_ok s' p = true.
Proof.
  intros Gr. destruct p; cbn [pay_ok]; try (apply forallb_mono; intros x; apply grow_live; auto).
  - rewrite !andb_true_iff. intros [[A B] C]. repeat split.
    + eapply forallb_mono; [|exact A]. intros x. apply grow_is_cls. auto.
    + eapply forallb_mono; [|exact B]. intros x. apply grow_is_fld. auto.
    + eapply forallb_mono; [|exact C]. intros x. apply grow_is_mth. auto.
  - destruct Gr as [[L _] _]. intros H. apply Nat.ltb_lt in H. apply Nat.ltb_lt. lia.
Qed.

(** [grow] for [clazz]: a dead object stays dead. *)
Lemma grow_clazz_ok s s' c : grow s s' -> clazz_ok s c = true -> clazz_ok s' c = true.
Proof.
  intros Gr. destruct c as [i|]; simpl; auto. rewrite !andb_true_iff, !Nat.ltb_lt. intros [L H].
  pose proof Gr as [[Le Id] _]. split; [lia|]. specialize (Id i L).
  destruct (live s i) eqn:E.
  - rewrite (grow_live _ Gr E). eapply grow_is_cls; eauto.
  - unfold live in *. destruct (lookup s i); [discriminate|]. destruct (lookup s' i); [tauto|reflexivity].
Qed.

Lemma grow_obj_ok s s' o : grow s s' -> obj_ok s o = true -> obj_ok s' o = true.
Proof.
  unfold obj_ok. rewrite !andb_true_iff. intros Gr [A B]. split.
  - eapply grow_pay_ok; eauto.
  - eapply grow_clazz_ok; eauto.
Qed.
Lemma grow_env_ok s s' e : grow s s' -> env_ok s e = true -> env_ok s' e = true.
Proof.
  unfold env_ok. rewrite !andb_true_iff. intros Gr [A B]. split.
  - eapply forallb_mono; [|exact A]. intros x. apply grow_live. auto.
  - eapply forallb_mono; [|exact B]. intros x. apply grow_is_throw. auto.
Qed.

(** ** Well-formed states *)

Record wf (s : st) : Prop := {
  wf_obj : forall i o, lookup s i = Some o -> obj_ok s o = true;
  wf_wrap : forall i o j, lookup s i = Some o -> (o_pay o = PWeak j \/ o_pay o = PGlobal j) -> j < i;
  wf_globals : forall i, In i (s_globals s) -> live s i = true;
  wf_classes : forall n i, In (n, i) (s_classes s) -> is_cls s i = true;
  wf_nsc : forall x i, In x (s_ns s) -> In i (n_classes x) -> is_cls s i = true;
  wf_types : forall T i, In (T, Some i) (s_types s) -> is_cls s i = true;
  wf_envs : forall t e, In (t, e) (s_envs s) -> env_ok s e = true /\ e_frames e <> [] /\ e_id e < s_nextenv s;
  wf_nodup : NoDup (map fst (s_envs s));
  wf_ids : NoDup (map (fun x : tid * env => e_id (snd x)) (s_envs s));
  wf_ext : forall i, In i (s_ext s) -> live s i = true;
  wf_tmp : forall i, In i (s_tmp s) -> live s i = true;
  wf_subs : forall x k, In x (s_ns s) -> In k (n_subs x) -> k < length (s_ns s);
  wf_root : s_ns s <> []
}.

Lemma In_roots s i : In i (roots s) <->
  In i (s_globals s) \/ (exists n, In (n, i) (s_classes s)) \/ (exists x, In x (s_ns s) /\ In i (n_classes x))
  \/ (exists T, In (T, Some i) (s_types s)) \/ (exists t e, In (t, e) (s_envs s) /\ In i (env_roots e))
  \/ In i (s_ext s) \/ In i (s_tmp s).
Proof.
  unfold roots. rewrite !in_app_iff, in_map_iff, !in_flat_map, somes_In, in_map_iff.
  split; intros H.
  - destruct H as [H|[([n j] & E & H)|[(x & H)|[([T j] & E & H)|[([t e] & H)|H]]]]]; simpl in *; subst; eauto 10.
  - destruct H as [H|[(n & H)|[(x & H)|[(T & H)|[(t & e & H)|H]]]]]; eauto 10.
    + right. left. exists (n, i). auto.
    + right. right. right. left. exists (T, Some i). auto.
    + right. right. right. right. left. exists (t, e). auto.
Qed.

Lemma wf_live s i : wf s -> In i (roots s) -> live s i = true.
Proof.
  intros W. rewrite In_roots. intros [H|[(n & H)|[(x & H & H')|[(T & H)|[(t & e & H & H')|[H|H]]]]]].
  - eapply wf_globals; eauto.
  - eapply is_cls_live, wf_classes; eauto.
  - eapply is_cls_live, wf_nsc; eauto.
  - eapply is_cls_live, wf_types; eauto.
  - destruct (wf_envs W _ _ H) as [E _]. unfold env_ok in E. rewrite andb_true_iff, !forallb_forall in E.
    apply E. auto.
  - eapply wf_ext; eauto.
  - eapply wf_tmp; eauto.
Qed.

Lemma pay_ok_refs s p i : pay_ok s p = true -> In i (refs p) -> live s i = true.
Proof.
  destruct p; cbn [pay_ok refs]; try (rewrite forallb_forall; intros H; apply H); try (simpl; tauto).
  rewrite !andb_true_iff, !forallb_forall, !in_app_iff. intros [[A B] C] [H|[H|H]].
  - apply is_cls_live; auto.
  - apply is_fld_live; auto.
  - apply is_mth_live; auto.
Qed.

Lemma wf_refs s i o j : wf s -> lookup s i = Some o -> In j (refs (o_pay o)) -> live s j = true.
Proof.
  intros W L. apply pay_ok_refs. pose proof (wf_obj W _ L) as H. unfold obj_ok in H.
  rewrite andb_true_iff in H. tauto.
Qed.

Lemma reach_live s i : wf s -> reach s i -> live s i = true.
Proof.
  intros W. induction 1.
  - apply wf_live; auto.
  - eapply wf_refs; eauto.
Qed.

(** A state change that only affects the heap, and only makes it grow. *)
Lemma wf_grow s h :
  wf s -> grow s (with_heap s h) ->
  (forall i o, lookup (with_heap s h) i = Some o -> obj_ok (with_heap s h) o = true) ->
  (forall i o j, lookup (with_heap s h) i = Some o -> (o_pay o = PWeak j \/ o_pay o = PGlobal j) -> j < i) ->
  wf (with_heap s h).
Proof.
  intros W Gr HO HW. constructor; auto; simpl.
  - intros i H. eapply grow_live; eauto. eapply wf_globals; eauto.
  - intros n i H. eapply grow_is_cls; eauto. eapply wf_classes; eauto.
  - intros x i H H'. eapply grow_is_cls; eauto. eapply wf_nsc; eauto.
  - intros T i H. eapply grow_is_cls; eauto. eapply wf_types; eauto.
  - intros t e H. destruct (wf_envs W _ _ H) as (A & B & C). repeat split; auto. eapply grow_env_ok; eauto.
  - apply (wf_nodup W).
  - apply (wf_ids W).
  - intros i H. eapply grow_live; eauto. eapply wf_ext; eauto.
  - intros i H. eapply grow_live; eauto. eapply wf_tmp; eauto.
  - apply (wf_subs W).
  - apply (wf_root W).
Qed.

(** ** Elementary changes *)

Lemma alloc_inv o s r s' : alloc o s = Ret r s' ->
  obj_ok s o = true /\ r = length (s_heap s) /\ s' = with_heap s (s_heap s ++ [Some o]).
Proof.
  unfold alloc, bind, check. destruct (obj_ok s o); [|discriminate]. intros H. inversion H. auto.
Qed.

Lemma alloc_grow s o : grow s (with_heap s (s_heap s ++ [Some o])).
Proof.
  split; [split|].
  - simpl. rewrite app_length. lia.
  - intros i L. rewrite lookup_alloc. destruct (Nat.eqb_spec i (length (s_heap s))); [lia|].
    destruct (lookup s i); auto using same_kind_refl.
  - intros i L. unfold live. rewrite lookup_alloc. pose proof (live_lt _ _ L).
    destruct (Nat.eqb_spec i (length (s_heap s))); [lia|]. exact L.
Qed.

Lemma alloc_wf s o : wf s -> obj_ok s o = true -> wf (with_heap s (s_heap s ++ [Some o])).
Proof.
  intros W O. pose proof (alloc_grow s o) as Gr. apply wf_grow; auto.
  - intros i x. rewrite lookup_alloc. destruct (Nat.eqb i (length (s_heap s))); intros H.
    + inversion H; subst. eapply grow_obj_ok; eauto.
    + eapply grow_obj_ok; eauto. eapply wf_obj; eauto.
  - intros i x j. rewrite lookup_alloc. destruct (Nat.eqb_spec i (length (s_heap s))); intros H H'.
    + inversion H; subst. unfold obj_ok in O. apply andb_true_iff in O. destruct O as [O _].
      destruct H' as [E|E]; rewrite E in O; cbn [pay_ok refs forallb] in O.
      * apply Nat.ltb_lt in O. auto.
      * rewrite andb_true_r in O. apply live_lt in O. auto.
    + eapply wf_wrap; eauto.
Qed.

Lemma put_obj_inv i o s r s' : put_obj i o s = Ret r s' ->
  obj_ok s o = true /\ s' = with_heap s (list_set (s_heap s) i (Some o)).
Proof.
  unfold put_obj, bind, check. destruct (obj_ok s o); [|discriminate]. intros H. inversion H. auto.
Qed.

Lemma put_grow s i x o : lookup s i = Some x -> same_kind (o_pay x) (o_pay o) ->
  grow s (with_heap s (list_set (s_heap s) i (Some o))).
Proof.
  intros L K. split; [split|].
  - simpl. rewrite list_set_length. auto.
  - intros j Lj. rewrite (lookup_set _ _ _ _ L). destruct (Nat.eqb_spec i j).
    + subst. rewrite L. auto.
    + destruct (lookup s j); auto using same_kind_refl.
  - intros j Lj. unfold live. rewrite (lookup_set _ _ _ _ L). destruct (Nat.eqb i j); auto.
Qed.

Lemma put_wf s i x o : wf s -> lookup s i = Some x -> same_kind (o_pay x) (o_pay o) -> obj_ok s o = true ->
  wf (with_heap s (list_set (s_heap s) i (Some o))).
Proof.
  intros W L K O. pose proof (put_grow _ _ _ L K) as Gr. apply wf_grow; auto.
  - intros j y. rewrite (lookup_set _ _ _ _ L). destruct (Nat.eqb i j); intros H.
    + inversion H; subst. eapply grow_obj_ok; eauto.
    + eapply grow_obj_ok; eauto. eapply wf_obj; eauto.
  - intros j y k. rewrite (lookup_set _ _ _ _ L). destruct (Nat.eqb_spec i j); intros H H'.
    + inversion H; subst. eapply wf_wrap; eauto.
      destruct (o_pay x), H' as [E|E]; rewrite E in K; simpl in K; try tauto; subst; auto.
    + eapply wf_wrap; eauto.
Qed.

Lemma wf_envs_aset s t e :
  wf s -> env_ok s e = true -> e_frames e <> [] ->
  (forall e0, get_env s t = Some e0 -> e_id e0 = e_id e) -> get_env s t <> None ->
  wf (with_envs s (aset Nat.eqb (s_envs s) t e)).
Proof.
  intros W O F I N. constructor; try apply W; simpl.
  - intros u x H. destruct (aset_In Nat.eqb Nat.eqb_spec _ _ _ _ _ H) as [[-> ->]|H'].
    + repeat split; auto. destruct (get_env s t) eqn:E; [|congruence].
      rewrite <- (I _ eq_refl). apply (wf_envs W t e0). eapply (aget_In Nat.eqb Nat.eqb_spec); eauto.
    + destruct (wf_envs W _ _ H') as (A & B & C). auto.
  - apply aset_NoDup; [apply Nat.eqb_spec|apply W].
  - pose proof (wf_ids W) as D. unfold get_env in *.
    assert (map (fun x : tid * env => e_id (snd x)) (aset Nat.eqb (s_envs s) t e) = map (fun x : tid * env => e_id (snd x)) (s_envs s)) as ->; auto.
    clear -I N. induction (s_envs s) as [|[u x] l IH]; simpl in *; [congruence|].
    destruct (Nat.eqb u t); simpl; f_equal; auto. symmetry. auto.
Qed.

Lemma grow_same s s' : s_heap s = s_heap s' -> grow s s'.
Proof.
  intros E. assert (forall i, lookup s' i = lookup s i) as L by (intros; unfold lookup; rewrite E; auto).
  split; [split|].
  - rewrite E. auto.
  - intros i _. rewrite L. destruct (lookup s i); auto using same_kind_refl.
  - intros i. unfold live. rewrite L. auto.
Qed.

Lemma collect_ident s : ident s (collect s).
Proof.
  pose proof (collect_same s) as (_ & _ & _ & _ & _ & _ & _ & _ & L). split; [lia|].
  intros i _. destruct (lookup s i) eqn:E, (lookup (collect s) i) eqn:E'; auto.
  - apply collect_sub in E'. rewrite E in E'. inversion E'. apply same_kind_refl.
  - apply collect_sub in E'. congruence.
Qed.

Lemma collect_wf s : wf s -> wf (collect s).
Proof.
  intros W. pose proof (collect_same s) as (S1 & S2 & S3 & S4 & S5 & S6 & S7 & S8 & L).
  assert (forall i, In i (roots s) -> lookup (collect s) i = lookup s i) as R.
  { intros i H. apply collect_reach. constructor. auto. }
  assert (RC : forall i, In i (roots s) -> is_cls s i = true -> is_cls (collect s) i = true).
  { intros i H. unfold is_cls. rewrite R; auto. }
  assert (RL : forall i, In i (roots s) -> live s i = true -> live (collect s) i = true).
  { intros i H. unfold live. rewrite R; auto. }
  (* references of survivors survive *)
  assert (F : forall i o j, lookup (collect s) i = Some o -> In j (refs (o_pay o)) -> lookup (collect s) j = lookup s j).
  { unfold collect. generalize (length (s_heap s)) as n. clear -W.
    assert (forall n s, (forall i o j, lookup s i = Some o -> In j (refs (o_pay o)) -> live s j = true) ->
      forall i o j, lookup (iter n sweep s) i = Some o -> In j (refs (o_pay o)) -> lookup (iter n sweep s) j = lookup s j) as H.
    { induction n; intros x C i o j; simpl; auto. intros E I. rewrite (IHn (sweep x)) with (i := i) (o := o); auto.
      - rewrite lookup_sweep. rewrite (proj2 (memb_In _ _)); auto.
        apply iter_sub in E. rewrite lookup_sweep in E. destruct (memb i (held x)); [|discriminate].
        unfold held. rewrite in_app_iff. right. unfold lookup in E.
        destruct (nth_error (s_heap x) i) as [[y|]|] eqn:E'; try discriminate.
        inversion E; subst. eapply refs_in_heap; eauto.
      - intros i' o' j'. rewrite lookup_sweep. destruct (memb i' (held x)) eqn:M; [|discriminate]. intros E' I'.
        unfold live. rewrite lookup_sweep. rewrite (proj2 (memb_In _ _)).
        + apply (C i' o' j'); auto.
        + unfold held. rewrite in_app_iff. right. unfold lookup in E'.
          destruct (nth_error (s_heap x) i') as [[y|]|] eqn:E''; try discriminate.
          inversion E'; subst. eapply refs_in_heap; eauto. }
    intros n. apply H. intros. eapply wf_refs; eauto. }
  constructor.
  - intros i o E. pose proof (wf_obj W _ (collect_sub _ _ E)) as O. unfold obj_ok in *.
    rewrite andb_true_iff in *. destruct O as [O C]. split.
    + assert (FF : forall j, In j (refs (o_pay o)) -> lookup (collect s) j = lookup s j) by eauto.
      destruct (o_pay o) eqn:Ep; cbn [pay_ok refs] in *;
        try (rewrite forallb_forall in *; intros j Hj; unfold live; rewrite FF; auto; apply O; auto).
      * rewrite !andb_true_iff, !forallb_forall in *. destruct O as [[A B] D].
        repeat split; intros j Hj; [unfold is_cls|unfold is_fld|unfold is_mth]; rewrite FF;
          try (rewrite !in_app_iff; tauto); [apply A|apply B|apply D]; auto.
      * rewrite Nat.ltb_lt in *. lia.
    + destruct (o_clazz o) as [c|]; simpl in *; auto. rewrite andb_true_iff, Nat.ltb_lt in *.
      destruct C as [C1 C2]. split; [lia|]. destruct (live (collect s) c) eqn:Lc; auto.
      apply live_lookup in Lc. destruct Lc as (x & Lx). pose proof (collect_sub _ _ Lx) as Lx'.
      unfold live in C2. rewrite Lx' in C2. unfold is_cls in *. rewrite Lx. rewrite Lx' in C2. auto.
  - intros i o j E. apply (wf_wrap W i). apply collect_sub. auto.
  - intros i. rewrite <- S1. intros H. apply RL; [rewrite In_roots; auto|]. apply (wf_globals W). auto.
  - intros n i. rewrite <- S2. intros H. apply RC; [rewrite In_roots; eauto 10|]. eapply wf_classes; eauto.
  - intros x i. rewrite <- S3. intros H H'. apply RC; [rewrite In_roots; eauto 10|]. eapply wf_nsc; eauto.
  - intros T i. rewrite <- S4. intros H. apply RC; [rewrite In_roots; eauto 10|]. eapply wf_types; eauto.
  - intros t e. rewrite <- S5, <- S6. intros H. destruct (wf_envs W _ _ H) as (A & B & C). repeat split; auto.
    unfold env_ok in *. rewrite andb_true_iff, !forallb_forall in *. destruct A as [A1 A2]. split.
    + intros i Hi. apply RL; auto. rewrite In_roots. eauto 10.
    + intros i Hi. assert (In i (roots s)) as Hr.
      { rewrite In_roots. right. right. right. right. left. exists t, e. split; auto.
        unfold env_roots. rewrite !in_app_iff. auto. }
      unfold is_throw. rewrite R; auto. apply A2; auto.
  - rewrite <- S5. apply W.
  - rewrite <- S5. apply W.
  - intros i. rewrite <- S7. intros H. apply RL; [rewrite In_roots; eauto 10|]. eapply wf_ext; eauto.
  - intros i. rewrite <- S8. intros H. apply RL; [rewrite In_roots; eauto 20|]. eapply wf_tmp; eauto.
  - rewrite <- S3. apply W.
  - rewrite <- S3. apply W.
Qed.
