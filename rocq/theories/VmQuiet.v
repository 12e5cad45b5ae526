(** What class lookups leave unchanged, and states without unreferenced objects. *)
From Verif Require Import Base BaseProofs VmState VmModel VmStep VmSpec VmBase VmFrame VmWf VmPrim VmInv VmReg
  VmFine VmRegInv VmExact.
Set Implicit Arguments.
Unset Strict Implicit.
Local Open Scope vm_scope.

(** ** Objects up to their inner classes *)
Definition same_pay (p q : pay) : Prop :=
  match p with
  | PClass c => exists l, q = PClass (mkCls (c_name c) (c_prefix c) (c_inner c ++ l) (c_fields c) (c_methods c)
                                  (c_natives c) (c_inst c) (c_instarr c) (c_bases c))
  | _ => q = p
  end.
Definition same_obj (o o' : obj) : Prop :=
  o_clazz o' = o_clazz o /\ o_mon o' = o_mon o /\ same_pay (o_pay o) (o_pay o').

Lemma same_pay_refl p : same_pay p p.
Proof. destruct p; simpl; auto. exists []. rewrite app_nil_r. destruct c; auto. Qed.
Lemma same_pay_trans p q r : same_pay p q -> same_pay q r -> same_pay p r.
Proof.
  destruct p; simpl; try (intros -> H; exact H). intros (l & ->) (l' & ->). simpl. exists (l ++ l').
  rewrite app_assoc. auto.
Qed.
Lemma same_obj_refl o : same_obj o o.
Proof. repeat split. apply same_pay_refl. Qed.
Lemma same_obj_trans a b c : same_obj a b -> same_obj b c -> same_obj a c.
Proof. intros (A & B & C) (A' & B' & C'). repeat split; try congruence. eapply same_pay_trans; eauto. Qed.

Definition fresh_class (o : obj) : Prop :=
  o_clazz o = None /\ o_mon o = None /\
  exists n p l, o_pay o = PClass (mkCls n p l [] [] [] None None None).

(** Only the class registry may have changed: new classes, new inner classes. *)
Record quiet (s s' : st) : Prop := {
  q_globals : s_globals s' = s_globals s;
  q_types : s_types s' = s_types s;
  q_envs : s_envs s' = s_envs s;
  q_nextenv : s_nextenv s' = s_nextenv s;
  q_ext : s_ext s' = s_ext s;
  q_tmp : s_tmp s' = s_tmp s;
  q_len : length (s_heap s) <= length (s_heap s');
  q_old : forall i o, lookup s i = Some o -> exists o', lookup s' i = Some o' /\ same_obj o o';
  q_dead : forall i, i < length (s_heap s) -> lookup s i = None -> lookup s' i = None;
  q_new : forall i o, length (s_heap s) <= i -> lookup s' i = Some o -> fresh_class o
}.

Lemma quiet_refl s : quiet s s.
Proof.
  constructor; auto.
  - intros i o H. exists o. split; auto. apply same_obj_refl.
  - intros i o L H. apply lookup_lt in H. lia.
Qed.

Lemma fresh_same o o' : fresh_class o -> same_obj o o' -> fresh_class o'.
Proof.
  intros (A & B & n & p & l & C) (A' & B' & D). rewrite C in D. destruct D as (l' & D).
  split; [congruence|]. split; [congruence|]. exists n, p, (l ++ l'). exact D.
Qed.

Lemma quiet_trans a b c : quiet a b -> quiet b c -> quiet a c.
Proof.
  intros H H'. constructor.
  - rewrite (q_globals H'). apply H.
  - rewrite (q_types H'). apply H.
  - rewrite (q_envs H'). apply H.
  - rewrite (q_nextenv H'). apply H.
  - rewrite (q_ext H'). apply H.
  - rewrite (q_tmp H'). apply H.
  - pose proof (q_len H). pose proof (q_len H'). lia.
  - intros i o L. destruct (q_old H L) as (o1 & L1 & S1). destruct (q_old H' L1) as (o2 & L2 & S2).
    exists o2. split; auto. eapply same_obj_trans; eauto.
  - intros i L D. apply (q_dead H'); [pose proof (q_len H); lia|]. apply (q_dead H); auto.
  - intros i o L E. destruct (le_lt_dec (length (s_heap b)) i) as [K|K].
    + eapply (q_new H'); eauto.
    + destruct (lookup b i) as [o1|] eqn:E1.
      * destruct (q_old H' E1) as (o2 & E2 & S2). rewrite E in E2. inversion E2; subst.
        eapply fresh_same; [|exact S2]. eapply (q_new H); eauto.
      * rewrite (q_dead H' K E1) in E. discriminate.
Qed.

Lemma quiet_find G z n s : wf s -> match find_class G z n s with Ret _ s' | Thr _ s' => quiet s s' | _ => True end.
Proof.
  apply find_fine.
  - apply quiet_refl.
  - intros a b c. apply quiet_trans.
  - intros x m p W. constructor; auto.
    + simpl. rewrite app_length. lia.
    + intros i o L. unfold add. rewrite lookup_alloc. pose proof (lookup_lt _ _ L).
      destruct (Nat.eqb_spec i (length (s_heap x))); [lia|]. exists o. split; auto. apply same_obj_refl.
    + intros i L D. unfold add. rewrite lookup_alloc. destruct (Nat.eqb_spec i (length (s_heap x))); [lia|auto].
    + intros i o L. unfold add. rewrite lookup_alloc. destruct (Nat.eqb_spec i (length (s_heap x))).
      * intros E. inversion E; subst. split; [auto|]. split; auto. exists m, p, []. reflexivity.
      * intros E. apply lookup_lt in E. lia.
  - intros x i o c k W L E C. constructor; auto.
    + simpl. rewrite list_set_length. auto.
    + intros j o' L'. unfold VmPrim.put. rewrite (lookup_set _ _ _ _ L). destruct (Nat.eqb_spec i j).
      * subst. rewrite L in L'. inversion L'; subst. eexists. split; [reflexivity|]. repeat split.
        simpl. rewrite E. simpl. exists [k]. reflexivity.
      * exists o'. split; auto. apply same_obj_refl.
    + intros j Lj D. unfold VmPrim.put. rewrite (lookup_set _ _ _ _ L). destruct (Nat.eqb_spec i j); auto. congruence.
    + intros j o' Lj. unfold VmPrim.put. rewrite (lookup_set _ _ _ _ L). apply lookup_lt in L.
      destruct (Nat.eqb_spec i j); [lia|]. intros L'. apply lookup_lt in L'. lia.
  - intros x l W. constructor; auto; intros; [eexists; split; eauto; apply same_obj_refl|].
    match goal with H : lookup _ _ = Some _ |- _ => apply lookup_lt in H; simpl in H; lia end.
  - intros x m i W C. constructor; auto; intros; [eexists; split; eauto; apply same_obj_refl|].
    match goal with H : lookup _ _ = Some _ |- _ => apply lookup_lt in H; simpl in H; lia end.
Qed.

Lemma quiet_env s s' t : quiet s s' -> get_env s' t = get_env s t.
Proof. intros H. unfold get_env. rewrite (q_envs H). auto. Qed.
Lemma quiet_attached s s' t : quiet s s' -> attached s t -> attached s' t.
Proof. intros H (e & A). exists e. rewrite (quiet_env _ H). auto. Qed.
Lemma quiet_live s s' i : quiet s s' -> live s i = true -> live s' i = true.
Proof. intros H L. apply live_lookup in L. destruct L as (o & L). destruct (q_old H L) as (o' & L' & _). apply live_lookup. eauto. Qed.

(** Every class lookup: never fails, creates the class unless [zero], changes nothing else. *)
Theorem find_class_spec G z n s : inv G s -> exists r s',
  find_class G z n s = Ret r s' /\ inv G s' /\ quiet s s' /\ kept s s' /\ r = get_class s' n /\
  (z = true -> s' = s) /\ (z = false -> r <> None /\ creates s s' (outer_names G n)).
Proof.
  intros I. pose proof (quiet_find G z n (inv_wf I)) as Q. destruct z.
  - rewrite find_class_true in * by auto. exists (get_class s n), s. split; auto. split; auto. split; auto.
    split; [intros m i H; auto|]. split; auto. split; auto. discriminate.
  - destruct (find_class_false n I) as (i & s' & E & I' & Hn & C). rewrite E in *.
    exists (Some i), s'. split; auto. split; auto. split; auto.
    split; [intros m j H; apply C; auto|]. split; auto. split; [discriminate|]. intros _. split; auto. discriminate.
Qed.

(** ** States without garbage *)

(** Every object except those in [X] is referenced. *)
Definition tidy_but (X : oid -> Prop) (s : st) : Prop :=
  s_tmp s = [] /\ forall i, live s i = true -> In i (held s) \/ X i.
Definition tidy (s : st) : Prop := tidy_but (fun _ => False) s.

Lemma In_held s i : In i (held s) <-> In i (roots s) \/ exists j o, lookup s j = Some o /\ In i (refs (o_pay o)).
Proof.
  unfold held. rewrite in_app_iff. split; intros [H|H]; auto; right.
  - apply heap_refs_in in H. destruct H as (j & o & E & R). exists j, o. split; auto. unfold lookup. rewrite E. auto.
  - destruct H as (j & o & E & R). unfold lookup in E. destruct (nth_error (s_heap s) j) as [[x|]|] eqn:N; try discriminate.
    inversion E; subst. eapply refs_in_heap; eauto.
Qed.

Lemma nth_ext A (l m : list A) : (forall i, nth_error l i = nth_error m i) -> l = m.
Proof.
  revert m. induction l as [|x l IH]; intros m H.
  - specialize (H 0). destruct m; auto. discriminate.
  - destruct m as [|y m]; [specialize (H 0); discriminate|]. pose proof (H 0) as H0. simpl in H0. inversion H0; subst.
    f_equal. apply IH. intros i. apply (H (S i)).
Qed.
Lemma sweep_id s : (forall i, live s i = true -> In i (held s)) -> sweep s = s.
Proof.
  intros H. unfold sweep. assert (sweep_ (roots s ++ heap_refs (s_heap s)) 0 (s_heap s) = s_heap s) as ->.
  { apply nth_ext. intros i. rewrite nth_sweep. simpl. destruct (nth_error (s_heap s) i) as [[o|]|] eqn:E; auto.
    - rewrite (proj2 (memb_In _ _)); auto. apply H. unfold live, lookup. rewrite E. auto.
    - destruct (memb i (roots s ++ heap_refs (s_heap s))); auto. }
  destruct s; reflexivity.
Qed.
Lemma tidy_finish_id s : tidy s -> finish s = s.
Proof.
  intros [T H]. assert (with_tmp s [] = s) as E by (rewrite <- T; destruct s; reflexivity).
  unfold finish, collect. rewrite E. apply iter_fix. apply sweep_id. intros i L. destruct (H i L); tauto.
Qed.
Lemma finish_tidy s : tidy (finish s).
Proof.
  split; [apply finish_tmp|]. intros i L. left. unfold finish in *. apply live_lookup in L. destruct L as (o & L).
  apply collect_held in L. apply In_held. destruct L as [L|L]; [left|right]; auto. rewrite roots_collect. auto.
Qed.
Lemma step_tidy G t o s v s' : step G t o s = Some (v, s') -> tidy s'.
Proof. unfold step. destruct (run G t o s); intros H; inversion H; subst; apply finish_tidy. Qed.
Lemma exec_tidy G l s vs s' : tidy s -> exec G l s = Some (vs, s') -> tidy s'.
Proof.
  revert s vs. induction l as [|[t o] l IH]; simpl; intros s vs T H; [inversion H; subst; auto|].
  destruct (step G t o s) as [[v s1]|] eqn:E; [|discriminate]. apply step_tidy in E.
  destruct (exec G l s1) as [[vs2 s2]|] eqn:E2; [|discriminate]. inversion H; subst. eapply IH; eauto.
Qed.
Lemma init_tidy G t : tidy (init_vm G t).
Proof. unfold init_vm. destruct (initialize_ok G t) as (s & ->). apply finish_tidy. Qed.
Lemma reachable_tidy G t s : reachable G t s -> tidy s.
Proof. intros (l & vs & H). eapply exec_tidy; [|exact H]. apply init_tidy. Qed.

(** everything that was referenced still is *)
Definition held_le (s s' : st) : Prop :=
  (forall i, In i (roots s) -> In i (roots s')) /\
  (forall i o, lookup s i = Some o -> exists o', lookup s' i = Some o' /\ forall j, In j (refs (o_pay o)) -> In j (refs (o_pay o'))).
Lemma held_le_In s s' i : held_le s s' -> In i (held s) -> In i (held s').
Proof.
  intros [A B]. rewrite !In_held. intros [H|(j & o & L & R)]; auto. right. destruct (B _ _ L) as (o' & L' & R'). eauto.
Qed.
Lemma tidy_le X Y s s' : tidy_but X s -> held_le s s' -> s_tmp s' = [] ->
  (forall i, live s' i = true -> (live s i = true /\ ~ X i) \/ In i (held s') \/ Y i) -> tidy_but Y s'.
Proof.
  intros [T H] L E N. split; auto. intros i Li. destruct (N i Li) as [[A B]|[A|A]]; auto. left.
  eapply held_le_In; eauto. destruct (H i A); tauto.
Qed.

Lemma same_pay_refs p q j : same_pay p q -> In j (refs p) -> In j (refs q).
Proof.
  destruct p; simpl; try (intros ->; auto; fail). intros (l & ->). simpl. rewrite !in_app_iff. tauto.
Qed.
Lemma quiet_roots G s s' : inv G s -> inv G s' -> kept s s' -> quiet s s' -> forall i, In i (roots s) -> In i (roots s').
Proof.
  intros I I' K Q i. assert (forall i, is_cls s i = true -> In i (roots s')) as C.
  { intros j H. apply is_cls_of in H. destruct H as (c & H). apply In_roots. right. left. exists (c_prefix c).
    eapply (aget_In str_eqb str_eqb_spec). apply K. apply (r_all (inv_reg I)). auto. }
  pose proof (inv_wf I) as W.
  rewrite In_roots. intros [H|[(n & H)|[(x & H & H')|[(T & H)|[(t & e & H & H')|[H|H]]]]]].
  - apply In_roots. rewrite (q_globals Q). auto.
  - apply C. eapply (wf_classes W); eauto.
  - apply C. eapply (wf_nsc W); eauto.
  - apply In_roots. rewrite (q_types Q). eauto 10.
  - apply In_roots. rewrite (q_envs Q). eauto 10.
  - apply In_roots. rewrite (q_ext Q). eauto 10.
  - apply In_roots. rewrite (q_tmp Q). eauto 10.
Qed.
Lemma quiet_held_le G s s' : inv G s -> inv G s' -> kept s s' -> quiet s s' -> held_le s s'.
Proof.
  intros I I' K Q. split; [eapply quiet_roots; eauto|]. intros i o L. destruct (q_old Q L) as (o' & L' & S).
  exists o'. split; auto. intros j. apply same_pay_refs. apply S.
Qed.
Lemma tidy_quiet X G s s' : inv G s -> inv G s' -> kept s s' -> quiet s s' -> tidy_but X s ->
  tidy_but X s'.
Proof.
  intros I I' K Q T. assert (held_le s s') as HL by (eapply quiet_held_le; eauto).
  split; [rewrite (q_tmp Q); apply T|]. intros i L.
  destruct (lookup s i) as [o|] eqn:E.
  - destruct T as [_ T]. destruct (T i) as [A|A]; [apply live_lookup; eauto|left; eapply held_le_In; eauto|auto].
  - left. apply In_held. left. apply live_lookup in L. destruct L as (o & L).
    assert (length (s_heap s) <= i) as N.
    { destruct (le_lt_dec (length (s_heap s)) i); auto. rewrite (q_dead Q) in L; auto. discriminate. }
    destruct (q_new Q N L) as (_ & _ & n & p & l & C). apply In_roots. right. left. exists p.
    eapply (aget_In str_eqb str_eqb_spec). pose proof (r_all (inv_reg I')) as R. specialize (R i (mkCls n p l [] [] [] None None None)).
    apply R. unfold cls_of. rewrite L, C. auto.
Qed.

(** ** Growing roots *)
Lemma roots_penv s t e e' : wf s -> get_env s t = Some e ->
  (forall i, In i (env_roots e) -> In i (env_roots e')) -> forall i, In i (roots s) -> In i (roots (penv s t e')).
Proof.
  intros W E H i. rewrite !In_roots. intros [K|[K|[K|[K|[(u & e0 & K & K')|K]]]]]; auto 10.
  right. right. right. right. left.
  assert (get_env s u = Some e0) as E0 by (apply (NoDup_aget Nat.eqb Nat.eqb_spec); auto; apply W).
  destruct (Nat.eq_dec t u) as [->|N].
  - exists u, e'. split; [|apply H; congruence]. apply (aget_In Nat.eqb Nat.eqb_spec). fold (get_env (penv s u e') u).
    rewrite get_env_penv, Nat.eqb_refl. auto.
  - exists u, e0. split; auto. apply (aget_In Nat.eqb Nat.eqb_spec). fold (get_env (penv s t e') u).
    rewrite get_env_penv. destruct (Nat.eqb_spec t u); congruence.
Qed.
Lemma held_le_roots s s' : s_heap s' = s_heap s -> (forall i, In i (roots s) -> In i (roots s')) -> held_le s s'.
Proof.
  intros E H. split; auto. intros i o L. exists o. split; auto. unfold lookup in *. rewrite E. auto.
Qed.
Lemma live_heap s s' i : s_heap s' = s_heap s -> live s' i = live s i.
Proof. intros E. unfold live, lookup. rewrite E. auto. Qed.

Lemma env_root s t e i : get_env s t = Some e -> In i (env_roots e) -> In i (roots s).
Proof.
  intros E H. apply In_roots. right. right. right. right. left. exists t, e. split; auto.
  apply (aget_In Nat.eqb Nat.eqb_spec). auto.
Qed.

(** a new local reference *)
Lemma tidy_pushed X s t i : wf s -> attached s t -> tidy_but X s -> tidy_but (fun j => X j /\ j <> i) (pushed s t i).
Proof.
  intros W (e & E) [T H]. unfold pushed. rewrite E. destruct (wf_env_ok W E) as (_ & F & _).
  destruct (e_frames e) as [|f r] eqn:Ef; [congruence|].
  set (e' := env_frames e ((f ++ [i]) :: r)).
  assert (forall j, In j (roots s) -> In j (roots (penv s t e'))) as R.
  { apply (roots_penv W E). intros j. unfold env_roots, e'. rewrite Ef. simpl. rewrite !in_app_iff. tauto. }
  split; [exact T|]. intros j Lj.
  destruct (Nat.eq_dec j i) as [->|N].
  - left. apply In_held. left. apply (env_root (t := t) (e := e')).
    + rewrite get_env_penv, Nat.eqb_refl. auto.
    + unfold env_roots, e'. simpl. rewrite !in_app_iff. simpl. auto.
  - destruct (H j Lj) as [A|A]; auto. left. apply (held_le_In (s := s)); auto. apply held_le_roots; auto.
Qed.

(** a new object *)
Lemma add_held_le s o : held_le s (add s o).
Proof.
  split; [intros i H; exact H|]. intros i x L. unfold add. rewrite lookup_alloc. pose proof (lookup_lt _ _ L).
  destruct (Nat.eqb_spec i (length (s_heap s))); [lia|]. eauto.
Qed.
Lemma tidy_add X s o : tidy_but X s -> tidy_but (fun j => X j \/ j = length (s_heap s)) (add s o).
Proof.
  intros [T H]. split; [exact T|]. intros i L. unfold live, add in L. rewrite lookup_alloc in L.
  destruct (Nat.eqb_spec i (length (s_heap s))); auto. destruct (H i L); auto. left. eapply held_le_In; eauto. apply add_held_le.
Qed.

(** changes of an object that keep its references *)
Lemma put_held_le s i x o : lookup s i = Some x -> (forall j, In j (refs (o_pay x)) -> In j (refs (o_pay o))) -> held_le s (put s i o).
Proof.
  intros L R. split; [intros j H; exact H|]. intros j y Lj. unfold put. rewrite (lookup_set _ _ _ _ L).
  destruct (Nat.eqb_spec i j); eauto. subst. exists o. split; auto. rewrite L in Lj. inversion Lj; subst. auto.
Qed.
Lemma live_put s i x o j : lookup s i = Some x -> live (put s i o) j = live s j.
Proof.
  intros L. unfold live, put. rewrite (lookup_set _ _ _ _ L). destruct (Nat.eqb_spec i j); auto. subst. rewrite L. auto.
Qed.
Lemma tidy_put X s i x o : lookup s i = Some x -> (forall j, In j (refs (o_pay x)) -> In j (refs (o_pay o))) ->
  tidy_but X s -> tidy_but X (put s i o).
Proof.
  intros L R [T H]. split; [exact T|]. intros j Lj. rewrite (live_put _ _ L) in Lj. destruct (H j Lj); auto.
  left. eapply held_le_In; eauto. eapply put_held_le; eauto.
Qed.
Lemma tidy_ensured X s Y i : tidy_but X s -> tidy_but X (ensured s Y i).
Proof.
  intros T. unfold ensured. destruct (lookup s i) as [o|] eqn:E; auto.
  assert (tidy_but X (put s i (mkObj (type_class s Y) (o_mon o) (o_pay o)))) by (eapply tidy_put; eauto).
  destruct (o_clazz o); auto. destruct (live s o0); auto.
Qed.
Lemma tidy_weaken (X Y : oid -> Prop) s : (forall i, X i -> Y i) -> tidy_but X s -> tidy_but Y s.
Proof. intros H [T K]. split; auto. intros i L. destruct (K i L); auto. Qed.
Lemma tidy_env X s t e e' : wf s -> get_env s t = Some e -> (forall i, In i (env_roots e) -> In i (env_roots e')) ->
  tidy_but X s -> tidy_but X (penv s t e').
Proof.
  intros W E H [T K]. split; [exact T|]. intros j Lj. rewrite (live_heap (s := s)) in Lj by auto.
  destruct (K j Lj); auto. left. apply (held_le_In (s := s)); auto. apply held_le_roots; auto. eapply roots_penv; eauto.
Qed.
Lemma tidy_gadd X s i : tidy_but X s -> tidy_but (fun j => X j /\ j <> i) (with_globals s (s_globals s ++ [i])).
Proof.
  intros [T K]. assert (forall j, In j (roots s) -> In j (roots (with_globals s (s_globals s ++ [i])))) as R.
  { intros j. rewrite !In_roots. simpl. rewrite in_app_iff. tauto. }
  split; [exact T|]. intros j Lj. destruct (Nat.eq_dec j i) as [->|N].
  - left. apply In_held. left. apply In_roots. left. simpl. apply in_app_iff. simpl. auto.
  - destruct (K j Lj); auto. left. apply (held_le_In (s := s)); auto. apply held_le_roots; auto.
Qed.
Lemma tidy_xadd X s i : tidy_but X s -> tidy_but (fun j => X j /\ j <> i) (with_ext s (i :: s_ext s)).
Proof.
  intros [T K]. assert (forall j, In j (roots s) -> In j (roots (with_ext s (i :: s_ext s)))) as R.
  { intros j. rewrite !In_roots. simpl. tauto. }
  split; [exact T|]. intros j Lj. destruct (Nat.eq_dec j i) as [->|N].
  - left. apply In_held. left. apply In_roots. do 5 right. left. simpl. auto.
  - destruct (K j Lj); auto. left. apply (held_le_In (s := s)); auto. apply held_le_roots; auto.
Qed.

(** ** Undisturbed *)
Lemma same_pay_view p q : same_pay p q -> view q = view p.
Proof. destruct p; simpl; try (intros ->; reflexivity). intros (l & ->). reflexivity. Qed.

Lemma intact_refl s i : live s i = true -> intact s s i.
Proof. intros L. apply live_lookup in L. destruct L as (o & L). exists o, o. repeat split; auto. Qed.
Lemma intact_trans a b c i : intact a b i -> intact b c i -> intact a c i.
Proof.
  intros (o & o1 & A & B & C & D & E) (o2 & o3 & A' & B' & C' & D' & E'). rewrite B in A'. inversion A'; subst.
  exists o, o3. repeat split; auto; congruence.
Qed.
Lemma intact_live s s' i : intact s s' i -> live s' i = true.
Proof. intros (o & o' & _ & L & _). apply live_lookup. eauto. Qed.
Lemma undisturbed_refl t s : undisturbed t s s.
Proof. constructor; auto. intros. apply intact_refl. auto. Qed.
Lemma undisturbed_trans t a b c : undisturbed t a b -> undisturbed t b c -> undisturbed t a c.
Proof.
  intros H H'. constructor.
  - intros i L. pose proof (u_obj H L) as I. eapply intact_trans; eauto. apply (u_obj H'). eapply intact_live; eauto.
  - rewrite (u_globals H'). apply H.
  - rewrite (u_ext H'). apply H.
  - intros T. rewrite (u_types H'). apply H.
  - intros u N. rewrite (u_others H' N). apply H. auto.
  - rewrite (u_pending H'). apply H.
  - rewrite (u_running H'). apply H.
  - rewrite (u_envid H'). apply H.
Qed.

Lemma quiet_intact s s' i : quiet s s' -> live s i = true -> intact s s' i.
Proof.
  intros Q L. apply live_lookup in L. destruct L as (o & L). destruct (q_old Q L) as (o' & L' & C & M & P).
  exists o, o'. repeat split; auto.
  - apply same_pay_view. auto.
  - unfold class_ptr. intros c. rewrite L, L', C. destruct (o_clazz o) as [k|]; auto.
    destruct (live s k) eqn:E; [|discriminate]. rewrite (quiet_live Q E). auto.
Qed.
Lemma quiet_undisturbed t s s' : quiet s s' -> undisturbed t s s'.
Proof.
  intros Q. constructor.
  - intros. eapply quiet_intact; eauto.
  - apply Q.
  - apply Q.
  - intros T. unfold registered, get_type. rewrite (q_types Q). auto.
  - intros. apply (quiet_env _ Q).
  - unfold pending. rewrite (quiet_env _ Q). auto.
  - unfold running. rewrite (quiet_env _ Q). auto.
  - rewrite (quiet_env _ Q). auto.
Qed.
Lemma intact_put s i x o j : lookup s i = Some x -> view (o_pay o) = view (o_pay x) -> o_mon o = o_mon x ->
  (forall c, class_ptr s i = Some c -> o_clazz o = Some c) -> live s j = true -> intact s (put s i o) j.
Proof.
  intros L V M C Lj. apply live_lookup in Lj. destruct Lj as (y & Lj).
  assert (class_ptr (put s i o) j = if Nat.eqb i j then match o_clazz o with Some c => if live s c then Some c else None | None => None end else class_ptr s j) as E.
  { unfold class_ptr. unfold put at 1. rewrite (lookup_set _ _ _ _ L). destruct (Nat.eqb_spec i j).
    - destruct (o_clazz o); auto. rewrite (live_put _ _ L). auto.
    - destruct (lookup s j) as [z|]; auto. destruct (o_clazz z); auto. rewrite (live_put _ _ L). auto. }
  destruct (Nat.eqb_spec i j).
  - subst. exists x, o. rewrite E. unfold put. rewrite (lookup_set _ _ _ _ L), Nat.eqb_refl. repeat split; auto.
    intros c Hc. rewrite (C c Hc). unfold class_ptr in Hc. rewrite L in Hc. destruct (o_clazz x); [|discriminate].
    destruct (live s o0) eqn:K; [|discriminate]. inversion Hc; subst. rewrite K. auto.
  - exists y, y. rewrite E. unfold put. rewrite (lookup_set _ _ _ _ L). destruct (Nat.eqb_spec i j); [congruence|]. repeat split; auto.
Qed.
Lemma ensured_undisturbed t s Y i : undisturbed t s (ensured s Y i).
Proof.
  unfold ensured. destruct (lookup s i) as [o|] eqn:L; [|apply undisturbed_refl].
  assert ((forall c, o_clazz o = Some c -> live s c = false) -> undisturbed t s (put s i (mkObj (type_class s Y) (o_mon o) (o_pay o)))) as K.
  { intros D. constructor; auto. intros j Lj. eapply intact_put; eauto. intros c. unfold class_ptr. rewrite L.
    destruct (o_clazz o) as [k|] eqn:Ec; [|discriminate]. rewrite (D k eq_refl). discriminate. }
  destruct (o_clazz o) as [c|] eqn:Ec; [|apply K; congruence].
  destruct (live s c) eqn:E; [apply undisturbed_refl|apply K; congruence].
Qed.
Lemma class_ptr_heap s s' i : s_heap s' = s_heap s -> class_ptr s' i = class_ptr s i.
Proof.
  intros H. unfold class_ptr. assert (forall j, lookup s' j = lookup s j) as E by (intros; unfold lookup; rewrite H; auto).
  rewrite E. destruct (lookup s i) as [o|]; auto. destruct (o_clazz o); auto. unfold live. rewrite E. auto.
Qed.
Lemma intact_heap s s' i : s_heap s' = s_heap s -> live s i = true -> intact s s' i.
Proof.
  intros H L. apply live_lookup in L. destruct L as (o & L). exists o, o. repeat split; auto.
  - unfold lookup in *. rewrite H. auto.
  - intros c. rewrite (class_ptr_heap _ H). auto.
Qed.
Lemma pushed_heap s t i : s_heap (pushed s t i) = s_heap s.
Proof. unfold pushed. destruct (get_env s t) as [e|]; auto. destruct (e_frames e); auto. Qed.
Lemma pushed_undisturbed s t i : undisturbed t s (pushed s t i).
Proof.
  constructor.
  - intros j L. apply intact_heap; auto. apply pushed_heap.
  - unfold pushed. destruct (get_env s t) as [e|]; auto. destruct (e_frames e); auto.
  - unfold pushed. destruct (get_env s t) as [e|]; auto. destruct (e_frames e); auto.
  - unfold pushed. destruct (get_env s t) as [e|]; auto. destruct (e_frames e); auto.
  - intros u N. rewrite get_env_pushed. destruct (Nat.eqb_spec t u); auto. congruence.
  - unfold pending. rewrite get_env_pushed, Nat.eqb_refl. destruct (get_env s t) as [e|]; auto. destruct (e_frames e); auto.
  - unfold running. rewrite get_env_pushed, Nat.eqb_refl. destruct (get_env s t) as [e|]; auto. destruct (e_frames e); auto.
  - rewrite get_env_pushed, Nat.eqb_refl. destruct (get_env s t) as [e|]; auto. destruct (e_frames e); auto.
Qed.
Lemma frames_pushed s t i : frames (pushed s t i) t = add_local (frames s t) i.
Proof.
  unfold frames. rewrite get_env_pushed, Nat.eqb_refl. destruct (get_env s t) as [e|]; auto.
  destruct (e_frames e) eqn:F; simpl; rewrite ?F; auto.
Qed.
Lemma frames_ensured s Y i t : frames (ensured s Y i) t = frames s t.
Proof. unfold frames. rewrite ensured_env. auto. Qed.
Lemma frames_quiet s s' t : quiet s s' -> frames s' t = frames s t.
Proof. intros Q. unfold frames. rewrite (quiet_env _ Q). auto. Qed.
Lemma add_intact s o j : live s j = true -> intact s (add s o) j.
Proof.
  intros L. pose proof (live_lt _ _ L) as Lt. apply live_lookup in L. destruct L as (x & L).
  assert (forall k, live s k = true -> live (add s o) k = true) as LL.
  { intros k Lk. pose proof (live_lt _ _ Lk). unfold live, add. rewrite lookup_alloc.
    destruct (Nat.eqb_spec k (length (s_heap s))); auto. }
  exists x, x. assert (lookup (add s o) j = Some x) as L'.
  { unfold add. rewrite lookup_alloc. destruct (Nat.eqb_spec j (length (s_heap s))); [lia|auto]. }
  repeat split; auto. intros c. unfold class_ptr. rewrite L, L'. destruct (o_clazz x); auto.
  destruct (live s o0) eqn:E; [|discriminate]. rewrite (LL _ E). auto.
Qed.
Lemma add_undisturbed t s o : undisturbed t s (add s o).
Proof. constructor; auto. intros j L. apply add_intact. auto. Qed.
Lemma lookup_add_new s o : lookup (add s o) (length (s_heap s)) = Some o.
Proof. unfold add. rewrite lookup_alloc, Nat.eqb_refl. auto. Qed.
Lemma lookup_add_old s o i : i < length (s_heap s) -> lookup (add s o) i = lookup s i.
Proof. intros L. unfold add. rewrite lookup_alloc. destruct (Nat.eqb_spec i (length (s_heap s))); auto. lia. Qed.

(** ** Reachable states *)
Record good (G : cfg) (s : st) : Prop := { g_inv : inv G s; g_tidy : tidy s }.
Lemma reachable_good G t s : reachable G t s -> good G s.
Proof. intros R. constructor; [eapply reachable_inv|eapply reachable_tidy]; eauto. Qed.
Lemma step_good G t o s v s' : good G s -> step G t o s = Some (v, s') -> good G s'.
Proof. intros [I T] E. constructor; [eapply step_inv|eapply step_tidy]; eauto. Qed.
Lemma exec_good G l s vs s' : good G s -> exec G l s = Some (vs, s') -> good G s'.
Proof. intros [I T] E. constructor; [eapply exec_inv|eapply exec_tidy]; eauto. Qed.
Lemma good_wf G s : good G s -> wf s.
Proof. intros [[W _] _]. auto. Qed.

Lemma class_named_iff G s n i : inv G s -> (class_named s n i <-> get_class s n = Some i).
Proof.
  intros [W R]. split.
  - intros (o & c & L & P & <-). apply (r_all R). unfold cls_of. rewrite L, P. auto.
  - intros H. destruct (r_name R _ H) as (c & C & P). unfold cls_of in C. destruct (lookup s i) as [o|] eqn:L; [|discriminate].
    destruct (o_pay o) eqn:E; try discriminate. inversion C; subst. exists o, c. auto.
Qed.
Lemma class_exists_iff G s n : inv G s -> (class_exists s n <-> get_class s n <> None).
Proof.
  intros I. unfold class_exists. split.
  - intros (i & H). apply (class_named_iff _ _ I) in H. congruence.
  - destruct (get_class s n) as [i|] eqn:E; [|congruence]. intros _. exists i. apply (class_named_iff _ _ I). auto.
Qed.
