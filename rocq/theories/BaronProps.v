(** C45, C46, C63: deny rules of Baron and the classes they keep from being fabricated. *)
From Verif Require Import Base BaseProofs SigModel VmState VmModel VmStep VmDemo VmSpec MemSpec VmBase VmFrame VmWf VmPrim VmInv VmReg VmFine VmRegInv VmExact VmQuiet VmClass ClassProps VmMember VmMember2 VmMember3 VmMemHist MemberProps VmNames BaronModel.
Set Implicit Arguments.
Unset Strict Implicit.
Local Open Scope vm_scope.
Local Open Scope char_scope.

(** ** Specification *)
(** an empty component of a rule or of a query leaves it open *)
Definition fits (pattern query : str) : Prop := pattern = [] \/ pattern = query.
Definition forbids (r : rule) (name sig clazz : str) : Prop :=
  fits (ru_name r) name /\ (sig = [] \/ fits (ru_sig r) sig) /\ (clazz = [] \/ fits (ru_class r) clazz).

Lemma is_nil_spec s : reflect (s = []) (is_nil s).
Proof. destruct s; simpl; constructor; congruence. Qed.
Lemma entry_hit_spec n g c r : fits (ru_name r) n -> (entry_hit n g c r = true <-> forbids r n g c).
Proof.
  intros F. unfold entry_hit, forbids, fits in *. destruct (is_nil_spec n), (is_nil_spec (ru_name r)), (str_eqb_spec (ru_name r) n); simpl; try (exfalso; intuition congruence);
  destruct (is_nil_spec g), (is_nil_spec (ru_sig r)), (str_eqb_spec (ru_sig r) g); simpl; try (split; [discriminate|intuition congruence]);
  destruct (is_nil_spec c), (is_nil_spec (ru_class r)), (str_eqb_spec (ru_class r) c); simpl; split; auto; try discriminate; intuition congruence.
Qed.
Lemma isMemberDenied_spec l n g c : isMemberDenied l n g c = true <-> exists r, In r l /\ forbids r n g c.
Proof.
  unfold isMemberDenied, equal_range. rewrite orb_true_iff, !existsb_exists. split.
  - intros [(r & H & E)|(r & H & E)]; apply filter_In in H; destruct H as [H K]; apply str_eqb_eq in K; exists r; split; auto; eapply entry_hit_spec; eauto; [left|right]; auto.
  - intros (r & H & F). pose proof F as (N & _). destruct (N) as [E|E]; [left|right]; exists r; split; try (apply entry_hit_spec; auto; fail); apply filter_In; split; auto; rewrite E; apply str_eqb_refl.
Qed.

(** ** C45: queries *)
Theorem C45_class_query r n : isClassDenied r n = true <-> In n (r_classes r).
Proof.
  unfold isClassDenied. rewrite existsb_exists. split.
  - intros (x & H & E). apply str_eqb_eq in E. subst. auto.
  - intros H. exists n. split; auto. apply str_eqb_refl.
Qed.
Theorem C45_method_query r n g c : isMethodDenied r n g c = true <-> exists x, In x (r_methods r) /\ forbids x n g c.
Proof. apply isMemberDenied_spec. Qed.
Theorem C45_field_query r n g c : isFieldDenied r n g c = true <-> exists x, In x (r_fields r) /\ forbids x n g c.
Proof. apply isMemberDenied_spec. Qed.

(** ** C45: the rules over histories *)
Section Cfg.
Variable G : cfg.
Lemma bstep_rules t o r s v r' s' : bstep G t o (r, s) = Some (v, (r', s')) ->
  r' = match o with BDenyClass n => denyClass r n | BDenyMethod n g c => denyMethod r n g c | BDenyField n g c => denyField r n g c | _ => r end.
Proof.
  destruct o; simpl; intros E; try (inversion E; subst; reflexivity).
  - destruct (vstep G r t o s) as [[? ?]|]; inversion E; auto.
  - destruct (findClass G r t name s); inversion E; auto.
Qed.
(** The calls that query or add rules: what they return, and that the VM and, for queries, the rules stay as they are. *)
Theorem C45_calls t r s :
  (forall n, bstep G t (BDenyClass n) (r, s) = Some (OVal RUnit, (mkRules (n :: r_classes r) (r_methods r) (r_fields r), s))) /\
  (forall n g c, bstep G t (BDenyMethod n g c) (r, s) = Some (OVal RUnit, (mkRules (r_classes r) (mkRule n c g :: r_methods r) (r_fields r), s))) /\
  (forall n g c, bstep G t (BDenyField n g c) (r, s) = Some (OVal RUnit, (mkRules (r_classes r) (r_methods r) (mkRule n c g :: r_fields r), s))) /\
  (forall n, exists b, bstep G t (BIsClassDenied n) (r, s) = Some (OVal (RBool b), (r, s)) /\ (b = true <-> In n (r_classes r))) /\
  (forall n g c, exists b, bstep G t (BIsMethodDenied n g c) (r, s) = Some (OVal (RBool b), (r, s)) /\ (b = true <-> exists x, In x (r_methods r) /\ forbids x n g c)) /\
  (forall n g c, exists b, bstep G t (BIsFieldDenied n g c) (r, s) = Some (OVal (RBool b), (r, s)) /\ (b = true <-> exists x, In x (r_fields r) /\ forbids x n g c)).
Proof.
  split; [reflexivity|]. split; [reflexivity|]. split; [reflexivity|]. split; [|split].
  - intros n. eexists. split; [reflexivity|]. apply C45_class_query.
  - intros n g c. eexists. split; [reflexivity|]. apply C45_method_query.
  - intros n g c. eexists. split; [reflexivity|]. apply C45_field_query.
Qed.
Theorem C45_history l : forall r s vs r' s', bexec G l (r, s) = Some (vs, (r', s')) ->
  (forall n, isClassDenied r' n = true <-> isClassDenied r n = true \/ exists t, In (t, BDenyClass n) l) /\
  (forall n g c, isMethodDenied r' n g c = true <-> isMethodDenied r n g c = true \/
     exists t a b d, In (t, BDenyMethod a b d) l /\ fits a n /\ (g = [] \/ fits b g) /\ (c = [] \/ fits d c)) /\
  (forall n g c, isFieldDenied r' n g c = true <-> isFieldDenied r n g c = true \/
     exists t a b d, In (t, BDenyField a b d) l /\ fits a n /\ (g = [] \/ fits b g) /\ (c = [] \/ fits d c)).
Proof.
  induction l as [|[t o] l IH]; intros r s vs r' s' E; cbn [bexec] in E.
  - inversion E; subst. simpl. split; [|split]; intros; (split; [auto|]); intros [X|X]; auto; exfalso; revert X; clear; firstorder.
  - destruct (bstep G t o (r, s)) as [[v [r1 s1]]|] eqn:Es; [|discriminate]. destruct (bexec G l (r1, s1)) as [[ws [r2 s2]]|] eqn:El; [|discriminate].
    inversion E; subst. destruct (IH _ _ _ _ _ El) as (A & B & C). apply bstep_rules in Es. clear IH El E.
    split; [|split].
    + intros n. rewrite A, !C45_class_query. destruct o; subst r1; cbn [In r_classes denyClass denyMethod denyField];
      try (split; (intros [|(t' & H)]; [auto|right; exists t']); [auto|destruct H as [H|H]; [discriminate|auto]]).
      split.
      * intros [[->|H]|(t' & H)]; [right; exists t; auto|auto|right; exists t'; auto].
      * intros [H|(t' & [H|H])]; [auto|inversion H; subst; auto|right; exists t'; auto].
    + intros n g c. rewrite B, !C45_method_query. destruct o; subst r1; cbn [In r_methods r_fields denyClass denyMethod denyField];
      try (split; (intros [|(t' & a & b & d & H & F)]; [auto|right; exists t', a, b, d; split; [|exact F]]); [auto|destruct H as [H|H]; [discriminate|auto]]).
      split.
      * intros [(x & [<-|H] & F)|(t' & a & b & d & H & F)]; [right; exists t, name, sig, clazz; split; auto|left; eauto|right; exists t', a, b, d; auto].
      * intros [(x & H & F)|(t' & a & b & d & [H|H] & F)]; [left; eauto|inversion H; subst; left; eexists; split; [left; reflexivity|exact F]|right; exists t', a, b, d; auto].
    + intros n g c. rewrite C, !C45_field_query. destruct o; subst r1; cbn [In r_methods r_fields denyClass denyMethod denyField];
      try (split; (intros [|(t' & a & b & d & H & F)]; [auto|right; exists t', a, b, d; split; [|exact F]]); [auto|destruct H as [H|H]; [discriminate|auto]]).
      split.
      * intros [(x & [<-|H] & F)|(t' & a & b & d & H & F)]; [right; exists t, name, sig, clazz; split; auto|left; eauto|right; exists t', a, b, d; auto].
      * intros [(x & H & F)|(t' & a & b & d & [H|H] & F)]; [left; eauto|inversion H; subst; left; eexists; split; [left; reflexivity|exact F]|right; exists t', a, b, d; auto].
Qed.

(** ** Both tables work on the same states *)
Lemma good_mode a b s : good (mode G a) s -> good (mode G b) s.
Proof. intros [[W [A B C D]] T]. repeat (constructor; auto). Qed.
Lemma dfs_mode a b s : (forall cl L, dfs (mode G a) s cl L -> dfs (mode G b) s cl L) /\ (forall l L, dfs_all (mode G a) s l L -> dfs_all (mode G b) s l L).
Proof. apply dfs_both; intros; econstructor; eauto. Qed.
Lemma find_class_mode a z n : find_class (mode G a) z n = find_class G z n.
Proof. reflexivity. Qed.
Lemma brings_mode a n m : brings (mode G a) n m <-> brings G n m.
Proof. reflexivity. Qed.
Lemma init_mode t0 a : init_vm (mode G a) t0 = init_vm (mode G (negb a)) t0.
Proof. reflexivity. Qed.

Lemma mode_self : mode G (retnull G) = G.
Proof. destruct G; reflexivity. Qed.
Lemma dfs_G a s : (forall cl L, dfs G s cl L <-> dfs (mode G a) s cl L).
Proof.
  intros cl L. split; intros H.
  - apply (proj1 (@dfs_mode (retnull G) a s) cl L). rewrite mode_self. exact H.
  - rewrite <- mode_self. apply (proj1 (@dfs_mode a (retnull G) s) cl L). exact H.
Qed.
Lemma finds_method_G a s st nat nm sg cl r : finds_method G s st nat nm sg cl r <-> finds_method (mode G a) s st nat nm sg cl r.
Proof. unfold finds_method. split; intros (L & D & H); exists L; (split; [apply (dfs_G a s cl L)|]); auto. Qed.
Lemma finds_field_G a s st nm sg cl r : finds_field G s st nm sg cl r <-> finds_field (mode G a) s st nm sg cl r.
Proof. unfold finds_field. split; intros (L & D & H); exists L; (split; [apply (dfs_G a s cl L)|]); auto. Qed.

(** ** Invariants *)
Lemma good_to b s : good G s <-> good (mode G b) s.
Proof. split; intros [[W [A B C D]] T]; repeat (constructor; auto). Qed.
Lemma init_good t0 b : good G (init_vm (mode G b) t0).
Proof. apply (good_to b). apply (@reachable_good (mode G b) t0). exists [], []. reflexivity. Qed.
Lemma step_mode_good a t o s v s' : good G s -> step (mode G a) t o s = Some (v, s') -> good G s'.
Proof. intros H E. apply (good_to a). eapply step_good; [|exact E]. apply (good_to a). auto. Qed.
Lemma guarded_good t o d s v s' : good G s -> guarded G t o d s = Some (v, s') -> good G s'.
Proof.
  unfold guarded. intros H E. destruct (step (mode G true) t o s) as [[w s1]|] eqn:E1; [|discriminate]. pose proof (step_mode_good H E1) as H1.
  destruct w as [[]|]; try (inversion E; subst; auto; fail). destruct h; [inversion E; subst; auto|]. destruct (d s1); [inversion E; subst; auto|]. eapply step_mode_good; eauto.
Qed.
Lemma vstep_good r t o s v s' : good G s -> vstep G r t o s = Some (v, s') -> good G s'.
Proof.
  intros H E. destruct o; cbn [vstep] in E; try (eapply step_mode_good; eauto; fail); try (eapply guarded_good; eauto; fail).
  - destruct h; [eapply step_mode_good; eauto|eapply guarded_good; eauto].
  - destruct obj; eapply step_mode_good; eauto.
Qed.
(** C++ lookups *)
Lemma findClass_spec r t n s : good G s -> attached s t -> exists v s',
  findClass G r t n s = Ret v s' /\ good G s' /\ finish s' = s' /\ undisturbed t s s' /\ frames s' t = frames s t /\ v = get_class s' n /\
  (forall m i, get_class s m = Some i -> get_class s' m = Some i) /\
  (get_class s n <> None \/ isClassDenied r n = true -> s' = s) /\
  (get_class s n = None -> isClassDenied r n = false -> v <> None /\ forall m, get_class s' m <> None <-> get_class s m <> None \/ brings G n m).
Proof.
  intros Gd A. pose proof (g_inv Gd) as I. destruct A as (e & Ee). unfold findClass, bind at 1, the_env. rewrite Ee. unfold bind at 1. rewrite find_class_true by auto.
  assert (forall v, v = get_class s n -> get_class s n <> None \/ isClassDenied r n = true -> exists v0 s',
    Ret v s = Ret v0 s' /\ good G s' /\ finish s' = s' /\ undisturbed t s s' /\ frames s' t = frames s t /\ v0 = get_class s' n /\
    (forall m i, get_class s m = Some i -> get_class s' m = Some i) /\ (get_class s n <> None \/ isClassDenied r n = true -> s' = s) /\
    (get_class s n = None -> isClassDenied r n = false -> v0 <> None /\ forall m, get_class s' m <> None <-> get_class s m <> None \/ brings G n m)) as Done.
  { intros v Ev O. exists v, s. split; auto. split; auto. split; [apply tidy_finish_id, Gd|]. split; [apply undisturbed_refl|]. split; auto. split; auto. split; auto. split; auto. intros H1 H2. destruct O; congruence. }
  destruct (get_class s n) as [c|] eqn:Ec; [apply Done; auto; left; discriminate|]. destruct (isClassDenied r n) eqn:Ed; [apply Done; auto|]. clear Done.
  destruct (find_class_spec false n I) as (v & s' & E & I' & Q & K & Ev & _ & N). destruct (N eq_refl) as (Nn & C).
  assert (tidy s') as T' by (apply (tidy_quiet I I' K Q (g_tidy Gd))).
  exists v, s'. split; auto. split; [constructor; auto|]. split; [apply tidy_finish_id; auto|]. split; [apply quiet_undisturbed; auto|]. split; [apply frames_quiet; auto|]. split; auto. split; [exact K|].
  split; [intros [X|X]; congruence|]. intros _ _. split; auto. intros m. split.
  - intros D. destruct (get_class s m) eqn:E0; [left; congruence|]. right. apply brings_spec. apply (cr_new C _ E0). auto.
  - intros [D|D].
    + destruct (get_class s m) as [i|] eqn:E0; [|congruence]. rewrite (K _ _ E0). congruence.
    + apply brings_spec in D. destruct (get_class s m) as [i|] eqn:E0; [rewrite (K _ _ E0); congruence|]. apply (cr_new C _ E0). auto.
Qed.
Lemma findClass_inv r t n s : good G s -> attached s t \/ findClass G r t n s = Undef.
Proof.
  intros Gd. destruct (get_env s t) as [e|] eqn:E; [left; exists e; auto|right]. unfold findClass, bind, the_env. rewrite E. auto.
Qed.
Lemma bstep_good t o r s v r' s' : good G s -> bstep G t o (r, s) = Some (v, (r', s')) -> good G s'.
Proof.
  intros H E. destruct o; cbn [bstep] in E; try (inversion E; subst; auto; fail).
  - destruct (vstep G r t o s) as [[w s1]|] eqn:Ev; [|discriminate]. inversion E; subst. eapply vstep_good; eauto.
  - destruct (findClass_inv r t name H) as [A|U]; [|rewrite U in E; discriminate].
    destruct (findClass_spec r name H A) as (w & s1 & Ef & G1 & F1 & _). rewrite Ef in E. inversion E; subst. rewrite F1. auto.
Qed.
Lemma bexec_good l : forall r s vs r' s', good G s -> bexec G l (r, s) = Some (vs, (r', s')) -> good G s'.
Proof.
  induction l as [|[t o] l IH]; intros r s vs r' s' H E; cbn [bexec] in E; [inversion E; subst; auto|].
  destruct (bstep G t o (r, s)) as [[v [r1 s1]]|] eqn:Es; [|discriminate]. destruct (bexec G l (r1, s1)) as [[ws [r2 s2]]|] eqn:El; [|discriminate].
  inversion E; subst. eapply IH; [|exact El]. eapply bstep_good; eauto.
Qed.
Lemma breachable_good t0 r s : breachable G t0 (r, s) -> good G s.
Proof. intros (setup & l & vs & E). eapply bexec_good; [|exact E]. apply init_good. Qed.

(** ** Lookups without creation *)
Lemma quiet_method t st nm sg st' sg' h cl L s : good G s -> attached s t -> denotes_opt s h (Some cl) -> dfs G s cl L -> asks s cl st nm sg st' sg' ->
  exists r s', step (mode G true) t (GetMethodID_ st h nm sg) s = Some (OVal (RRef r), s') /\ good G s' /\ same_but_types s s' /\ finds_method G s st' false nm sg' cl r.
Proof.
  intros Gd A Dh D As. assert (good (mode G true) s) as [I Ti] by (apply good_to; auto). pose proof (inv_wf I) as W. apply (dfs_G true) in D.
  assert (exists c, class_at s cl = Some c) as (c & Ec).
  { inversion D; subst. destruct (class_at s cl); eauto. congruence. }
  assert (method_id (mode G true) t true st' nm sg' cl s (GetMethodID (mode G true) t st h nm sg s)) as H.
  { unfold GetMethodID, bind at 1, gets. unfold depth. pose proof (asks_eq Ec As) as E.
    replace (length (s_heap s) + 2) with (S (S (length (s_heap s)))) by lia. assert (exists n, n = S (length (s_heap s))) as (n & En) by eauto. rewrite <- En.
    destruct (negb st && str_eqb nm (S_ "<init>")) eqn:B.
    - destruct E as [-> ->]. cbn [getMethodID]. unfold bind at 1. rewrite (jnicast_class (mode G true) W Dh Ec). unfold bind at 1. rewrite (get_cls_eq Ec), B.
      eapply getMethodID_level; eauto. lia.
    - destruct E as [-> ->]. eapply getMethodID_level; eauto; [|lia].
      destruct st; auto. right. intros ->. discriminate B. }
  assert (step (mode G true) t (GetMethodID_ st h nm sg) s = match GetMethodID (mode G true) t st h nm sg s with
    | Ret r s' => Some (OVal (RRef r), finish s') | Thr e s' => Some (OExn e, finish s') | _ => None end) as St.
  { unfold step. rewrite run_attached by auto. cbn [body]. unfold as_ref, bind. destruct (GetMethodID (mode G true) t st h nm sg s); auto. }
  inversion H as [i0 s0 Hf Ts E0|s0 Hf Hr Ts E0|s1 o0 c0 s2 s0 Hf Hr Ts Lo Po E2 Hd E0|x Hf Hr Dg Nd Bad E0]; try discriminate;
    rewrite <- E0, (tidy_finish_id (tstep_tidy W Ts Ti)) in St; (eexists; exists s0; split; [exact St|]); (split; [eapply step_mode_good; eauto|]); (split; [apply tstep_same; auto|]); apply (finds_method_G true); auto.
Qed.
Lemma quiet_field t st nm ty h cl L s : good G s -> attached s t -> denotes_opt s h (Some cl) -> dfs G s cl L ->
  exists r s', step (mode G true) t (GetFieldID_ st h nm ty) s = Some (OVal (RRef r), s') /\ good G s' /\ same_but_types s s' /\ finds_field G s st nm ty cl r.
Proof.
  intros Gd A Dh D. assert (good (mode G true) s) as [I Ti] by (apply good_to; auto). pose proof (inv_wf I) as W. apply (dfs_G true) in D.
  assert (field_id (mode G true) t true st nm ty cl s (GetFieldID (mode G true) t st h nm ty s)) as H.
  { unfold GetFieldID, bind at 1, gets. eapply getFieldID_level; eauto. unfold depth. lia. }
  assert (step (mode G true) t (GetFieldID_ st h nm ty) s = match GetFieldID (mode G true) t st h nm ty s with
    | Ret r s' => Some (OVal (RRef r), finish s') | Thr e s' => Some (OExn e, finish s') | _ => None end) as St.
  { unfold step. rewrite run_attached by auto. cbn [body]. unfold as_ref, bind. destruct (GetFieldID (mode G true) t st h nm ty s); auto. }
  inversion H as [i0 s0 Hf Ts E0|s0 Hf Hr Ts E0|s1 o0 c0 s2 s0 Hf Hr Ts Lo Po E2 Hd E0|x Hf Hr Dg Nd Bad E0]; try discriminate;
    rewrite <- E0, (tidy_finish_id (tstep_tidy W Ts Ti)) in St; (eexists; exists s0; split; [exact St|]); (split; [eapply step_mode_good; eauto|]); (split; [apply tstep_same; auto|]); apply (finds_field_G true); auto.
Qed.

(** *** the state after such a lookup is as good as the state before *)
Lemma same_eq s s' : same_but_types s s' -> exists T, s' = with_types s T.
Proof. intros [E _]. eauto. Qed.
Lemma same_attached s s' t : same_but_types s s' -> attached s t -> attached s' t.
Proof. intros H. destruct (same_eq H) as (T & ->). auto. Qed.
Lemma same_denotes s s' h r : same_but_types s s' -> denotes_opt s h r -> denotes_opt s' h r.
Proof.
  intros H. destruct (same_eq H) as (T & ->). destruct h as [i|]; auto. simpl. clear H. induction 1.
  - eapply den_obj; eauto.
  - eapply den_global; eauto.
  - eapply den_weak; eauto.
  - eapply den_dead; eauto.
Qed.
Lemma same_supers s s' cl : same_but_types s s' -> supers G s' cl = supers G s cl.
Proof.
  intros H. unfold supers, super_types. rewrite (same_types_class cl H). f_equal. apply map_ext. apply H.
Qed.
Lemma same_dfs s s' : same_but_types s s' -> (forall cl L, dfs G s cl L -> dfs G s' cl L) /\ (forall l L, dfs_all G s l L -> dfs_all G s' l L).
Proof.
  intros H. apply dfs_both; intros; try (econstructor; eauto; fail). constructor.
  - rewrite (same_types_class cl H). auto.
  - intros N B Hb. destruct H as [E R]. rewrite R. apply H1; auto. revert Hb. unfold super_types. rewrite (same_types_class cl (conj E R)). auto.
  - erewrite same_supers by eauto. auto.
Qed.
Lemma same_asks s s' cl st nm sg st' sg' : same_but_types s s' -> asks s cl st nm sg st' sg' -> asks s' cl st nm sg st' sg'.
Proof.
  intros H A. inversion A; subst; [apply asks_plain; auto|eapply asks_ctor; eauto|eapply asks_bad; eauto]; rewrite (same_types_class cl H); auto.
Qed.
Lemma same_prefix s s' h cl c : wf s' -> same_but_types s s' -> denotes_opt s h (Some cl) -> class_at s cl = Some c -> prefix_of G s' h = c_prefix c.
Proof.
  intros W H D C. pose proof (same_denotes H D) as D'. rewrite <- (same_types_class cl H) in C. unfold prefix_of. rewrite (jnicast_class G W D' C), (get_cls_eq C). reflexivity.
Qed.
Lemma same_grown s s' s2 cl ms fs : same_but_types s s' -> grown s' s2 cl ms fs -> grown s s2 cl ms fs.
Proof. intros H (c & c' & C & R). exists c, c'. rewrite (same_types_class cl H) in C. destruct (same_eq H) as (T & ->). auto. Qed.
Lemma same_brought t l s s' s2 : same_but_types s s' -> brought G t l s' s2 -> brought G t l s s2.
Proof. intros H. destruct (same_eq H) as (T & ->). auto. Qed.
Lemma same_disturbs X t s s' s2 : same_but_types s s' -> disturbs X t s' s2 -> disturbs X t s s2.
Proof. intros H D. eapply disturbs_trans; eauto. apply disturbs_un, same_types_undisturbed. auto. Qed.
Lemma same_trans a b c : same_but_types a b -> same_but_types b c -> same_but_types a c.
Proof.
  intros A [E R]. destruct (same_eq A) as (T & ->). destruct A as [_ A]. split; [|intros; congruence]. rewrite E. reflexivity.
Qed.
Lemma same_length s s' : same_but_types s s' -> length (s_heap s') = length (s_heap s).
Proof. intros H. destruct (same_eq H) as (T & ->). auto. Qed.

(** ** C45: lookups *)
Lemma not_denied_method r n g c : (forall x, In x (r_methods r) -> ~ forbids x n g c) -> isMethodDenied r n g c = false.
Proof. intros H. destruct (isMethodDenied r n g c) eqn:E; auto. apply C45_method_query in E. destruct E as (x & Hx & F). destruct (H x Hx F). Qed.
Lemma not_denied_field r n g c : (forall x, In x (r_fields r) -> ~ forbids x n g c) -> isFieldDenied r n g c = false.
Proof. intros H. destruct (isFieldDenied r n g c) eqn:E; auto. apply C45_field_query in E. destruct E as (x & Hx & F). destruct (H x Hx F). Qed.
(** A method that exists is returned, whatever the rules. *)
Theorem C45_existing_method t0 r s t st h cl nm sg st' sg' i : breachable G t0 (r, s) -> attached s t -> denotes_opt s h (Some cl) ->
  asks s cl st nm sg st' sg' -> finds_method G s st' false nm sg' cl (Some i) ->
  exists s', bstep G t (BVm (GetMethodID_ st h nm sg)) (r, s) = Some (OVal (RRef (Some i)), (r, s')) /\ same_but_types s s'.
Proof.
  intros R A D As F. apply breachable_good in R. pose proof F as (L & Df & _). destruct (quiet_method R A D Df As) as (x & s' & E & _ & S & F').
  rewrite (C16_found_unique F F'). exists s'. split; auto. cbn [bstep vstep]. unfold guarded. rewrite E. rewrite <- (C16_found_unique F F'). reflexivity.
Qed.
(** An unknown method that some rule forbids is reported as null, and nothing is created. *)
Theorem C45_denied_method t0 r s t st h cl c nm sg st' sg' x : breachable G t0 (r, s) -> attached s t -> denotes_opt s h (Some cl) -> class_at s cl = Some c ->
  asks s cl st nm sg st' sg' -> finds_method G s st' false nm sg' cl None -> In x (r_methods r) -> forbids x nm sg (c_prefix c) ->
  exists s', bstep G t (BVm (GetMethodID_ st h nm sg)) (r, s) = Some (OVal (RRef None), (r, s')) /\ same_but_types s s'.
Proof.
  intros R A D C As F Hx Fx. apply breachable_good in R. pose proof F as (L & Df & _). destruct (quiet_method R A D Df As) as (y & s' & E & G' & S & F').
  pose proof (C16_found_unique F F') as <-. exists s'. split; auto. cbn [bstep vstep]. unfold guarded. rewrite E.
  rewrite (same_prefix (good_wf G') S D C). assert (isMethodDenied r nm sg (c_prefix c) = true) as -> by (apply C45_method_query; eauto). reflexivity.
Qed.
(** An unknown method that no rule forbids is fabricated in the class. *)
Theorem C45_allowed_method t0 r s t st h cl c nm sg st' sg' l : breachable G t0 (r, s) -> attached s t -> denotes_opt s h (Some cl) -> class_at s cl = Some c ->
  asks s cl st nm sg st' sg' -> finds_method G s st' false nm sg' cl None -> (forall x, In x (r_methods r) -> ~ forbids x nm sg (c_prefix c)) ->
  (debug G = true -> Declare_names sg' = Ok l) ->
  exists i s', bstep G t (BVm (GetMethodID_ st h nm sg)) (r, s) = Some (OVal (RRef (Some i)), (r, s')) /\ i = length (s_heap s) /\
    method_at s' i = Some (mkMth nm sg' st' None None) /\ grown s s' cl [i] [] /\ disturbs (eq cl) t s s' /\ brought G t l s s'.
Proof.
  intros R A D C As F Nx Dn. apply breachable_good in R. pose proof F as (L & Df & _). destruct (quiet_method R A D Df As) as (y & s1 & E & G1 & S & F').
  pose proof (C16_found_unique F F') as <-.
  destruct (@GetMethodID_step (mode G false) t st nm sg st' sg' l h cl L s1) as (v & s2 & E2 & G2 & K).
  { apply good_to; auto. } { eapply same_attached; eauto. } { eapply same_denotes; eauto. } { apply dfs_G. eapply (proj1 (same_dfs S)); eauto. } { eapply same_asks; eauto. } { exact Dn. }
  assert (finds_method (mode G false) s1 st' false nm sg' cl None) as F1.
  { apply finds_method_G. exists L. split; [eapply (proj1 (same_dfs S)); eauto|]. destruct F as (L' & D' & F). assert (L' = L) as -> by (eapply (proj1 (dfs_fun G s)); eauto). intros i Hi Mi.
    apply (F i); [|apply (same_types_is_method st' false nm sg' i S); auto]. erewrite flat_map_ext; [exact Hi|]. intros a. symmetry. apply same_types_methods. auto. }
  inversion K as [i Hf Sm|Hf Hr Sm|i Hf Hr Hi Mi Gr Di Br]; subst.
  - pose proof (C16_found_unique F1 Hf). discriminate.
  - discriminate.
  - exists (length (s_heap s1)), s2. split; [|split; [apply same_length; auto|split; [auto|split; [eapply same_grown; eauto|split; [eapply same_disturbs; eauto|eapply same_brought; [exact S|exact Br]]]]]].
    cbn [bstep vstep]. unfold guarded. rewrite E. rewrite (same_prefix (good_wf G1) S D C), not_denied_method by auto. rewrite E2. reflexivity.
Qed.
Theorem C45_existing_field t0 r s t st h cl nm ty i : breachable G t0 (r, s) -> attached s t -> denotes_opt s h (Some cl) ->
  finds_field G s st nm ty cl (Some i) ->
  exists s', bstep G t (BVm (GetFieldID_ st h nm ty)) (r, s) = Some (OVal (RRef (Some i)), (r, s')) /\ same_but_types s s'.
Proof.
  intros R A D F. apply breachable_good in R. pose proof F as (L & Df & _). destruct (@quiet_field t st nm ty h cl L s R A D Df) as (x & s' & E & _ & S & F').
  rewrite (found_field_unique F F'). exists s'. split; auto. cbn [bstep vstep]. unfold guarded. rewrite E. rewrite <- (found_field_unique F F'). reflexivity.
Qed.
Theorem C45_denied_field t0 r s t st h cl c nm ty x : breachable G t0 (r, s) -> attached s t -> denotes_opt s h (Some cl) -> class_at s cl = Some c ->
  finds_field G s st nm ty cl None -> In x (r_fields r) -> forbids x nm ty (c_prefix c) ->
  exists s', bstep G t (BVm (GetFieldID_ st h nm ty)) (r, s) = Some (OVal (RRef None), (r, s')) /\ same_but_types s s'.
Proof.
  intros R A D C F Hx Fx. apply breachable_good in R. pose proof F as (L & Df & _). destruct (@quiet_field t st nm ty h cl L s R A D Df) as (y & s' & E & G' & S & F').
  pose proof (found_field_unique F F') as <-. exists s'. split; auto. cbn [bstep vstep]. unfold guarded. rewrite E.
  rewrite (same_prefix (good_wf G') S D C). assert (isFieldDenied r nm ty (c_prefix c) = true) as -> by (apply C45_field_query; eauto). reflexivity.
Qed.
Theorem C45_allowed_field t0 r s t st h cl c nm ty l : breachable G t0 (r, s) -> attached s t -> denotes_opt s h (Some cl) -> class_at s cl = Some c ->
  finds_field G s st nm ty cl None -> (forall x, In x (r_fields r) -> ~ forbids x nm ty (c_prefix c)) ->
  (debug G = true -> Declare_names ty = Ok l) ->
  exists i s', bstep G t (BVm (GetFieldID_ st h nm ty)) (r, s) = Some (OVal (RRef (Some i)), (r, s')) /\ i = length (s_heap s) /\
    field_at s' i = Some (mkFld nm ty st None None) /\ grown s s' cl [] [i] /\ disturbs (eq cl) t s s' /\ brought G t l s s'.
Proof.
  intros R A D C F Nx Dn. apply breachable_good in R. pose proof F as (L & Df & _). destruct (@quiet_field t st nm ty h cl L s R A D Df) as (y & s1 & E & G1 & S & F').
  pose proof (found_field_unique F F') as <-.
  destruct (@GetFieldID_step (mode G false) t st nm ty l h cl L s1) as (v & s2 & E2 & G2 & K).
  { apply good_to; auto. } { eapply same_attached; eauto. } { eapply same_denotes; eauto. } { apply dfs_G. eapply (proj1 (same_dfs S)); eauto. } { exact Dn. }
  assert (finds_field (mode G false) s1 st nm ty cl None) as F1.
  { apply finds_field_G. exists L. split; [eapply (proj1 (same_dfs S)); eauto|]. destruct F as (L' & D' & F). assert (L' = L) as -> by (eapply (proj1 (dfs_fun G s)); eauto). intros i Hi Mi.
    apply (F i); [|apply (same_types_is_field st nm ty i S); auto]. erewrite flat_map_ext; [exact Hi|]. intros a. symmetry. apply same_types_fields. auto. }
  inversion K as [i Hf Sm|Hf Hr Sm|i Hf Hr Hi Mi Gr Di Br]; subst.
  - pose proof (found_field_unique F1 Hf). discriminate.
  - discriminate.
  - exists (length (s_heap s1)), s2. split; [|split; [apply same_length; auto|split; [auto|split; [eapply same_grown; eauto|split; [eapply same_disturbs; eauto|eapply same_brought; [exact S|exact Br]]]]]].
    cbn [bstep vstep]. unfold guarded. rewrite E. rewrite (same_prefix (good_wf G1) S D C), not_denied_field by auto. rewrite E2. reflexivity.
Qed.

(** ** C45: classes *)
Lemma walk_ns_hit l : forall k j s s', walk_ns true k l s = Ret (Some j) s' -> s' = s /\ walk_ns false k l s = Ret (Some j) s.
Proof.
  induction l as [|n l IH]; intros k j s s' E; cbn [walk_ns] in *; [inversion E; subst; auto|]. unfold bind, gets in *.
  destruct (nth_error (s_ns s) k) as [x|]; [|discriminate]. destruct (find_sub s (n_subs x) n); [auto|discriminate].
Qed.
Lemma walk_inner_hit l : forall k p j s s', walk_inner true k p l s = Ret (Some j) s' -> s' = s /\ walk_inner false k p l s = Ret (Some j) s.
Proof.
  induction l as [|n l IH]; intros k p j s s' E; cbn [walk_inner] in *; [inversion E; subst; auto|]. unfold bind in *. unfold gets in *.
  destruct (get_cls k s) eqn:Ek; try discriminate.
  assert (s0 = s) as -> by (revert Ek; unfold get_cls, bind, deref; destruct (lookup s k) as [o|]; [destruct (o_pay o)|]; intros X; inversion X; auto).
  destruct (find_cls s (c_inner a) n); [auto|discriminate].
Qed.
Lemma find_class_hit n i s s' : find_class G true n s = Ret (Some i) s' -> find_class G false n s = Ret (Some i) s.
Proof.
  unfold find_class. destruct (debug G && _).
  - unfold bind. destruct (walk_ns true 0 (removelast (split_on "/" n)) s) as [[k|] s1| | | | |] eqn:E; intros H; try discriminate.
    destruct (walk_ns_hit E) as [-> ->]. revert H. unfold walk_cls. destruct (split_on "$" _) as [|m l]; [discriminate|]. unfold bind, gets.
    destruct (nth_error (s_ns s) k) as [x|]; [|discriminate]. destruct (find_cls s (n_classes x) m); [|discriminate]. intros H. apply (walk_inner_hit H).
  - unfold bind, gets. destruct (get_class s n); [|discriminate]. intros H. inversion H; subst. auto.
Qed.
(** what vstep assumes about Call<Type>Method *)
Theorem BFindClass_eq r t n s : good G s -> attached s t -> BFindClass G r t n s = step (mode G (isClassDenied r n)) t (FindClass_ n) s.
Proof.
  intros Gd A. destruct (@FindClass_step (mode G true) t n s) as (v & s1 & E & _ & _ & _ & _ & _ & H & _); [apply good_to; auto|auto|].
  destruct (H eq_refl) as (Ev & _ & Hn & _). unfold BFindClass, guarded. rewrite E. destruct v as [i|].
  - destruct (isClassDenied r n); auto. rewrite <- E. unfold step. rewrite !run_attached by auto. cbn [body]. unfold as_ref, bind, FindClass, FindClass_z. cbn [retnull mode].
    unfold bind. change (find_class (mode G true) true n s) with (find_class G true n s). change (find_class (mode G false) false n s) with (find_class G false n s).
    pose proof (find_class_true n (g_inv Gd)) as F. rewrite F. rewrite <- Ev in F. rewrite (find_class_hit F), <- Ev. auto.
  - rewrite (Hn eq_refl) in *. destruct (isClassDenied r n); auto.
Qed.
(** A known class is returned whatever the rules, an unknown class is created exactly if it is not denied. *)
Definition class_found (r : rules) (n : str) (s s' : st) (v : option oid) : Prop :=
  (forall i, v = Some i <-> class_named s' n i) /\ (forall m i, class_named s m i -> class_named s' m i) /\
  (class_exists s n \/ In n (r_classes r) -> forall m, class_exists s' m -> class_exists s m) /\
  (~ class_exists s n -> In n (r_classes r) -> v = None /\ s' = s) /\
  (~ class_exists s n -> ~ In n (r_classes r) -> v <> None /\ forall m, class_exists s' m <-> class_exists s m \/ brings G n m).
Lemma class_found_intro r n s s' v : good G s -> good G s' -> v = get_class s' n -> (forall m i, get_class s m = Some i -> get_class s' m = Some i) ->
  (get_class s n <> None \/ isClassDenied r n = true -> forall m, get_class s' m = get_class s m) -> (get_class s n = None -> isClassDenied r n = true -> s' = s) ->
  (get_class s n = None -> isClassDenied r n = false -> v <> None /\ forall m, get_class s' m <> None <-> get_class s m <> None \/ brings G n m) -> class_found r n s s' v.
Proof.
  intros G1 G2 Ev K C D F. unfold class_found. split; [|split; [|split; [|split]]].
  - intros i. rewrite (class_named_iff _ _ (g_inv G2)). subst. reflexivity.
  - intros m i. rewrite (class_named_iff _ _ (g_inv G2)), (class_named_iff _ _ (g_inv G1)). auto.
  - intros H m. rewrite (class_exists_iff m (g_inv G1)), (class_exists_iff m (g_inv G2)), C; auto.
    rewrite (class_exists_iff n (g_inv G1)), <- C45_class_query in H. auto.
  - rewrite (class_exists_iff n (g_inv G1)). intros H1 H2. apply C45_class_query in H2. assert (get_class s n = None) as E by (destruct (get_class s n); [exfalso; apply H1; discriminate|auto]).
    rewrite (D E H2) in *. split; congruence.
  - rewrite (class_exists_iff n (g_inv G1)), <- C45_class_query. intros H1 H2. assert (get_class s n = None) as E by (destruct (get_class s n); [exfalso; apply H1; discriminate|auto]).
    destruct (F E) as (Nn & X); [destruct (isClassDenied r n); congruence|]. split; auto. intros m. rewrite (class_exists_iff m (g_inv G1)), (class_exists_iff m (g_inv G2)). auto.
Qed.
Lemma BFindClass_spec r s t n : good G s -> attached s t -> exists v s',
  BFindClass G r t n s = Some (OVal (RRef v), s') /\ good G s' /\ class_found r n s s' v /\ undisturbed t s s' /\
  frames s' t = match v with Some i => add_local (frames s t) i | None => frames s t end.
Proof.
  intros Gd A. rewrite BFindClass_eq by auto.
  destruct (@FindClass_step (mode G (isClassDenied r n)) t n s) as (v & s1 & E & G1 & U & K & Ev & Fr & H & N); [apply good_to; auto|auto|].
  apply good_to in G1. exists v, s1. split; auto. split; auto. split; [|auto]. cbn [mode retnull] in *.
  apply class_found_intro; auto.
  - intros O m. destruct (isClassDenied r n) eqn:Ed; [apply (H eq_refl)|]. destruct O as [O|]; [|discriminate].
    assert (s1 = match get_class s n with Some i => finish (match step (mode G true) t (FindClass_ n) s with Some (_, x) => x | None => s end) | None => s end) as Q.
    { destruct (get_class s n) as [i|] eqn:Ei; [|congruence]. destruct (@FindClass_step (mode G true) t n s) as (v2 & s2 & E2 & G2 & _ & _ & _ & _ & H2 & _); [apply good_to; auto|auto|]. rewrite E2.
      pose proof (@BFindClass_eq r t n s Gd A) as B. unfold BFindClass, guarded in B. rewrite E2, Ed in B. destruct (H2 eq_refl) as (E3 & _). rewrite E3, Ei in B. rewrite E in B. inversion B; subst.
      symmetry. apply tidy_finish_id. apply G2. }
    destruct (@FindClass_step (mode G true) t n s) as (v2 & s2 & E2 & G2 & _ & _ & _ & _ & H2 & _); [apply good_to; auto|auto|]. rewrite E2 in Q. destruct (get_class s n); [|congruence].
    rewrite (tidy_finish_id (g_tidy G2)) in Q. subst s2. apply (H2 eq_refl).
  - intros E0 D. destruct (H D) as (E1 & _ & Hn & _). apply Hn. congruence.
Qed.
Theorem C45_class_lookup t0 r s t n : breachable G t0 (r, s) -> attached s t -> exists v s',
  bstep G t (BVm (FindClass_ n)) (r, s) = Some (OVal (RRef v), (r, s')) /\ class_found r n s s' v /\ undisturbed t s s' /\
  frames s' t = match v with Some i => add_local (frames s t) i | None => frames s t end.
Proof.
  intros R A. apply breachable_good in R. destruct (BFindClass_spec r n R A) as (v & s' & E & _ & H). exists v, s'. split; auto. cbn [bstep vstep]. rewrite E. auto.
Qed.
Theorem C45_class_lookup_cxx t0 r s t n : breachable G t0 (r, s) -> attached s t -> exists v s',
  bstep G t (BFind n) (r, s) = Some (OVal (RRef v), (r, s')) /\ class_found r n s s' v /\ undisturbed t s s' /\ frames s' t = frames s t.
Proof.
  intros R A. apply breachable_good in R. destruct (findClass_spec r n R A) as (v & s' & E & G' & F & U & Fr & Ev & K & Z & N). exists v, s'.
  split; [cbn [bstep]; rewrite E, F; auto|]. split; auto. apply class_found_intro; auto.
  intros O m. rewrite (Z O). auto.
Qed.

(** ** C46 *)
(** The lookup that consults the deny rules *)
Definition asked_class (o : op) : option str :=
  match o with
  | FindClass_ n => Some n
  | GetObjectClass_ None | CallMethodA_ _ None _ _ => Some (S_ "Invalid")
  | _ => None
  end.
(** The operation mentions class [n] in another way than by asking for it: as the name of a surrounding class, in
    a signature, as an array class, when binding a C++ type, ... *)
Inductive slips (s : st) (n : str) : bop -> Prop :=
| slip_op o m : mentions (mode G false) s o m -> brings G m n -> asked_class o <> Some n -> slips s n (BVm o)
| slip_find m : brings G m n -> m <> n -> slips s n (BFind m).

Let same_heap (s s' : st) : Prop := s_heap s' = s_heap s.
Lemma heap_getM fuel : forall g t st nat h nm sg, keeps same_heap (getMethodID g fuel t st true nat h nm sg).
Proof.
  assert (forall s, same_heap s s) as R by (intros; reflexivity). assert (forall a b c, same_heap a b -> same_heap b c -> same_heap a c) as T by (unfold same_heap; congruence).
  assert (forall A C (m : M A) (f : A -> M C), keeps same_heap m -> (forall a, keeps same_heap (f a)) -> keeps same_heap (bind m f)) as B by (intros; apply keeps_bind; auto).
  induction fuel as [|fuel IH]; intros; cbn [getMethodID]; [apply keeps_div|]. apply B; [apply keeps_jnicast; auto|]. intros [cl|]; [|apply keeps_ret; auto].
  apply B; [apply keeps_get_cls; auto|]. intros c. destruct (negb st && str_eqb nm (S_ "<init>")); auto. apply B; [apply keeps_gets; auto|]. intros s.
  destruct (find_mth s (mth_match st nat nm sg) (c_methods c)); [apply keeps_ret; auto|]. apply B.
  { apply (@K_bases_of g same_heap R T (fun _ => True)); auto. intros. apply I_type_entry; auto; intros; reflexivity. }
  intros bs. apply B; [apply keeps_first_some; auto|]. intros [i|]; apply keeps_ret; auto.
Qed.
Lemma finish_sub s i o : lookup (finish s) i = Some o -> lookup s i = Some o.
Proof. unfold finish. intros H. apply iter_sub in H. exact H. Qed.
Lemma shrink_denotes s s' i c : (forall i o, lookup s' i = Some o -> lookup s i = Some o) -> denotes s' i (Some c) -> denotes s i (Some c).
Proof.
  intros H D. remember (Some c) as r eqn:E. induction D; try discriminate.
  - eapply den_obj; eauto.
  - eapply den_global; eauto.
  - eapply den_weak; eauto. revert H2. unfold live. destruct (lookup s' j) eqn:L; [rewrite (H _ _ L); auto|discriminate].
Qed.
Lemma guarded_mentions t st h nm sg s v s1 m : step (mode G true) t (GetMethodID_ st h nm sg) s = Some (v, s1) ->
  mentions (mode G false) s1 (GetMethodID_ st h nm sg) m -> mentions (mode G false) s (GetMethodID_ st h nm sg) m.
Proof.
  intros E M. pose proof (step_attached E eq_refl) as A. unfold step in E. rewrite run_attached in E by auto. cbn [body] in E. unfold as_ref, bind in E.
  assert (forall i o, lookup s1 i = Some o -> lookup s i = Some o) as Sub.
  { pose proof (@heap_getM (depth s) (mode G true) t st false h nm sg s) as H. unfold GetMethodID, bind, gets in E. cbn [retnull mode] in E.
    destruct (getMethodID (mode G true) (depth s) t st true false h nm sg s); try discriminate; inversion E; subst; intros i o L; apply finish_sub in L; unfold lookup in *; rewrite H in L; auto. }
  inversion M; subst.
  - apply mn_method; auto.
  - eapply mn_ctor; eauto.
    + destruct h as [i|]; [|match goal with X : denotes_opt _ None _ |- _ => simpl in X; discriminate end]. simpl in *. eapply shrink_denotes; eauto.
    + unfold contents in *. destruct (lookup s1 c) eqn:L; [|discriminate]. rewrite (Sub _ _ L). auto.
Qed.
Lemma quiet_creates t o s v s' n : good G s -> step (mode G true) t o s = Some (v, s') -> (match o with FindClass_ _ | GetObjectClass_ None | CallMethodA_ _ None _ _ | GetMethodID_ _ _ _ _ | GetFieldID_ _ _ _ _ => True | _ => False end) ->
  class_exists s' n -> class_exists s n.
Proof.
  intros Gd E Ho C. destruct (@step_creates (mode G true) t o s v s' n) as [|(m & M & _)]; auto; [apply good_to; auto|]. destruct M; try discriminate; contradiction.
Qed.
Lemma guarded_denied t o d s v s' n : good G s -> (match o with GetMethodID_ _ _ _ _ | GetFieldID_ _ _ _ _ => True | _ => False end) -> guarded G t o d s = Some (v, s') ->
  ~ class_exists s n -> ~ slips s n (BVm o) -> ~ class_exists s' n.
Proof.
  intros Gd Ho E N Sl C. unfold guarded in E. destruct (step (mode G true) t o s) as [[w s1]|] eqn:E1; [|discriminate].
  assert (~ class_exists s1 n) as N1. { intros X. apply N. eapply quiet_creates; eauto. destruct o; auto; contradiction. }
  assert (s' = s1 \/ step (mode G false) t o s1 = Some (v, s')) as [->|E2]; [|contradiction|].
  { destruct w as [[]|]; try (inversion E; subst; auto; fail). destruct h; [inversion E; subst; auto|]. destruct (d s1); [inversion E; subst; auto|]. auto. }
  destruct (@step_creates (mode G false) t o s1 v s' n) as [|(m & M & B)]; auto; [apply good_to; eapply step_mode_good; eauto|].
  apply Sl. destruct o; try contradiction.
  - eapply slip_op; [eapply guarded_mentions; eauto|exact B|discriminate].
  - eapply slip_op; [|exact B|discriminate]. inversion M; subst. constructor; auto.
Qed.
Lemma asked_denied r t o q s v s' n : good G s -> asked_class o = Some q -> step (mode G (isClassDenied r q)) t o s = Some (v, s') ->
  In n (r_classes r) -> ~ class_exists s n -> ~ slips s n (BVm o) -> ~ class_exists s' n.
Proof.
  intros Gd Q E Dn N Sl C. destruct (isClassDenied r q) eqn:Ed.
  - apply N. eapply quiet_creates; eauto. destruct o; try discriminate Q; auto; [destruct h|destruct obj]; try discriminate Q; auto.
  - destruct (@step_creates (mode G false) t o s v s' n) as [|(m & M & B)]; auto; [apply good_to; auto|].
    assert (m = q) as -> by (destruct M; simpl in Q; inversion Q; auto).
    apply Sl. eapply slip_op; eauto. rewrite Q. intros X. inversion X; subst. apply C45_class_query in Dn. congruence.
Qed.
Lemma bstep_denied t o r s v r' s' n : good G s -> bstep G t o (r, s) = Some (v, (r', s')) -> In n (r_classes r) -> ~ class_exists s n -> ~ slips s n o -> ~ class_exists s' n.
Proof.
  intros Gd E Dn N Sl. destruct o; cbn [bstep] in E; try (inversion E; subst; auto; fail).
  - destruct (vstep G r t o s) as [[w s1]|] eqn:Ev; [|discriminate]. inversion E; subst.
    assert (forall o', o' = o -> asked_class o' = None -> step (mode G false) t o s = Some (v, s') -> ~ class_exists s' n) as Plain.
    { intros o' -> Q E2 C. destruct (@step_creates (mode G false) t o s v s' n) as [|(m & M & B)]; auto; [apply good_to; auto|]. apply Sl. eapply slip_op; eauto. congruence. }
    destruct o; cbn [vstep] in Ev; try (eapply Plain; eauto; fail).
    + pose proof Ev as X. unfold BFindClass, guarded in X. destruct (step (mode G true) t (FindClass_ name) s) as [[]|] eqn:E1; [|discriminate]. pose proof (step_attached E1 eq_refl) as A.
      rewrite (BFindClass_eq r' name Gd A) in Ev. eapply (@asked_denied r' t (FindClass_ name) name); eauto.
    + destruct h as [h|]; [eapply Plain; eauto|].
      pose proof Ev as X. unfold BFindClass, guarded in X. destruct (step (mode G true) t (FindClass_ (S_ "Invalid")) s) as [[]|] eqn:E1; [|discriminate]. pose proof (step_attached E1 eq_refl) as A.
      rewrite (BFindClass_eq r' (S_ "Invalid") Gd A) in Ev. eapply (@asked_denied r' t (FindClass_ (S_ "Invalid")) (S_ "Invalid")); eauto. intros Y. apply Sl. inversion Y; subst. eapply (@slip_op s n (GetObjectClass_ None) (S_ "Invalid")); auto.
      * apply mn_invalid. reflexivity.
      * match goal with M : mentions _ _ (FindClass_ _) _ |- _ => inversion M; subst; auto end.
    + eapply guarded_denied; eauto. exact I.
    + destruct obj; [eapply Plain; eauto|]. eapply (@asked_denied r' t (CallMethodA_ T None id args) (S_ "Invalid")); eauto.
    + eapply guarded_denied; eauto. exact I.
  - destruct (findClass_inv r t name Gd) as [A|U]; [|rewrite U in E; discriminate].
    destruct (findClass_spec r name Gd A) as (w & s1 & Ef & G1 & F1 & _ & _ & _ & _ & Z & C1). rewrite Ef in E. inversion E; subst. rewrite F1.
    rewrite (class_exists_iff n (g_inv G1)). rewrite (class_exists_iff n (g_inv Gd)) in N. destruct (isClassDenied r' name) eqn:Ed; [rewrite Z; auto|].
    destruct (get_class s name) eqn:En; [rewrite Z; auto; left; discriminate|]. destruct (C1 eq_refl eq_refl) as (_ & C2). rewrite C2. intros [X|X]; auto. apply Sl. apply slip_find; auto. intros ->. apply C45_class_query in Dn. congruence.
Qed.
Lemma bstep_keeps_denied t o r s v r' s' n : bstep G t o (r, s) = Some (v, (r', s')) -> In n (r_classes r) -> In n (r_classes r').
Proof. intros E H. rewrite (bstep_rules E). destruct o; simpl; auto. Qed.
(** A class denied before it ever existed does not come into being, as long as it is only asked for, and asking for it gives
    null.  (Missing: see [C46_refuted].) *)
Theorem C46_never_partial l : forall t0 r s vs r' s' n, breachable G t0 (r, s) -> In n (r_classes r) -> ~ class_exists s n ->
  (forall l1 t o l2 vs1 r1 s1, l = l1 ++ (t, o) :: l2 -> bexec G l1 (r, s) = Some (vs1, (r1, s1)) -> ~ slips s1 n o) ->
  bexec G l (r, s) = Some (vs, (r', s')) -> ~ class_exists s' n /\
  forall t, attached s' t -> bstep G t (BVm (FindClass_ n)) (r', s') = Some (OVal (RRef None), (r', s')) /\ bstep G t (BFind n) (r', s') = Some (OVal (RRef None), (r', s')).
Proof.
  intros t0 r s vs r' s' n R Dn N Sl E.
  assert (~ class_exists s' n /\ In n (r_classes r') /\ breachable G t0 (r', s')) as (N' & Dn' & R').
  { revert r s vs R Dn N Sl E. induction l as [|[t o] l IH]; intros r s vs R Dn N Sl E; cbn [bexec] in E; [inversion E; subst; auto|].
    destruct (bstep G t o (r, s)) as [[v [r1 s1]]|] eqn:Es; [|discriminate]. destruct (bexec G l (r1, s1)) as [[ws [r2 s2]]|] eqn:El; [|discriminate]. inversion E; subst.
    eapply (IH r1 s1 ws); auto.
    - destruct R as (setup & k & us & Ek). exists setup, (k ++ [(t, o)]), (us ++ [v]). clear -Ek Es. revert Ek. generalize (binit G t0 setup) as x. revert us.
      induction k as [|[u p] k IHk]; intros us x Ek; cbn [app bexec] in *; [inversion Ek; subst; rewrite Es; auto|].
      destruct (bstep G u p x) as [[w y]|]; [|discriminate]. destruct (bexec G k y) as [[ws z]|] eqn:Ez; [|discriminate]. inversion Ek; subst. rewrite (IHk _ _ Ez). reflexivity.
    - eapply bstep_keeps_denied; eauto.
    - eapply bstep_denied; eauto; [eapply breachable_good; eauto|]. apply (Sl [] t o l [] r s); auto.
    - intros l1 u p l2 vs1 rx sx -> Ex. apply (Sl ((t, o) :: l1) u p l2 (v :: vs1) rx sx); auto. cbn [bexec]. rewrite Es, Ex. auto. }
  split; auto. intros t A. split.
  - destruct (C45_class_lookup n R' A) as (v & s2 & E2 & F & _). destruct F as (_ & _ & _ & F & _). destruct (F N' Dn') as [-> ->]. auto.
  - destruct (C45_class_lookup_cxx n R' A) as (v & s2 & E2 & F & _). destruct F as (_ & _ & _ & F & _). destruct (F N' Dn') as [-> ->]. auto.
Qed.
(** In a release build the rules are reliable for ordinary classes that C++ code does not bind. *)
Definition special (n : str) : Prop :=
  In n [S_ "java/lang/reflect/Method"; S_ "java/lang/reflect/Field"; S_ "internal/lang/Global"; S_ "java/lang/ref/WeakReference"] \/ exists x, n = "[" :: x.
Theorem C46_release_partial t0 l r s vs r' s' n : debug G = false -> breachable G t0 (r, s) -> In n (r_classes r) -> ~ class_exists s n -> ~ special n ->
  (forall t k i, ~ In (t, BVm (UBind_ k i n)) l) -> (forall t, ~ In (t, BVm (UFindClass_ false n)) l) -> bexec G l (r, s) = Some (vs, (r', s')) -> ~ class_exists s' n.
Proof.
  intros D R Dn N Sp Nb Ng E. eapply (@C46_never_partial l t0 r s); eauto. intros l1 t o l2 vs1 r1 s1 -> E1 Sl.
  assert (forall m, brings G m n -> m = n) as Br by (unfold brings; rewrite D; auto).
  assert (forall m, sig_mentions (mode G false) m n -> False) as Sg by (intros m [X _]; simpl in X; congruence).
  inversion Sl as [o' m M B Q|m B Q]; subst; apply Br in B; [|congruence]. subst m. unfold special in Sp. destruct M; simpl in Q; try congruence;
    try (apply Sp; simpl; tauto); try (eapply Sg; eauto; fail).
  - apply Sp. right. eauto.
  - apply Sp. right. unfold array_of. destruct (c_prefix k) as [|a p]; [eauto|]. destruct a as [[] [] [] [] [] [] [] []]; eauto.
  - apply (Ng t). rewrite in_app_iff. simpl. auto.
  - apply (Nb t m i). rewrite in_app_iff. simpl. auto.
  - apply Sp. right. eauto.
Qed.
End Cfg.

(** ** C63: where classes come from *)
Theorem C63_step G t0 s t o v s' n : reachable G t0 s -> step G t o s = Some (v, s') -> class_exists s' n ->
  class_exists s n \/ exists m, mentions G s o m /\ brings G m n.
Proof. intros R. apply step_creates. eapply reachable_good; eauto. Qed.
Theorem C63_history G t0 s l vs s' n : reachable G t0 s -> exec G l s = Some (vs, s') -> class_exists s' n ->
  class_exists s n \/ exists l1 t o l2 vs1 s1 m, l = l1 ++ (t, o) :: l2 /\ exec G l1 s = Some (vs1, s1) /\ mentions G s1 o m /\ brings G m n.
Proof. intros R. apply exec_creates. eapply reachable_good; eauto. Qed.

(** ** C46 is false: the debug build creates surrounding classes and the classes of signatures without asking the rules *)
Definition ex_setup : rules := mkRules [S_ "Test"] [mkRule (S_ "f") [] []; mkRule [] (S_ "B") (S_ "()V")] [mkRule (S_ "x") (S_ "A") []].
Definition bafter (G : cfg) (l : list bevent) : rules * st :=
  match bexec G l (binit G main ex_setup) with Some (_, x) => x | None => (no_rules, empty_vm) end.
Definition bseen (G : cfg) (l : list bevent) : list obs :=
  match bexec G l (binit G main ex_setup) with Some (v, _) => v | None => [] end.
Lemma bafter_reachable G l vs : bexec G l (binit G main ex_setup) = Some (vs, bafter G l) -> breachable G main (bafter G l).
Proof. intros E. exists ex_setup, l, vs. auto. Qed.
Theorem C46_refuted_outer : exists l vs i s', bexec Gd l (binit Gd main ex_setup) = Some (vs, (ex_setup, s')) /\
  isClassDenied ex_setup (S_ "Test") = true /\ ~ class_exists (snd (binit Gd main ex_setup)) (S_ "Test") /\
  (forall t o, In (t, o) l -> o = BVm (FindClass_ (S_ "Test$Inner")) \/ o = BVm (FindClass_ (S_ "Test"))) /\
  hd_error (rev vs) = Some (OVal (RRef (Some i))) /\ class_named s' (S_ "Test") i.
Proof.
  exists [(main, BVm (FindClass_ (S_ "Test"))); (main, BVm (FindClass_ (S_ "Test$Inner"))); (main, BVm (FindClass_ (S_ "Test")))]. do 3 eexists.
  split; [vm_compute; reflexivity|]. split; [reflexivity|]. split; [|split; [|split; [reflexivity|do 2 eexists; vm_compute; auto]]].
  - rewrite (class_exists_iff _ (g_inv (init_good Gd main false))). vm_compute. auto.
  - intros t o H. simpl in H. destruct H as [H|[H|[H|[]]]]; inversion H; auto.
Qed.
Theorem C46_refuted_signature : exists l vs i s', bexec Gd l (binit Gd main ex_setup) = Some (vs, (ex_setup, s')) /\
  isClassDenied ex_setup (S_ "Test") = true /\ ~ class_exists (snd (binit Gd main ex_setup)) (S_ "Test") /\
  l = [(main, BVm (FindClass_ (S_ "A"))); (main, BVm (GetMethodID_ false (Some 9) (S_ "m") (S_ "(LTest;)V"))); (main, BVm (FindClass_ (S_ "Test")))] /\
  hd_error (rev vs) = Some (OVal (RRef (Some i))) /\ class_named s' (S_ "Test") i.
Proof.
  do 4 eexists. split; [|split; [reflexivity|split; [|split; [reflexivity|]]]].
  - vm_compute. reflexivity.
  - rewrite (class_exists_iff _ (g_inv (init_good Gd main false))). vm_compute. auto.
  - split; [reflexivity|do 2 eexists; vm_compute; auto].
Qed.

(** ** Examples *)
(** a denied method and field of A, another method of A, a method of B denied by class and signature only *)
Definition ex_baron : list bevent :=
  [(main, BVm (FindClass_ (S_ "A"))); (main, BVm (FindClass_ (S_ "B"))); (main, BVm (GetMethodID_ false (Some 9) (S_ "f") (S_ "()V")));
   (main, BVm (GetMethodID_ false (Some 9) (S_ "g") (S_ "()V"))); (main, BVm (GetMethodID_ false (Some 10) (S_ "g") (S_ "()V")));
   (main, BVm (GetMethodID_ false (Some 10) (S_ "g") (S_ "()I"))); (main, BVm (GetFieldID_ true (Some 9) (S_ "x") (S_ "I")));
   (main, BVm (GetFieldID_ true (Some 10) (S_ "x") (S_ "I"))); (main, BVm (FindClass_ (S_ "Test"))); (main, BFind (S_ "Test")); (main, BFind (S_ "A"));
   (main, BDenyMethod (S_ "g") [] []); (main, BVm (GetMethodID_ false (Some 9) (S_ "g") (S_ "()V"))); (main, BIsMethodDenied (S_ "g") (S_ "()V") (S_ "A"));
   (main, BIsMethodDenied (S_ "h") [] (S_ "B")); (main, BIsFieldDenied (S_ "x") (S_ "I") (S_ "B")); (main, BDenyClass (S_ "Invalid")); (main, BVm (GetObjectClass_ None))].
Example C45_ex : bseen Gd ex_baron =
  [OVal (RRef (Some 9)); OVal (RRef (Some 10)); OVal (RRef None); OVal (RRef (Some 11)); OVal (RRef None); OVal (RRef (Some 12)); OVal (RRef None); OVal (RRef (Some 13));
   OVal (RRef None); OVal (RRef None); OVal (RRef (Some 9)); OVal RUnit; OVal (RRef (Some 11)); OVal (RBool true); OVal (RBool true); OVal (RBool false); OVal RUnit; OVal (RRef None)].
Proof. vm_compute. reflexivity. Qed.
Example C45_ex_reachable : breachable Gd main (bafter Gd ex_baron).
Proof. eapply bafter_reachable. vm_compute. reflexivity. Qed.
Example C45_ex_forbids : forbids (mkRule [] (S_ "B") (S_ "()V")) (S_ "g") (S_ "()V") (S_ "B") /\ ~ forbids (mkRule [] (S_ "B") (S_ "()V")) (S_ "g") (S_ "()I") (S_ "B").
Proof. unfold forbids, fits; simpl. split; [tauto|]. intros (_ & [H|[H|H]] & _); discriminate. Qed.
(** hypotheses of the lookups of methods: A has g but not f *)
Local Opaque bafter.
Example C45_ex_lookup : exists L, dfs Gd (snd (bafter Gd ex_baron)) 9 L /\ L = [9] /\ attached (snd (bafter Gd ex_baron)) main /\ denotes_opt (snd (bafter Gd ex_baron)) (Some 9) (Some 9) /\
  finds_method Gd (snd (bafter Gd ex_baron)) false false (S_ "g") (S_ "()V") 9 (Some 11) /\ finds_method Gd (snd (bafter Gd ex_baron)) false false (S_ "f") (S_ "()V") 9 None.
Proof.
  assert (dfs Gd (snd (bafter Gd ex_baron)) 9 [9]) as D.
  { apply (@dfs_node Gd (snd (bafter Gd ex_baron)) 9 []); [vm_compute; discriminate| |]; [intros _ B H; vm_compute in H; destruct H|]. assert (supers Gd (snd (bafter Gd ex_baron)) 9 = []) as -> by (vm_compute; reflexivity). constructor. }
  exists [9]. split; auto. split; auto. split; [eexists; vm_compute; reflexivity|]. split; [eapply den_obj; [vm_compute; reflexivity|discriminate|discriminate]|].
  assert (flat_map (methods_of (snd (bafter Gd ex_baron))) [9] = [11]) as E by (vm_compute; reflexivity).
  assert (method_at (snd (bafter Gd ex_baron)) 11 = Some (mkMth (S_ "g") (S_ "()V") false None None)) as Em by (vm_compute; reflexivity).
  split; exists [9]; (split; [auto|]); rewrite E.
  - apply fi_here. eexists. split; [exact Em|]. simpl. repeat split; auto; intros; congruence.
  - intros i [<-|[]] (m & Hm & H). rewrite Em in Hm. inversion Hm; subst. simpl in H. destruct H as (H & _). discriminate.
Qed.
(** a history of a release build in which the class is asked for in every way *)
Definition ex_release : list bevent :=
  [(main, BVm (FindClass_ (S_ "Test"))); (main, BVm (FindClass_ (S_ "Test$Inner"))); (main, BVm (FindClass_ (S_ "[LTest;"))); (main, BFind (S_ "Test"));
   (main, BVm (GetMethodID_ false (Some 9) (S_ "m") (S_ "(LTest;)V")))].
Example C46_ex : debug Gr = false /\ bexec Gr ex_release (binit Gr main ex_setup) <> None /\ ~ special (S_ "Test") /\
  (forall t k i, ~ In (t, BVm (UBind_ k i (S_ "Test"))) ex_release) /\ (forall t, ~ In (t, BVm (UFindClass_ false (S_ "Test"))) ex_release) /\ bseen Gr ex_release = [OVal (RRef None); OVal (RRef (Some 9)); OVal (RRef (Some 10)); OVal (RRef None); OVal (RRef (Some 11))].
Proof.
  split; auto. split; [vm_compute; discriminate|]. split; [|split; [|split; [|vm_compute; reflexivity]]].
  - intros [H|(x & H)]; [simpl in H; intuition discriminate|discriminate].
  - intros t k i H. simpl in H. intuition discriminate.
  - intros t H. simpl in H. intuition discriminate.
Qed.
(** ... and of a debug build in which nothing mentions the class otherwise *)
Example C46_ex_debug : forall s, ~ slips Gd s (S_ "Test") (BVm (FindClass_ (S_ "Test"))) /\ ~ slips Gd s (S_ "Test") (BVm (FindClass_ (S_ "a/Test$X"))) /\ slips Gd s (S_ "Test") (BVm (FindClass_ (S_ "Test$X"))).
Proof.
  intros s. split; [|split].
  - intros H. inversion H; subst. simpl in *. congruence.
  - intros H. inversion H as [o m M B|]; subst. inversion M; subst. unfold brings in B. simpl in B. destruct B as [B|(r & B & _)]; discriminate.
  - eapply slip_op; [apply mn_find; reflexivity| |discriminate]. unfold brings. simpl. right. exists (S_ "X"). split; [reflexivity|]. simpl. intuition discriminate.
Qed.
(** C63: an array class comes from the name of its element class *)
Example C63_ex : exists s', step Gd main (NewObjectArray_ 1 (Some 9) None) (after Gd [(main, FindClass_ (S_ "A"))]) = Some (OVal (RRef (Some 11)), s') /\ class_exists s' (S_ "[LA;") /\
  mentions Gd (after Gd [(main, FindClass_ (S_ "A"))]) (NewObjectArray_ 1 (Some 9) None) (S_ "[LA;").
Proof.
  eexists. split; [vm_compute; reflexivity|]. split; [exists 10; eexists; eexists; split; [|split]; vm_compute; reflexivity|].
  assert (exists k, contents (after Gd [(main, FindClass_ (S_ "A"))]) 9 = Some (PClass k) /\ c_prefix k = S_ "A") as (k & Ek & Ep) by (eexists; split; vm_compute; reflexivity).
  replace (S_ "[LA;") with (array_of (c_prefix k)) by (rewrite Ep; reflexivity).
  eapply (@mn_objects Gd _ 1%Z (Some 9) None 9); [eapply den_obj; [vm_compute; reflexivity|discriminate|discriminate]|exact Ek].
Qed.

Print Assumptions C45_calls. Print Assumptions C45_class_query.
Print Assumptions C45_method_query.
Print Assumptions C45_field_query.
Print Assumptions C45_history.
Print Assumptions C45_existing_method.
Print Assumptions C45_denied_method.
Print Assumptions C45_allowed_method.
Print Assumptions C45_existing_field.
Print Assumptions C45_denied_field.
Print Assumptions C45_allowed_field.
Print Assumptions C45_class_lookup.
Print Assumptions C45_class_lookup_cxx.
Print Assumptions C46_never_partial.
Print Assumptions C46_release_partial.
Print Assumptions C46_refuted_outer.
Print Assumptions C46_refuted_signature.
Print Assumptions C63_step.
Print Assumptions C63_history.
