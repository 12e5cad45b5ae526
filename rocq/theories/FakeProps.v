(** C89: references of the C++ interface.  C90: the class of objects whose C++ class has a descriptor. *)
From Verif Require Import Base BaseProofs VmState VmModel VmStep VmSpec RefSpec CallSpec ArrSpec HierSpec MemSpec VmBase VmFrame VmWf VmPrim VmInv VmExact VmReg VmRegInv VmQuiet VmFine VmClass VmObj VmRef VmRef2 VmRef3 VmArr VmHook VmCall VmCall2 VmField VmHier VmTables VmMember VmMember2 VmMember3
  VmDemo ClassProps RefProps HierProps BootProps MemberProps CastModel CastProps FakeModel.
Set Implicit Arguments.
Unset Strict Implicit.

(** ** Specification *)
(** A C++ variable refers to object [i]: not one of the handles of global or weak references. *)
Definition real (s : st) (i : oid) : Prop := exists p, contents s i = Some p /\ (forall j, p <> PWeak j) /\ (forall j, p <> PGlobal j).
(** Object [i] was created with a C++ class whose descriptor is that of [k], named [name]. *)
Definition has_descriptor (D : descriptors) (s : st) (i : oid) (k : nat) (inst : bool) (name : str) : Prop :=
  exists n vars, contents s i = Some (PUser n vars) /\ D n = Some (k, inst, name).
Definition undescribed (D : descriptors) (s : st) (i : oid) : Prop := forall n vars, contents s i = Some (PUser n vars) -> D n = None.
(** Class [c] was bound to type [k]; nothing else that existed has changed, environments, references and C++ variables are the same. *)
Record bound (k : nat) (inst : bool) (name : str) (c : oid) (s s' : st) : Prop := {
  bd_named : class_named s' name c;
  bd_class : exists d, contents s' c = Some (PClass d) /\ c_bases d = Some (TUser k) /\ c_inst d = (if inst then Some (TUser k) else None);
  bd_types : forall T, registered s' T = if ty_eqb (TUser k) T then Some c else registered s T;
  bd_objects : forall j, live s j = true -> j <> c -> intact s s' j;
  bd_new : forall j, live s' j = true -> live s j = true \/ is_cls s' j = true;
  bd_members : live s c = true -> methods_of s' c = methods_of s c /\ fields_of s' c = fields_of s c /\ class_ptr s' c = class_ptr s c;
  bd_globals : s_globals s' = s_globals s;
  bd_ext : s_ext s' = s_ext s;
  bd_envs : forall u, get_env s' u = get_env s u }.

Lemma real_denotes s i : real s i -> denotes s i (Some i).
Proof. intros (p & C & N1 & N2). unfold contents in C. destruct (lookup s i) as [o|] eqn:L; [|discriminate]. injection C as <-. eapply den_obj; eauto. Qed.
Lemma contents_live s i p : contents s i = Some p -> live s i = true.
Proof. intros C. unfold contents in C. destruct (lookup s i) eqn:L; [|discriminate]. apply live_lookup. eauto. Qed.

(** ** C89 *)
Theorem C89_null G t0 t s : reachable G t0 s -> attached s t ->
  createLocalReference G t None s = Some (OVal (RRef None), s) /\ createGlobalReference G t None s = Some (OVal (RRef None), s) /\ resolveReference G t None s = Some (OVal (RRef None), s).
Proof.
  intros R A. pose proof (reachable_good R) as Gs. split; [reflexivity|]. split; [exact (@NewGlobalRef_step G t None None s Gs A eq_refl)|].
  destruct (@UHold_step G t None None s Gs A eq_refl) as (s' & E & _ & ->). exact E.
Qed.
(** A local reference made by C++ code leads back to the same object, in whatever thread and after whatever happened, as long as the object exists. *)
Theorem C89_local G t0 t i s : reachable G t0 s -> attached s t -> In i (s_ext s) -> real s i ->
  exists s1, createLocalReference G t (Some i) s = Some (OVal (RRef (Some i)), s1) /\ frames s1 t = add_local (frames s t) i /\ undisturbed t s s1 /\ (forall j, live s1 j = live s j) /\
    class_ptr s1 i = (match class_ptr s i with Some k => Some k | None => registered s TObject end) /\
    forall l vs s2 u, exec G l s1 = Some (vs, s2) -> live s2 i = true -> attached s2 u -> resolveReference G u (Some i) s2 = Some (OVal (RRef (Some i)), with_ext s2 (i :: s_ext s2)).
Proof.
  intros R A Ie Re. pose proof (reachable_good R) as Gs. pose proof Re as (p & C & N1 & N2).
  destruct (@UToJNI_step G t TObject i p s Gs A Ie C eq_refl) as (s1 & E & G1 & Cp & Fr & Un & Lv). exists s1.
  split; [exact E|]. split; [exact Fr|]. split; [exact Un|]. split; [exact Lv|]. split; [exact Cp|].
  intros l vs s2 u E2 L2 A2. pose proof (exec_good G1 E2) as G2.
  assert (denotes s2 i (Some i)) as D2.
  { eapply ident_denotes; [exact (exec_ident (good_wf G1) E2)| |exact L2]. eapply ident_denotes; [exact (VmRef3.step_ident (good_wf Gs) E)|exact (real_denotes Re)|].
    rewrite Lv. exact (contents_live C). }
  destruct (@UHold_step G u (Some i) (Some i) s2 G2 A2 D2) as (s3 & E3 & _ & ->). exact E3.
Qed.
(** A global reference made by C++ code keeps the object and leads back to it until it is deleted. *)
Theorem C89_global G t0 t i s g s1 l vs s2 u : reachable G t0 s -> attached s t -> real s i -> createGlobalReference G t (Some i) s = Some (OVal (RRef (Some g)), s1) ->
  exec G l s1 = Some (vs, s2) -> (forall u, ~ In (u, DeleteGlobalRef_ (Some g)) l) -> attached s2 u ->
  live s2 i = true /\ (forall j, live s j = true -> j <> g) /\ resolveReference G u (Some g) s2 = Some (OVal (RRef (Some i)), with_ext s2 (i :: s_ext s2)).
Proof.
  intros R A Re E E2 N A2. destruct (@C29_global G t0 t (Some i) i s g s1 l vs s2 R A (real_denotes Re) E E2 N) as (D2 & L2 & F & _).
  split; [exact L2|]. split; [exact F|]. pose proof (exec_good (step_good (reachable_good R) E) E2) as G2.
  destruct (@UHold_step G u (Some g) (Some i) s2 G2 A2 D2) as (s3 & E3 & _ & ->). exact E3.
Qed.
Theorem C89_global_made G t0 t i s : reachable G t0 s -> attached s t -> real s i ->
  exists g s', createGlobalReference G t (Some i) s = Some (OVal (RRef (Some g)), s') /\ live s g = false /\ gained t (frames s t) (s_globals s ++ [g]) (s_ext s) s s'.
Proof. intros R A Re. destruct (@C29_new G t0 t (Some i) i s R A (real_denotes Re)) as (g & s' & E & L & _ & Gn & _). exists g, s'. auto. Qed.
(** Without an environment of the thread there is no way to create a global reference; the library does not check. *)
Theorem C89_detached G t o s : get_env s t = None -> createGlobalReference G t o s = None.
Proof. intros N. unfold createGlobalReference. destruct (step G t (NewGlobalRef_ o) s) as [[v s']|] eqn:E; auto. destruct (step_attached E eq_refl) as (e & H). congruence. Qed.

(** getClasses lists every class once. *)
Record keys_once (s s' : st) : Prop := { once : NoDup (map fst (s_classes s)) -> NoDup (map fst (s_classes s')) }.
Lemma keys_fine G t : fine G t (fun _ => True) keys_once.
Proof.
  assert (forall s s', s_classes s' = s_classes s -> keys_once s s') as Eq by (intros s s' E; constructor; rewrite E; auto).
  assert (forall a b c, keys_once a b -> keys_once b c -> keys_once a c) as Tr by (intros a b c [H1] [H2]; constructor; auto).
  constructor; intros; try (apply Eq; reflexivity); try (eapply Tr; eauto; fail).
  - apply (@find_fine G keys_once); auto; intros; try (apply Eq; reflexivity). constructor. intros Nd. cbn [s_classes with_classes]. apply aset_NoDup; [apply str_eqb_spec|exact Nd].
  - apply Eq. destruct (collect_same s) as (_ & E & _). exact (eq_sym E).
Qed.
Lemma keys_reachable G t0 s : reachable G t0 s -> NoDup (map fst (s_classes s)).
Proof.
  intros (l & vs & E). assert (NoDup (map fst (s_classes (init_vm G t0)))) as H0.
  { destruct G as [[] nd rn cs ub]; vm_compute; repeat constructor; cbn [In]; intuition discriminate. }
  assert (good G (init_vm G t0)) as Gi by (apply (@reachable_good G t0); exists [], []; reflexivity).
  revert vs H0 Gi E. generalize (init_vm G t0). induction l as [|[t o] l IH]; intros s0 vs H0 Gi E; cbn [exec] in E; [injection E as _ <-; exact H0|].
  destruct (step G t o s0) as [[v s1]|] eqn:E1; [|discriminate]. destruct (exec G l s1) as [[vs2 s2]|] eqn:E2; [|discriminate]. injection E as _ <-.
  apply (IH s1 vs2); [|exact (step_good Gi E1)|exact E2].
  apply (fun H => once H H0). refine (fine_step (@keys_fine G t) o _ _ E1); [auto|exact (good_wf Gi)].
Qed.

Theorem C89_classes G t0 s : reachable G t0 s -> NoDup (getClasses s) /\ forall c, In c (getClasses s) <-> is_cls s c = true.
Proof.
  intros R. pose proof (g_inv (reachable_good R)) as Iv. pose proof (keys_reachable R) as Nk. pose proof (inv_wf Iv) as W. unfold getClasses.
  assert (forall n c, In (n, c) (s_classes s) <-> class_named s n c) as K.
  { intros n c. rewrite (class_named_iff n c Iv). split; [apply NoDup_aget; auto; apply str_eqb_spec|]. intros H. apply (aget_In str_eqb str_eqb_spec) in H. exact H. }
  split.
  - assert (forall n m c, class_named s n c -> class_named s m c -> n = m) as U.
    { intros n m c (o & k & L & P & <-) (o' & k' & L' & P' & <-). rewrite L in L'. injection L' as <-. rewrite P in P'. injection P' as <-. reflexivity. }
    assert (forall l, NoDup (map fst l) -> (forall n c, In (n, c) l -> class_named s n c) -> NoDup (map snd l)) as Nd.
    { induction l as [|[n c] l IH]; intros Nl H; [constructor|]. cbn [map fst snd] in *. inversion Nl; subst. constructor; [|apply IH; auto; intros m d Hd; apply H; right; exact Hd].
      intros Hc. apply in_map_iff in Hc. destruct Hc as ([m d] & E & Hd). cbn [snd] in E. subst d. assert (n = m) as <- by (apply (U n m c); apply H; [left; reflexivity|right; exact Hd]).
      apply H2. apply in_map_iff. exists (n, c). auto. }
    apply Nd; [exact Nk|]. intros n c H. apply K. exact H.
  - intros c. rewrite in_map_iff. split.
    + intros ([n d] & E & H). cbn [snd] in E. subst d. exact (wf_classes W _ _ H).
    + intros H. apply is_cls_class_at in H. destruct H as (d & H). apply class_at_lookup in H. destruct H as (o & L & P). exists (c_prefix d, c). split; [reflexivity|].
      apply K. exists o, d. auto.
Qed.

(** ** C90 *)
Section Described.
Variable G : cfg.
Variable D : descriptors.

Lemma getDescriptor_good t k inst name s : good G s -> attached s t -> exists c s', getDescriptor G t (k, inst, name) s = Some (c, s') /\ step G t (UBind_ k inst name) s = Some (OVal (RRef (Some c)), s') /\ bound k inst name c s s'.
Proof.
  intros Gs A. destruct (bind_good k inst name Gs A) as (c & d & s' & E & Cn & Cd & Cb & Ci & Ty & Ob & Gl & Ex & En & Nw & Old & New). exists c, s'. unfold getDescriptor. rewrite E.
  split; [reflexivity|]. split; [reflexivity|]. constructor; auto.
  - exists d. auto.
  - intros L. destruct (Old L) as (c0 & C0 & _ & _ & Ef & Em & _ & _ & _ & Ep). unfold methods_of, fields_of, class_at. rewrite C0, Cd, Ef, Em. auto.
Qed.
Lemma is_cls_isa s c : is_cls s c = true -> exists d, contents s c = Some (PClass d).
Proof. intros H. apply is_cls_class_at in H. destruct H as (d & H). exists d. apply class_at_lookup in H. destruct H as (o & L & P). unfold contents. rewrite L. simpl. rewrite P. reflexivity. Qed.
Lemma class_to_jni_good t0 t c s : reachable G t0 s -> attached s t -> is_cls s c = true -> class_to_jni G t c s = Some (OVal (RRef (Some c)), given s t TClass c) /\ exists vs, exec G [(t, UHold_ TClass (Some c)); (t, UToJNI_ TClass c); (t, UDrop_ c)] s = Some (vs, given s t TClass c).
Proof.
  intros R A C. pose proof (reachable_good R) as Gs. pose proof (good_wf Gs) as W. pose proof (is_cls_live _ _ C) as L. destruct (is_cls_isa C) as (d & Cd).
  pose proof (tidy_held c (g_tidy Gs)) as T1. set (s1 := held_in s c) in *.
  assert (step G t (UHold_ TClass (Some c)) s = Some (OVal (RRef (Some c)), s1)) as E1.
  { apply step_tidy_ret; auto. cbn [body]. unfold as_ref, UHold. unfold bind at 1 2. rewrite (@jnicast_class_opt G s (Some c) (Some c) W (denotes_cls C)) by (intros j [= <-]; exact C).
    unfold bind, add_ext, live_all, check, bind. cbn [forallb]. rewrite L. reflexivity. }
  pose proof (reach_step R E1) as R1. pose proof (reachable_good R1) as G1.
  assert (step G t (UToJNI_ TClass c) s1 = Some (OVal (RRef (Some c)), given s1 t TClass c)) as E2.
  { pose proof L as L'. apply live_lookup in L'. destruct L' as (o & Lo). assert (o_pay o = PClass d) as Po by (unfold contents in Cd; rewrite Lo in Cd; injection Cd as H; exact H).
    apply step_tidy_ret; [exact A| |].
    - cbn [body]. unfold as_ref, UToJNI. unfold bind at 1 2, gets. unfold bind at 1, deref. change (lookup s1 c) with (lookup s c). rewrite Lo.
      cbn [s_ext s1 held_in with_ext memb existsb]. rewrite Nat.eqb_refl, Po. cbn [orb andb isa]. rewrite given_eq; auto. exact (good_wf G1).
    - eapply tidy_weaken; [|apply given_tidy; [exact (good_wf G1)|exact A|apply G1]]. simpl. tauto. }
  assert (drop G t (Some c) (given s1 t TClass c) = Some (given s t TClass c)) as E3.
  { unfold s1, held_in. rewrite given_ext. assert (s_ext (given s t TClass c) = s_ext s) as Ee by exact (u_ext (given_undisturbed s t TClass c)).
    rewrite drop_eq; rewrite <- Ee, ext_same; [reflexivity|]. apply (given_good TClass Gs A L). }
  unfold drop in E3. destruct (step G t (UDrop_ c) (given s1 t TClass c)) as [[[v|e] s3]|] eqn:E4; try discriminate. injection E3 as ->.
  unfold class_to_jni. rewrite E1, E2, E4. split; [reflexivity|]. eexists. cbn [exec]. rewrite E1, E2, E4. reflexivity.
Qed.
Lemma receiver_eq t h i s : good G s -> attached s t -> denotes_opt s h (Some i) -> receiver G t h s = Some i.
Proof. intros Gs A Dn. destruct (@UHold_step G t h (Some i) s Gs A Dn) as (s' & E & _). unfold receiver. rewrite E. reflexivity. Qed.
Lemma descriptor_eq s i k inst name : has_descriptor D s i k inst name -> descriptor_of D i s = Some (k, inst, name).
Proof. intros (n & vars & C & E). unfold contents in C. unfold descriptor_of. destruct (lookup s i) as [o|]; [|discriminate]. injection C as ->. exact E. Qed.
Lemma descriptor_none s i : undescribed D s i -> descriptor_of D i s = None.
Proof. intros U. unfold descriptor_of, undescribed, contents in *. destruct (lookup s i) as [o|]; auto. destruct (o_pay o) eqn:P; auto. eapply U. simpl. rewrite P. reflexivity. Qed.

(** GetObjectClass of an object with a descriptor is the class of that name, bound to the type, as a new local reference. *)
Theorem C90_class t0 t h i k inst name s : reachable G t0 s -> attached s t -> denotes s h (Some i) -> has_descriptor D s i k inst name ->
  exists c s1 s', GetObjectClass_d G D t (Some h) s = Some (OVal (RRef (Some c)), s') /\ (exists l vs, exec G l s = Some (vs, s')) /\
    bound k inst name c s s1 /\ undisturbed t s1 s' /\ frames s' t = add_local (frames s t) c /\ (forall j, live s' j = live s1 j) /\ class_named s' name c /\ registered s' (TUser k) = Some c.
Proof.
  intros R A Dn Hd. pose proof (reachable_good R) as Gs. destruct (getDescriptor_good k inst name Gs A) as (c & s1 & E & Es & B). pose proof (reach_step R Es) as R1.
  assert (attached s1 t) as A1 by (destruct A as (e & Ee); exists e; rewrite (bd_envs B); exact Ee).
  assert (is_cls s1 c = true) as C1 by (destruct (bd_named B) as (o & d & L & P & _); unfold is_cls; rewrite L, P; reflexivity).
  destruct (class_to_jni_good R1 A1 C1) as (E2 & vs & R2). exists c, s1, (given s1 t TClass c).
  split; [unfold GetObjectClass_d, described; rewrite (@receiver_eq t (Some h) i s Gs A Dn), (descriptor_eq Hd), E; exact E2|]. split; [exists ((t, UBind_ k inst name) :: [(t, UHold_ TClass (Some c)); (t, UToJNI_ TClass c); (t, UDrop_ c)]), (OVal (RRef (Some c)) :: vs); cbn [exec] in *; rewrite Es, R2; reflexivity|]. split; [exact B|].
  pose proof (given_undisturbed s1 t TClass c) as U. split; [exact U|]. split; [rewrite given_frames; unfold frames; rewrite (bd_envs B); reflexivity|]. split; [intros j; apply given_live_eq|]. split.
  - destruct (bd_named B) as (o & d & L & P & N). pose proof (given_contents s1 t TClass c c) as Cc. unfold contents in Cc. rewrite L in Cc. destruct (lookup (given s1 t TClass c) c) as [o'|] eqn:L'; [|discriminate].
    injection Cc as Cc. exists o', d. rewrite Cc. auto.
  - rewrite (u_types U), (bd_types B). destruct (ty_eqb_spec (TUser k) (TUser k)); [reflexivity|contradiction].
Qed.
Lemma attached_after t k inst name c s x s1 : bound k inst name c s x -> undisturbed t x s1 -> attached s t -> attached s1 t.
Proof.
  intros B U (e & Ee). assert (get_env x t = Some e) as Ex by (rewrite (bd_envs B); exact Ee). pose proof (u_envid U) as H. rewrite Ex in H. destruct (get_env s1 t) as [e1|] eqn:E1; [exists e1; exact E1|discriminate H].
Qed.
(** Nothing the caller had is lost. *)
Lemma class_stays t k inst name c s x s1 j : bound k inst name c s x -> undisturbed t x s1 -> is_cls s j = true -> is_cls s1 j = true.
Proof.
  intros B U C. assert (is_cls x j = true) as Cx.
  { assert (j = c \/ j <> c) as [->|N] by (destruct (Nat.eq_dec j c); auto); [destruct (bd_named B) as (o & d & L & P & _); unfold is_cls; rewrite L, P; reflexivity|].
    pose proof (is_cls_live _ _ C) as L. apply is_cls_class_at in C. destruct C as (d & C). destruct (intact_class (bd_objects B L N) C) as (d' & C' & _). apply is_cls_class_at. eauto. }
  pose proof (is_cls_live _ _ Cx) as L. apply is_cls_class_at in Cx. destruct Cx as (d & C'). destruct (intact_class (u_obj U L) C') as (d' & C2 & _). apply is_cls_class_at. eauto.
Qed.
Lemma live_stays t k inst name c s x s1 j : bound k inst name c s x -> undisturbed t x s1 -> live s j = true -> live s1 j = true.
Proof.
  intros B U L. eapply intact_live. apply (u_obj U). assert (j = c \/ j <> c) as [->|N] by (destruct (Nat.eq_dec j c); auto); [destruct (bd_named B) as (o & d & Lo & _); apply live_lookup; eauto|].
  eapply intact_live. exact (bd_objects B L N).
Qed.
Lemma grow_denotes s s' : grow s s' -> forall i r, denotes s i (Some r) -> denotes s' i (Some r).
Proof.
  intros H i r D0. remember (Some r) as x eqn:E. revert r E. induction D0 as [i o L N1 N2|i o j x L P D0 IH|i o j x L P Lj D0 IH|i o j L P Lj]; intros r E; try discriminate E.
  - injection E as <-. destruct (grow_lookup _ H L) as (o' & L' & V). eapply den_obj; [exact L'| |];
      intros j Q; rewrite Q in V; destruct (o_pay o) eqn:P; simpl in V; try contradiction V; [exact (N1 _ eq_refl)|exact (N2 _ eq_refl)].
  - destruct (grow_lookup _ H L) as (o' & L' & V). rewrite P in V. eapply den_global; [exact L'| |exact (IH r E)]. destruct (o_pay o'); simpl in V; try contradiction V. congruence.
  - destruct (grow_lookup _ H L) as (o' & L' & V). rewrite P in V. eapply den_weak; [exact L'| | |exact (IH r E)].
    + destruct (o_pay o'); simpl in V; try contradiction V. congruence.
    + exact (proj2 H j Lj).
Qed.
(** It is the same class for all objects with descriptors of that name, whatever happened in between. *)
Theorem C90_constant t0 t h i k inst name s c s1 l vs s2 u h' i' k' inst' : reachable G t0 s -> attached s t -> denotes s h (Some i) -> has_descriptor D s i k inst name ->
  GetObjectClass_d G D t (Some h) s = Some (OVal (RRef (Some c)), s1) -> exec G l s1 = Some (vs, s2) ->
  attached s2 u -> denotes s2 h' (Some i') -> has_descriptor D s2 i' k' inst' name -> exists s3, GetObjectClass_d G D u (Some h') s2 = Some (OVal (RRef (Some c)), s3).
Proof.
  intros R A Dn Hd E El A2 Dn2 Hd2. destruct (C90_class R A Dn Hd) as (c1 & x & s1' & E1 & (l1 & vs1 & X1) & _ & _ & _ & _ & Cn & _). rewrite E in E1. injection E1 as <- <-.
  pose proof (@reachable_exec G t0 s l1 vs1 s1 R X1) as R1. pose proof (@reachable_exec G t0 s1 l vs s2 R1 El) as R2.
  destruct (C90_class R2 A2 Dn2 Hd2) as (c2 & x2 & s3 & E3 & (l3 & vs3 & X3) & B & U & _ & _ & Cn3 & _). pose proof (@reachable_exec G t0 s2 l3 vs3 s3 R2 X3) as R3.
  exists s3. rewrite E3. apply (class_named_iff _ _ (g_inv (reachable_good R1))) in Cn. apply (exec_kept (reachable_good R1) El) in Cn. apply (exec_kept (reachable_good R2) X3) in Cn.
  apply (class_named_iff _ _ (g_inv (reachable_good R3))) in Cn3. congruence.
Qed.
(** Objects without descriptor: as without this model *)
Lemma undescribed_eq t h i s : good G s -> attached s t -> denotes_opt s h (Some i) -> undescribed D s i -> described G D t h s = None.
Proof. intros Gs A Dn U. unfold described. rewrite (receiver_eq Gs A Dn). apply descriptor_none. exact U. Qed.
Lemma described_eq t h i k inst name s : good G s -> attached s t -> denotes_opt s h (Some i) -> has_descriptor D s i k inst name -> described G D t h s = Some (k, inst, name).
Proof. intros Gs A Dn H. unfold described. rewrite (receiver_eq Gs A Dn). apply descriptor_eq. exact H. Qed.
Theorem C90_plain t0 t h i hc T id args s : reachable G t0 s -> attached s t -> denotes_opt s h (Some i) -> undescribed D s i ->
  GetObjectClass_d G D t h s = step G t (GetObjectClass_ h) s /\ IsInstanceOf_d G D t h hc s = step G t (IsInstanceOf_ h hc) s /\ CallMethodA_d G D t T h id args s = step G t (CallMethodA_ T h id args) s.
Proof. intros R A Dn U. pose proof (undescribed_eq (reachable_good R) A Dn U) as E. unfold GetObjectClass_d, IsInstanceOf_d, CallMethodA_d. rewrite E. auto. Qed.
(** IsInstanceOf decides by the class of that name and its base classes. *)
Theorem C90_instance t0 t h i k inst name hc j s : reachable G t0 s -> attached s t -> denotes s h (Some i) -> has_descriptor D s i k inst name ->
  denotes_opt s hc (Some j) -> is_cls s j = true ->
  exists c s1, GetObjectClass_d G D t (Some h) s = Some (OVal (RRef (Some c)), s1) /\ class_named s1 name c /\
    (HierSpec.acyclic G s1 c -> (forall d, ancestor G s1 c d -> complete G s1 d) ->
     exists r s', IsInstanceOf_d G D t (Some h) hc s = Some (OVal (RBool r), s') /\ same_but_types s1 s' /\ (r = true <-> ancestor G s1 c j)).
Proof.
  intros R A Dn Hd Dj Cj. destruct (C90_class R A Dn Hd) as (c & x & s1 & E & (l1 & vs1 & X1) & B & U & Fr & Lv & Cn & Rg). exists c, s1. split; [exact E|]. split; [exact Cn|]. intros Ac Co.
  pose proof (reachable_good R) as Gs. pose proof (@reachable_exec G t0 s l1 vs1 s1 R X1) as R1. pose proof (attached_after B U A) as A1.
  assert (is_cls s1 c = true) as Cc by (destruct Cn as (o & d & L & P & _); unfold is_cls; rewrite L, P; reflexivity).
  pose proof (exec_ident (good_wf Gs) X1) as Id. assert (is_cls s1 j = true) as Cj1 by (exact (class_stays B U Cj)).
  assert (denotes_opt s1 hc (Some j)) as Dj1.
  { destruct hc as [h2|]; [|discriminate]. simpl in *. eapply grow_denotes; [split; [exact Id|intros z; exact (live_stays B U)]|exact Dj]. }
  destruct (@C51_assignable G t0 t (Some c) hc c (Some j) s1 R1 A1 (denotes_cls Cc) Cc Ac Co Dj1 ltac:(intros y [= <-]; exact Cj1)) as (r & s' & E2 & Sb & H).
  exists r, s'. split; [unfold IsInstanceOf_d; rewrite (@described_eq t (Some h) i k inst name s Gs A Dn Hd), E; exact E2|]. split; [exact Sb|]. rewrite H. split; [intros (y & [= <-] & K); exact K|eauto].
Qed.
(** Calls are dispatched by that class. *)
Theorem C90_call t0 t T h i k inst name id m hh args s : reachable G t0 s -> attached s t -> denotes s h (Some i) -> has_descriptor D s i k inst name ->
  method_at s id = Some m -> m_handle m = Some hh ->
  exists c s1 j hd v s', GetObjectClass_d G D t (Some h) s = Some (OVal (RRef (Some c)), s1) /\ class_named s1 name c /\ dispatched s1 (Some c) id j /\ handle_at s1 j = Some hd /\
    CallMethodA_d G D t T (Some h) (Some id) args s = Some (v, s') /\ entered t true hd KInst false T (Some h) [c] args s1 s' v.
Proof.
  intros R A Dn Hd Hm Hh. destruct (C90_class R A Dn Hd) as (c & x & s1 & E & (l1 & vs1 & X1) & B & U & Fr & Lv & Cn & Rg).
  pose proof (reachable_good R) as Gs. pose proof (@reachable_exec G t0 s l1 vs1 s1 R X1) as R1. pose proof (reachable_good R1) as G1. pose proof (attached_after B U A) as A1.
  assert (is_cls s1 c = true) as Cc by (destruct Cn as (o & d & L & P & _); unfold is_cls; rewrite L, P; reflexivity).
  assert (method_at s1 id = Some m) as Hm1.
  { assert (live s id = true) as Lid by (unfold method_at in Hm; destruct (contents s id) eqn:Q; [exact (contents_live Q)|discriminate]).
    assert (method_at x id = Some m) as Hx.
    { apply (intact_method (bd_objects B Lid ltac:(intros ->; destruct (bd_class B) as (d & Cd & _); pose proof (exec_ident (good_wf Gs) X1) as Id; apply method_at_lookup in Hm; destruct Hm as (o & Lo & Po);
        apply is_cls_class_at in Cc; destruct Cc as (d2 & Cc); apply class_at_lookup in Cc; destruct Cc as (o2 & L2 & P2); pose proof (ident_lookup _ Id Lo L2) as K; rewrite Po, P2 in K; exact K)) Hm). }
    exact (intact_method (u_obj U ltac:(unfold method_at in Hx; destruct (contents x id) eqn:Q; [exact (contents_live Q)|discriminate])) Hx). }
  assert (forall y, Some c = Some y -> is_cls s1 y = true) as Cy by (intros y [= <-]; exact Cc).
  destruct (virtual_spec Cy Hm1) as (j & Ej & Dj). destruct (dispatched_handle Hm1 Hh Dj) as (y & hd & Hy & Hhd).
  destruct (@enter_spec t true hd KInst false T (Some h) [c] args s1 (good_wf G1) (g_tidy G1) A1) as (v & s' & Ee & En); [intros z [<-|[]]; exact Cc|].
  exists c, s1, j, hd, v, s'. split; [exact E|]. split; [exact Cn|]. split; [exact Dj|]. split; [unfold handle_at; rewrite Hy; exact Hhd|]. split; [|exact En].
  unfold CallMethodA_d. rewrite (@described_eq t (Some h) i k inst name s Gs A Dn Hd), (get_mth_eq Hm), Hh, E. unfold dispatch, bind at 1. rewrite Ej. unfold bind at 1. rewrite (get_mth_eq Hy), Hhd. exact Ee.
Qed.
Theorem C90_call_default t0 t T h i k inst name id args s : reachable G t0 s -> attached s t -> denotes s h (Some i) -> has_descriptor D s i k inst name ->
  match id with None => True | Some j => exists m, method_at s j = Some m /\ m_handle m = None end ->
  CallMethodA_d G D t T (Some h) id args s = Some (OVal (RCall Default), s).
Proof.
  intros R A Dn Hd H. pose proof (reachable_good R) as Gs. unfold CallMethodA_d. rewrite (@described_eq t (Some h) i k inst name s Gs A Dn Hd). destruct id as [j|].
  - destruct H as (m & Hm & Hh). rewrite (get_mth_eq Hm), Hh. reflexivity.
  - apply (@CallMethodA_unhooked G t T (Some h) None args s Gs A). exact Logic.I.
Qed.
(** Object::getClass(): the same class, without a local reference *)
Theorem C90_getClass t0 t i k inst name s : reachable G t0 s -> attached s t -> has_descriptor D s i k inst name ->
  exists c s', getClass G D t i s = Some (inl c, s') /\ reachable G t0 s' /\ bound k inst name c s s' /\
    forall h, denotes s h (Some i) -> exists s2, GetObjectClass_d G D t (Some h) s = Some (OVal (RRef (Some c)), s2).
Proof.
  intros R A Hd. pose proof (reachable_good R) as Gs. destruct (getDescriptor_good k inst name Gs A) as (c & s1 & E & Es & B). pose proof Hd as (n & vars & C & _). exists c, s1. split; [|split; [exact (reach_step R Es)|split; [exact B|]]].
  - unfold getClass. unfold contents in C. destruct (lookup s i) eqn:L; [|discriminate]. destruct A as (e & ->). rewrite (descriptor_eq Hd), E. reflexivity.
  - intros h Dn. destruct (C90_class R A Dn Hd) as (c' & s1' & s2 & E2 & _ & B' & _ & _ & _ & _). unfold GetObjectClass_d, described in *. rewrite (@receiver_eq t (Some h) i s Gs A Dn), (descriptor_eq Hd), E in *.
    assert (is_cls s1 c = true) as C1 by (destruct (bd_named B) as (o & d & L & P & _); unfold is_cls; rewrite L, P; reflexivity).
    assert (attached s1 t) as A1 by (destruct A as (e & Ee); exists e; rewrite (bd_envs B); exact Ee).
    destruct (class_to_jni_good (reach_step R Es) A1 C1) as (E3 & _). eauto.
Qed.
Theorem C90_getClass_plain t0 t i s : reachable G t0 s -> attached s t -> live s i = true -> undescribed D s i ->
  getClass G D t i s = Some (match class_ptr s i with Some c => inl c | None => inr (Err (S_ "Invalid Object")) end, s).
Proof.
  intros R A L U. unfold getClass. pose proof L as L'. apply live_lookup in L'. destruct L' as (o & Lo). rewrite Lo. destruct A as (e & ->). rewrite (descriptor_none U), (clazz_lock_eq L). destruct (class_ptr s i); reflexivity.
Qed.
Theorem C90_getClass_detached t i s : live s i = true -> get_env s t = None -> getClass G D t i s = Some (inr (Err (S_ "No Env in this thread")), s).
Proof. intros L N. apply live_lookup in L. destruct L as (o & Lo). unfold getClass. rewrite Lo, N. reflexivity. Qed.
End Described.

(** The full claim: the class of an object is the class registered for the C++ class it was created with. *)
Definition C90_claim : Prop := forall G (D : descriptors) t0 t h i n vars d c s, reachable G t0 s -> attached s t -> denotes s h (Some i) -> contents s i = Some (PUser n vars) -> D n = Some d -> registered s (TUser n) = Some c ->
  exists s', GetObjectClass_d G D t (Some h) s = Some (OVal (RRef (Some c)), s').
(** It holds for classes with a descriptor of their own if they were registered under the name of the descriptor, *)
Theorem C90_partial G D t0 t h i n vars inst name c s : reachable G t0 s -> attached s t -> denotes s h (Some i) -> contents s i = Some (PUser n vars) -> D n = Some (n, inst, name) -> registered s (TUser n) = Some c ->
  class_named s name c -> exists s', GetObjectClass_d G D t (Some h) s = Some (OVal (RRef (Some c)), s').
Proof.
  intros R A Dn C Dd Rg Cn. destruct (@C90_class G D t0 t h i n inst name s R A Dn (ex_intro _ n (ex_intro _ vars (conj C Dd)))) as (c' & x & s' & E & (l & vs & X) & _ & _ & _ & _ & Cn' & _).
  exists s'. rewrite E. apply (class_named_iff _ _ (g_inv (reachable_good R))) in Cn. apply (exec_kept (reachable_good R) X) in Cn.
  apply (class_named_iff _ _ (g_inv (reachable_good (@reachable_exec G t0 s l vs s' R X)))) in Cn'. congruence.
Qed.
(** but not for a class registered without a descriptor that is derived from one with a descriptor. *)
Definition ex_D : descriptors := fun n => match n with 0 | 1 => Some (0, true, S_ "A") | 2 => Some (2, true, S_ "C") | _ => None end.
Definition ex_desc : list event :=
  [(main, UBind_ 0 true (S_ "A")); (main, UBind_ 1 true (S_ "B")); (main, UNew_ 1 0); (main, UToJNI_ (TUser 1) 11); (main, UNew_ 0 0); (main, UToJNI_ TObject 12); (main, UNew_ 2 0); (main, UToJNI_ TObject 13);
   (main, UHookMethod_ 9 false (S_ "f") (S_ "()I") (mkHandle 7 KInst (RPrim PtI) false)); (main, UNew_ 3 0); (2, Attach_)].
Local Opaque after.
Lemma ex_desc_reachable : reachable Gd main (after Gd ex_desc).
Proof. apply after_reachable. vm_compute. reflexivity. Qed.
Lemma ex_desc_attached : attached (after Gd ex_desc) main.
Proof. eexists. vm_compute. reflexivity. Qed.
Theorem C90_refuted : ~ C90_claim.
Proof.
  intros H. assert (denotes (after Gd ex_desc) 11 (Some 11)) as Dn by den_tac. assert (contents (after Gd ex_desc) 11 = Some (PUser 1 [])) as C by (vm_compute; reflexivity).
  assert (registered (after Gd ex_desc) (TUser 1) = Some 10) as Rg by (vm_compute; reflexivity).
  destruct (H Gd ex_D main main 11 11 1 [] _ 10 _ ex_desc_reachable ex_desc_attached Dn C eq_refl Rg) as (s' & E).
  assert (option_map fst (GetObjectClass_d Gd ex_D main (Some 11) (after Gd ex_desc)) = Some (OVal (RRef (Some 9)))) as E' by (vm_compute; reflexivity).
  pose proof (eq_trans (eq_sym E') (f_equal (option_map fst) E)) as Q. discriminate Q.
Qed.
(** With a descriptor the static type of the first reference does not matter (compare C60_refuted): object 12 was passed as an Object first. *)
Example C90_ex : let s := after Gd ex_desc in
  runs Gd ex_desc = true /\ has_descriptor ex_D s 12 0 true (S_ "A") /\ class_ptr s 12 = registered s TObject /\ registered s (TUser 0) = Some 9 /\
  option_map fst (GetObjectClass_d Gd ex_D main (Some 12) s) = Some (OVal (RRef (Some 9))) /\
  option_map fst (IsInstanceOf_d Gd ex_D main (Some 12) (Some 10) s) = Some (OVal (RBool false)) /\
  option_map fst (IsInstanceOf_d Gd ex_D main (Some 12) (Some 9) s) = Some (OVal (RBool true)) /\
  (* the class of 13 did not exist before *)
  ~ class_exists s (S_ "C") /\ option_map fst (GetObjectClass_d Gd ex_D main (Some 13) s) = Some (OVal (RRef (Some 16))) /\
  option_map fst (CallMethodA_d Gd ex_D main (RPrim PtI) (Some 12) (Some 14) [] s) = Some (OVal (RCall (Entered 7 (Some 12) []))) /\
  option_map fst (CallMethodA_d Gd ex_D main (RPrim PtI) (Some 12) None [] s) = Some (OVal (RCall Default)) /\
  option_map fst (getClass Gd ex_D main 12 s) = Some (inl 9) /\ option_map fst (getClass Gd ex_D main 15 s) = Some (inr (Err (S_ "Invalid Object"))) /\
  option_map fst (getClass Gd ex_D 3 12 s) = Some (inr (Err (S_ "No Env in this thread"))).
Proof.
  cbv zeta. split; [vm_compute; reflexivity|]. split; [exists 0, []; split; vm_compute; reflexivity|]. do 4 (split; [vm_compute; reflexivity|]). split; [vm_compute; reflexivity|]. split.
  { intros (i & Cn). apply (class_named_iff _ _ (g_inv (reachable_good ex_desc_reachable))) in Cn. assert (get_class (after Gd ex_desc) (S_ "C") = None) as N by (vm_compute; reflexivity). congruence. }
  repeat (split; [vm_compute; reflexivity|]). vm_compute. reflexivity.
Qed.
Example C89_ex : let s := after Gd ex_desc in
  In 12 (s_ext s) /\ real s 12 /\ option_map fst (createLocalReference Gd main (Some 12) s) = Some (OVal (RRef (Some 12))) /\
  option_map fst (createGlobalReference Gd 2 (Some 12) s) = Some (OVal (RRef (Some 16))) /\ createGlobalReference Gd 3 (Some 12) s = None /\
  getClasses s = [0; 1; 2; 3; 4; 5; 6; 7; 8; 9; 10].
Proof.
  cbv zeta. split; [vm_compute; auto 10|]. split; [exists (PUser 0 []); split; [vm_compute; reflexivity|split; discriminate]|]. repeat (split; [vm_compute; reflexivity|]). vm_compute. reflexivity.
Qed.

Print Assumptions C89_null. Print Assumptions C89_local. Print Assumptions C89_global. Print Assumptions C89_global_made. Print Assumptions C89_detached. Print Assumptions C89_classes.
Print Assumptions C90_class. Print Assumptions C90_constant. Print Assumptions C90_plain. Print Assumptions C90_instance. Print Assumptions C90_call. Print Assumptions C90_call_default.
Print Assumptions C90_getClass. Print Assumptions C90_getClass_plain. Print Assumptions C90_getClass_detached. Print Assumptions C90_partial. Print Assumptions C90_refuted.
