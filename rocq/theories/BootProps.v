(** The table from C++ types to classes: C81; classes of objects that C++ code creates: C60. *)
From Verif Require Import Base BaseProofs SigModel UtfModel VmState VmModel VmStep VmSpec MemSpec CallSpec RefSpec ArrSpec HierSpec VmBase VmFrame VmWf VmPrim VmInv VmReg
  VmFine VmRegInv VmExact VmQuiet VmClass VmEnvInv VmMember VmMember2 VmMember3 VmTables VmHook VmMemHist VmCall VmCall2 VmThread VmDemo VmRef VmRef2 VmRef3 VmObj VmHier
  ClassProps MemberProps ArrProps HierProps.
Set Implicit Arguments.
Unset Strict Implicit.
Local Open Scope vm_scope.
Local Opaque after.

(** ** C81 Types and classes *)
(** The Java classes of the library's own types *)
Definition java_name (T : ty) : option str :=
  match T with
  | TObject => Some (S_ "java/lang/Object")
  | TClass => Some (S_ "java/lang/Class")
  | TString => Some (S_ "java/lang/String")
  | TBuffer => Some (S_ "java/nio/ByteBuffer")
  | TThrowable => Some (S_ "java/lang/Throwable")
  | TMethod => Some (S_ "java/lang/reflect/Method")
  | TField => Some (S_ "java/lang/reflect/Field")
  | TWeak => Some (S_ "java/lang/ref/WeakReference")
  | TGlobal => Some (S_ "internal/lang/Global")
  | TVArr | TPArr _ | TArr _ | TUser _ => None
  end.
Theorem C81_boot G t T : match java_name T with
  | Some n => exists i, registered (init_vm G t) T = Some i /\ class_named (init_vm G t) n i
  | None => registered (init_vm G t) T = None
  end.
Proof.
  destruct T as [| | | | | | | | | |p|o|n]; cbn [java_name]; try (destruct G as [[] nd rn cs ub]; eexists; (split; [vm_compute; reflexivity|]); eexists; eexists; (split; [vm_compute; reflexivity|]); (split; [reflexivity|vm_compute; reflexivity]));
    destruct G as [[] nd rn cs ub]; vm_compute; reflexivity.
Qed.
(** Instances of the library's own classes, other than buffers, can be made; the classes have no members. *)
Theorem C81_makes G t T n : java_name T = Some n -> exists i c, registered (init_vm G t) T = Some i /\ contents (init_vm G t) i = Some (PClass c) /\
  c_inst c = (if ty_eqb T TBuffer then None else Some T) /\ c_bases c = Some T /\ c_instarr c = None /\ c_fields c = [] /\ c_methods c = [] /\ c_natives c = [].
Proof.
  destruct T as [| | | | | | | | | |p|o|k]; cbn [java_name]; intros H; try discriminate H; clear H; destruct G as [[] nd rn cs ub]; eexists; eexists;
    (split; [vm_compute; reflexivity|]); (split; [vm_compute; reflexivity|]); repeat (split; [reflexivity|]); reflexivity.
Qed.
Lemma registered_set s T U r : registered (with_types s (aset ty_eqb (s_types s) U r)) T = if ty_eqb U T then r else registered s T.
Proof.
  unfold registered, get_type. cbn [with_types s_types]. destruct (ty_eqb_spec U T) as [->|N]; [rewrite (aget_aset_same ty_eqb ty_eqb_spec); reflexivity|rewrite (aget_aset_other ty_eqb ty_eqb_spec); auto].
Qed.
(** Only registering a type changes its entry; *)
Record same_types (s s' : st) : Prop := { same_reg : forall T, registered s' T = registered s T }.
Lemma types_fine G t : fine G t (fun p => p <> PrBind) same_types.
Proof.
  assert (forall s, same_types s s) as Re by (intros s; constructor; reflexivity).
  assert (forall a b c, same_types a b -> same_types b c -> same_types a c) as Tr by (intros a b c [H1] [H2]; constructor; intros T; rewrite H2; apply H1).
  constructor; intros; try (constructor; intros T0; reflexivity); try (congruence); try (eapply Tr; eauto; fail).
  - apply (@find_fine G same_types); auto; intros; constructor; intros T0; reflexivity.
  - constructor. intros T0. rewrite registered_set. destruct (ty_eqb_spec T T0) as [<-|N]; [|reflexivity]. unfold registered. rewrite H1. reflexivity.
  - constructor. intros T. unfold registered, get_type. destruct (collect_same s) as (_ & _ & _ & E & _). rewrite E. reflexivity.
Qed.
Theorem C81_step G t0 t o s v s' T : reachable G t0 s -> step G t o s = Some (v, s') -> (forall k inst n, o <> UBind_ k inst n) -> registered s' T = registered s T.
Proof.
  intros R E N. refine (@same_reg s s' _ T). refine (fine_step (@types_fine G t) o _ _ E); [|exact (good_wf (reachable_good R))].
  intros p Hp ->. destruct o; simpl in Hp; try (intuition discriminate). eapply N; eauto.
Qed.
(** C++ code registers a type: the class of that name, created if there is none, gets the type and the function that creates objects; nothing else changes. *)
Lemma bind_good G t k inst n s : good G s -> attached s t ->
  exists i c s', step G t (UBind_ k inst n) s = Some (OVal (RRef (Some i)), s') /\ class_named s' n i /\ contents s' i = Some (PClass c) /\
    c_bases c = Some (TUser k) /\ c_inst c = (if inst then Some (TUser k) else None) /\
    (forall T, registered s' T = if ty_eqb (TUser k) T then Some i else registered s T) /\
    (forall j, live s j = true -> j <> i -> intact s s' j) /\ s_globals s' = s_globals s /\ s_ext s' = s_ext s /\ (forall u, get_env s' u = get_env s u) /\
    (forall j, live s' j = true -> live s j = true \/ is_cls s' j = true) /\
    (live s i = true -> exists c0, contents s i = Some (PClass c0) /\ c_name c = c_name c0 /\ c_prefix c = c_prefix c0 /\ c_fields c = c_fields c0 /\ c_methods c = c_methods c0 /\
       c_natives c = c_natives c0 /\ c_instarr c = c_instarr c0 /\ monitor s' i = monitor s i /\ class_ptr s' i = class_ptr s i) /\
    (live s i = false -> c_fields c = [] /\ c_methods c = [] /\ c_natives c = [] /\ c_instarr c = None).
Proof.
  intros Gs A. pose proof (good_wf Gs) as W.
  destruct (find_kept n Gs) as (i & s1 & Ef & I1 & Q & K & T1 & Gc).
  pose proof (inv_wf I1) as W1. pose proof (proj2 (class_named_iff _ _ I1) Gc) as Cn. pose proof Cn as (oc & c1 & Lc & Pc & Pn).
  set (ck := mkCls (c_name c1) (c_prefix c1) (c_inner c1) (c_fields c1) (c_methods c1) (c_natives c1) (if inst then Some (TUser k) else None) (c_instarr c1) (Some (TUser k))).
  set (s2 := with_types s1 (aset ty_eqb (s_types s1) (TUser k) (Some i))). set (s3 := put s2 i (set_pay oc (PClass ck))).
  assert (is_cls s1 i = true) as Ki by (unfold is_cls; rewrite Lc, Pc; reflexivity).
  assert (obj_ok s2 (set_pay oc (PClass ck)) = true) as Ok.
  { pose proof (wf_obj W1 _ Lc) as H. unfold obj_ok in *. rewrite Pc in H. exact H. }
  assert (tidy s2) as T2.
  { destruct T1 as [Tm H]. split; [exact Tm|]. intros j Lj. destruct (H j Lj) as [Hj|[]]. left. unfold held in *. apply in_app_iff in Hj. apply in_app_iff. destruct Hj as [Hj|Hj]; [left|right; exact Hj].
    unfold roots in *. cbn [s2 with_types s_globals s_classes s_ns s_types s_envs s_ext s_tmp]. repeat rewrite in_app_iff in Hj. repeat rewrite in_app_iff.
    destruct Hj as [Hj|[Hj|[Hj|[Hj|Hj]]]]; [left; exact Hj|right; left; exact Hj|right; right; left; exact Hj|right; left|right; right; right; right; exact Hj].
    assert (forall l : list (ty * option oid), In j (somes (map snd l)) -> exists T, In (T, Some j) l) as Hs.
    { induction l as [|[T [x|]] l IH]; simpl; [tauto| |]; [intros [->|Hl]; [eauto|]|intros Hl]; destruct (IH Hl) as (T' & HT); eauto. }
    destruct (Hs (s_types s1) Hj) as (T & HT). apply (wf_types W1) in HT. apply is_cls_named in HT. destruct HT as (m & Hm). apply (class_named_iff _ _ I1) in Hm.
    apply (aget_In str_eqb str_eqb_spec) in Hm. exact (in_map snd _ (m, j) Hm). }
  assert (tidy s3) as T3 by (apply (@put_tidy s2 i oc); [exact Lc|simpl; rewrite Pc; reflexivity|exact T2]).
  assert (step G t (UBind_ k inst n) s = Some (OVal (RRef (Some i)), s3)) as St.
  { assert (GetClassT G (TUser k) inst n s = Ret i s3) as E3.
    { unfold GetClassT. unfold bind at 1. rewrite Ef. cbn [nonnull]. unfold bind at 1, ret at 1. unfold bind at 1. unfold set_type, bind at 1, check. cbn [opt_list forallb].
      rewrite Ki. cbn [andb]. cbv beta iota. fold s2. unfold bind at 1, bind_cls. match goal with |- context[upd_cls i ?f s2] => rewrite (@upd_cls_eq s2 i oc c1 f Lc Pc Ok) end. reflexivity. }
    apply step_tidy_ret; [exact A| |exact T3]. cbn [body]. unfold as_oid, bind. rewrite E3. reflexivity. }
  pose proof (step_good Gs St) as G3. pose proof (quiet_undisturbed t Q) as U.
  assert (lookup s3 i = Some (set_pay oc (PClass ck))) as L3 by (unfold s3; rewrite (lookup_put _ _ (Lc : lookup s2 i = Some oc)), Nat.eqb_refl; reflexivity).
  assert (forall j, live s3 j = live s1 j) as Lv by (intros j; unfold s3; rewrite (live_put _ _ (Lc : lookup s2 i = Some oc)); reflexivity).
  exists i, ck, s3. split; [exact St|]. split; [eexists; exists ck; split; [exact L3|split; [reflexivity|exact Pn]]|]. split; [unfold contents; rewrite L3; reflexivity|]. split; [reflexivity|]. split; [reflexivity|]. split.
  { intros T. change (registered s3 T) with (registered s2 T). unfold s2. rewrite registered_set. destruct (ty_eqb (TUser k) T); [reflexivity|]. apply (u_types U). }
  split. { intros j Lj Nj. eapply intact_trans; [apply (u_obj U); exact Lj|]. apply (@intact_trans s1 s2 s3 j).
     - apply live_lookup in Lj. destruct Lj as (o & Lo). destruct (q_old Q Lo) as (o' & Lo' & _). exists o', o'. split; [exact Lo'|]. split; [exact Lo'|]. split; [reflexivity|]. split; [reflexivity|]. auto.
     - eapply (@d_obj (eq i) t); [apply (@put_disturbs t s2 i oc); exact Lc| |auto]. change (live s1 j = true). apply (quiet_live Q Lj). }
  split; [exact (q_globals Q)|]. split; [exact (q_ext Q)|]. split; [intros u; exact (quiet_env u Q)|]. split; [|split].
  - intros j Lj. rewrite Lv in Lj. destruct (quiet_new Q Lj) as [H|H]; [auto|right]. unfold is_cls in *. unfold s3. rewrite (lookup_put _ _ (Lc : lookup s2 i = Some oc)). match goal with |- context[Nat.eqb ?a ?b] => destruct (Nat.eqb_spec a b) end; [reflexivity|exact H].
  - intros Li. destruct (quiet_intact Q Li) as (o0 & o1 & L0 & L1 & V & M & Cp). rewrite Lc in L1. injection L1 as <-. rewrite Pc in V.
    destruct (o_pay o0) eqn:P0; simpl in V; try discriminate V. exists c. split; [unfold contents; rewrite L0; simpl; congruence|]. injection V as V1 V2 V3 V4 V5 V6 V7 V8.
    simpl. unfold monitor. rewrite L0, L3. split; [auto|]. split; [auto|]. split; [auto|]. split; [auto|]. split; [auto|]. split; [auto|]. split; [exact M|].
    destruct (q_old Q L0) as (o2 & L2 & C2 & _). rewrite Lc in L2. injection L2 as <-. unfold class_ptr. rewrite L3, L0. cbn [set_pay o_clazz]. rewrite C2. destruct (o_clazz o0) as [z|] eqn:Ez; [|reflexivity]. rewrite Lv.
    assert (z < length (s_heap s)) as Lz.
    { pose proof (wf_obj W _ L0) as H. unfold obj_ok, clazz_ok in H. rewrite Ez in H. apply andb_true_iff in H. destruct H as [_ H]. apply andb_true_iff in H. destruct H as [H _]. apply Nat.ltb_lt, H. }
    destruct (live s z) eqn:Lz'; [rewrite (quiet_live Q Lz'); reflexivity|]. unfold live in *. rewrite (q_dead Q Lz); [reflexivity|]. destruct (lookup s z); [discriminate|reflexivity].
  - intros Li. assert (length (s_heap s) <= i) as Ge. { destruct (Nat.lt_ge_cases i (length (s_heap s))) as [Lt|Ge]; [|exact Ge]. rewrite (q_dead Q Lt) in Lc; [discriminate|]. unfold live in Li. destruct (lookup s i); [discriminate|reflexivity]. }
    destruct (q_new Q Ge Lc) as (_ & _ & n1 & p1 & l1 & P1). rewrite Pc in P1. injection P1 as ->. simpl. auto.
Qed.
Theorem C81_bind G t0 t k inst n s : reachable G t0 s -> attached s t ->
  exists i c s', step G t (UBind_ k inst n) s = Some (OVal (RRef (Some i)), s') /\ class_named s' n i /\ contents s' i = Some (PClass c) /\
    c_bases c = Some (TUser k) /\ c_inst c = (if inst then Some (TUser k) else None) /\
    (forall T, registered s' T = if ty_eqb (TUser k) T then Some i else registered s T) /\
    (forall j, live s j = true -> j <> i -> intact s s' j) /\ s_globals s' = s_globals s /\ s_ext s' = s_ext s /\ (forall u, get_env s' u = get_env s u) /\
    (forall j, live s' j = true -> live s j = true \/ is_cls s' j = true) /\
    (live s i = true -> exists c0, contents s i = Some (PClass c0) /\ c_name c = c_name c0 /\ c_prefix c = c_prefix c0 /\ c_fields c = c_fields c0 /\ c_methods c = c_methods c0 /\
       c_natives c = c_natives c0 /\ c_instarr c = c_instarr c0 /\ monitor s' i = monitor s i /\ class_ptr s' i = class_ptr s i) /\
    (live s i = false -> c_fields c = [] /\ c_methods c = [] /\ c_natives c = [] /\ c_instarr c = None).
Proof. intros R. exact (bind_good k inst n (reachable_good R)). Qed.
Lemma good_any G t o s v s' T n : good G s -> step G t o s = Some (v, s') -> java_name T = Some n -> registered s' T = registered s T.
Proof.
  intros R E J. assert ((forall k inst n, o <> UBind_ k inst n) \/ exists k inst n, o = UBind_ k inst n) as [N|(k & inst & m & ->)] by (destruct o; try (left; intros; discriminate); right; eauto).
  - refine (@same_reg s s' _ T). refine (fine_step (@types_fine G t) o _ _ E); [|exact (good_wf R)]. intros p Hp ->. destruct o; simpl in Hp; try (intuition discriminate). eapply N; eauto.
  - destruct (bind_good k inst m R (step_attached E eq_refl)) as (i & c & s1 & E1 & _ & _ & _ & _ & Rg & _). rewrite E in E1. injection E1 as _ <-. rewrite Rg. destruct T; try discriminate J; reflexivity.
Qed.
Lemma C81_any G t0 t o s v s' T n : reachable G t0 s -> step G t o s = Some (v, s') -> java_name T = Some n -> registered s' T = registered s T.
Proof. intros R. exact (good_any (reachable_good R)). Qed.
(** So the library's own types keep their classes, whatever happens; *)
Theorem C81_builtin G t0 s T n : reachable G t0 s -> java_name T = Some n -> exists i, registered s T = Some i /\ class_named s n i.
Proof.
  intros R J. pose proof (C81_boot G t0 T) as B. rewrite J in B. destruct B as (i & Ri & Ci). exists i.
  assert (reachable G t0 (init_vm G t0)) as R0 by (exists [], []; reflexivity).
  destruct R as (l & vs & E). split.
  - revert R0 Ri E. generalize (init_vm G t0). clear Ci. revert vs. induction l as [|[t o] l IH]; intros vs s0 R0 Ri E; cbn [exec] in E; [injection E as _ <-; exact Ri|].
    destruct (step G t o s0) as [[v s1]|] eqn:E1; [|discriminate]. destruct (exec G l s1) as [[vs2 s2]|] eqn:E2; [|discriminate]. injection E as _ <-.
    assert (reachable G t0 s1) as R1 by (apply (@reachable_exec G t0 s0 [(t, o)] [v] s1 R0); cbn [exec]; rewrite E1; reflexivity).
    apply (IH _ s1 R1 (eq_trans (C81_any R0 E1 J) Ri) E2).
  - apply (class_named_iff _ _ (g_inv (reachable_good (ex_intro _ l (ex_intro _ vs E))))). apply (exec_kept (reachable_good R0) E). apply (class_named_iff _ _ (g_inv (reachable_good R0))). exact Ci.
Qed.
(** FindClass finds them. *)
Theorem C81_find G t0 t s T n : reachable G t0 s -> attached s t -> java_name T = Some n -> exists i s', registered s T = Some i /\ step G t (FindClass_ n) s = Some (OVal (RRef (Some i)), s') /\ class_named s' n i.
Proof.
  intros R A J. pose proof (reachable_good R) as Gs. destruct (C81_builtin R J) as (i & Ri & Ci). destruct (@FindClass_step G t n s Gs A) as (r & s' & E & G' & _ & K & Er & _).
  apply (class_named_iff _ _ (g_inv Gs)) in Ci. apply K in Ci. exists i, s'. split; [exact Ri|]. rewrite Ci in Er. subst r. split; [exact E|]. apply (class_named_iff _ _ (g_inv G')). exact Ci.
Qed.
Lemma reg_history G t0 T n l : forall s vs s', reachable G t0 s -> exec G l s = Some (vs, s') -> java_name T = Some n -> registered s' T = registered s T.
Proof.
  induction l as [|[t o] l IH]; intros s vs s' R E J; cbn [exec] in E; [injection E as _ <-; reflexivity|].
  destruct (step G t o s) as [[v s1]|] eqn:E1; [|discriminate]. destruct (exec G l s1) as [[vs2 s2]|] eqn:E2; [|discriminate]. injection E as _ <-.
  assert (reachable G t0 s1) as R1 by (apply (@reachable_exec G t0 s [(t, o)] [v] s1 R); cbn [exec]; rewrite E1; reflexivity).
  rewrite (IH _ _ _ R1 E2 J). exact (C81_any R E1 J).
Qed.
Lemma class_stays G t0 T n i s1 l vs s2 u h : reachable G t0 s1 -> java_name T = Some n -> class_ptr s1 i = registered s1 T -> exec G l s1 = Some (vs, s2) -> attached s2 u -> denotes s2 h (Some i) ->
  exists k s3, step G u (GetObjectClass_ (Some h)) s2 = Some (OVal (RRef (Some k)), s3) /\ class_named s3 n k.
Proof.
  intros R J C E A D. destruct (C81_builtin R J) as (k & Rk & Ck). rewrite Rk in C. pose proof (@reachable_exec G t0 s1 l vs s2 R E) as R2. destruct (C60_get R2 A D) as (s3 & E3 & P).
  rewrite (C60_constant R E C (denotes_target_live D)) in E3. exists k, s3. split; [exact E3|].
  assert (reachable G t0 s3) as R3 by (apply (@reachable_exec G t0 s2 [(u, GetObjectClass_ (Some h))] [OVal (RRef (Some k))] s3 R2); cbn [exec]; rewrite E3; reflexivity).
  apply (class_named_iff _ _ (g_inv (reachable_good R3))). apply (exec_kept (reachable_good R2) (l := [(u, GetObjectClass_ (Some h))]) (vs := [OVal (RRef (Some k))])); [cbn [exec]; rewrite E3; reflexivity|].
  apply (exec_kept (reachable_good R) E). apply (class_named_iff _ _ (g_inv (reachable_good R))). exact Ck.
Qed.
(** Strings and buffers are of the classes that Java code expects, whoever asks and whatever happens in between. *)
Theorem C81_string G t0 t o i s s1 l vs s2 u h : reachable G t0 s -> (exists b, o = NewStringUTF_ b) \/ (exists cs n, o = NewString_ cs n) -> step G t o s = Some (OVal (RRef (Some i)), s1) ->
  exec G l s1 = Some (vs, s2) -> attached s2 u -> denotes s2 h (Some i) ->
  exists k s3, step G u (GetObjectClass_ (Some h)) s2 = Some (OVal (RRef (Some k)), s3) /\ class_named s3 (S_ "java/lang/String") k.
Proof.
  intros R Ho E. assert (reachable G t0 s1) as R1 by (apply (@reachable_exec G t0 s [(t, o)] [OVal (RRef (Some i))] s1 R); cbn [exec]; rewrite E; reflexivity).
  apply (@class_stays G t0 TString _ i s1 l vs s2 u h R1 eq_refl). rewrite (@C81_any G t0 t o s _ s1 TString _ R E eq_refl).
  destruct Ho as [(b & ->)|(cs & n & ->)].
  - destruct (C61_new_utf b R (step_attached E eq_refl)) as (j & s' & E' & _ & C). rewrite E in E'. injection E' as <- <-. exact C.
  - pose proof (C61_new cs n R (step_attached E eq_refl)) as H. destruct (UtfModel.NewString (csigned G) cs n); try (rewrite E in H; discriminate). destruct H as (j & s' & E' & _ & C). rewrite E in E'. injection E' as <- <-. exact C.
Qed.
Theorem C81_buffer G t0 t a c i s s1 l vs s2 u h : reachable G t0 s -> step G t (NewDirectByteBuffer_ a c) s = Some (OVal (RRef (Some i)), s1) ->
  exec G l s1 = Some (vs, s2) -> attached s2 u -> denotes s2 h (Some i) ->
  exists k s3, step G u (GetObjectClass_ (Some h)) s2 = Some (OVal (RRef (Some k)), s3) /\ class_named s3 (S_ "java/nio/ByteBuffer") k.
Proof.
  intros R E. assert (reachable G t0 s1) as R1 by (apply (@reachable_exec G t0 s [(t, NewDirectByteBuffer_ a c)] [OVal (RRef (Some i))] s1 R); cbn [exec]; rewrite E; reflexivity).
  apply (@class_stays G t0 TBuffer _ i s1 l vs s2 u h R1 eq_refl). rewrite (@C81_any G t0 t _ s _ s1 TBuffer _ R E eq_refl).
  destruct (C52_new a c R (step_attached E eq_refl)) as (j & s' & E' & _ & C). rewrite E in E'. injection E' as <- <-. exact C.
Qed.

(** ** C82 ThrowNew *)
(** The claim: the exception is an instance of the class passed. *)
Definition C82_claim : Prop := forall G t0 t c m i s s1 s2 s3 v, reachable G t0 s -> is_cls s c = true -> step G t (ThrowNew_ (Some c) (Some m)) s = Some (OVal (RInt 0), s1) ->
  step G t ExceptionOccurred_ s1 = Some (OVal (RRef (Some i)), s2) -> step G t (IsInstanceOf_ (Some i) (Some c)) s2 = Some (v, s3) -> v = OVal (RBool true).
(** The class makes no difference; *)
Theorem C82_ignored G t c c' m s : step G t (ThrowNew_ c m) s = step G t (ThrowNew_ c' m) s.
Proof. reflexivity. Qed.
Lemma thrown_unset G t c m s s1 : good G s -> step G t (ThrowNew_ c (Some m)) s = Some (OVal (RInt 0), s1) -> exists j, pending s1 t = Some j /\ contents s1 j = Some (PThrow (Err m)) /\ class_ptr s1 j = None.
Proof.
  intros Gs E. pose proof (good_wf Gs) as W. destruct (attached_env (step_attached E eq_refl)) as (e & Ee).
  assert (step G t (ThrowNew_ c (Some m)) s = Some (OVal (RInt 0), finish (thrown s t e (Err m)))) as St.
  { apply (step_ret (step_attached E eq_refl)). simpl. unfold as_int, bind at 1, ThrowNew, bind at 1. rewrite (set_pending_eq _ W Ee). reflexivity. }
  rewrite E in St. injection St as ->. set (x := Err m).
  assert (In (length (s_heap s)) (roots (with_tmp (thrown s t e x) []))) as Rt.
  { eapply (env_root (t := t)). unfold get_env. simpl. rewrite (aget_aset Nat.eqb Nat.eqb_spec), Nat.eqb_refl. reflexivity. unfold env_roots. simpl. rewrite !in_app_iff. simpl. auto. }
  pose proof (finish_lookup (thrown_wf x W Ee) Rt) as L. rewrite (@lookup_heap (add s (new_obj None (PThrow x))) (thrown s t e x)) in L by reflexivity. rewrite lookup_add_new in L.
  exists (length (s_heap s)). split; [unfold pending, thrown; rewrite finish_env, get_env_penv, Nat.eqb_refl; reflexivity|]. split; [unfold contents; rewrite L; reflexivity|unfold class_ptr; rewrite L; reflexivity].
Qed.
Lemma occurred_class G t s j s1 : good G s -> pending s t = Some j -> step G t ExceptionOccurred_ s = Some (OVal (RRef (Some j)), s1) -> class_ptr s1 j = match class_ptr s j with Some c => Some c | None => registered s TThrowable end.
Proof.
  intros Gs P E. pose proof (good_wf Gs) as W. pose proof (step_attached E eq_refl) as A. destruct (attached_env A) as (e & Ee). assert (e_exc e = Some j) as Ej by (unfold pending in P; rewrite Ee in P; exact P).
  assert (live s j = true) as L by (apply is_throw_live; eapply env_exc_throw; eauto).
  assert (tidy (given s t TThrowable j)) as T by (eapply tidy_weaken; [|apply given_tidy; auto; apply Gs]; simpl; tauto).
  assert (step G t ExceptionOccurred_ s = Some (OVal (RRef (Some j)), given s t TThrowable j)) as St.
  { apply (step_tidy_ret A); auto. simpl. unfold as_ref, bind at 1, ExceptionOccurred, bind at 1, the_env. rewrite Ee. unfold ret at 1. rewrite Ej. simpl to_jni_opt. unfold bind. rewrite given_eq by auto. reflexivity. }
  rewrite E in St. injection St as ->. apply given_class_ptr; auto.
Qed.
(** the exception is a Throwable with the message, for every class passed, and GetObjectClass says so ever after. *)
Theorem C82_partial G t0 t c m s s1 : reachable G t0 s -> step G t (ThrowNew_ c (Some m)) s = Some (OVal (RInt 0), s1) ->
  exists i s2, step G t ExceptionOccurred_ s1 = Some (OVal (RRef (Some i)), s2) /\ contents s2 i = Some (PThrow (Err m)) /\
    forall l vs s3 u h, exec G l s2 = Some (vs, s3) -> attached s3 u -> denotes s3 h (Some i) ->
      exists k s4, step G u (GetObjectClass_ (Some h)) s3 = Some (OVal (RRef (Some k)), s4) /\ class_named s4 (S_ "java/lang/Throwable") k.
Proof.
  intros R E. pose proof (reachable_good R) as Gs. destruct (thrown_unset Gs E) as (j & P & C & N).
  assert (reachable G t0 s1) as R1 by (apply (@reachable_exec G t0 s [(t, ThrowNew_ c (Some m))] [OVal (RInt 0)] s1 R); cbn [exec]; rewrite E; reflexivity).
  pose proof (reachable_good R1) as G1. destruct (@ThrowNew_step G t c m s Gs (step_attached E eq_refl)) as (s1' & E' & _ & _ & F). rewrite E in E'. injection E' as <-.
  assert (attached s1 t) as A1. { unfold pending in P. destruct (get_env s1 t) as [e|] eqn:Ee; [exists e; exact Ee|discriminate]. }
  destruct (@ExceptionOccurred_step G t s1 G1 A1) as (s2 & E2 & G2 & U & Lv & _). rewrite P in E2. exists j, s2. split; [exact E2|]. split.
  - unfold contents in *. destruct (lookup s1 j) as [o|] eqn:Lo; [|discriminate]. assert (live s1 j = true) as Lj by (apply live_lookup; eauto).
    destruct (u_obj U Lj) as (o1 & o2 & L1 & L2 & V & _). rewrite Lo in L1. injection L1 as <-. rewrite L2. simpl in C |- *. injection C as C. rewrite C in V. destruct (o_pay o2); simpl in V; congruence.
  - intros l vs s3 u h. assert (reachable G t0 s2) as R2 by (apply (@reachable_exec G t0 s1 [(t, ExceptionOccurred_)] [OVal (RRef (Some j))] s2 R1); cbn [exec]; rewrite E2; reflexivity).
    apply (@class_stays G t0 TThrowable _ j s2 l vs s3 u h R2 eq_refl). rewrite (@C81_any G t0 t _ s1 _ s2 TThrowable _ R1 E2 eq_refl), (occurred_class G1 P E2), N. reflexivity.
Qed.

Definition ex_throw : list event := [(main, UBind_ 0 true (S_ "E")); (main, ThrowNew_ (Some 9) (Some (S_ "x"))); (main, ExceptionOccurred_)].
Theorem C82_refuted : ~ C82_claim.
Proof.
  intros H. set (e := firstn 1 ex_throw). assert (reachable Gd main (after Gd e)) as R by (apply after_reachable; vm_compute; reflexivity).
  assert (is_cls (after Gd e) 9 = true) as K by (vm_compute; reflexivity).
  assert (exists s1 s2 s3, step Gd main (ThrowNew_ (Some 9) (Some (S_ "x"))) (after Gd e) = Some (OVal (RInt 0), s1) /\ step Gd main ExceptionOccurred_ s1 = Some (OVal (RRef (Some 10)), s2) /\
     step Gd main (IsInstanceOf_ (Some 10) (Some 9)) s2 = Some (OVal (RBool false), s3)) as (s1 & s2 & s3 & E1 & E2 & E3).
  { do 3 eexists. split; [vm_compute; reflexivity|]. split; vm_compute; reflexivity. }
  specialize (H _ _ _ _ _ _ _ _ _ _ _ R K E1 E2 E3). discriminate H.
Qed.
Example C81_ex : let l := [(main, NewStringUTF_ (Some (S_ "a"))); (main, NewDirectByteBuffer_ 64 8); (main, UBind_ 0 true (S_ "java/lang/String"))] in
  seen Gd (l ++ [(main, GetObjectClass_ (Some 9)); (main, FindClass_ (S_ "java/lang/String")); (main, GetObjectClass_ (Some 10)); (main, FindClass_ (S_ "java/nio/ByteBuffer"))])
  = seen Gd l ++ [OVal (RRef (Some 2)); OVal (RRef (Some 2)); OVal (RRef (Some 3)); OVal (RRef (Some 3))].
Proof. vm_compute. reflexivity. Qed.
Example C82_ex : seen Gd (ex_throw ++ [(main, GetObjectClass_ (Some 10)); (main, FindClass_ (S_ "java/lang/Throwable")); (main, GetObjectClass_ (Some 10))])
  = [OVal (RRef (Some 9)); OVal (RInt 0); OVal (RRef (Some 10)); OVal (RRef (Some 4)); OVal (RRef (Some 4)); OVal (RRef (Some 4))].
Proof. vm_compute. reflexivity. Qed.

(** ** C60 Objects created by C++ code *)
(** A new object that a C++ variable holds; nothing else changes. *)
Record newborn (i : oid) (p : pay) (c : option oid) (s s' : st) : Prop := {
  nb_fresh : length (s_heap s) <= i;
  nb_contents : contents s' i = Some p;
  nb_class : class_ptr s' i = c;
  nb_monitor : monitor s' i = None;
  nb_ext : s_ext s' = i :: s_ext s;
  nb_globals : s_globals s' = s_globals s;
  nb_types : forall T, registered s' T = registered s T;
  nb_envs : forall u, get_env s' u = get_env s u;
  nb_old : forall j, live s j = true -> intact s s' j;
  nb_live : forall j, live s' j = true -> live s j = true \/ j = i }.
Lemma newborn_step G t o s c p : good G s -> attached s t -> (forall k, c = Some k -> is_cls s k = true) -> pay_ok s p = true ->
  body G t o s = as_oid (i <- alloc (new_obj c p) ;; add_ext i ;;; ret i) s ->
  step G t o s = Some (OVal (RRef (Some (length (s_heap s)))), with_ext (add s (new_obj c p)) (length (s_heap s) :: s_ext s)) /\
  exists i s', step G t o s = Some (OVal (RRef (Some i)), s') /\ newborn i p c s s'.
Proof.
  intros Gs A Hc Hp B. pose proof (good_wf Gs) as W. set (x := new_obj c p) in *.
  assert (obj_ok s x = true) as Ox.
  { unfold obj_ok, x, clazz_ok. cbn [new_obj o_pay o_clazz]. apply andb_true_iff. split.
    - exact Hp.
    - destruct c as [k|]; [|reflexivity]. specialize (Hc k eq_refl). rewrite (is_cls_live _ _ Hc), Hc, andb_true_r. apply Nat.ltb_lt, live_lt, is_cls_live; auto. }
  set (i := length (s_heap s)). set (s1 := add s x). set (s2 := with_ext s1 (i :: s_ext s)).
  assert (lookup s1 i = Some x) as Li by apply lookup_add_new.
  assert (live s1 i = true) as Lv by (apply live_lookup; eauto).
  assert (tidy s2) as T2.
  { destruct (tidy_add x (g_tidy Gs)) as [Tm H]. split; [exact Tm|]. intros j Lj. left. destruct (H j Lj) as [Hj|[[]|Hj]].
    - unfold held in *. apply in_app_iff in Hj. apply in_app_iff. destruct Hj as [Hj|Hj]; [left|right; exact Hj]. unfold roots in *. cbn [s2 with_ext s_globals s_classes s_ns s_types s_envs s_ext s_tmp].
      repeat rewrite in_app_iff in Hj. repeat rewrite in_app_iff. destruct Hj as [Hj|[Hj|[Hj|[Hj|[Hj|[Hj|Hj]]]]]]; [left|right; left|right; right; left|do 3 right; left|do 4 right; left|do 5 right; left; right|do 6 right]; exact Hj.
    - unfold held. apply in_app_iff. left. unfold roots. repeat rewrite in_app_iff. do 5 right. left. left. symmetry. exact Hj. }
  assert (step G t o s = Some (OVal (RRef (Some i)), s2)) as St.
  { apply step_tidy_ret; [exact A| |exact T2]. rewrite B. unfold as_oid, bind at 1, bind at 1. rewrite (alloc_eq Ox). fold i s1. unfold bind, add_ext, live_all, bind, check. cbn [forallb]. rewrite Lv. reflexivity. }
  split; [exact St|]. exists i, s2. split; [exact St|]. assert (lookup s2 i = Some x) as L2 by exact Li.
  constructor; try reflexivity.
  - unfold contents. rewrite L2. reflexivity.
  - unfold class_ptr. rewrite L2. unfold x. cbn [new_obj o_clazz]. destruct c as [k|]; [|reflexivity]. specialize (Hc k eq_refl). apply is_cls_live in Hc.
    change (live s2 k) with (live s1 k). replace (live s1 k) with true; [reflexivity|]. symmetry. unfold s1, live. rewrite lookup_add_old by (eapply live_lt; eauto). exact Hc.
  - unfold monitor. rewrite L2. reflexivity.
  - intros j Lj. exact (add_intact x Lj).
  - intros j Lj. change (live s1 j = true) in Lj. apply live_add in Lj. exact Lj.
Qed.
(** std::make_shared: no class yet *)
Lemma user_ok s n vars : pay_ok s (PUser n (repeat None vars)) = true.
Proof. simpl. induction vars; simpl; auto. Qed.
Theorem C60_new G t0 t n vars s : reachable G t0 s -> attached s t -> exists i s', step G t (UNew_ n vars) s = Some (OVal (RRef (Some i)), s') /\ newborn i (PUser n (repeat None vars)) None s s'.
Proof. intros R A. eapply proj2, (newborn_step (reachable_good R) A); [discriminate|apply user_ok|reflexivity]. Qed.
(** std::make_shared<Object>(), possibly with a class *)
Theorem C60_plain G t0 t c s : reachable G t0 s -> attached s t -> (forall k, c = Some k -> is_cls s k = true) ->
  exists i s', step G t (UPlain_ c) s = Some (OVal (RRef (Some i)), s') /\ newborn i PPlain c s s'.
Proof. intros R A H. eapply proj2, (newborn_step (reachable_good R) A); [exact H|reflexivity|reflexivity]. Qed.
(** Class::Instantiate: the class is the one registered for the type, which need not be the class asked. *)
Inductive instance_of_type : ty -> nat -> pay -> Prop :=
| it_user n vars : instance_of_type (TUser n) vars (PUser n (repeat None vars))
| it_object vars : instance_of_type TObject vars PPlain
| it_string vars : instance_of_type TString vars (PString []).
Theorem C60_instantiate G t0 t T vars p cl c s : reachable G t0 s -> attached s t -> contents s cl = Some (PClass c) -> c_inst c = Some T -> instance_of_type T vars p ->
  exists i s', step G t (UInstantiate_ cl vars) s = Some (OVal (RRef (Some i)), s') /\ newborn i p (registered s T) s s'.
Proof.
  intros R A C I Ip. destruct (deref_eq C) as (o & L & P & De). eapply proj2, (newborn_step (reachable_good R) A).
  - intros k Hk. unfold registered, get_type in Hk. destruct (aget ty_eqb (s_types s) T) as [x|] eqn:E; [|discriminate]. subst x. apply (aget_In ty_eqb ty_eqb_spec) in E. apply (wf_types (good_wf (reachable_good R)) _ _ E).
  - destruct Ip; [apply user_ok|reflexivity|reflexivity].
  - cbn [body]. unfold as_oid, UInstantiate. unfold bind at 1 2, get_cls, bind at 1. rewrite De, P. unfold ret at 1. rewrite I. destruct Ip; unfold make_shared, bind at 1, gets; reflexivity.
Qed.
Example C60_ex_builtin : let l := [(main, UInstantiate_ 2 0); (main, UInstantiate_ 0 0); (main, UToJNI_ TObject 9); (main, GetStringUTFChars_ (Some 9)); (main, UPlain_ (Some 1)); (main, UToJNI_ TObject 11); (main, GetObjectClass_ (Some 11))] in
  seen Gd l = [OVal (RRef (Some 9)); OVal (RRef (Some 10)); OVal (RRef (Some 9)); OVal (RBytes []); OVal (RRef (Some 11)); OVal (RRef (Some 11)); OVal (RRef (Some 1))] /\ class_ptr (after Gd l) 9 = Some 2 /\ class_ptr (after Gd l) 10 = Some 0.
Proof. split; [vm_compute; reflexivity|split; vm_compute; reflexivity]. Qed.
Example C60_ex_instantiate : let l := [(main, UBind_ 0 true (S_ "A")); (main, UBind_ 0 true (S_ "B")); (main, UInstantiate_ 9 1); (main, UNew_ 0 1)] in
  seen Gd l = [OVal (RRef (Some 9)); OVal (RRef (Some 10)); OVal (RRef (Some 11)); OVal (RRef (Some 12))] /\ class_ptr (after Gd l) 11 = Some 10 /\ class_ptr (after Gd l) 12 = None.
Proof. split; [vm_compute; reflexivity|split; vm_compute; reflexivity]. Qed.

(** ** C83 Functions that only pretend *)
Theorem C83_alloc G t0 t c s : reachable G t0 s -> attached s t -> step G t (AllocObject_ c) s = Some (OVal (RRef None), s).
Proof. intros R A. apply (step_tidy_ret A); [reflexivity|apply (g_tidy (reachable_good R))]. Qed.
Theorem C83_capacity G t0 t cap s : reachable G t0 s -> attached s t -> step G t (EnsureLocalCapacity_ cap) s = Some (if (cap <? 0)%Z then OExn (Err (S_ "vector::reserve")) else OVal (RInt 0), s).
Proof. intros R A. exact (EnsureLocalCapacity_step cap (reachable_good R) A). Qed.
Theorem C83_fatal G t s : step G t FatalError_ s = None.
Proof. unfold step, run. cbn [needs_env body]. unfold bind, the_env. destruct (get_env s t); reflexivity. Qed.
(** The claim: for a class whose objects can be created, AllocObject creates one. *)
Definition C83_claim : Prop := forall G t0 t cl c s, reachable G t0 s -> attached s t -> contents s cl = Some (PClass c) -> c_inst c <> None -> exists i s', step G t (AllocObject_ (Some cl)) s = Some (OVal (RRef (Some i)), s').
Theorem C83_refuted : ~ C83_claim.
Proof.
  intros H. set (e := [(main, UBind_ 0 true (S_ "A"))]). assert (reachable Gd main (after Gd e)) as R by (apply after_reachable; vm_compute; reflexivity).
  assert (attached (after Gd e) main) as A by (eexists; vm_compute; reflexivity). assert (exists c, contents (after Gd e) 9 = Some (PClass c) /\ c_inst c = Some (TUser 0)) as (c & C & I) by (eexists; split; vm_compute; reflexivity).
  destruct (H _ _ _ _ _ _ R A C ltac:(rewrite I; discriminate)) as (i & s' & E). pose proof (eq_trans (eq_sym E) (C83_alloc (Some 9) R A)) as Q. discriminate Q.
Qed.
Print Assumptions C81_boot. Print Assumptions C81_makes. Print Assumptions C81_step. Print Assumptions C81_bind. Print Assumptions C81_builtin. Print Assumptions C81_find. Print Assumptions C81_string. Print Assumptions C81_buffer.
Print Assumptions C82_ignored. Print Assumptions C82_partial. Print Assumptions C82_refuted. Print Assumptions C60_new. Print Assumptions C60_plain. Print Assumptions C60_instantiate.
Print Assumptions C83_alloc. Print Assumptions C83_capacity. Print Assumptions C83_fatal. Print Assumptions C83_refuted.
