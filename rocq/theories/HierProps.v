(** Class hierarchies, reflection and the class of an object: C50, C51, C60. *)
From Verif Require Import Base BaseProofs SigModel UtfModel VmState VmModel VmStep VmSpec MemSpec CallSpec RefSpec ArrSpec HierSpec VmBase VmFrame VmWf VmPrim VmInv VmReg
  VmFine VmRegInv VmExact VmQuiet VmClass VmEnvInv VmMember VmMember2 VmMember3 VmTables VmHook VmMemHist VmCall VmCall2 VmThread VmDemo VmRef VmRef2 VmRef3 VmObj VmHier MemberProps ArrProps.
Set Implicit Arguments.
Unset Strict Implicit.
Local Open Scope vm_scope.
Local Opaque after.

(** ** C51 IsAssignableFrom, IsInstanceOf, GetSuperclass *)
(** On every finite acyclic hierarchy whose classes are registered the search terminates and answers reachability. *)
Theorem C51_assignable G t0 t ha hb a b s : reachable G t0 s -> attached s t -> denotes_opt s ha (Some a) -> is_cls s a = true -> HierSpec.acyclic G s a -> (forall c, ancestor G s a c -> complete G s c) ->
  denotes_opt s hb b -> (forall j, b = Some j -> is_cls s j = true) ->
  exists r s', step G t (IsAssignableFrom_ ha hb) s = Some (OVal (RBool r), s') /\ same_but_types s s' /\ (r = true <-> exists j, b = Some j /\ ancestor G s a j).
Proof.
  intros R A Da Ca Ac Co Db Cb. pose proof (reachable_good R) as Gs. apply is_cls_class_at in Ca. destruct Ca as (c & Ca).
  destruct (acyclic_dfs (good_wf Gs) Ac) as (L & D); [congruence|exact Co|]. destruct (IsAssignableFrom_step Gs A Da D Db Cb) as (r & s' & E & _ & S & H). eauto.
Qed.
(** The search answers "is the same or a base class of": the relation is reflexive and transitive. *)
Theorem C51_reflexive G t0 t h a s : reachable G t0 s -> attached s t -> denotes_opt s h (Some a) -> is_cls s a = true -> HierSpec.acyclic G s a -> (forall c, ancestor G s a c -> complete G s c) ->
  exists s', step G t (IsAssignableFrom_ h h) s = Some (OVal (RBool true), s') /\ same_but_types s s'.
Proof.
  intros R A D C Ac Co. destruct (C51_assignable R A D C Ac Co D ltac:(intros j [= <-]; exact C)) as (r & s' & E & S & H). exists s'. assert (r = true) as -> by (apply H; exists a; split; [reflexivity|constructor]). auto.
Qed.
Theorem C51_transitive G t0 t ha hb hc a b c s sab sbc : reachable G t0 s -> attached s t -> denotes_opt s ha (Some a) -> denotes_opt s hb (Some b) -> denotes_opt s hc (Some c) ->
  is_cls s a = true -> is_cls s b = true -> is_cls s c = true -> HierSpec.acyclic G s a -> (forall c, ancestor G s a c -> complete G s c) ->
  step G t (IsAssignableFrom_ ha hb) s = Some (OVal (RBool true), sab) -> step G t (IsAssignableFrom_ hb hc) s = Some (OVal (RBool true), sbc) ->
  exists s', step G t (IsAssignableFrom_ ha hc) s = Some (OVal (RBool true), s') /\ same_but_types s s'.
Proof.
  intros R A Da Db Dc Ca Cb Cc Ac Co E1 E2.
  destruct (C51_assignable R A Da Ca Ac Co Db ltac:(intros j [= <-]; exact Cb)) as (r & s1 & E & _ & H). rewrite E1 in E. injection E as <- _. destruct H as [H _]. destruct (H eq_refl) as (j & [= <-] & Hab).
  assert (HierSpec.acyclic G s b) as Acb. { clear -Ac Hab. induction Hab as [|b c H IH Hc]; [exact Ac|]. destruct IH as [K]. apply K. exact Hc. }
  destruct (C51_assignable R A Db Cb Acb ltac:(intros x Hx; apply Co; eapply ancestor_trans; eauto) Dc ltac:(intros j [= <-]; exact Cc)) as (r & s2 & E' & _ & H'). rewrite E2 in E'. injection E' as <- _. destruct H' as [H' _].
  destruct (H' eq_refl) as (j & [= <-] & Hbc).
  destruct (C51_assignable R A Da Ca Ac Co Dc ltac:(intros j [= <-]; exact Cc)) as (r & s3 & E3 & S & H3). exists s3. assert (r = true) as -> by (apply H3; exists c; split; [reflexivity|eapply ancestor_trans; eauto]). auto.
Qed.
(** IsInstanceOf: the class of the object is assignable to the class.  An object whose class C++ code never told is the exception below. *)
Theorem C51_instance_partial G t0 t h hc i k j s : reachable G t0 s -> attached s t -> denotes_opt s h (Some i) -> class_ptr s i = Some k -> HierSpec.acyclic G s k -> (forall c, ancestor G s k c -> complete G s c) ->
  denotes_opt s hc (Some j) -> is_cls s j = true ->
  exists r s', step G t (IsInstanceOf_ h hc) s = Some (OVal (RBool r), s') /\ class_passed t (Some k) s s' /\ (r = true <-> ancestor G s k j).
Proof.
  intros R A D Ck Ac Co Dc Cj. pose proof (reachable_good R) as Gs. pose proof (class_ptr_cls (good_wf Gs) Ck) as Kc. apply is_cls_class_at in Kc. destruct Kc as (c & Kc).
  destruct (acyclic_dfs (good_wf Gs) Ac) as (L & Df); [congruence|exact Co|]. destruct (IsInstanceOf_step Gs A D Ck Df Dc ltac:(intros x [= <-]; exact Cj)) as (r & s' & E & _ & P & H). exists r, s'. split; [exact E|]. split; [exact P|]. rewrite H. split; [intros (x & [= <-] & K); exact K|eauto].
Qed.
Theorem C51_instance_null G t0 t hc s : reachable G t0 s -> attached s t -> step G t (IsInstanceOf_ None hc) s = Some (OVal (RBool false), s).
Proof. intros R A. apply IsInstanceOf_null; auto. apply (reachable_good R). Qed.
(** Handles that are null or no classes *)
Theorem C51_null G t0 t ha hb b s : reachable G t0 s -> attached s t -> denotes_opt s ha None -> denotes_opt s hb b -> (forall j, b = Some j -> is_cls s j = true) ->
  step G t (IsAssignableFrom_ ha hb) s = match b with None => Some (OVal (RBool true), s) | Some _ => None end.
Proof. intros R. apply IsAssignableFrom_null. apply (reachable_good R). Qed.
Theorem C51_not_class G t0 t ha hb a x s : reachable G t0 s -> attached s t -> denotes_opt s ha (Some a) -> contents s a = Some x -> (forall c, x <> PClass c) ->
  step G t (IsAssignableFrom_ ha hb) s = Some (OExn (Err bad_ref), s).
Proof. intros R. apply IsAssignableFrom_not_class. apply (reachable_good R). Qed.
(** With assertions enabled, a base class that C++ code did not register makes the search throw. *)
Theorem C51_unregistered G t0 t ha hb a b s : reachable G t0 s -> attached s t -> denotes_opt s ha (Some a) -> is_cls s a = true -> denotes_opt s hb b -> (forall j, b = Some j -> is_cls s j = true) ->
  b <> Some a -> ~ complete G s a -> exists s', step G t (IsAssignableFrom_ ha hb) s = Some (OExn (Err (S_ "Fatal BaseClass not registred!")), s') /\ same_but_types s s'.
Proof. intros R. apply IsAssignableFrom_incomplete. apply (reachable_good R). Qed.
(** GetSuperclass returns the class registered for the first base. *)
Theorem C51_superclass G t0 t h a c T B r s : reachable G t0 s -> attached s t -> denotes_opt s h (Some a) -> class_at s a = Some c -> complete G s a ->
  c_bases c = Some T -> ty_bases G T = Some (B :: r) -> exists s', step G t (GetSuperclass_ h) s = Some (OVal (RRef (registered s B)), s') /\ same_but_types s s'.
Proof. intros R A D C Co Ct Tb. pose proof (GetSuperclass_step (reachable_good R) A D C Co) as H. rewrite Ct, Tb in H. exact H. Qed.
Theorem C51_no_superclass G t0 t h a c s : reachable G t0 s -> attached s t -> denotes_opt s h (Some a) -> class_at s a = Some c -> complete G s a ->
  c_bases c = None \/ (exists T, c_bases c = Some T /\ ty_bases G T = None) -> exists s', step G t (GetSuperclass_ h) s = Some (OVal (RRef None), s') /\ same_but_types s s'.
Proof.
  intros R A D C Co [Ct|(T & Ct & Tb)]; pose proof (GetSuperclass_step (reachable_good R) A D C Co) as H; rewrite Ct in H; [|rewrite Tb in H; exact H]. exists s. split; [exact H|]. split; [destruct s; reflexivity|auto].
Qed.

(** A : Object <- B <- C, D : Extends<Object>, E : Extends<B, D>; an E (14), a C (15) first seen as an A, an object of an unregistered type (16) *)
Definition ex_hier : list event :=
  [(main, UBind_ 0 true (S_ "A")); (main, UBind_ 1 true (S_ "B")); (main, UBind_ 2 true (S_ "C")); (main, UBind_ 3 true (S_ "D")); (main, UBind_ 4 true (S_ "E"));
   (main, UNew_ 4 0); (main, UToJNI_ (TUser 4) 14); (main, UNew_ 2 0); (main, UToJNI_ (TUser 0) 15); (main, UNew_ 7 0); (main, UToJNI_ (TUser 7) 16)].
Lemma ex_hier_ok a : In a [9; 10; 11; 12; 13; 0] -> HierSpec.acyclic Gd (after Gd ex_hier) a /\ forall c, ancestor Gd (after Gd ex_hier) a c -> complete Gd (after Gd ex_hier) c /\ In c [9; 10; 11; 12; 13; 0].
Proof.
  assert (supers Gd (after Gd ex_hier) 0 = []) as S0 by (vm_compute; reflexivity).
  assert (supers Gd (after Gd ex_hier) 9 = []) as S9 by (vm_compute; reflexivity).
  assert (supers Gd (after Gd ex_hier) 10 = [9]) as S10 by (vm_compute; reflexivity).
  assert (supers Gd (after Gd ex_hier) 11 = [10]) as S11 by (vm_compute; reflexivity).
  assert (supers Gd (after Gd ex_hier) 12 = [0]) as S12 by (vm_compute; reflexivity).
  assert (supers Gd (after Gd ex_hier) 13 = [10; 12]) as S13 by (vm_compute; reflexivity).
  assert (forall c, In c [9; 10; 11; 12; 13; 0] -> forallb (fun B => match registered (after Gd ex_hier) B with Some _ => true | None => false end) (super_types Gd (after Gd ex_hier) c) = true) as Co.
  { intros c H. repeat (destruct H as [<-|H]; [vm_compute; reflexivity|]). destruct H. }
  remember (after Gd ex_hier) as s. clear Heqs.
  assert (HierSpec.acyclic Gd s 0) by (constructor; rewrite S0; intros b []). assert (HierSpec.acyclic Gd s 9) by (constructor; rewrite S9; intros b []).
  assert (HierSpec.acyclic Gd s 10) by (constructor; rewrite S10; intros b [<-|[]]; auto). assert (HierSpec.acyclic Gd s 11) by (constructor; rewrite S11; intros b [<-|[]]; auto).
  assert (HierSpec.acyclic Gd s 12) by (constructor; rewrite S12; intros b [<-|[]]; auto). assert (HierSpec.acyclic Gd s 13) by (constructor; rewrite S13; intros b [<-|[<-|[]]]; auto).
  intros Ha. split; [repeat (destruct Ha as [<-|Ha]; [assumption|]); destruct Ha|].
  assert (forall c, ancestor Gd s a c -> In c [9; 10; 11; 12; 13; 0]) as An.
  { intros c Hc. induction Hc as [|b c Hb IH Hc]; [exact Ha|]. repeat (destruct IH as [<-|IH]; [rewrite ?S0, ?S9, ?S10, ?S11, ?S12, ?S13 in Hc; simpl in Hc; simpl; tauto|]). destruct IH. }
  intros c Hc. split; [|apply An; exact Hc]. intros _ B HB. pose proof (proj1 (forallb_forall _ _) (Co c (An c Hc)) B HB) as Q. cbv beta in Q; destruct (registered s B); [discriminate|discriminate Q].
Qed.
Example C51_ex : runs Gd ex_hier = true /\ (forall a, In a [9; 10; 11; 12; 13; 0] -> is_cls (after Gd ex_hier) a = true) /\ class_ptr (after Gd ex_hier) 14 = Some 13 /\
  ancestor Gd (after Gd ex_hier) 13 9 /\ ancestor Gd (after Gd ex_hier) 13 0 /\ ~ ancestor Gd (after Gd ex_hier) 13 11 /\
  seen Gd (ex_hier ++ [(main, IsAssignableFrom_ (Some 13) (Some 9)); (main, IsAssignableFrom_ (Some 13) (Some 11)); (main, IsAssignableFrom_ (Some 9) (Some 13)); (main, IsInstanceOf_ (Some 14) (Some 0)); (main, GetSuperclass_ (Some 13))])
  = seen Gd ex_hier ++ [OVal (RBool true); OVal (RBool false); OVal (RBool false); OVal (RBool true); OVal (RRef (Some 10))].
Proof.
  split; [vm_compute; reflexivity|]. split; [intros a H; repeat (destruct H as [<-|H]; [vm_compute; reflexivity|]); destruct H|]. split; [vm_compute; reflexivity|].
  assert (In 10 (supers Gd (after Gd ex_hier) 13)) by (vm_compute; tauto). assert (In 9 (supers Gd (after Gd ex_hier) 10)) by (vm_compute; tauto).
  assert (In 12 (supers Gd (after Gd ex_hier) 13)) by (vm_compute; tauto). assert (In 0 (supers Gd (after Gd ex_hier) 12)) by (vm_compute; tauto).
  split; [apply ac_base with (b := 10); [eapply ac_base; [apply ac_self|eassumption]|eassumption]|]. split; [apply ac_base with (b := 12); [eapply ac_base; [apply ac_self|eassumption]|eassumption]|]. split; [|vm_compute; reflexivity].
  assert (forallb (fun a => forallb (fun b => negb (b =? 11)) (supers Gd (after Gd ex_hier) a)) [9; 10; 11; 12; 13; 0] = true) as F by (vm_compute; reflexivity).
  intros Q. inversion Q as [E|b c Hb Hc]; subst. assert (In b [9; 10; 11; 12; 13; 0]) as Ib by (apply (@ex_hier_ok 13); [simpl; tauto|exact Hb]).
  pose proof (proj1 (forallb_forall _ _) F b Ib) as F1. pose proof (proj1 (forallb_forall _ _) F1 11 Hc) as F2. discriminate F2.
Qed.
(** IsInstanceOf is undefined for an object whose type is not registered. *)
Definition C51_claim : Prop := forall G t0 t h hc i j s, reachable G t0 s -> attached s t -> denotes_opt s h (Some i) -> denotes_opt s hc (Some j) -> is_cls s j = true ->
  step G t (IsInstanceOf_ h hc) s <> None.
Theorem C51_instance_refuted : ~ C51_claim.
Proof.
  intros H. assert (reachable Gd main (after Gd ex_hier)) as R by (apply after_reachable; vm_compute; reflexivity).
  assert (attached (after Gd ex_hier) main) as A by (eexists; vm_compute; reflexivity).
  assert (denotes_opt (after Gd ex_hier) (Some 16) (Some 16)) as D1 by den_tac. assert (denotes_opt (after Gd ex_hier) (Some 9) (Some 9)) as D2 by den_tac.
  assert (is_cls (after Gd ex_hier) 9 = true) as C by (vm_compute; reflexivity).
  apply (H Gd main main (Some 16) (Some 9) 16 9 (after Gd ex_hier) R A D1 D2 C).
  assert (class_ptr (after Gd ex_hier) 16 = None) as K by (vm_compute; reflexivity).
  apply (IsInstanceOf_unset (reachable_good R) A D1 K D2). intros j [= <-]. exact C.
Qed.
(** It is undefined for every such object and every class. *)
Theorem C51_instance_unset G t0 t h hc i j s : reachable G t0 s -> attached s t -> denotes_opt s h (Some i) -> class_ptr s i = None -> denotes_opt s hc (Some j) -> is_cls s j = true ->
  step G t (IsInstanceOf_ h hc) s = None.
Proof. intros R A D K Dc C. rewrite (IsInstanceOf_unset (reachable_good R) A D K Dc); [reflexivity|]. intros x [= <-]. exact C. Qed.

(** ** C50 Reflection *)
(** The claim *)
Definition C50_claim : Prop := forall G t0 t c i m s s1 r s2, reachable G t0 s -> method_at s i = Some m -> is_cls s c = true ->
  step G t (ToReflectedMethod_ (Some c) (Some i) (m_static m)) s = Some (OVal (RRef (Some i)), s1) -> step G t (FromReflectedMethod_ (Some i)) s1 = Some (OVal (RRef r), s2) -> r = Some i.
(** A mismatching static flag gives null and changes nothing; otherwise the reflected object is the ID.  Back again, the result is the ID exactly if the class
    of the reflected object is java/lang/reflect/Method (Field); ToReflected does not set it. *)
Theorem C50_method_partial G t0 t c i m isStatic s : reachable G t0 s -> attached s t -> method_at s i = Some m ->
  (m_static m <> isStatic -> step G t (ToReflectedMethod_ (Some c) (Some i) isStatic) s = Some (OVal (RRef None), s)) /\
  (m_static m = isStatic -> exists s1 r s2,
     step G t (ToReflectedMethod_ (Some c) (Some i) isStatic) s = Some (OVal (RRef (Some i)), s1) /\ gained t (add_local (frames s t) i) (s_globals s) (s_ext s) s s1 /\
     step G t (FromReflectedMethod_ (Some i)) s1 = Some (OVal (RRef r), s2) /\ reflects t i i (S_ "java/lang/reflect/Method") s1 s2 r /\ class_ptr s1 i = class_ptr s i).
Proof.
  intros R A M. pose proof (reachable_good R) as Gs. destruct (ToReflected_step c i isStatic Gs A) as [H _]. specialize (H m M). split.
  - intros N. destruct (Bool.eqb_spec (m_static m) isStatic); [congruence|exact H].
  - intros E. destruct (Bool.eqb_spec (m_static m) isStatic); [|congruence]. destruct H as (s1 & E1 & G1 & Gn & Lv & Cp).
    assert (attached s1 t) as A1 by (eapply gained_attached; eauto).
    assert (denotes s1 i (Some i)) as Di.
    { apply (@intact_denotes s s1); [intros y Ly; exact (gn_obj Gn Ly)|]. unfold method_at, contents in M. destruct (lookup s i) as [x|] eqn:L; [|discriminate]. simpl in M. destruct (o_pay x) eqn:P; try discriminate. eapply den_obj; eauto; rewrite P; discriminate. }
    destruct (FromReflected_step G1 A1 Di) as [(r & s2 & E2 & Rf) _]. exists s1, r, s2. auto 8.
Qed.

Theorem C50_field_partial G t0 t c i f isStatic s : reachable G t0 s -> attached s t -> field_at s i = Some f ->
  (f_static f <> isStatic -> step G t (ToReflectedField_ (Some c) (Some i) isStatic) s = Some (OVal (RRef None), s)) /\
  (f_static f = isStatic -> exists s1 r s2,
     step G t (ToReflectedField_ (Some c) (Some i) isStatic) s = Some (OVal (RRef (Some i)), s1) /\ gained t (add_local (frames s t) i) (s_globals s) (s_ext s) s s1 /\
     step G t (FromReflectedField_ (Some i)) s1 = Some (OVal (RRef r), s2) /\ reflects t i i (S_ "java/lang/reflect/Field") s1 s2 r /\ class_ptr s1 i = class_ptr s i).
Proof.
  intros R A M. pose proof (reachable_good R) as Gs. destruct (ToReflected_step c i isStatic Gs A) as [_ H]. specialize (H f M). split.
  - intros N. destruct (Bool.eqb_spec (f_static f) isStatic); [congruence|exact H].
  - intros E. destruct (Bool.eqb_spec (f_static f) isStatic); [|congruence]. destruct H as (s1 & E1 & G1 & Gn & Lv & Cp).
    assert (attached s1 t) as A1 by (eapply gained_attached; eauto).
    assert (denotes s1 i (Some i)) as Di.
    { apply (@intact_denotes s s1); [intros y Ly; exact (gn_obj Gn Ly)|]. unfold field_at, contents in M. destruct (lookup s i) as [x|] eqn:L; [|discriminate]. simpl in M. destruct (o_pay x) eqn:P; try discriminate. eapply den_obj; eauto; rewrite P; discriminate. }
    destruct (FromReflected_step G1 A1 Di) as [_ (r & s2 & E2 & Rf)]. exists s1, r, s2. auto 8.
Qed.
(** Every ID whose class C++ code did not set (all IDs that GetMethodID and GetFieldID create) is reflected to an object that reflects back to null. *)
Theorem C50_unset G t0 t c i m s : reachable G t0 s -> attached s t -> method_at s i = Some m -> class_ptr s i = None ->
  exists s1 s2, step G t (ToReflectedMethod_ (Some c) (Some i) (m_static m)) s = Some (OVal (RRef (Some i)), s1) /\ step G t (FromReflectedMethod_ (Some i)) s1 = Some (OVal (RRef None), s2).
Proof.
  intros R A M C. destruct (C50_method_partial c (m_static m) R A M) as [_ H]. destruct (H eq_refl) as (s1 & r & s2 & E1 & _ & E2 & (k & _ & _ & _ & _ & _ & Q) & Cp). exists s1, s2. split; [exact E1|]. rewrite E2, Q; [reflexivity|congruence].
Qed.
Definition ex_refl : list event := [(main, FindClass_ (S_ "A")); (main, GetMethodID_ false (Some 9) (S_ "f") (S_ "()V")); (main, GetFieldID_ true (Some 9) (S_ "x") (S_ "I"))].
Theorem C50_refuted : ~ C50_claim.
Proof.
  intros H. set (e := ex_refl). assert (runs Gd e = true) as Ru by (vm_compute; reflexivity). pose proof (@after_reachable Gd e Ru) as R.
  assert (attached (after Gd e) main) as A by (eexists; vm_compute; reflexivity).
  assert (exists m, method_at (after Gd e) 10 = Some m) as (m & M) by (eexists; vm_compute; reflexivity).
  assert (class_ptr (after Gd e) 10 = None) as C by (vm_compute; reflexivity). assert (is_cls (after Gd e) 9 = true) as K by (vm_compute; reflexivity).
  destruct (C50_unset 9 R A M C) as (s1 & s2 & E1 & E2). specialize (H _ _ _ _ _ _ _ _ _ _ R M K E1 E2). discriminate H.
Qed.
Example C50_ex : runs Gd ex_refl = true /\ (exists f, field_at (after Gd ex_refl) 11 = Some f /\ f_static f = true) /\
  seen Gd (ex_refl ++ [(main, ToReflectedMethod_ (Some 9) (Some 10) true); (main, ToReflectedField_ (Some 9) (Some 11) true); (main, FromReflectedField_ (Some 11)); (main, ToReflectedField_ (Some 9) (Some 11) false)])
  = seen Gd ex_refl ++ [OVal (RRef None); OVal (RRef (Some 11)); OVal (RRef None); OVal (RRef None)].
Proof. split; [vm_compute; reflexivity|]. split; [eexists; split; vm_compute; reflexivity|]. vm_compute; reflexivity. Qed.

(** ** C60 GetObjectClass *)
(** The claim: the class is the one registered for the type the object was created as. *)
Definition C60_claim : Prop := forall G t0 t h i n vars k s, reachable G t0 s -> attached s t -> denotes_opt s h (Some i) -> contents s i = Some (PUser n vars) -> registered s (TUser n) = Some k ->
  exists s', step G t (GetObjectClass_ h) s = Some (OVal (RRef (Some k)), s').
(** What holds.  GetObjectClass returns the class recorded in the object. *)
Theorem C60_get G t0 t h i s : reachable G t0 s -> attached s t -> denotes s h (Some i) ->
  exists s', step G t (GetObjectClass_ (Some h)) s = Some (OVal (RRef (class_ptr s i)), s') /\ class_passed t (class_ptr s i) s s'.
Proof. intros R A D. destruct (@GetObjectClass_step G t (Some h) i s (reachable_good R) A D) as (s' & E & _ & P). eauto. Qed.
(** The first time C++ code passes the object as a reference of static type Y, it is given the class registered for Y. *)
Theorem C60_first G t0 t Y i x s : reachable G t0 s -> attached s t -> In i (s_ext s) -> contents s i = Some x -> isa G x Y = true ->
  exists s', step G t (UToJNI_ Y i) s = Some (OVal (RRef (Some i)), s') /\ class_ptr s' i = (match class_ptr s i with Some k => Some k | None => registered s Y end) /\
    frames s' t = add_local (frames s t) i /\ undisturbed t s s' /\ (forall j, live s' j = live s j).
Proof. intros R A I C Is. destruct (UToJNI_step (reachable_good R) A I C Is) as (s' & E & _ & H). eauto. Qed.
(** A class once recorded never changes, whatever happens. *)
Theorem C60_constant G t0 l vs i k s s' : reachable G t0 s -> exec G l s = Some (vs, s') -> class_ptr s i = Some k -> live s' i = true -> class_ptr s' i = Some k.
Proof. intros R E C L. eapply class_ptr_kept; eauto. apply (reachable_good R). Qed.
(** Together: if the first reference is created with the dynamic type of the object and that is registered, GetObjectClass is that class ever after. *)
Theorem C60_partial G t0 t n vars i k s s1 l vs s2 t' h : reachable G t0 s -> attached s t -> In i (s_ext s) -> contents s i = Some (PUser n vars) -> class_ptr s i = None -> registered s (TUser n) = Some k ->
  step G t (UToJNI_ (TUser n) i) s = Some (OVal (RRef (Some i)), s1) -> exec G l s1 = Some (vs, s2) -> attached s2 t' -> denotes s2 h (Some i) ->
  exists s3, step G t' (GetObjectClass_ (Some h)) s2 = Some (OVal (RRef (Some k)), s3) /\ class_passed t' (Some k) s2 s3.
Proof.
  intros R A I C N Rg E1 E2 A' D. pose proof (reachable_good R) as Gs. assert (isa G (PUser n vars) (TUser n) = true) as Is by (simpl; destruct n; simpl; rewrite ?Nat.eqb_refl; reflexivity).
  destruct (UToJNI_step Gs A I C Is) as (s1' & E1' & G1 & Cp & _). rewrite E1 in E1'. injection E1' as <-. rewrite N, Rg in Cp.
  pose proof (exec_good G1 E2) as G2. pose proof (denotes_target_live D) as Li. pose proof (class_ptr_kept G1 E2 Cp Li) as Ck.
  destruct (@GetObjectClass_step G t' (Some h) i s2 G2 A' D) as (s3 & E3 & _ & P). rewrite Ck in *. eauto.
Qed.
(** False in general: created as a C and first passed as an A. *)
Theorem C60_refuted : ~ C60_claim.
Proof.
  intros H. assert (reachable Gd main (after Gd ex_hier)) as R by (apply after_reachable; vm_compute; reflexivity).
  assert (attached (after Gd ex_hier) main) as A by (eexists; vm_compute; reflexivity).
  assert (denotes_opt (after Gd ex_hier) (Some 15) (Some 15)) as D by den_tac. assert (contents (after Gd ex_hier) 15 = Some (PUser 2 [])) as C by (vm_compute; reflexivity).
  assert (registered (after Gd ex_hier) (TUser 2) = Some 11) as Rg by (vm_compute; reflexivity). assert (class_ptr (after Gd ex_hier) 15 = Some 9) as Ck by (vm_compute; reflexivity).
  destruct (H _ _ _ _ _ _ _ _ _ R A D C Rg) as (s' & E). destruct (@C60_get Gd main main 15 15 _ R A D) as (s'' & E' & _). rewrite Ck in E'. pose proof (eq_trans (eq_sym E) E') as Q. discriminate Q.
Qed.
Example C60_ex : let e := firstn 6 ex_hier in runs Gd e = true /\ In 14 (s_ext (after Gd e)) /\ contents (after Gd e) 14 = Some (PUser 4 []) /\ class_ptr (after Gd e) 14 = None /\ registered (after Gd e) (TUser 4) = Some 13 /\
  class_ptr (after Gd ex_hier) 14 = Some 13 /\ live (after Gd ex_hier) 14 = true.
Proof. vm_compute. repeat split; auto. Qed.

Print Assumptions C50_method_partial. Print Assumptions C50_field_partial. Print Assumptions C50_unset. Print Assumptions C50_refuted.
Print Assumptions C51_assignable. Print Assumptions C51_reflexive. Print Assumptions C51_transitive. Print Assumptions C51_instance_partial. Print Assumptions C51_instance_null. Print Assumptions C51_null. Print Assumptions C51_not_class.
Print Assumptions C51_unregistered. Print Assumptions C51_superclass. Print Assumptions C51_no_superclass. Print Assumptions C51_instance_refuted. Print Assumptions C51_instance_unset.
Print Assumptions C60_get. Print Assumptions C60_first. Print Assumptions C60_constant. Print Assumptions C60_partial. Print Assumptions C60_refuted.
