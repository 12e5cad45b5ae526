(** C100: references that are null, cleared, dangling or of another kind. *)
From Verif Require Import Base BaseProofs SigModel UtfModel VmState VmModel VmStep VmSpec MemSpec CallSpec RefSpec ArrSpec HierSpec WrapModel CastModel CastSpec HandleSpec VmBase VmFrame VmWf VmPrim VmInv VmReg
  VmFine VmRegInv VmExact VmQuiet VmClass VmEnvInv VmMember VmMember2 VmMember3 VmTables VmHook VmMemHist VmCall VmCall2 VmThread VmDemo VmRef VmRef2 VmRef3 VmObj VmHier MemberProps ArrProps CastProps.
Set Implicit Arguments.
Unset Strict Implicit.
Local Open Scope vm_scope.
Local Opaque after.

Lemma depth_S s : depth s = S (S (length (s_heap s))).
Proof. unfold depth. lia. Qed.
Ltac unf := cbn [body]; unfold as_unit, as_bool, as_int, as_ref, as_oid, as_call, as_val, as_ints, as_bytes, GetSuperclass, IsAssignableFrom, Throw, PopLocalFrame, NewGlobalRef, NewWeakGlobalRef, DeleteLocalRef, NewLocalRef,
  FromReflectedMethod, FromReflectedField, FromReflected, GetObjectClass, IsInstanceOf, GetMethodID, GetFieldID, CallStaticMethodA, JGetStringLength, JGetStringUTFLength, JGetStringChars, JGetStringUTFChars, JGetStringRegion, JGetStringUTFRegion,
  string_nonnull, string_bytes, GetArrayLength, NewObjectArray, GetObjectArrayElement, SetObjectArrayElement, GetArrayElements, GetArrayRegion, SetArrayRegion, RegisterNatives, UnregisterNatives, MonitorEnter, MonitorExit,
  GetDirectBufferAddress, GetDirectBufferCapacity, buffer_of, IsSameObject, GetObjectClass, bind, gets; rewrite ?depth_S; cbn [getMethodID getFieldID]; unfold bind.

Section Cfg.
Variable G : cfg.
Lemma cast_gone T h s : wf s -> gone s h -> jnicast G T h s = Ret None s.
Proof. intros W D. destruct h as [i|]; [|reflexivity]. apply (jnicast_spec G T W D). Qed.
Lemma cast_fits T h j s : numbered G -> wf s -> denotes_opt s h (Some j) -> has_type G s j T -> jnicast G T h s = Ret (Some j) s.
Proof.
  intros N W D H. destruct h as [i|]; [|discriminate]. simpl in D. rewrite (jnicast_spec G T W D). destruct (denotes_target D) as (o & L & _). unfold is_a. rewrite L.
  apply (isa_has_type T N L) in H. rewrite H. reflexivity.
Qed.
Lemma cast_misfit T h s : numbered G -> wf s -> misfit G s (T, h) -> jnicast G T h s = Thr (Err bad_ref) s.
Proof.
  intros N W (j & D & H). simpl in D, H. destruct h as [i|]; [|discriminate]. simpl in D. rewrite (jnicast_spec G T W D). destruct (denotes_target D) as (o & L & _). unfold is_a. rewrite L.
  destruct (isa G (o_pay o) T) eqn:E; [|reflexivity]. exfalso. apply H. apply (isa_has_type T N L). exact E.
Qed.
Lemma cast_dangling T h s : dangling s h -> jnicast G T h s = Undef.
Proof. intros (i & -> & L). apply jnicast_dead. exact L. Qed.
Lemma cast_ok T h s : numbered G -> wf s -> acceptable G s (T, h) -> exists r, jnicast G T h s = Ret r s.
Proof. intros N W A. inversion A; subst; eexists; [apply cast_gone|eapply cast_fits]; eauto. Qed.
Lemma split1 A (x : A) y pre post : [x] = pre ++ y :: post -> pre = [] /\ y = x.
Proof. destruct pre as [|a [|b pre]]; simpl; intros [=]; subst; auto. Qed.
Lemma split2 A (x z : A) y pre post : [x; z] = pre ++ y :: post -> (pre = [] /\ y = x) \/ (pre = [x] /\ y = z).
Proof. destruct pre as [|a [|b [|c pre]]]; simpl; intros [=]; subst; auto. Qed.

(** the outcome of the first cast that fails is the outcome of the function *)
Lemma first_cast t o pre T h post s : numbered G -> wf s -> expects o = pre ++ (T, h) :: post -> Forall (acceptable G s) pre -> h <> None ->
  (forall e, jnicast G T h s = Thr e s -> body G t o s = Thr e s) /\ (jnicast G T h s = Undef -> body G t o s = Undef).
Proof.
  intros N W E F H. destruct h as [i|]; [clear H|congruence].
  destruct o; simpl in E; try (exfalso; destruct pre; discriminate E);
    try (apply split1 in E; destruct E as [-> [= -> <-]]; split; [intros e|]; intros J; unf; rewrite J; reflexivity).
  - apply split2 in E. destruct E as [[-> [= -> <-]]|[-> [= -> <-]]]; [split; [intros e|]; intros J; unf; rewrite J; reflexivity|].
    inversion F as [|x l Ha _]; subst. destruct (cast_ok N W Ha) as (r & Er). split; [intros e|]; intros J; unf; rewrite Er, J; reflexivity.
  - assert ((pre = [] /\ (T, Some i) = (TObject, a)) \/ (pre = [(TObject, a)] /\ (T, Some i) = (TObject, b))) as [[-> [= -> <-]]|[-> [= -> <-]]].
    { destruct a as [x|], b as [y|]; try (apply split2 in E; exact E). destruct (Nat.eqb x y); [destruct pre; discriminate|apply split2 in E; exact E]. }
    + assert (opt_eqb (Some i) b = false) as Q by (destruct b as [y|]; simpl in *; [destruct (Nat.eqb i y); [discriminate|reflexivity]|reflexivity]).
      split; [intros e|]; intros J; unf; rewrite Q, J; reflexivity.
    + inversion F as [|x l Ha _]; subst. destruct (cast_ok N W Ha) as (r & Er).
      assert (opt_eqb a (Some i) = false) as Q by (destruct a as [y|]; simpl in *; [destruct (Nat.eqb y i); [discriminate|reflexivity]|reflexivity]).
      split; [intros e|]; intros J; unf; rewrite Q, Er, J; reflexivity.
  - apply split2 in E. destruct E as [[-> [= -> <-]]|[-> [= -> <-]]]; [split; [intros e|]; intros J; unf; rewrite J; reflexivity|].
    inversion F as [|x l Ha _]; subst. destruct (cast_ok N W Ha) as (r & Er). split; [intros e|]; intros J; unf; rewrite Er, J; reflexivity.
  - destruct p as [p|]; apply split1 in E; destruct E as [-> [= -> <-]]; split; [intros e| |intros e|]; intros J; unf; rewrite J; reflexivity.
Qed.
End Cfg.

(** ** C100 *)
(** A reference to an object of another kind is reported, and nothing happens: no function of the interface takes an object for something else. *)
Theorem C100_misfit G t0 t o pre T h post s : reachable G t0 s -> numbered G -> attached s t -> expects o = pre ++ (T, h) :: post -> Forall (acceptable G s) pre -> misfit G s (T, h) ->
  step G t o s = Some (OExn (Err (S_ "Invalid Reference, Unexpected Type")), s).
Proof.
  intros R N A E F M. pose proof (reachable_good R) as Gs. apply step_thr; auto. apply (first_cast t N (good_wf Gs) E F); [|apply cast_misfit; auto; apply Gs].
  destruct M as (j & D & _). intros ->. discriminate D.
Qed.
(** A reference to a destroyed object has no defined meaning. *)
Theorem C100_dangling G t0 t o pre T h post s : reachable G t0 s -> numbered G -> attached s t -> expects o = pre ++ (T, h) :: post -> Forall (acceptable G s) pre -> dangling s h ->
  step G t o s = None.
Proof.
  intros R N A E F M. pose proof (reachable_good R) as Gs. apply step_undef; auto. apply (first_cast t N (good_wf Gs) E F); [|apply cast_dangling; auto].
  destruct M as (j & -> & _). discriminate.
Qed.
(** Null and cleared references where they are allowed: the result, and nothing happens. *)
Theorem C100_null G t0 t o v s : reachable G t0 s -> attached s t -> harmless G s o v -> step G t o s = Some (OVal v, s).
Proof.
  intros R A H. pose proof (reachable_good R) as Gs. pose proof (good_wf Gs) as W. apply step_read; auto.
  destruct H; try reflexivity; try (match goal with H : gone _ _ |- _ => unf; rewrite (cast_gone G _ W H) end; reflexivity).
  - destruct H as [-> | ->]; [reflexivity|]. destruct c; reflexivity.
  - destruct H as [-> | ->]; [reflexivity|]. destruct c; reflexivity.
  - destruct H as [-> | ->]; [reflexivity|]. destruct o; reflexivity.
  - destruct Y; reflexivity.
  - unf. destruct (opt_eqb a b); [reflexivity|]. rewrite (cast_gone G _ W H), (cast_gone G _ W H0). reflexivity.
  - unf. rewrite (cast_gone G _ W H), (cast_gone G _ W H0). reflexivity.
  - unf. rewrite (cast_gone G _ W H0), H. reflexivity.
  - cbn [body]. unfold as_ref, UHold, bind. destruct Y; try congruence; rewrite (cast_gone G _ W H1); reflexivity.
Qed.
(** ... and where they are not. *)
Theorem C100_undefined G t0 t o s : reachable G t0 s -> numbered G -> attached s t -> forbidden G s o -> step G t o s = None.
Proof.
  intros R N A H. pose proof (reachable_good R) as Gs. pose proof (good_wf Gs) as W. apply step_undef; auto.
  destruct H; try reflexivity; try (match goal with H : cleared _ _ |- _ => destruct H as [Hn H]; destruct h as [h|]; [clear Hn|congruence] end);
    try (match goal with H : gone _ _ |- _ => unf; rewrite (cast_gone G _ W H) end; reflexivity).
  - unf. rewrite (cast_gone G _ W H), (cast_fits N W H0 H1). reflexivity.
  - unf. destruct (cast_ok N W H0) as (r & ->). rewrite (cast_gone G _ W H). reflexivity.
  - unf. destruct h as [h|]; [|reflexivity]. rewrite (cast_gone G _ W H). reflexivity.
  - unf. destruct h as [h|]; [|reflexivity]. rewrite (cast_gone G _ W H). reflexivity.
Qed.
(** Identifiers that are no method or field *)
Theorem C100_identifier G t0 t o s : reachable G t0 s -> numbered G -> attached s t -> wrong_id G s o -> step G t o s = None.
Proof.
  intros R N A H. pose proof (reachable_good R) as Gs. pose proof (good_wf Gs) as W. apply step_undef; auto.
  assert (forall i, no_method s i -> get_mth i s = Undef) as Hm.
  { intros i K. unfold get_mth, deref, bind. unfold no_method, contents in K. destruct (lookup s i) as [o'|]; [|reflexivity]. destruct (o_pay o') eqn:P; try reflexivity. exfalso. apply (K _ (f_equal Some P)). }
  assert (forall i, no_field s i -> get_fld i s = Undef) as Hf.
  { intros i K. unfold get_fld, deref, bind. unfold no_field, contents in K. destruct (lookup s i) as [o'|]; [|reflexivity]. destruct (o_pay o') eqn:P; try reflexivity. exfalso. apply (K _ (f_equal Some P)). }
  destruct H; cbn [body]; unfold as_call, as_ref, CallMethodA, CallNonvirtualMethodA, CallStaticMethodA, ToReflectedMethod, ToReflectedField, GetField, SetField, bind;
    try (rewrite (Hm _ H); reflexivity); try (rewrite (Hf _ H); reflexivity).
  destruct (cast_ok N W H) as (r & ->). rewrite (Hm _ H0). reflexivity.
Qed.
(** A class (9), a global reference to it (10), an array (12), a destroyed string (13), a weak reference to that (14), a string (15) *)
Definition ex_handles : list event :=
  [(main, FindClass_ (S_ "A")); (main, NewGlobalRef_ (Some 9)); (main, NewArray_ PtI 2); (main, NewStringUTF_ (Some (S_ "x"))); (main, NewWeakGlobalRef_ (Some 13)); (main, DeleteLocalRef_ (Some 13));
   (main, NewStringUTF_ (Some (S_ "y")))].
Example C100_case : runs Gd ex_handles = true /\ attached (after Gd ex_handles) main /\ numbered Gd /\ Forall (acceptable Gd (after Gd ex_handles)) [(TObject, Some 10)] /\
  misfit Gd (after Gd ex_handles) (TArr None, Some 15) /\ dangling (after Gd ex_handles) (Some 13) /\ cleared (after Gd ex_handles) (Some 14) /\ no_method (after Gd ex_handles) 15 /\ no_field (after Gd ex_handles) 15.
Proof.
  split; [vm_compute; reflexivity|]. split; [eexists; vm_compute; reflexivity|]. split; [apply Gd_numbered|]. split.
  { constructor; [|constructor]. eapply (@ac_fits _ _ _ _ 9); [|apply ht_object; vm_compute; reflexivity]. eapply den_global; [vm_compute; reflexivity|vm_compute; reflexivity|]. den_tac. }
  split. { exists 15. split; [den_tac|]. intros H. assert (contents (after Gd ex_handles) 15 = Some (PString (S_ "y"))) as C by (vm_compute; reflexivity). inversion H; congruence. }
  split; [exists 13; split; [reflexivity|vm_compute; reflexivity]|]. split; [split; [discriminate|eapply den_dead; [vm_compute; reflexivity|vm_compute; reflexivity|vm_compute; reflexivity]]|].
  assert (contents (after Gd ex_handles) 15 = Some (PString (S_ "y"))) as C by (vm_compute; reflexivity). split; intros m; rewrite C; discriminate.
Qed.
Print Assumptions C100_misfit. Print Assumptions C100_dangling. Print Assumptions C100_null. Print Assumptions C100_undefined. Print Assumptions C100_identifier.
