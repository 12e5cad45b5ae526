(** Virtual calls, the end of hooks, field access and pending exceptions: exact steps. *)
From Verif Require Import Base BaseProofs VmState VmModel VmStep VmBase VmWf VmPrim VmInv VmReg VmRegInv VmFrame VmFine VmSpec MemSpec HookSpec CallSpec VmExact VmQuiet VmClass
  VmMember VmMember2 VmMember3 VmTables VmHook VmMemHist VmEnvInv VmCall.
Set Implicit Arguments.
Unset Strict Implicit.

Lemma ensured_live_eq s Y i j : live (ensured s Y i) j = live s j.
Proof.
  unfold ensured. destruct (lookup s i) as [o|] eqn:E; auto.
  assert (live (put s i (mkObj (type_class s Y) (o_mon o) (o_pay o))) j = live s j) by (rewrite (live_put _ _ E); auto).
  destruct (o_clazz o); auto. destruct (live s o0); auto.
Qed.
Lemma given_live_eq s t Y i j : live (given s t Y i) j = live s j.
Proof. unfold given. rewrite pushed_live. apply ensured_live_eq. Qed.
Lemma given_class_ptr s t Y i : wf s -> live s i = true ->
  class_ptr (given s t Y i) i = match class_ptr s i with Some c => Some c | None => registered s Y end.
Proof.
  intros W L. assert (class_ptr (given s t Y i) i = class_ptr (ensured s Y i) i) as ->.
  { unfold given, class_ptr. rewrite pushed_lookup. destruct (lookup (ensured s Y i) i) as [o|]; auto. destruct (o_clazz o); auto. rewrite pushed_live. auto. }
  apply live_lookup in L. destruct L as (o & L). unfold class_ptr at 2. rewrite L.
  assert (class_ptr (put s i (mkObj (type_class s Y) (o_mon o) (o_pay o))) i = registered s Y) as K.
  { unfold class_ptr. rewrite (lookup_put _ _ L), Nat.eqb_refl. simpl. change (registered s Y) with (type_class s Y).
    destruct (type_class s Y) as [c|] eqn:Ty; auto. rewrite (live_put _ _ L).
    replace (live s c) with true; auto. symmetry. apply is_cls_live. eapply type_class_ok; eauto. }
  unfold ensured. rewrite L. destruct (o_clazz o) as [c|] eqn:Ec; auto. destruct (live s c) eqn:Lc; auto. unfold class_ptr. rewrite L, Ec, Lc. reflexivity.
Qed.

Section Steps.
Variable G : cfg.

Lemma clazz_lock_eq s i : live s i = true -> clazz_lock i s = Ret (class_ptr s i) s.
Proof. intros L. apply live_lookup in L. destruct L as (o & L). unfold clazz_lock, bind, deref, gets, class_ptr. rewrite L. reflexivity. Qed.
Lemma class_ptr_cls s i c : wf s -> class_ptr s i = Some c -> is_cls s c = true.
Proof.
  intros W. unfold class_ptr. destruct (lookup s i) as [o|] eqn:L; [|discriminate]. destruct (o_clazz o) as [d|] eqn:E; [|discriminate].
  destruct (live s d) eqn:Ld; [|discriminate]. intros [= <-]. pose proof (wf_obj W _ L) as O. unfold obj_ok in O.
  rewrite andb_true_iff in O. destruct O as [_ O]. unfold clazz_ok in O. rewrite E, Ld, andb_true_iff in O. tauto.
Qed.
Lemma denotes_live s h r : denotes s h (Some r) -> live s r = true.
Proof. intros D. destruct (denotes_target D) as (o & L & _). apply live_lookup. eauto. Qed.
(** GetObjectClass of a reference to object [r] *)
Lemma GetObjectClass_eq s t h r : wf s -> attached s t -> denotes s h (Some r) ->
  GetObjectClass G t (Some h) s = Ret (class_ptr s r) (match class_ptr s r with Some c => given s t TClass c | None => s end).
Proof.
  intros W A D. unfold GetObjectClass, bind at 1. rewrite (@jnicast_obj G s (Some h) (Some r) W) by exact D.
  unfold bind at 1, nonnull, ret. unfold bind at 1. rewrite clazz_lock_eq by (eapply denotes_live; eauto).
  destruct (class_ptr s r) as [c|] eqn:C; [|reflexivity]. simpl. apply given_eq; auto. apply is_cls_live. eapply class_ptr_cls; eauto.
Qed.
Lemma is_cls_given s t Y i j : is_cls s j = true -> is_cls (given s t Y i) j = true.
Proof.
  intros C. apply is_cls_class_at in C. destruct C as (k & C). destruct (intact_class (u_obj (given_undisturbed s t Y i) (class_at_live C)) C) as (k' & C' & _).
  apply is_cls_class_at. eauto.
Qed.
Lemma denotes_cls s c : is_cls s c = true -> denotes s c (Some c).
Proof. intros C. apply is_cls_class_at in C. destruct C as (k & C). apply class_at_lookup in C. destruct C as (o & L & P). eapply den_obj; eauto; rewrite P; discriminate. Qed.

(** The class of the receiver is passed to the client as a local reference. *)
Definition class_passed (t : tid) (cl : option oid) (s s1 : VmState.st) : Prop :=
  match cl with
  | Some c => undisturbed t s s1 /\ frames s1 t = add_local (frames s t) c /\ forall i, live s1 i = live s i
  | None => s1 = s
  end.
Theorem CallMethodA_step t T h r i m hh args s : good G s -> attached s t -> denotes s h (Some r) ->
  method_at s i = Some m -> m_handle m = Some hh ->
  exists s1 j hd v s', class_passed t (class_ptr s r) s s1 /\ dispatched s (class_ptr s r) i j /\ handle_at s j = Some hd /\
    step G t (CallMethodA_ T (Some h) (Some i) args) s = Some (v, s') /\ good G s' /\
    entered t true hd KInst false T (Some h) (opt_list (class_ptr s r)) args s1 s' v.
Proof.
  intros Gs A D Hm Hh. pose proof (good_wf Gs) as W. set (cl := class_ptr s r).
  assert (forall c, cl = Some c -> is_cls s c = true) as C by (intros c; apply class_ptr_cls; auto).
  destruct (virtual_spec C Hm) as (j & _ & Dj). destruct (dispatched_handle Hm Hh Dj) as (x & hd & Hx & Hd).
  set (s1 := match cl with Some c => given s t TClass c | None => s end).
  assert (class_passed t cl s s1 /\ wf s1 /\ tidy s1 /\ attached s1 t /\ undisturbed t s s1 /\ (forall c, cl = Some c -> is_cls s1 c = true)) as (P & W1 & T1 & A1 & U & C1).
  { unfold class_passed, s1. destruct cl as [c|].
    - assert (live s c = true) as Lc by (apply is_cls_live; auto). split; [|split; [|split; [|split; [|split]]]].
      + split; [apply given_undisturbed|]. split; [apply given_frames|]. intros k. apply given_live_eq.
      + apply to_jni_wf; auto.
      + eapply tidy_weaken; [|apply given_tidy; auto; apply Gs]. simpl. tauto.
      + apply given_attached; auto.
      + apply given_undisturbed.
      + intros k E. inversion E; subst. apply is_cls_given; auto.
    - split; [auto|]. split; [auto|]. split; [apply Gs|]. split; [auto|]. split; [apply undisturbed_refl|discriminate]. }
  pose proof (intact_method (u_obj U (method_live Hm)) Hm) as Hm1. pose proof (intact_method (u_obj U (method_live Hx)) Hx) as Hx1.
  destruct (@enter_spec t true hd KInst false T (Some h) (opt_list cl) args s1 W1 T1 A1) as (v & s' & E & En).
  { intros k Hk. apply C1. apply opt_list_In. auto. }
  assert (step G t (CallMethodA_ T (Some h) (Some i) args) s = Some (v, s')) as St.
  { rewrite (@step_outcome G t _ s (CallMethodA G t T (Some h) (Some i) args)) by auto. unfold CallMethodA, bind at 1.
    rewrite (get_mth_eq Hm), Hh. unfold bind at 1. rewrite (GetObjectClass_eq W A D). fold cl s1.
    unfold bind at 1. rewrite (jnicast_class_opt (cl := cl) G W1).
    2: { destruct cl as [c|]; simpl; auto. apply denotes_cls; auto. }
    2: { auto. }
    destruct (virtual_spec C1 Hm1) as (j' & Ej & Dj'). unfold bind at 1. rewrite Ej.
    assert (j' = j) as -> by (exact (dispatched_fun Dj' (dispatched_und W U C Hm Dj))).
    unfold bind at 1. rewrite (get_mth_eq Hx1), Hd. exact E. }
  exists s1, j, hd, v, s'. split; auto. split; auto. split; [unfold handle_at; rewrite Hx; auto|]. split; auto. split; auto. eapply step_good; eauto.
Qed.

(** *** Calls without implementation *)
Lemma outcome_ret t o s (m : M callres) r : good G s -> attached s t -> body G t o s = as_call m s -> m s = Ret r s ->
  step G t o s = Some (OVal (RCall r), s).
Proof. intros Gs A E R. rewrite (step_outcome A E), R. simpl. rewrite (tidy_finish_id (g_tidy Gs)). reflexivity. Qed.
Theorem CallMethodA_unhooked t T obj id args s : good G s -> attached s t ->
  match id with None => True | Some i => exists m, method_at s i = Some m /\ m_handle m = None end ->
  step G t (CallMethodA_ T obj id args) s = Some (OVal (RCall Default), s).
Proof.
  intros Gs A H. apply (@outcome_ret t _ s (CallMethodA G t T obj id args)); auto. destruct id as [i|]; auto.
  destruct H as (m & Hm & Hh). unfold CallMethodA, bind at 1. rewrite (get_mth_eq Hm), Hh. reflexivity.
Qed.
Theorem CallNonvirtualMethodA_unhooked t T obj cls id args s : good G s -> attached s t ->
  match id with None => True | Some i => exists m, method_at s i = Some m /\ m_handle m = None end ->
  step G t (CallNonvirtualMethodA_ T obj cls id args) s = Some (OVal (RCall Default), s).
Proof.
  intros Gs A H. apply (@outcome_ret t _ s (CallNonvirtualMethodA G t T obj cls id args)); auto. destruct id as [i|]; auto.
  destruct H as (m & Hm & Hh). unfold CallNonvirtualMethodA, bind at 1. rewrite (get_mth_eq Hm), Hh. reflexivity.
Qed.
Theorem CallStaticMethodA_unhooked t T cls cl id args s : good G s -> attached s t -> denotes_opt s cls cl ->
  (forall j, cl = Some j -> is_cls s j = true) ->
  match id with None => True | Some i => exists m, method_at s i = Some m /\ m_handle m = None end ->
  step G t (CallStaticMethodA_ T cls id args) s = Some (OVal (RCall Default), s).
Proof.
  intros Gs A D C H. apply (@outcome_ret t _ s (CallStaticMethodA G t T cls id args)); auto. unfold CallStaticMethodA, bind at 1.
  rewrite (jnicast_class_opt (cl := cl) G (good_wf Gs)) by auto. destruct id as [i|]; auto.
  destruct H as (m & Hm & Hh). unfold bind at 1. rewrite (get_mth_eq Hm), Hh. reflexivity.
Qed.

(** *** Field access *)
Definition field_kind (static setter : bool) : hkind :=
  match static, setter with true, false => KStaticGet | false, false => KInstGet | true, true => KStaticSet | false, true => KInstSet end.
Theorem GetField_step t (static : bool) T obj cl i f hd s : good G s -> attached s t -> field_at s i = Some f -> f_get f = Some hd -> f_static f = static ->
  (static = true -> denotes_opt s obj cl /\ forall j, cl = Some j -> is_cls s j = true) ->
  exists v s', step G t (GetField_ static T obj (Some i)) s = Some (v, s') /\ good G s' /\
    entered t false hd (field_kind static false) false T (if static then cl else obj) (if static then opt_list cl else []) [] s s' v.
Proof.
  intros Gs A Hf Hg Hs D. pose proof (good_wf Gs) as W.
  destruct (@enter_spec t false hd (field_kind static false) false T (if static then cl else obj) (if static then opt_list cl else []) [] s W (g_tidy Gs) A) as (v & s' & E & En).
  { destruct static; [|intros ? []]. intros j Hj. apply (proj2 (D eq_refl)). apply opt_list_In. auto. }
  assert (step G t (GetField_ static T obj (Some i)) s = Some (v, s')) as St.
  { rewrite (@step_outcome G t _ s (GetField G t static T obj (Some i))) by auto. unfold GetField, bind at 1. rewrite (get_fld_eq Hf), Hg, Hs.
    rewrite Bool.eqb_reflx. cbn [negb]. destruct static; auto. destruct (D eq_refl) as [D1 D2]. unfold bind at 1. rewrite (jnicast_class_opt (cl := cl) G W D1 D2). exact E. }
  exists v, s'. split; auto. split; auto. eapply step_good; eauto.
Qed.
Theorem SetField_step t (static : bool) T obj cl i f hd x s : good G s -> attached s t -> field_at s i = Some f -> f_set f = Some hd -> f_static f = static ->
  (static = true -> denotes s obj cl /\ forall j, cl = Some j -> is_cls s j = true) ->
  exists v s', step G t (SetField_ static T (Some obj) (Some i) x) s = Some (v, s') /\ good G s' /\
    entered t false hd (field_kind static true) false T (if static then cl else Some obj) (if static then opt_list cl else []) [x] s s' v.
Proof.
  intros Gs A Hf Hg Hs D. pose proof (good_wf Gs) as W.
  destruct (@enter_spec t false hd (field_kind static true) false T (if static then cl else Some obj) (if static then opt_list cl else []) [x] s W (g_tidy Gs) A) as (v & s' & E & En).
  { destruct static; [|intros ? []]. intros j Hj. apply (proj2 (D eq_refl)). apply opt_list_In. auto. }
  assert (step G t (SetField_ static T (Some obj) (Some i) x) s = Some (v, s')) as St.
  { rewrite (@step_outcome G t _ s (SetField G t static T (Some obj) (Some i) x)) by auto. unfold SetField, bind at 1. rewrite (get_fld_eq Hf), Hg, Hs.
    rewrite Bool.eqb_reflx. cbn [negb]. destruct static; auto. destruct (D eq_refl) as [D1 D2]. unfold bind at 1.
    rewrite (jnicast_class_opt (h := Some obj) (cl := cl) G W D1 D2). exact E. }
  exists v, s'. split; auto. split; auto. eapply step_good; eauto.
Qed.
Theorem GetField_unhooked t static T obj id s : good G s -> attached s t ->
  match id with None => True | Some i => exists f, field_at s i = Some f /\ f_get f = None end ->
  step G t (GetField_ static T obj id) s = Some (OVal (RCall Default), s).
Proof.
  intros Gs A H. apply (@outcome_ret t _ s (GetField G t static T obj id)); auto. destruct id as [i|]; auto.
  destruct H as (m & Hm & Hh). unfold GetField, bind at 1. rewrite (get_fld_eq Hm), Hh. reflexivity.
Qed.
Theorem SetField_unhooked t static T obj id x s : good G s -> attached s t ->
  match obj, id with Some _, Some i => exists f, field_at s i = Some f /\ f_set f = None | _, _ => True end ->
  step G t (SetField_ static T obj id x) s = Some (OVal (RCall Default), s).
Proof.
  intros Gs A H. apply (@outcome_ret t _ s (SetField G t static T obj id x)); auto. destruct obj as [o|], id as [i|]; auto.
  destruct H as (m & Hm & Hh). unfold SetField, bind at 1. rewrite (get_fld_eq Hm), Hh. reflexivity.
Qed.
End Steps.

(** ** The end of a hook *)
Section Hooks.
Variable G : cfg.
Definition popped (s : VmState.st) (t : tid) (e : env) (r : list call) : VmState.st := penv s t (env_calls e r).
Lemma popped_roots e k r i : e_calls e = k :: r -> In i (env_roots e) -> In i (env_roots (env_calls e r)) \/ In i (k_held k).
Proof. intros E. unfold env_roots. rewrite E. simpl. rewrite !in_app_iff. tauto. Qed.
Lemma popped_roots' e k r i : e_calls e = k :: r -> In i (env_roots (env_calls e r)) -> In i (env_roots e).
Proof. intros E. unfold env_roots. rewrite E. simpl. rewrite !in_app_iff. tauto. Qed.
Lemma class_root s i : inv G s -> is_cls s i = true -> In i (roots s).
Proof.
  intros I H. apply is_cls_of in H. destruct H as (c & H). apply In_roots. right. left. exists (c_prefix c).
  eapply (aget_In str_eqb str_eqb_spec). apply (r_all (inv_reg I)). auto.
Qed.
Lemma popped_env_ok s t e k r : wf s -> get_env s t = Some e -> e_calls e = k :: r -> env_ok s (env_calls e r) = true.
Proof.
  intros W E Ec. apply env_ok_intro.
  - intros i Hi. eapply env_live; eauto. eapply popped_roots'; eauto.
  - intros i Hi. eapply env_exc_throw; eauto.
Qed.
Lemma call_pop_eq s t e k r : wf s -> get_env s t = Some e -> e_calls e = k :: r -> call_pop t s = Ret k (popped s t e r).
Proof.
  intros W E Ec. unfold call_pop, bind at 1, the_env. rewrite E, Ec. unfold bind at 1. rewrite put_env_eq; [reflexivity|].
  eapply popped_env_ok; eauto.
Qed.
Lemma popped_wf s t e k r : wf s -> get_env s t = Some e -> e_calls e = k :: r -> wf (popped s t e r).
Proof.
  intros W E Ec. eapply penv_wf; eauto; [eapply popped_env_ok; eauto|]. simpl. apply (wf_env_ok W E).
Qed.
Lemma popped_tidy s t e k r : solid G s -> get_env s t = Some e -> e_calls e = k :: r -> tidy (popped s t e r).
Proof.
  intros So E Ec. pose proof (so_good So) as Gs. pose proof (good_wf Gs) as W.
  destruct (g_tidy Gs) as [T K]. split; [exact T|]. intros j Lj. rewrite (live_heap (s := s)) in Lj by auto. left.
  apply (held_le_In (s := s)); [|destruct (K j Lj); tauto]. apply held_le_roots; auto.
  intros i. rewrite !In_roots. intros [H|[H|[H|[H|[(u & e0 & H & H')|H]]]]]; auto 10.
  assert (get_env s u = Some e0) as E0 by (apply (NoDup_aget Nat.eqb Nat.eqb_spec); auto; apply W).
  destruct (Nat.eq_dec t u) as [->|N].
  - assert (e0 = e) by congruence. subst e0. destruct (popped_roots Ec H') as [R|R].
    + right. right. right. right. left. exists u, (env_calls e r). split; auto. apply (aget_In Nat.eqb Nat.eqb_spec). fold (get_env (popped s u e r) u).
      unfold popped. rewrite get_env_penv, Nat.eqb_refl. auto.
    + assert (is_cls s i = true) as C by (apply (ei_held (so_env So E) (k := k)); auto; rewrite Ec; simpl; auto).
      apply is_cls_of in C. destruct C as (c & C). right. left. exists (c_prefix c).
      eapply (aget_In str_eqb str_eqb_spec). apply (r_all (inv_reg (g_inv Gs))). auto.
  - right. right. right. right. left. exists u, e0. split; auto. apply (aget_In Nat.eqb Nat.eqb_spec). fold (get_env (popped s t e r) u).
    unfold popped. rewrite get_env_penv. destruct (Nat.eqb_spec t u); congruence.
Qed.
Lemma popped_done s t e k r : get_env s t = Some e -> e_calls e = k :: r ->
  hook_done t r s (popped s t e r) /\ frames (popped s t e r) t = frames s t /\ attached (popped s t e r) t.
Proof.
  intros E Ec. unfold popped. split; [|split].
  - split; [rewrite running_penv; reflexivity|]. split; [apply (penv_spares _ E); reflexivity|]. split; [intros; apply live_heap; auto|].
    rewrite pending_penv. unfold pending. rewrite E. reflexivity.
  - rewrite frames_penv. unfold frames. rewrite E. reflexivity.
  - eexists. rewrite get_env_penv, Nat.eqb_refl. reflexivity.
Qed.
Lemma running_env s t k r : running s t = k :: r -> exists e, get_env s t = Some e /\ e_calls e = k :: r.
Proof. unfold running. destruct (get_env s t) as [e|]; [eauto|discriminate]. Qed.

(** the result has the type of the function *)
Definition result_ok (s : VmState.st) (T : rty) (v : hval) : Prop :=
  match T, v with
  | RVoid, HUnit => True
  | RPrim _, HPrim _ => True
  | RObj, HObj _ None => True
  | RObj, HObj Y (Some i) => exists o, lookup s i = Some o /\ isa G (o_pay o) Y = true
  | _, _ => False
  end.
Theorem HookReturn_step t k r v s : solid G s -> running s t = k :: r -> result_ok s (k_ret k) v ->
  exists w s', step G t (HookReturn_ v) s = Some (OVal (RVal w), s') /\ good G s' /\ hook_done t r s s' /\ hook_result t k s s' v w.
Proof.
  intros So R O. destruct (running_env R) as (e & E & Ec). pose proof (so_good So) as Gs. pose proof (good_wf Gs) as W.
  assert (attached s t) as A by (exists e; auto).
  pose proof (popped_wf W E Ec) as W1. pose proof (popped_tidy So E Ec) as T1. destruct (popped_done E Ec) as (Dn & Fr & A1).
  set (s1 := popped s t e r) in *.
  assert (forall w s', HookReturn G t v s = Ret w s' -> tidy s' -> hook_done t r s s' -> hook_result t k s s' v w ->
    exists w s', step G t (HookReturn_ v) s = Some (OVal (RVal w), s') /\ good G s' /\ hook_done t r s s' /\ hook_result t k s s' v w) as Fin.
  { intros w s' H T' D' R'. assert (step G t (HookReturn_ v) s = Some (OVal (RVal w), s')) as St.
    { apply (step_tidy_ret A); auto. simpl. unfold as_val, bind at 1. rewrite H. reflexivity. }
    exists w, s'. split; auto. split; auto. eapply step_good; eauto. }
  assert (HookReturn G t v s = (fun s0 => match k_ret k, v with
    | RObj, HObj Y o => bind (match o with Some i => bind (deref i) (fun x => guard (isa G (o_pay x) Y)) | None => ret tt end) (fun _ => bind (to_jni_opt t Y o) (fun h => ret (VRef h))) s0
    | RPrim _, HPrim z => ret (VPrim z) s0 | RVoid, HUnit => ret VUnit s0 | _, _ => undef s0 end) s1) as Eq.
  { unfold HookReturn, bind at 1. rewrite (call_pop_eq W E Ec). fold s1. destruct (k_ret k), v; reflexivity. }
  unfold result_ok in O. destruct (k_ret k) eqn:Ek; destruct v as [|z|Y [i|]]; try contradiction; cbv beta in Eq.
  - destruct O as (o & L & Is).
    assert (lookup s1 i = Some o) as L1 by exact L. assert (live s1 i = true) as Lv by (apply live_lookup; eauto).
    apply (Fin (VRef (Some i)) (given s1 t Y i)).
    + rewrite Eq. unfold bind at 1. unfold bind at 1, deref. rewrite L1. unfold guard. rewrite Is. unfold ret at 1. unfold bind at 1.
      unfold to_jni_opt. rewrite given_eq by auto. reflexivity.
    + eapply tidy_weaken; [|apply given_tidy; auto; exact T1]. simpl. tauto.
    + destruct Dn as (D1 & D2 & D3 & D4). pose proof (given_undisturbed s1 t Y i) as U. split; [|split; [|split]].
      * rewrite (u_running U). auto.
      * eapply spares_trans; [exact D2|apply und_spares; exact U|tauto].
      * intros j. rewrite given_live_eq. auto.
      * rewrite (u_pending U). auto.
    + apply hr_obj; auto.
      * rewrite given_frames, Fr. reflexivity.
      * rewrite given_class_ptr by auto. reflexivity.
  - apply (Fin (VRef None) s1); auto. apply hr_null; auto.
  - apply (Fin (VPrim z) s1); auto. eapply hr_prim; eauto.
  - apply (Fin VUnit s1); auto. apply hr_void; auto.
Qed.
Theorem HookThrow_step t k r n s : solid G s -> running s t = k :: r ->
  exists v s', step G t (HookThrow_ n) s = Some (v, s') /\ good G s' /\ running s' t = r /\ frames s' t = frames s t /\
    (if k_catch k then (exists w, v = OVal (RVal w) /\ zero_of (k_ret k) w) /\ now_pending t n s s'
     else v = OExn n /\ hook_done t r s s').
Proof.
  intros So R. destruct (running_env R) as (e & E & Ec). pose proof (so_good So) as Gs. pose proof (good_wf Gs) as W.
  assert (attached s t) as A by (exists e; auto).
  pose proof (popped_wf W E Ec) as W1. pose proof (popped_tidy So E Ec) as T1. destruct (popped_done E Ec) as (Dn & Fr & A1).
  destruct Dn as (D1 & D2 & D3 & D4).
  assert (get_env (popped s t e r) t = Some (env_calls e r)) as E1 by (unfold popped; rewrite get_env_penv, Nat.eqb_refl; reflexivity).
  pose proof (call_pop_eq W E Ec) as Ep. set (s1 := popped s t e r) in *.
  destruct (k_catch k) eqn:Ct.
  - destruct (thrown_pending n W1 T1 E1) as (P & F & Rn). set (s' := finish (thrown s1 t (env_calls e r) n)) in *.
    assert (step G t (HookThrow_ n) s = Some (OVal (RVal (default_val (k_ret k))), s')) as St.
    { apply (step_ret A). simpl. unfold as_val, bind at 1, HookThrow, bind at 1. rewrite Ep, Ct. unfold bind at 1. rewrite (set_pending_eq _ W1 E1). reflexivity. }
    eexists _, s'. split; [exact St|]. split; [eapply step_good; eauto|]. split; [congruence|]. split; [congruence|]. split.
    + eexists. split; [reflexivity|]. unfold zero_of, default_val. destruct (k_ret k); reflexivity.
    + destruct P as (j & P1 & P2 & P3 & P4 & P5). exists j. split; [rewrite <- D3; auto|]. split; auto. split; auto. split.
      * intros i Hi. rewrite <- D3. auto.
      * eapply (@spares_trans (fun i => pending s t = Some i)); [|exact P5|rewrite D4; auto].
        apply (penv_spares _ E); reflexivity.
  - assert (step G t (HookThrow_ n) s = Some (OExn n, s1)) as St.
    { unfold step. rewrite run_attached by auto. simpl. unfold as_val, bind at 1, HookThrow, bind at 1. rewrite Ep, Ct. unfold throw. rewrite (tidy_finish_id T1). reflexivity. }
    exists (OExn n), s1. split; [exact St|]. split; [eapply step_good; eauto|]. split; auto. split; auto. split; auto. repeat (split; auto).
Qed.

(** ** Pending exceptions *)
Lemma exc_clear s t e : good G s -> get_env s t = Some e -> now_clear t s (finish (penv s t (env_exc e None))).
Proof.
  intros Gs E. pose proof (good_wf Gs) as W. split; [|split; [|split; [|split]]].
  - unfold pending. rewrite finish_env, get_env_penv, Nat.eqb_refl. reflexivity.
  - unfold frames. rewrite finish_env, get_env_penv, Nat.eqb_refl, E. reflexivity.
  - unfold running. rewrite finish_env, get_env_penv, Nat.eqb_refl, E. reflexivity.
  - intros i Hi. apply finish_live in Hi. rewrite (live_heap (s := s)) in Hi by auto. auto.
  - apply (@finish_exc_spares (fun _ => False)); auto; [apply Gs|tauto].
Qed.
Lemma exc_raised s t e j : good G s -> get_env s t = Some e -> is_throw s j = true -> now_raised t j s (finish (penv s t (env_exc e (Some j)))).
Proof.
  intros Gs E Th. pose proof (good_wf Gs) as W. split; [|split; [|split; [|split]]].
  - unfold pending. rewrite finish_env, get_env_penv, Nat.eqb_refl. reflexivity.
  - unfold frames. rewrite finish_env, get_env_penv, Nat.eqb_refl, E. reflexivity.
  - unfold running. rewrite finish_env, get_env_penv, Nat.eqb_refl, E. reflexivity.
  - intros i Hi. apply finish_live in Hi. rewrite (live_heap (s := s)) in Hi by auto. auto.
  - assert (pending s t = e_exc e) as Pe by (unfold pending; rewrite E; auto).
    assert (e_exc e = Some j \/ e_exc e <> Some j) as [Q|Q] by (destruct (e_exc e) as [x|]; [destruct (Nat.eq_dec x j); [left|right]; congruence|right; discriminate]).
    + rewrite tidy_finish_id; [apply (penv_spares _ E); reflexivity|]. apply (tidy_env W E); [|apply Gs].
      intros i. unfold env_roots. simpl. rewrite Q. auto.
    + pose proof (@finish_exc_spares (fun _ => False) s t e (Some j) W (g_tidy Gs) E) as Sp. destruct Sp as [Z1 Z2 Z3 Z4 Z5 Z6]; [tauto|].
      constructor; auto. intros i L N. apply Z1; auto. rewrite Pe. rewrite Pe in N. intros K. apply N. split; auto. congruence.
Qed.
Lemma attached_env s t : attached s t -> exists e, get_env s t = Some e.
Proof. auto. Qed.
Theorem Throw_step t h r s : good G s -> attached s t -> denotes_opt s h r ->
  exists v s', step G t (Throw_ h) s = Some (v, s') /\ good G s' /\
    match r with
    | None => v = OVal (RInt 0) /\ now_clear t s s'
    | Some j => if is_throw s j then v = OVal (RInt 0) /\ now_raised t j s s' else v = OExn (Err bad_ref) /\ s' = s
    end.
Proof.
  intros Gs A D. pose proof (good_wf Gs) as W. destruct (attached_env A) as (e & E).
  assert (jnicast G TThrowable h s = match r with None => Ret None s | Some j => if is_throw s j then Ret (Some j) s else Thr (Err bad_ref) s end) as J.
  { destruct h as [i|]; simpl in D; [|subst; reflexivity]. rewrite (jnicast_spec G TThrowable W D). destruct r as [j|]; auto. }
  assert (forall j, (r = None /\ j = None) \/ (exists k, r = Some k /\ j = Some k /\ is_throw s k = true) ->
    step G t (Throw_ h) s = Some (OVal (RInt 0), finish (penv s t (env_exc e j)))) as K.
  { intros j H. apply (step_ret A). simpl. unfold as_int, bind at 1, Throw, bind at 1. rewrite J.
    destruct H as [[-> ->]|(k & -> & -> & Th)]; [|rewrite Th]; unfold bind at 1; rewrite (set_exc_eq W E); auto; intros i H; inversion H; subst; auto. }
  destruct r as [j|].
  - destruct (is_throw s j) eqn:Th.
    + specialize (K (Some j) (or_intror (ex_intro _ j (conj eq_refl (conj eq_refl Th))))). eexists _, _. split; [exact K|].
      split; [eapply step_good; eauto|]. split; auto. apply exc_raised; auto.
    + assert (step G t (Throw_ h) s = Some (OExn (Err bad_ref), s)) as St.
      { unfold step. rewrite run_attached by auto. simpl. unfold as_int, bind at 1, Throw, bind at 1. rewrite J. rewrite (tidy_finish_id (g_tidy Gs)). reflexivity. }
      eexists _, _. split; [exact St|]. split; auto.
  - specialize (K None (or_introl (conj eq_refl eq_refl))). eexists _, _. split; [exact K|]. split; [eapply step_good; eauto|]. split; auto. apply exc_clear; auto.
Qed.
Theorem ThrowNew_step t c m s : good G s -> attached s t ->
  exists s', step G t (ThrowNew_ c (Some m)) s = Some (OVal (RInt 0), s') /\ good G s' /\ now_pending t (Err m) s s' /\
    frames s' t = frames s t /\ running s' t = running s t.
Proof.
  intros Gs A. pose proof (good_wf Gs) as W. destruct (attached_env A) as (e & E).
  assert (step G t (ThrowNew_ c (Some m)) s = Some (OVal (RInt 0), finish (thrown s t e (Err m)))) as St.
  { apply (step_ret A). simpl. unfold as_int, bind at 1, ThrowNew, bind at 1. rewrite (set_pending_eq _ W E). reflexivity. }
  eexists. split; [exact St|]. split; [eapply step_good; eauto|]. apply thrown_pending; auto. apply Gs.
Qed.
Theorem ExceptionClear_step t s : good G s -> attached s t ->
  exists s', step G t ExceptionClear_ s = Some (OVal RUnit, s') /\ good G s' /\ now_clear t s s'.
Proof.
  intros Gs A. pose proof (good_wf Gs) as W. destruct (attached_env A) as (e & E).
  assert (step G t ExceptionClear_ s = Some (OVal RUnit, finish (penv s t (env_exc e None)))) as St.
  { apply (step_ret A). simpl. unfold as_unit, bind at 1, ExceptionClear. rewrite (set_exc_eq W E) by discriminate. reflexivity. }
  eexists. split; [exact St|]. split; [eapply step_good; eauto|]. apply exc_clear; auto.
Qed.
Theorem ExceptionCheck_step t s : good G s -> attached s t ->
  step G t ExceptionCheck_ s = Some (OVal (RBool (match pending s t with Some _ => true | None => false end)), s).
Proof.
  intros Gs A. destruct (attached_env A) as (e & E). apply (step_tidy_ret A); [|apply Gs]. simpl. unfold as_bool, bind at 1, ExceptionCheck, bind, the_env, ret.
  unfold pending. rewrite E. destruct (e_exc e); reflexivity.
Qed.
Theorem ExceptionDescribe_step t s : good G s -> attached s t -> step G t ExceptionDescribe_ s = Some (OVal RUnit, s).
Proof.
  intros Gs A. destruct (attached_env A) as (e & E). apply (step_tidy_ret A); [|apply Gs]. simpl. unfold as_unit, bind at 1, ExceptionDescribe, bind, the_env. rewrite E. reflexivity.
Qed.
Theorem ExceptionOccurred_step t s : good G s -> attached s t ->
  exists s', step G t ExceptionOccurred_ s = Some (OVal (RRef (pending s t)), s') /\ good G s' /\ undisturbed t s s' /\ (forall i, live s' i = live s i) /\
    frames s' t = match pending s t with Some j => add_local (frames s t) j | None => frames s t end.
Proof.
  intros Gs A. pose proof (good_wf Gs) as W. destruct (attached_env A) as (e & E). assert (pending s t = e_exc e) as P by (unfold pending; rewrite E; auto).
  assert (forall o s1, to_jni_opt t TThrowable (e_exc e) s = Ret o s1 -> tidy s1 -> step G t ExceptionOccurred_ s = Some (OVal (RRef o), s1)) as K.
  { intros o s1 H T. apply (step_tidy_ret A); auto. simpl. unfold as_ref, bind at 1, ExceptionOccurred, bind at 1, the_env. rewrite E, H. reflexivity. }
  rewrite P. destruct (e_exc e) as [j|] eqn:Ej.
  - assert (live s j = true) as L by (apply is_throw_live; eapply env_exc_throw; eauto).
    assert (step G t ExceptionOccurred_ s = Some (OVal (RRef (Some j)), given s t TThrowable j)) as St.
    { apply K; [simpl; apply given_eq; auto|]. eapply tidy_weaken; [|apply given_tidy; auto; apply Gs]. simpl. tauto. }
    eexists. split; [exact St|]. split; [eapply step_good; eauto|]. split; [apply given_undisturbed|]. split; [intros; apply given_live_eq|apply given_frames].
  - exists s. split; [apply K; [reflexivity|apply Gs]|]. split; auto. split; [apply undisturbed_refl|]. auto.
Qed.
End Hooks.
