(** Method calls and pending exceptions: C22, C23, C24, C25, C36. *)
From Verif Require Import Base BaseProofs SigModel VmState VmModel VmStep VmSpec MemSpec HookSpec CallSpec VmBase VmFrame VmWf VmPrim VmInv VmReg
  VmFine VmRegInv VmExact VmQuiet VmClass VmEnvInv VmMember VmMember2 VmMember3 VmTables VmHook VmMemHist VmCall VmCall2 VmThread VmCall3 VmDemo MemberProps.
Set Implicit Arguments.
Unset Strict Implicit.
Local Open Scope vm_scope.

(** ** C22 Virtual dispatch *)
Lemma first_own (p : oid -> Prop) l m j k : first_in p (l ++ m) j -> In k l -> p k -> first_in p l j.
Proof.
  induction l as [|x l IH]; simpl; intros F I P; [contradiction|]. inversion F; subst; [constructor; auto|].
  apply fi_later; auto. apply IH; auto. destruct I as [->|I]; auto. contradiction.
Qed.
Lemma first_or_none s m i cl : method_at s i = Some m -> (exists j, first_in (implements s (m_name m) (m_sig m)) (methods_of s cl) j) \/
  (forall k, In k (methods_of s cl) -> ~ implements s (m_name m) (m_sig m) k).
Proof.
  intros M. induction (methods_of s cl) as [|x l IH]; [right; intros k []|].
  destruct (match mth_of s x with Some y => overload_match m y | None => false end) eqn:E.
  - left. exists x. constructor. apply (overload_spec x M). auto.
  - assert (~ implements s (m_name m) (m_sig m) x) as N by (intros H; apply (overload_spec x M) in H; congruence).
    destruct IH as [(j & F)|F]; [left; exists j; apply fi_later; auto|right]. intros k [<-|K]; auto.
Qed.
Lemma dfs_head G s cl L : dfs G s cl L -> exists R, L = cl :: R.
Proof. intros D. inversion D; subst; eauto. Qed.

(** A virtual call of a hooked method on an object of class [cl] runs the implementation [cl] has itself; if [cl] has none, it
    runs that of the method ID.  This is the most derived implementation if that is the one of [cl] itself or of the ID.
    Missing: an override in a class strictly between; see C22_refuted. *)
Theorem C22_virtual_partial G t0 t T h r cl i m hh args s : reachable G t0 s -> attached s t -> denotes s h (Some r) ->
  class_ptr s r = Some cl -> method_at s i = Some m -> m_handle m = Some hh ->
  exists s1 j hd v s', class_passed t (Some cl) s s1 /\ handle_at s j = Some hd /\
    step G t (CallMethodA_ T (Some h) (Some i) args) s = Some (v, s') /\
    entered t true hd KInst false T (Some h) [cl] args s1 s' v /\
    (forall k, first_in (implements s (m_name m) (m_sig m)) (methods_of s cl) k -> j = k) /\
    ((forall k, In k (methods_of s cl) -> ~ implements s (m_name m) (m_sig m) k) -> j = i) /\
    (forall k, most_derived G s cl (m_name m) (m_sig m) k -> In k (methods_of s cl) \/ k = i -> j = k).
Proof.
  intros R A D C M H. destruct (@CallMethodA_step G t T h r i m hh args s (reachable_good R) A D M H) as (s1 & j & hd & v & s' & P & Di & Hd & St & _ & En).
  rewrite C in *. exists s1, j, hd, v, s'. repeat (split; [assumption|]).
  assert (forall k, first_in (implements s (m_name m) (m_sig m)) (methods_of s cl) k -> j = k) as Own.
  { intros k F. inversion Di as [c m' j' E1 E2 E3|c m' E1 E2 E3|E1]; subst.
    - injection E1 as <-. rewrite M in E2. injection E2 as <-. exact (first_in_fun E3 F).
    - injection E1 as <-. rewrite M in E2. injection E2 as <-. apply first_in_In in F. exfalso. apply (E3 k); tauto.
    - discriminate. }
  assert ((forall k, In k (methods_of s cl) -> ~ implements s (m_name m) (m_sig m) k) -> j = i) as Id.
  { intros N. inversion Di as [c m' j' E1 E2 E3|c m' E1 E2 E3|E1]; subst; auto.
    injection E1 as <-. rewrite M in E2. injection E2 as <-. apply first_in_In in E3. exfalso. apply (N j); tauto. }
  split; auto. split; auto.
  intros k (L & DL & F) K. destruct (dfs_head DL) as (R' & ->). simpl in F. pose proof (first_in_In F) as [_ F'].
  destruct (first_or_none cl M) as [(y & Y)|Y].
  - apply first_in_In in Y. destruct Y as [Y1 Y2]. apply Own. exact (first_own F Y1 Y2).
  - destruct K as [K|K]; [exfalso; apply (Y k); auto|]. subst. auto.
Qed.
Definition dfs_in (G : cfg) (s : st) (cl d : oid) : Prop := exists L, dfs G s cl L /\ In d L.
(** With an ID that GetMethodID finds from the class of the object, the most derived implementation runs, whatever the hierarchy,
    as long as no native function is registered under that name and signature. *)
Theorem C22_own_class G t0 t T h r cl i nm sg hh args s : reachable G t0 s -> attached s t -> denotes s h (Some r) ->
  class_ptr s r = Some cl -> finds_method G s false false nm sg cl (Some i) -> handle_at s i = Some hh ->
  (forall d j, dfs_in G s cl d -> In j (methods_of s d) -> ~ is_method s false true nm sg j) ->
  most_derived G s cl nm sg i /\
  exists s1 v s', class_passed t (Some cl) s s1 /\ step G t (CallMethodA_ T (Some h) (Some i) args) s = Some (v, s') /\
    entered t true hh KInst false T (Some h) [cl] args s1 s' v.
Proof.
  intros R A D C (L & DL & F) H N. pose proof (first_in_In F) as [I (m & M & N1 & N2 & N3 & N4)].
  assert (m_handle m = Some hh) as Hm by (unfold handle_at in H; rewrite M in H; auto).
  assert (most_derived G s cl nm sg i) as MD.
  { exists L. split; auto. clear I. assert (forall d, In d L -> dfs_in G s cl d) as In_ by (intros d Hd; exists L; auto). clear DL.
    assert (forall x, In x (flat_map (methods_of s) L) -> is_method s false true nm sg x -> False) as N'.
    { intros x Hx Q. apply in_flat_map in Hx. destruct Hx as (d & Hd & Hx). apply (N d x); auto. }
    clear N In_ R. induction F as [x l Px|x y l Px F IH].
    - constructor. exists m, hh. auto.
    - apply fi_later; [|apply IH; auto; intros; apply (N' x0); simpl; auto].
      intros (m' & h' & Q1 & Q2 & Q3 & Q4 & Q5). destruct (m_native m') as [f|] eqn:Ef.
      + apply (N' x); [simpl; auto|]. exists m'. repeat split; auto; congruence.
      + apply Px. exists m'. repeat split; auto; congruence. }
  split; auto. destruct (@C22_virtual_partial G t0 t T h r cl i m hh args s R A D C M Hm) as (s1 & j & hd & v & s' & P & Hd & St & En & _ & _ & J).
  subst nm sg. assert (j = i) as -> by (apply J; auto). rewrite H in Hd. injection Hd as <-. eauto 10.
Qed.

(** Objects 9, 10, 11: classes A, B : A, C : B; 12, 13: f of A and of B; 14: an object of class C. *)
Definition ex_chain : list event :=
  [(main, UBind_ 0 true (S_ "A")); (main, UBind_ 1 true (S_ "B")); (main, UBind_ 2 true (S_ "C"));
   (main, UHookMethod_ 9 false f_ v_ (mkHandle 7 KInst RVoid true)); (main, UHookMethod_ 10 false f_ v_ (mkHandle 8 KInst RVoid false));
   (main, UNew_ 2 0); (main, UToJNI_ (TUser 2) 14)].
Example ex_chain_seen : seen Gd ex_chain = [OVal (RRef (Some 9)); OVal (RRef (Some 10)); OVal (RRef (Some 11)); OVal (RRef (Some 12)); OVal (RRef (Some 13));
  OVal (RRef (Some 14)); OVal (RRef (Some 14))].
Proof. vm_compute. reflexivity. Qed.
Example ex_chain_reachable : reachable Gd main (after Gd ex_chain).
Proof. apply after_reachable. vm_compute. reflexivity. Qed.
Example ex_chain_attached : attached (after Gd ex_chain) main.
Proof. eexists. vm_compute. reflexivity. Qed.
Lemma ex_chain_dfs : dfs Gd (after Gd ex_chain) 11 [11; 10; 9].
Proof. assert (exists L, dfs Gd (after Gd ex_chain) 11 L /\ L = [11; 10; 9]) as (L & D & ->) by (eexists; split; [dfs_tac|reflexivity]). exact D. Qed.
Local Opaque after.
Lemma ex_chain_methods : flat_map (methods_of (after Gd ex_chain)) [11; 10; 9] = [13; 12].
Proof. vm_compute. reflexivity. Qed.
Definition mA : mth := mkMth f_ v_ false None (Some (mkHandle 7 KInst RVoid true)).
Definition mB : mth := mkMth f_ v_ false None (Some (mkHandle 8 KInst RVoid false)).
Example ex_chain_12 : method_at (after Gd ex_chain) 12 = Some mA.
Proof. vm_compute. reflexivity. Qed.
Example ex_chain_13 : method_at (after Gd ex_chain) 13 = Some mB.
Proof. vm_compute. reflexivity. Qed.
Example ex_chain_class : denotes (after Gd ex_chain) 14 (Some 14) /\ class_ptr (after Gd ex_chain) 14 = Some 11.
Proof. split; [|vm_compute; reflexivity]. eapply den_obj; [vm_compute; reflexivity|vm_compute; discriminate|vm_compute; discriminate]. Qed.
Example ex_chain_derived : most_derived Gd (after Gd ex_chain) 11 f_ v_ 13.
Proof.
  exists [11; 10; 9]. split; [apply ex_chain_dfs|]. rewrite ex_chain_methods. constructor. exists mB, (mkHandle 8 KInst RVoid false).
  split; [apply ex_chain_13|repeat split].
Qed.
(** an ID found from C is that of B, and B's implementation runs *)
Example C22_ex : finds_method Gd (after Gd ex_chain) false false f_ v_ 11 (Some 13) /\
  (forall d j, dfs_in Gd (after Gd ex_chain) 11 d -> In j (methods_of (after Gd ex_chain) d) -> ~ is_method (after Gd ex_chain) false true f_ v_ j).
Proof.
  split.
  - exists [11; 10; 9]. split; [apply ex_chain_dfs|]. rewrite ex_chain_methods. constructor. exists mB. split; [apply ex_chain_13|]. repeat split; auto; simpl; try tauto; discriminate.
  - intros d j (L & D & Hd) Hj (m & M & _ & _ & _ & N). rewrite (proj1 (dfs_fun Gd (after Gd ex_chain)) _ _ D _ ex_chain_dfs) in Hd.
    assert (In j (flat_map (methods_of (after Gd ex_chain)) [11; 10; 9])) as Hi by (apply (proj2 (in_flat_map _ _ _)); exists d; exact (conj Hd Hj)). rewrite ex_chain_methods in Hi.
    destruct Hi as [<-|[<-|[]]]; [rewrite ex_chain_13 in M|rewrite ex_chain_12 in M]; injection M as <-; apply (proj2 N); reflexivity.
Qed.
(** False in general: with the ID of A, the override of B in between is skipped. *)
Theorem C22_refuted : exists s i v s', reachable Gd main s /\ denotes s 14 (Some 14) /\ class_ptr s 14 = Some 11 /\ method_at s i = Some mA /\
  most_derived Gd s 11 f_ v_ 13 /\ handle_at s 13 = Some (mkHandle 8 KInst RVoid false) /\
  step Gd main (CallMethodA_ RVoid (Some 14) (Some i) []) s = Some (v, s') /\ v = OVal (RCall (Entered 7 (Some 14) [])).
Proof.
  eexists (after Gd ex_chain), 12, _, _. split; [apply ex_chain_reachable|]. split; [apply ex_chain_class|]. split; [apply ex_chain_class|].
  split; [apply ex_chain_12|]. split; [apply ex_chain_derived|]. split; [vm_compute; reflexivity|]. split; [vm_compute; reflexivity|reflexivity].
Qed.

(** ** C23 Nonvirtual dispatch *)
(** If the class has the implementation itself (or is null: then that of the ID), it runs; pointers to member functions raise an
    exception instead.  Missing: inherited implementations; see C23_refuted and C23_inherited_undefined. *)
Theorem C23_nonvirtual_partial G t0 t T obj cls cl i m h j args s : reachable G t0 s -> attached s t -> denotes_opt s cls cl ->
  (forall c, cl = Some c -> is_cls s c = true) -> method_at s i = Some m -> m_handle m = Some h ->
  match cl with None => j = i | Some c => first_in (implements s (m_name m) (m_sig m)) (methods_of s c) j end ->
  exists hd v s', handle_at s j = Some hd /\
    step G t (CallNonvirtualMethodA_ T obj cls (Some i) args) s = Some (v, s') /\
    entered t true hd KInst true T obj (opt_list cl) args s s' v.
Proof.
  intros R A D C M H J. destruct (CallNonvirtualMethodA_step T obj args (reachable_good R) A D C M H J) as (hd & v & s' & X & Y & _ & Z). eauto 10.
Qed.
(** A class that only inherits the implementation: undefined behaviour, always. *)
Theorem C23_inherited_undefined G t0 t T obj cls c i m h args s : reachable G t0 s -> attached s t -> denotes_opt s cls (Some c) ->
  is_cls s c = true -> method_at s i = Some m -> m_handle m = Some h ->
  (forall j, In j (methods_of s c) -> ~ implements s (m_name m) (m_sig m) j) ->
  step G t (CallNonvirtualMethodA_ T obj cls (Some i) args) s = None.
Proof. intros R A D C M H N. exact (CallNonvirtualMethodA_undef T obj args (reachable_good R) A D C M H N). Qed.
Example C23_ex : first_in (implements (after Gd ex_chain) f_ v_) (methods_of (after Gd ex_chain) 10) 13 /\
  (forall j, In j (methods_of (after Gd ex_chain) 11) -> ~ implements (after Gd ex_chain) f_ v_ j).
Proof.
  assert (methods_of (after Gd ex_chain) 10 = [13] /\ methods_of (after Gd ex_chain) 11 = []) as [-> ->] by (split; vm_compute; reflexivity).
  split; [|intros j []]. constructor. exists mB, (mkHandle 8 KInst RVoid false). split; [apply ex_chain_13|repeat split].
Qed.
Example C23_ex_run : exists s', step Gd main (CallNonvirtualMethodA_ RVoid (Some 14) (Some 10) (Some 12) []) (after Gd ex_chain) =
  Some (OVal (RCall (Entered 8 (Some 14) [])), s').
Proof. eexists. vm_compute. reflexivity. Qed.
(** False in general: C inherits f from B, and GetMethodID on C gives an ID, but the nonvirtual call with C is undefined. *)
Theorem C23_refuted : exists s i, reachable Gd main s /\ attached s main /\ denotes_opt s (Some 11) (Some 11) /\ is_cls s 11 = true /\
  (exists s1, step Gd main (GetMethodID_ false (Some 11) f_ v_) s = Some (OVal (RRef (Some i)), s1)) /\ handle_at s i <> None /\
  step Gd main (CallNonvirtualMethodA_ RVoid (Some 14) (Some 11) (Some i) []) s = None.
Proof.
  exists (after Gd ex_chain), 13. split; [apply ex_chain_reachable|]. split; [apply ex_chain_attached|]. split; [den_tac|].
  split; [vm_compute; reflexivity|]. split; [eexists; vm_compute; reflexivity|]. split; [vm_compute; discriminate|]. vm_compute. reflexivity.
Qed.

(** ** C24 Exceptions of hooks *)
(** Calls enter hooks such that exceptions are caught. *)
Theorem C24_calls_catch G t0 t o T id s v s' f rv a : reachable G t0 s -> is_call o T id -> step G t o s = Some (v, s') ->
  v = OVal (RCall (Entered f rv a)) ->
  exists k, running s' t = k :: running s t /\ k_ret k = T /\ k_catch k = true /\ k_hook k = f /\ pending s' t = pending s t.
Proof.
  intros R C E ->. pose proof (call_inv (good_wf (reachable_good R)) C E) as H. inversion H; subst; eauto 10.
Qed.
(** A hook inside such a call throws: the call returns the zero value of its type, the exception is pending and ExceptionCheck sees it. *)
Theorem C24_throw G t0 t k r n s : reachable G t0 s -> running s t = k :: r -> k_catch k = true ->
  exists w s', step G t (HookThrow_ n) s = Some (OVal (RVal w), s') /\ zero_of (k_ret k) w /\ running s' t = r /\ frames s' t = frames s t /\
    now_pending t n s s' /\ step G t ExceptionCheck_ s' = Some (OVal (RBool true), s').
Proof.
  intros R K C. destruct (HookThrow_step n (reachable_solid R) K) as (v & s' & E & Gd' & Ru & Fr & H). rewrite C in H.
  destruct H as ((w & -> & Z) & P). exists w, s'. repeat (split; [assumption|]).
  assert (attached s t) as A by (unfold running in K; destruct (get_env s t) eqn:Ge; [eexists; eauto|discriminate]).
  destruct A as (e & Ge). destruct (@envid_step G t t (HookThrow_ n) s (OVal (RVal w)) s' e (good_wf (reachable_good R)) Ge) as (e' & Ge' & _); [left; discriminate|exact E|].
  rewrite (@ExceptionCheck_step G t s' Gd'); [|exists e'; auto]. destruct P as (j & _ & -> & _). auto.
Qed.
(** A hook returns: its value is the result of the call, and the pending exception is what it was. *)
Theorem C24_return G t0 t k r v s : reachable G t0 s -> running s t = k :: r -> result_ok G s (k_ret k) v ->
  exists w s', step G t (HookReturn_ v) s = Some (OVal (RVal w), s') /\ hook_done t r s s' /\ hook_result t k s s' v w /\ pending s' t = pending s t.
Proof.
  intros R K C. destruct (HookReturn_step (reachable_solid R) K C) as (w & s' & E & _ & D & H). exists w, s'. repeat (split; [assumption|]). apply D.
Qed.
Definition ex_run : list event := ex_chain ++ [(main, CallNonvirtualMethodA_ RVoid (Some 14) (Some 10) (Some 12) [ArgZ 1])].
Example C24_ex : running (after Gd ex_run) main = [mkCall RVoid true 8 [10]] /\ runs Gd ex_run = true.
Proof. split; vm_compute; reflexivity. Qed.
Example C24_ex_throw : seen Gd (ex_run ++ [(main, HookThrow_ (UserExn 5)); (main, ExceptionCheck_); (main, ExceptionOccurred_)]) =
  seen Gd ex_run ++ [OVal (RVal VUnit); OVal (RBool true); OVal (RRef (Some 15))].
Proof. vm_compute. reflexivity. Qed.

(** ** C25 Calls without implementation *)
Definition no_method (s : st) (id : option oid) : Prop :=
  match id with None => True | Some i => exists m, method_at s i = Some m /\ m_handle m = None end.
Theorem C25_methods G t0 t T id args s : reachable G t0 s -> attached s t -> no_method s id ->
  (forall obj, step G t (CallMethodA_ T obj id args) s = Some (OVal (RCall Default), s)) /\
  (forall obj cls, step G t (CallNonvirtualMethodA_ T obj cls id args) s = Some (OVal (RCall Default), s)) /\
  (forall cls cl, denotes_opt s cls cl -> (forall j, cl = Some j -> is_cls s j = true) ->
    step G t (CallStaticMethodA_ T cls id args) s = Some (OVal (RCall Default), s)).
Proof.
  intros R A N. pose proof (reachable_good R) as Go. split; [|split]; intros.
  - exact (CallMethodA_unhooked T obj args Go A N).
  - exact (CallNonvirtualMethodA_unhooked T obj cls args Go A N).
  - exact (CallStaticMethodA_unhooked T args Go A H H0 N).
Qed.
Theorem C25_fields G t0 t static T obj id s : reachable G t0 s -> attached s t ->
  (match id with None => True | Some i => exists f, field_at s i = Some f /\ f_get f = None end ->
    step G t (GetField_ static T obj id) s = Some (OVal (RCall Default), s)) /\
  (match obj, id with Some _, Some i => exists f, field_at s i = Some f /\ f_set f = None | _, _ => True end -> forall x,
    step G t (SetField_ static T obj id x) s = Some (OVal (RCall Default), s)).
Proof.
  intros R A. pose proof (reachable_good R) as Go. split; intros.
  - exact (GetField_unhooked static T obj Go A H).
  - exact (SetField_unhooked static T x Go A H).
Qed.
Example C25_ex : no_method (after Gd ex_mi) (Some 13) /\ exists f, field_at (after Gd ex_mi) 14 = Some f /\ f_get f = None /\ f_set f = None.
Proof. split; eexists; (split; [vm_compute; reflexivity|]); repeat split. Qed.

(** ** C36 The pending exception *)
(** Operations that say nothing leave it alone ... *)
Lemma silent_step G t o s v s' : solid G s -> step G t o s = Some (v, s') -> (forall b, ~ says t s o v b) -> pending s' t = pending s t.
Proof.
  intros S E N. pose proof (good_wf (so_good S)) as W. destruct (exc_op o) eqn:X; [|exact (pending_step W X E)].
  assert (o <> Detach_ -> attached s t) as A0 by (intros D; eapply step_attached; [exact E|destruct o; auto; discriminate]).
  destruct o; try discriminate.
  - assert (attached s t) as A by (apply A0; discriminate). assert (exists r, denotes_opt s h r) as (r & D).
    { destruct h as [i|]; [|exists None; reflexivity]. destruct (live s i) eqn:L; [apply (denotes_total W L)|].
      exfalso. unfold step in E. rewrite run_attached in E by auto. cbn [body] in E. unfold as_int, Throw, bind in E. rewrite jnicast_dead in E by auto. discriminate. }
    destruct (@Throw_step G t h r s (so_good S) A D) as (v' & s1 & E' & _ & H). rewrite E in E'. injection E' as <- <-. destruct r as [j|].
    + destruct (is_throw s j); [|destruct H as [_ ->]; auto]. destruct H as [-> _]. exfalso. eapply N. eapply sy_throw; eauto.
    + destruct H as [-> _]. exfalso. eapply N. eapply sy_throw_null; eauto.
  - exfalso. eapply N. constructor.
  - exfalso. eapply N. constructor.
  - pose proof (@call_inv G t _ T id s v s' W (conj eq_refl eq_refl : is_call (CallMethodA_ T obj id args) T id) E) as H. inversion H; subst; auto. exfalso. eapply N. eapply sy_call; eauto.
  - pose proof (@call_inv G t _ T id s v s' W (conj eq_refl eq_refl : is_call (CallNonvirtualMethodA_ T obj c id args) T id) E) as H. inversion H; subst; auto. exfalso. eapply N. eapply sy_nonvirtual; eauto.
  - pose proof (@call_inv G t _ T id s v s' W (conj eq_refl eq_refl : is_call (CallStaticMethodA_ T c id args) T id) E) as H. inversion H; subst; auto. exfalso. eapply N. eapply sy_static; eauto.
  - exfalso. eapply N. constructor.
  - destruct (running s t) as [|k r] eqn:K.
    + exfalso. assert (attached s t) as A by (apply A0; discriminate). unfold step in E. rewrite run_attached in E by auto. cbn [body] in E. destruct A as (e & Ge).
      unfold as_val, HookThrow, call_pop, bind, the_env in E. rewrite Ge in E. unfold running in K. rewrite Ge in K. rewrite K in E. discriminate.
    + destruct (HookThrow_step n S K) as (v' & s1 & E' & _ & _ & _ & H). rewrite E in E'. injection E' as <- <-. destruct (k_catch k) eqn:C.
      * exfalso. eapply N. eapply sy_hook; eauto.
      * destruct H as [_ H]. apply H.
Qed.
(** ... and the others do what they say. *)
Lemma says_step G t o s v s' b : solid G s -> step G t o s = Some (v, s') -> says t s o v b -> (pending s' t <> None <-> b = true).
Proof.
  intros S E Sy. pose proof (good_wf (so_good S)) as W.
  assert (o <> Detach_ -> attached s t) as A0 by (intros D; eapply step_attached; [exact E|destruct Sy; auto; congruence]).
  assert (forall T id, is_call o T (Some id) -> v = OVal (RCall Default) -> (exists h, handle_at s id = Some h) -> (pending s' t <> None <-> true = true)) as Ca.
  { intros T id C -> (h & Hh). pose proof (call_inv W C E) as H. inversion H; subst; [congruence|]. destruct H3 as (j & -> & _). split; auto; discriminate. }
  destruct Sy.
  - destruct (@Throw_step G t h (Some j) s (so_good S) (A0 ltac:(discriminate)) H) as (v' & s1 & E' & _ & K). rewrite E in E'. injection E' as <- <-.
    destruct (is_throw s j); [|destruct K; discriminate]. destruct K as [_ (-> & _)]. split; auto; discriminate.
  - destruct (@Throw_step G t h None s (so_good S) (A0 ltac:(discriminate)) H) as (v' & s1 & E' & _ & K). rewrite E in E'. injection E' as <- <-.
    destruct K as [_ (-> & _)]. split; [congruence|discriminate].
  - destruct m as [m|].
    + destruct (@ThrowNew_step G t c m s (so_good S) (A0 ltac:(discriminate))) as (s1 & E' & _ & P & _). rewrite E in E'. injection E' as -> <-.
      destruct P as (j & _ & -> & _). split; auto; discriminate.
    + exfalso. unfold step in E. rewrite run_attached in E by (apply A0; discriminate). discriminate.
  - destruct (@ExceptionClear_step G t s (so_good S) (A0 ltac:(discriminate))) as (s1 & E' & _ & P). rewrite E in E'. injection E' as -> <-.
    destruct P as (-> & _). split; [congruence|discriminate].
  - eapply (Ca T i); simpl; eauto.
  - eapply (Ca T i); simpl; eauto.
  - eapply (Ca T i); simpl; eauto.
  - destruct (HookThrow_step n S H) as (v' & s1 & E' & _ & _ & _ & K). rewrite E in E'. injection E' as <- <-. rewrite H0 in K.
    destruct K as [_ (j & _ & -> & _)]. split; auto; discriminate.
  - unfold step, run, body, needs_env, as_int, Detach, bind, ret in E. destruct (get_env s t) as [e|] eqn:Ge.
    + destruct (e_calls e); [|discriminate]. injection E as <- <-. unfold pending. rewrite finish_env. unfold get_env. simpl.
      rewrite (aget_adel Nat.eqb Nat.eqb_spec), Nat.eqb_refl. split; [congruence|discriminate].
    + injection E as <- <-. unfold pending. rewrite finish_env, Ge. split; [congruence|discriminate].
Qed.
Lemma says_fun t s o v b b' : says t s o v b -> says t s o v b' -> wf s -> b = b'.
Proof.
  intros H K W. destruct H; inversion K; subst; auto; (destruct h as [i|]; [|simpl in *; congruence]); simpl in *;
    match goal with A : denotes s i _, B : denotes s i _ |- _ => pose proof (denotes_fun A B); congruence end.
Qed.

Lemma says_dec t s o v : wf s -> (exists b, says t s o v b) \/ (forall b, ~ says t s o v b).
Proof.
  intros W.
  assert (forall i, handle_at s i = None \/ exists h, handle_at s i = Some h) as Hd by (intros i; destruct (handle_at s i); eauto).
  destruct o; try (right; intros bb Q; inversion Q; fail); try (left; eexists; constructor; fail).
  - destruct v as [z|e]; [|right; intros bb Q; inversion Q]. destruct h as [i|]; [|left; exists false; apply sy_throw_null; reflexivity].
    destruct (live s i) eqn:L.
    + destruct (denotes_total W L) as ([j|] & D); left; eexists; [eapply sy_throw|eapply sy_throw_null]; eauto.
    + right. intros bb Q. inversion Q; subst; simpl in *; match goal with H : denotes _ _ _ |- _ => apply VmExact.denotes_live in H; congruence end.
  - destruct id as [i|]; [|right; intros bb Q; inversion Q]. destruct (Hd i) as [N|(h & N)]; [right; intros bb Q; inversion Q; subst; congruence|].
    destruct v as [[]|]; try (right; intros bb Q; inversion Q; fail). destruct c as [|]; try (right; intros bb Q; inversion Q; fail). left. eexists. eapply sy_call; eauto.
  - destruct id as [i|]; [|right; intros bb Q; inversion Q]. destruct (Hd i) as [N|(h & N)]; [right; intros bb Q; inversion Q; subst; congruence|].
    destruct v as [[]|]; try (right; intros bb Q; inversion Q; fail). destruct c0 as [|]; try (right; intros bb Q; inversion Q; fail). left. eexists. eapply sy_nonvirtual; eauto.
  - destruct id as [i|]; [|right; intros bb Q; inversion Q]. destruct (Hd i) as [N|(h & N)]; [right; intros bb Q; inversion Q; subst; congruence|].
    destruct v as [[]|]; try (right; intros bb Q; inversion Q; fail). destruct c0 as [|]; try (right; intros bb Q; inversion Q; fail). left. eexists. eapply sy_static; eauto.
  - destruct (running s t) as [|k r] eqn:K; [right; intros bb Q; inversion Q; subst; congruence|].
    destruct (k_catch k) eqn:C; [left; eexists; eapply sy_hook; eauto|right; intros bb Q; inversion Q; subst; congruence].
Qed.

(** ExceptionCheck tells what the last relevant operation of the thread said, over every history of every program. *)
Theorem C36_check G t0 t l s vs s' b b' : reachable G t0 s -> exec G l s = Some (vs, s') -> last_word G t l s b b' ->
  (pending s t <> None <-> b = true) -> attached s' t ->
  (pending s' t <> None <-> b' = true) /\ step G t ExceptionCheck_ s' = Some (OVal (RBool b'), s').
Proof.
  intros R E L B A. assert (pending s' t <> None <-> b' = true) as P.
  { apply reachable_solid in R. revert vs s' R E B A. induction L; intros vs s' R E B A; simpl in E.
    - injection E as _ <-. auto.
    - rewrite H0 in E. destruct (exec G l s1) as [[ws s2]|] eqn:E2; [|discriminate]. injection E as _ <-. eapply IHL; eauto.
      + eapply step_solid; eauto.
      + eapply says_step; eauto.
    - rewrite H0 in E. destruct (exec G l s1) as [[ws s2]|] eqn:E2; [|discriminate]. injection E as _ <-. eapply IHL; eauto.
      + eapply step_solid; eauto.
      + rewrite (silent_step R H0 H). auto.
    - rewrite H0 in E. destruct (exec G l s1) as [[ws s2]|] eqn:E2; [|discriminate]. injection E as _ <-. eapply IHL; eauto.
      + eapply step_solid; eauto.
      + unfold pending in *. rewrite (@others_step G u t o s v s1 (good_wf (so_good R))); auto. }
  split; auto. rewrite (@ExceptionCheck_step G t s'); auto.
  - destruct (pending s' t) eqn:Q; destruct b'; auto; exfalso; [|assert (@None oid <> None) by tauto; congruence].
    assert (false = true) by (apply P; discriminate). discriminate.
  - eapply exec_good; [|exact E]. eapply reachable_good; eauto.
Qed.
(** Every history has such a last word. *)
Theorem C36_total G t0 t l s vs s' b : reachable G t0 s -> exec G l s = Some (vs, s') -> exists b', last_word G t l s b b'.
Proof.
  intros R. apply reachable_solid in R. revert s vs b R. induction l as [|[u o] l IH]; intros s vs b R E; simpl in E; [exists b; constructor|].
  destruct (step G u o s) as [[v s1]|] eqn:E1; [|discriminate]. destruct (exec G l s1) as [[ws s2]|] eqn:E2; [|discriminate]. injection E as _ <-.
  assert (solid G s1) as R1 by (eapply step_solid; eauto). destruct (Nat.eq_dec u t) as [->|Nu].
  - assert ((exists b1, says t s o v b1) \/ (forall b1, ~ says t s o v b1)) as [(b1 & Sb)|Sb].
    { destruct (says_dec t o v (good_wf (so_good R))); eauto. }
    + destruct (IH s1 ws b1 R1 E2) as (b' & H). exists b'. eapply lw_says; eauto.
    + destruct (IH s1 ws b R1 E2) as (b' & H). exists b'. eapply lw_silent; eauto.
  - destruct (IH s1 ws b R1 E2) as (b' & H). exists b'. eapply lw_other; eauto.
Qed.
(** As long as nothing is said, the very object stays pending, and ExceptionOccurred returns it; ExceptionDescribe and
    ExceptionCheck change nothing at all. *)
Theorem C36_stays G t0 t l s vs s' : reachable G t0 s -> exec G l s = Some (vs, s') -> no_word G t l s -> pending s' t = pending s t.
Proof.
  intros R E N. apply reachable_solid in R. revert vs s' R E. induction N; intros vs s' R E; simpl in E; [congruence| | ].
  - rewrite H0 in E. destruct (exec G l s1) as [[ws s2]|] eqn:E2; [|discriminate]. injection E as _ <-. rewrite <- (silent_step R H0 H).
    eapply IHN; eauto. eapply step_solid; eauto.
  - rewrite H0 in E. destruct (exec G l s1) as [[ws s2]|] eqn:E2; [|discriminate]. injection E as _ <-.
    transitivity (pending s1 t); [eapply IHN; eauto; eapply step_solid; eauto|]. unfold pending.
    rewrite (@others_step G u t o s v s1 (good_wf (so_good R))); auto.
Qed.
Theorem C36_throw_occurred G t0 t h j s s1 l vs s2 : reachable G t0 s -> attached s t -> denotes_opt s h (Some j) ->
  step G t (Throw_ h) s = Some (OVal (RInt 0), s1) -> exec G l s1 = Some (vs, s2) -> no_word G t l s1 -> attached s2 t ->
  exists s3, step G t ExceptionOccurred_ s2 = Some (OVal (RRef (Some j)), s3) /\ pending s3 t = Some j /\ frames s3 t = add_local (frames s2 t) j.
Proof.
  intros R A D E X N A2. destruct (@Throw_step G t h (Some j) s (reachable_good R) A D) as (v & s1' & E' & Go1 & K). rewrite E in E'. injection E' as <- <-.
  destruct (is_throw s j); [|destruct K; discriminate]. destruct K as [_ (P & _)].
  assert (reachable G t0 s1) as R1 by (eapply reachable_exec; [exact R|eapply step_exec; exact E]).
  pose proof (C36_stays R1 X N) as Q. destruct (@ExceptionOccurred_step G t s2) as (s3 & E3 & _ & U & _ & F); auto.
  - eapply exec_good; eauto.
  - rewrite Q, P in *. exists s3. split; auto. split; auto. rewrite (u_pending U). congruence.
Qed.
(** ThrowNew makes a new exception with the message. *)
Theorem C36_throw_new G t0 t c m s : reachable G t0 s -> attached s t ->
  exists s', step G t (ThrowNew_ c (Some m)) s = Some (OVal (RInt 0), s') /\ now_pending t (Err m) s s' /\
    frames s' t = frames s t /\ running s' t = running s t.
Proof. intros R A. destruct (@ThrowNew_step G t c m s (reachable_good R) A) as (s' & E & _ & P & F). exists s'. auto. Qed.
Theorem C36_describe G t0 t s : reachable G t0 s -> attached s t ->
  step G t ExceptionDescribe_ s = Some (OVal RUnit, s) /\ exists b, step G t ExceptionCheck_ s = Some (OVal (RBool b), s).
Proof. intros R A. split; [apply (ExceptionDescribe_step (reachable_good R) A)|]. eexists. apply (ExceptionCheck_step (reachable_good R) A). Qed.
Theorem C36_clear G t0 t s : reachable G t0 s -> attached s t ->
  exists s', step G t ExceptionClear_ s = Some (OVal RUnit, s') /\ now_clear t s s'.
Proof. intros R A. destruct (@ExceptionClear_step G t s (reachable_good R) A) as (s' & E & _ & H). eauto. Qed.

(** Two threads; a failed call, clearing, throwing again. *)
Definition ex_exc : list event := ex_chain ++
  [(2, Attach_); (main, ThrowNew_ None (Some (S_ "x"))); (2, ExceptionCheck_); (main, ExceptionOccurred_); (main, ExceptionClear_); (main, ExceptionCheck_);
   (main, CallNonvirtualMethodA_ RVoid (Some 14) (Some 9) (Some 12) []); (main, ExceptionCheck_); (2, Throw_ (Some 15)); (main, ExceptionClear_)].
Example C36_ex : seen Gd (ex_exc ++ [(2, ExceptionOccurred_); (main, ExceptionCheck_)]) = seen Gd ex_chain ++
  [OVal (REnv 1); OVal (RInt 0); OVal (RBool false); OVal (RRef (Some 15)); OVal RUnit; OVal (RBool false); OVal (RCall Default); OVal (RBool true); OVal (RInt 0);
   OVal RUnit; OVal (RRef (Some 15)); OVal (RBool false)].
Proof. vm_compute. reflexivity. Qed.
Example C36_ex_last : last_word Gd main [(2, ExceptionCheck_); (main, ThrowNew_ None (Some (S_ "x"))); (main, FindClass_ (S_ "Q"))]
  (after Gd (ex_chain ++ [(2, Attach_)])) false true.
Proof.
  eapply lw_other; [discriminate|vm_compute; reflexivity|]. eapply lw_says; [apply sy_new|vm_compute; reflexivity|].
  eapply lw_silent; [intros b H; inversion H|vm_compute; reflexivity|]. apply lw_nil.
Qed.

Print Assumptions C22_virtual_partial.
Print Assumptions C22_own_class.
Print Assumptions C22_refuted.
Print Assumptions C23_nonvirtual_partial.
Print Assumptions C23_inherited_undefined.
Print Assumptions C23_refuted.
Print Assumptions C24_calls_catch.
Print Assumptions C24_throw.
Print Assumptions C24_return.
Print Assumptions C25_methods.
Print Assumptions C25_fields.
Print Assumptions C36_check.
Print Assumptions C36_total.
Print Assumptions C36_stays.
Print Assumptions C36_throw_occurred.
Print Assumptions C36_throw_new.
Print Assumptions C36_describe.
Print Assumptions C36_clear.
