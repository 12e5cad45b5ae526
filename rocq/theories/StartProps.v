(** C68, C69: Class::getMethod and what it returns; Jvm::start. *)
From Verif Require Import RefProps VmFine Base BaseProofs VmState VmModel VmStep VmSpec RefSpec CallSpec MemSpec ArrSpec HookSpec VmBase VmFrame VmWf VmPrim VmInv VmExact VmQuiet VmClass VmObj VmRef VmRef2 VmArr VmArr2 VmHook VmCall VmCall2 VmField VmHier VmMember VmThread VmMemHist VmEnvInv MemberProps CallProps
  WrapModel CastModel CastSpec VmDemo ArrProps CastProps InvokeModel InvokeSpec InvokeProps.
From Coq Require Import Permutation.
Set Implicit Arguments.
Unset Strict Implicit.
Local Open Scope char_scope.

(** ** Lookups depend on the objects and the registered types only *)
Section Same.
Variables (G : cfg) (s s' : st).
Hypothesis C : forall i, contents s' i = contents s i.
Hypothesis T : forall Y, registered s' Y = registered s Y.
Lemma sm_class i : class_at s' i = class_at s i.
Proof. unfold class_at. rewrite C. reflexivity. Qed.
Lemma sm_method i : method_at s' i = method_at s i.
Proof. unfold method_at. rewrite C. reflexivity. Qed.
Lemma sm_types i : super_types G s' i = super_types G s i.
Proof. unfold super_types. rewrite sm_class. reflexivity. Qed.
Lemma sm_supers i : supers G s' i = supers G s i.
Proof. unfold supers. rewrite sm_types. f_equal. apply map_ext. exact T. Qed.
Lemma sm_dfs : (forall cl L, dfs G s cl L -> dfs G s' cl L) /\ (forall l L, dfs_all G s l L -> dfs_all G s' l L).
Proof.
  apply dfs_both; intros; try (econstructor; eauto; fail). constructor.
  - rewrite sm_class. auto.
  - intros N B. rewrite sm_types, T. apply H0; auto.
  - rewrite sm_supers. auto.
Qed.
Lemma sm_methods i : methods_of s' i = methods_of s i.
Proof. unfold methods_of. rewrite sm_class. reflexivity. Qed.
Lemma sm_is_method st native nm sg i : is_method s' st native nm sg i <-> is_method s st native nm sg i.
Proof. unfold is_method. rewrite sm_method. reflexivity. Qed.
Lemma sm_finds st native nm sg cl r : finds_method G s st native nm sg cl r -> finds_method G s' st native nm sg cl r.
Proof.
  intros (L & D & F). exists L. split; [apply sm_dfs; exact D|]. assert (flat_map (methods_of s') L = flat_map (methods_of s) L) as -> by (apply flat_map_ext; exact sm_methods).
  destruct r as [i|].
  - clear D. induction F as [x l H|x y l H F IH]; [apply fi_here|apply fi_later; auto]; rewrite sm_is_method; auto.
  - intros i I. rewrite sm_is_method. auto.
Qed.
Lemma sm_looked_up cl nm sg x : looked_up G s cl nm sg x -> looked_up G s' cl nm sg x.
Proof.
  intros (A & B & D). split; [apply sm_finds; auto|]. split; [apply sm_finds; auto|]. destruct (x_member x), (x_static x); auto. apply sm_finds; auto.
Qed.
End Same.
Lemma looked_up_fun G s cl nm sg x y : looked_up G s cl nm sg x -> looked_up G s cl nm sg y -> x = y.
Proof.
  intros (A & B & C) (A' & B' & C'). destruct x as [a b c], y as [a' b' c']. simpl in *.
  pose proof (C16_found_unique A A') as <-. pose proof (C16_found_unique B B') as <-. f_equal.
  destruct a, b; try congruence. exact (C16_found_unique C C').
Qed.

(** ** C68 Class::getMethod *)
Lemma looked_up_good G s t cl L nm sg : good G s -> attached s t -> dfs G s cl L -> nm <> S_ "<init>" ->
  exists x s', step G t (UGetMethod_ cl sg nm) s = Some (OVal (RTriple (x_member x) (x_static x) (x_native x)), s') /\ looked_up G s cl nm sg x /\ same_but_types s s'.
Proof.
  intros R A D N. destruct (@getMethod_good G s t cl L nm sg R A D N) as (m & p & n & s' & E & S & F1 & F2 & F3).
  exists (mkProxy m p n), s'. split; [exact E|]. split; [|exact S]. split; [exact F1|]. split; [exact F2|exact F3].
Qed.
Theorem C68_getMethod G t0 s t cl L nm sg : reachable G t0 s -> attached s t -> dfs G s cl L -> nm <> S_ "<init>" ->
  exists x s', step G t (UGetMethod_ cl sg nm) s = Some (OVal (RTriple (x_member x) (x_static x) (x_native x)), s') /\ looked_up G s cl nm sg x /\ same_but_types s s'.
Proof. intros R. apply looked_up_good. exact (reachable_good R). Qed.
(** A call through the result invokes the method for that kind of receiver. *)
Theorem C68_invoke G t isClass x m r ps s : chosen isClass x = Some m -> proxy_invoke G t isClass x r ps s = invoke G t isClass r m ps s.
Proof. intros C. unfold proxy_invoke. assert (proxy_pick isClass x = chosen isClass x) as -> by (unfold proxy_pick, chosen; destruct isClass, (x_static x), (x_member x); reflexivity). rewrite C. reflexivity. Qed.
Theorem C68_missing G t isClass x r ps s : chosen isClass x = None -> proxy_invoke G t isClass x r ps s = Some (IDone (inr (Err (S_ "No such Method!"))), s).
Proof. intros C. unfold proxy_invoke. assert (proxy_pick isClass x = chosen isClass x) as -> by (unfold proxy_pick, chosen; destruct isClass, (x_static x), (x_member x); reflexivity). rewrite C. reflexivity. Qed.
(** What the chosen method is: of the right kind, in the class or an ancestor, with that name and signature *)
Theorem C68_chosen G s cl nm sg x isClass m : looked_up G s cl nm sg x -> chosen isClass x = Some m ->
  finds_method G s isClass false nm sg cl (Some m) \/
  (finds_method G s isClass false nm sg cl None /\ finds_method G s false true nm sg cl (Some m)).
Proof.
  intros (A & B & C). destruct x as [a b c]. simpl in *. unfold chosen. simpl.
  destruct isClass, b, a; intros E; subst; try discriminate; try (injection E as ->); auto.
Qed.
(** ... and if nothing is chosen there is none. *)
Theorem C68_none G s cl nm sg x isClass : looked_up G s cl nm sg x -> chosen isClass x = None -> finds_method G s isClass false nm sg cl None.
Proof.
  intros (A & B & C). destruct x as [a b c]. simpl in *. unfold chosen. simpl. destruct isClass, b, a; intros E; subst; try discriminate; auto.
Qed.
(** As a condition the result says whether there is a method to call, ... *)
Theorem C68_condition_partial x : ~ (x_member x <> None /\ x_static x <> None) ->
  (proxy_bool x = true <-> callable x).
Proof.
  destruct x as [a b c]. simpl. intros N. unfold proxy_bool, callable, chosen. simpl. split.
  - destruct a as [m|], b as [n|], c as [k|]; simpl; try discriminate; intros _; try (exfalso; apply N; split; discriminate);
      first [exists true; eexists; reflexivity|exists false; eexists; reflexivity].
  - intros (isClass & m & E). destruct a, b, c, isClass; simpl in *; try discriminate; auto; exfalso; apply N; split; discriminate.
Qed.
Theorem C68_pointer_partial x : ~ (x_member x <> None /\ x_static x <> None) ->
  exists m, proxy_ptr x = inl m /\ (m <> None <-> callable x) /\ forall n, m = Some n -> x_member x = Some n \/ x_static x = Some n \/ x_native x = Some n.
Proof.
  destruct x as [a b c]. simpl. intros N. unfold proxy_ptr, callable, chosen. simpl. destruct a as [m|], b as [n|]; [exfalso; apply N; split; discriminate| | |].
  - exists (Some m). split; auto. split; [|auto]. split; [intros _; exists false, m; auto|discriminate].
  - exists (Some n). split; auto. split; [|auto]. split; [intros _; exists true, n; auto|discriminate].
  - exists c. split; auto. split; [|auto]. split; [destruct c as [k|]; [intros _; exists true, k; auto|congruence]|intros (isClass & m & E); destruct isClass; congruence].
Qed.
(** ... except when the class has both a static and an instance method of that name and signature: although both can be called, the condition is false
    and the conversion to a pointer throws. *)
Theorem C68_both x m n : x_member x = Some m -> x_static x = Some n -> x_native x = None ->
  chosen true x = Some n /\ chosen false x = Some m /\ proxy_bool x = false /\
  proxy_ptr x = inr (Err (S_ "Fake-jni Api Bug, both static and non static functions found")).
Proof. destruct x as [a b c]. simpl. intros -> -> ->. auto. Qed.

(** ** C69 Jvm::start *)
Section Start.
Variables (G : cfg) (t : tid) (t0 : tid).
Lemma push_eq s : solid G s -> attached s t ->
  exists e e', get_env s t = Some e /\ step G t (PushLocalFrame_ 0) s = Some (OVal (RInt 0), penv s t e') /\
    e_frames e' = [] :: e_frames e /\ e_id e' = e_id e /\ e_exc e' = e_exc e /\ e_calls e' = e_calls e.
Proof.
  intros So (e & E). pose proof (so_good So) as Gs. pose proof (good_wf Gs) as W.
  set (e' := match e_free e with [] => env_frames e ([] :: e_frames e) | f :: r => env_free (env_frames e (f :: e_frames e)) r end).
  assert (e_frames e' = [] :: e_frames e /\ e_id e' = e_id e /\ e_exc e' = e_exc e /\ e_calls e' = e_calls e /\ forall i, In i (env_roots e) <-> In i (env_roots e')) as (Ef & I1 & I2 & I3 & R).
  { unfold e', env_roots. destruct (e_free e) as [|f r] eqn:Fr; simpl; (split; [|split; [|split; [|split]]]); auto; try (intros i; rewrite ?Fr; simpl; tauto).
    2: assert (f = []) as -> by (apply (ei_free (so_env So E)); rewrite Fr; simpl; auto); intros i; rewrite ?Fr; simpl; tauto.
    assert (f = []) as -> by (apply (ei_free (so_env So E)); rewrite Fr; simpl; auto). reflexivity. }
  assert (frame_push t s = Ret tt (penv s t e')) as Fp.
  { unfold frame_push, upd_env, bind at 1, the_env. rewrite E. apply put_env_eq. apply env_ok_intro.
    - intros i Hi. eapply env_live; eauto. apply R. auto.
    - intros i. fold e'. rewrite I2. intros Hi. eapply env_exc_throw; eauto. }
  assert (body G t (PushLocalFrame_ 0) s = Ret (RInt 0) (penv s t e')) as B.
  { simpl. unfold as_int, bind at 1, PushLocalFrame, bind at 1. rewrite Fp. reflexivity. }
  exists e, e'. split; auto. split; [|auto]. unfold step. rewrite run_attached, B by (exists e; auto).
  rewrite tidy_finish_id; auto. apply (tidy_env W E (fun i => proj1 (R i))). apply Gs.
Qed.
Lemma pop_eq s e r : good G s -> get_env s t = Some e -> e_frames e = [] :: r -> pop G t s = Some (penv s t (unframed e r)).
Proof.
  intros Gs E Ef. pose proof (good_wf Gs) as W. set (s1 := penv s t (unframed e r)). assert (with_tmp s [] = s) as Tm by (apply with_tmp_same; apply Gs).
  assert (collect s1 = finish s1) as Fc by (unfold finish; rewrite with_tmp_same; auto; apply Gs).
  assert (finish s1 = s1) as F.
  { apply tidy_finish_id. apply (tidy_env W E); [|apply Gs]. intros i. unfold env_roots, unframed. rewrite Ef. simpl. destruct r; simpl; auto. }
  assert (step G t (PopLocalFrame_ None) s = Some (OVal (RRef None), s1)) as St.
  { unfold step. rewrite run_attached by (exists e; auto). simpl. unfold as_ref, bind at 1, PopLocalFrame, bind at 1. rewrite (jnicast_obj G W (h := None) (r := None) eq_refl).
    unfold bind at 1. unfold set_tmp, bind at 1, live_all, check. simpl. unfold bind at 1. rewrite Tm.
    rewrite (frame_pop_eq W E Ef). fold s1. rewrite Fc. unfold ret. rewrite !F. reflexivity. }
  unfold pop. rewrite St. reflexivity.
Qed.
Lemma view_of s s' e e' fs : get_env s t = Some e -> get_env s' t = Some e' -> s_heap s' = s_heap s -> (forall Y, registered s' Y = registered s Y) -> s_globals s' = s_globals s -> s_ext s' = s_ext s ->
  (forall u, u <> t -> get_env s' u = get_env s u) -> e_frames e' = fs -> e_id e' = e_id e -> e_exc e' = e_exc e -> e_calls e' = e_calls e ->
  gained t fs (s_globals s) (s_ext s) s s' /\ (forall i, contents s' i = contents s i) /\ (forall i, live s' i = live s i).
Proof.
  intros E E' H T Gl X O F I1 I2 I3. split; [|split].
  - constructor; auto.
    + unfold frames. rewrite E'. exact F.
    + constructor; auto; unfold pending, running; rewrite E, E'; simpl; congruence.
    + intros i L. apply intact_heap; auto.
  - intros i. unfold contents, lookup. rewrite H. reflexivity.
  - intros i. unfold live, lookup. rewrite H. reflexivity.
Qed.
Lemma try_class c x s : solid G s -> attached s t -> mains G s c x ->
  exists sP s1 s2, step G t (PushLocalFrame_ 0) s = Some (OVal (RInt 0), sP) /\
    step G t (UGetMethod_ c main_sig main_name) sP = Some (OVal (RTriple (x_member x) (x_static x) (x_native x)), s1) /\
    solid G s1 /\ attached s1 t /\ gained t ([] :: frames s t) (s_globals s) (s_ext s) s s1 /\ (forall i, contents s1 i = contents s i) /\ (forall i, live s1 i = live s i) /\
    pop G t s1 = Some s2 /\ solid G s2 /\ attached s2 t /\ same_view t s s2.
Proof.
  intros R A Mx. destruct (@push_eq s R A) as (e & e' & E & St & Ef & I1 & I2 & I3). set (sP := penv s t e') in *.
  assert (solid G sP) as RP by (eapply step_solid; eauto). assert (get_env sP t = Some e') as EP by (unfold sP; rewrite get_env_penv, Nat.eqb_refl; reflexivity).
  assert (attached sP t) as AP by (exists e'; auto).
  assert (mains G sP c x) as MP by (unfold mains in *; apply (@sm_looked_up G s sP); auto). pose proof MP as ((L & D & _) & _).
  destruct (@looked_up_good G sP t c L main_name main_sig (so_good RP) AP D) as (y & s1 & Eg & Ly & Sb). { vm_compute. discriminate. }
  assert (y = x) as -> by (eapply looked_up_fun; eauto). destruct Sb as (Sb & Tb).
  assert (get_env s1 t = Some e') as E1 by (rewrite Sb; exact EP).
  assert (solid G s1) as R1 by (eapply step_solid; eauto). assert (attached s1 t) as A1 by (exists e'; auto).
  assert (forall u, u <> t -> get_env s1 u = get_env s u) as O1. { intros u Nu. rewrite Sb. change (get_env (with_types sP (s_types s1)) u) with (get_env sP u). unfold sP. rewrite get_env_penv. destruct (Nat.eqb_spec t u); congruence. }
  destruct (@view_of s s1 e e' ([] :: frames s t) E E1) as (V1 & V2 & V3); auto; try (rewrite Sb; reflexivity); [rewrite (frames_env E); exact Ef|].
  pose proof (@pop_eq s1 e' (e_frames e) (so_good R1) E1 Ef) as Ep. set (e2 := unframed e' (e_frames e)) in *. set (s2 := penv s1 t e2) in *.
  assert (solid G s2) as R2. { unfold pop in Ep. destruct (step G t (PopLocalFrame_ None) s1) as [[v s']|] eqn:Es; [|discriminate]. injection Ep as <-. eapply step_solid; eauto. }
  assert (get_env s2 t = Some e2) as E2 by (unfold s2; rewrite get_env_penv, Nat.eqb_refl; reflexivity).
  exists sP, s1, s2. repeat (split; [assumption|]). split; [exists e2; exact E2|].
  apply (@view_of s s2 e e2 (frames s t)); auto; try (unfold s2; rewrite Sb; reflexivity).
  - intros u Nu. unfold s2. rewrite get_env_penv. destruct (Nat.eqb_spec t u); [congruence|auto].
  - rewrite (frames_env E). unfold e2, unframed. simpl. destruct (wf_env_ok (good_wf (so_good R)) E) as (_ & Nn & _). destruct (e_frames e); congruence.
Qed.
Lemma start_step Y args c rest x s : solid G s -> attached s t -> mains G s c x ->
  exists s1 s2, solid G s1 /\ attached s1 t /\ gained t ([] :: frames s t) (s_globals s) (s_ext s) s s1 /\ (forall i, contents s1 i = contents s i) /\ (forall i, live s1 i = live s i) /\
    solid G s2 /\ attached s2 t /\ same_view t s s2 /\
    start G t Y args (c :: rest) s =
      match proxy_ptr x with
      | inr e => Some (IDone (inr e), s2)
      | inl None => start G t Y args rest s2
      | inl (Some _) => match chosen true x with
                        | None => Some (IDone (inr no_such_method), s2)
                        | Some m => match invoke G t true c m [CObj Y args] s1 with Some (IDone r, s3) => popped r (pop G t s3) | z => z end
                        end
      end.
Proof.
  intros R A M. destruct (try_class R A M) as (sP & s1 & s2 & E1 & E2 & R1 & A1 & G1 & C1 & L1 & Ep & R2 & A2 & V). exists s1, s2. repeat (split; [assumption|]).
  cbn [start]. rewrite E1, E2. assert (mkProxy (x_member x) (x_static x) (x_native x) = x) as -> by (destruct x; reflexivity).
  destruct (proxy_ptr x) as [[m|]|e]; [|rewrite Ep; reflexivity|rewrite Ep; reflexivity].
  destruct (chosen true x) as [n|] eqn:Ch; [rewrite (C68_invoke _ _ _ _ _ Ch); reflexivity|]. rewrite (C68_missing _ _ _ _ _ Ch), Ep. reflexivity.
Qed.
Lemma same_view_refl s : same_view t s s.
Proof. split; [|split; reflexivity]. constructor; auto; [constructor; auto|]. intros i L. apply intact_heap; auto. Qed.
Lemma same_view_trans a b c : same_view t a b -> same_view t b c -> same_view t a c.
Proof.
  intros (A & B & C) (A' & B' & C'). split; [|split; [intros i; rewrite B'; auto|intros i; rewrite C'; auto]].
  destruct A as [a1 a2 a3 a4 a5], A' as [b1 b2 b3 b4 b5]. constructor; try congruence.
  - destruct a4 as [x1 x2 x3 x4 x5], b4 as [y1 y2 y3 y4 y5]. constructor; try congruence; intros; rewrite y2, x2 by auto; reflexivity.
  - intros i L. eapply intact_trans; [apply a5; auto|apply b5]. rewrite C. auto.
Qed.
Lemma start_skip Y args pre : forall rest s, solid G s -> attached s t -> Forall (no_main_in G s) pre ->
  exists s', solid G s' /\ attached s' t /\ same_view t s s' /\ start G t Y args (pre ++ rest) s = start G t Y args rest s'.
Proof.
  induction pre as [|c pre IH]; intros rest s R A F.
  - exists s. split; [exact R|]. split; [exact A|]. split; [apply same_view_refl|reflexivity].
  - inversion F as [|? ? F1 F2]; subst. cbn [app]. destruct (@start_step Y args c (pre ++ rest) _ s R A F1) as (s1 & s2 & _ & _ & _ & _ & _ & R2 & A2 & V & E).
    cbn [proxy_ptr x_member x_static x_native chosen no_main_in] in E. destruct (IH rest s2 R2 A2) as (s3 & R3 & A3 & V3 & E3).
    + eapply Forall_impl; [|exact F2]. intros d. unfold no_main_in, mains. apply sm_looked_up; [apply V|apply V].
    + exists s3. split; auto. split; auto. split; [eapply same_view_trans; eauto|]. rewrite E. exact E3.
Qed.

(** No class has a method main: an exception, and nothing has changed. *)
Theorem C69_none Y args order s : reachable G t0 s -> attached s t -> Forall (no_main_in G s) order ->
  exists s', start G t Y args order s = Some (IDone (inr (Err (S_ "main with [Ljava/lang/String;)V not found in any class!"))), s') /\ same_view t s s'.
Proof.
  intros R A F. apply reachable_solid in R. destruct (@start_skip Y args order [] s R A F) as (s' & _ & _ & V & E). rewrite app_nil_r in E. exists s'. split; [rewrite E; reflexivity|exact V].
Qed.
(** The first class, in the order of the iteration, that has a method main and where it is static and hooked: its hook runs with the arguments, in a new
    frame; classes before it leave no trace, and classes after it do not matter. *)
Lemma runs_solid Y args pre c post m x hd s : solid G s -> numbered G -> attached s t -> passable G s (CObj Y args) -> Forall (no_main_in G s) pre ->
  mains G s c (mkProxy None (Some m) None) -> method_at s m = Some x -> m_handle x = Some hd -> h_kind hd = KStatic -> h_ret hd = RVoid ->
  exists s1 s2, gained t (add_locals ([] :: frames s t) (c :: objects [CObj Y args])) (s_globals s) (c :: objects [CObj Y args] ++ s_ext s) s s1 /\
    now_running t (mkCall RVoid true (h_id hd) [c]) s1 s2 /\ frames s2 t = frames s1 t /\
    start G t Y args (pre ++ c :: post) s = Some (IHook RVoid (h_id hd) (Some c) [ArgL args], s2).
Proof.
  intros R N A Pa F M Mm Hh Hk Hr. destruct (@start_skip Y args pre (c :: post) s R A F) as (s0 & R0 & A0 & V0 & E0).
  assert (mains G s0 c (mkProxy None (Some m) None)) as M0 by (unfold mains in *; apply (@sm_looked_up G s s0); auto; apply V0).
  destruct (@start_step Y args c post _ s0 R0 A0 M0) as (s1 & s2 & R1 & A1 & G1 & C1 & L1 & R2 & A2 & V & E). cbn [proxy_ptr x_member x_static x_native chosen no_main_in] in E.
  destruct V0 as (G0 & C0 & L0).
  assert (method_at s1 m = Some x) as M1 by (unfold method_at in *; rewrite C1, C0; exact Mm).
  assert (is_method s true false main_name main_sig m) as (x' & X1 & X2 & X3 & X4 & X5).
  { destruct M as (_ & (L & _ & Fi) & _). simpl in Fi. apply first_in_In in Fi. tauto. }
  assert (x' = x) as -> by congruence. assert (m_native x = None) as Nn by (destruct (m_native x); auto; destruct X5 as (X5 & _); discriminate X5; discriminate).
  assert (returns (m_sig x) (h_ret hd)) as Rt. { rewrite X3, Hr. exists "V", []. split; [|constructor]. split; [vm_compute; intuition discriminate|]. right. exists (S_ "([Ljava/lang/String;"). reflexivity. }
  assert (receiver true s1 c) as Rc. { destruct M0 as ((L & D & _) & _). inversion D as [? ? Cc _ _]; subst. unfold class_at in Cc. rewrite <- C1 in Cc. destruct (contents s1 c) as [[]|] eqn:Ec; try congruence. eexists. exact Ec. }
  assert (Forall (passable G s1) [CObj Y args]) as P1.
  { constructor; [|constructor]. revert Pa. apply passable_same; intros i; [rewrite C1; apply C0|rewrite L1; apply L0]. }
  destruct (@static_good G t c m x hd [CObj Y args] s1 (so_good R1) N A1 Rc M1 Nn Hh Hk Rt P1) as (s3 & s4 & Gn & Nr & Fr & Ei).
  exists s3, s4. rewrite Hr in *. split; [|split; [exact Nr|split; [exact Fr|rewrite E0, E, Ei; reflexivity]]].
  assert (rev (objects [CObj Y args]) = objects [CObj Y args]) as Rv by (destruct args; reflexivity). rewrite Rv in Gn.
  destruct Gn as [g1 g2 g3 g4 g5], G1 as [h1 h2 h3 h4 h5], G0 as [k1 k2 k3 k4 k5]. constructor.
  - rewrite g1, h1, k1. reflexivity.
  - congruence.
  - rewrite g3, h3, k3. reflexivity.
  - destruct g4 as [x1 x2 x3 x4 x5], h4 as [y1 y2 y3 y4 y5], k4 as [z1 z2 z3 z4 z5]. constructor; try congruence; intros; rewrite x2, y2, z2 by auto; reflexivity.
  - intros i L. eapply intact_trans; [apply k5; auto|]. eapply intact_trans; [apply h5; rewrite L0; auto|]. apply g5. rewrite L1, L0. auto.
Qed.
Theorem C69_runs Y args pre c post m x hd s : reachable G t0 s -> numbered G -> attached s t -> passable G s (CObj Y args) -> Forall (no_main_in G s) pre ->
  mains G s c (mkProxy None (Some m) None) -> method_at s m = Some x -> m_handle x = Some hd -> h_kind hd = KStatic -> h_ret hd = RVoid ->
  exists s1 s2, gained t (add_locals ([] :: frames s t) (c :: objects [CObj Y args])) (s_globals s) (c :: objects [CObj Y args] ++ s_ext s) s s1 /\
    now_running t (mkCall RVoid true (h_id hd) [c]) s1 s2 /\ frames s2 t = frames s1 t /\
    start G t Y args (pre ++ c :: post) s = Some (IHook RVoid (h_id hd) (Some c) [ArgL args], s2).
Proof. intros R. apply runs_solid. exact (reachable_solid R). Qed.
(** A registered native function [main]: likewise *)
Lemma native_solid Y args pre c post m x fn s : solid G s -> numbered G -> attached s t -> passable G s (CObj Y args) -> Forall (no_main_in G s) pre ->
  mains G s c (mkProxy None None (Some m)) -> method_at s m = Some x -> m_native x = Some fn ->
  exists s1, gained t (add_locals ([] :: frames s t) (c :: objects [CObj Y args])) (s_globals s) (c :: objects [CObj Y args] ++ s_ext s) s s1 /\
    start G t Y args (pre ++ c :: post) s = Some (INative fn RVoid (Some c) [ArgL args], s1).
Proof.
  intros R N A Pa F M Mm Hn. destruct (@start_skip Y args pre (c :: post) s R A F) as (s0 & R0 & A0 & V0 & E0).
  assert (mains G s0 c (mkProxy None None (Some m))) as M0 by (unfold mains in *; apply (@sm_looked_up G s s0); auto; apply V0).
  destruct (@start_step Y args c post _ s0 R0 A0 M0) as (s1 & s2 & R1 & A1 & G1 & C1 & L1 & R2 & A2 & V & E). cbn [proxy_ptr x_member x_static x_native chosen no_main_in] in E.
  destruct V0 as (G0 & C0 & L0).
  assert (method_at s1 m = Some x) as M1 by (unfold method_at in *; rewrite C1, C0; exact Mm).
  assert (is_method s false true main_name main_sig m) as (x' & X1 & X2 & X3 & X4 & X5).
  { destruct M as (_ & _ & (L & _ & Fi)). apply first_in_In in Fi. tauto. }
  assert (x' = x) as -> by congruence.
  assert (returns (m_sig x) RVoid) as Rt. { rewrite X3. exists "V", []. split; [|constructor]. split; [vm_compute; intuition discriminate|]. right. exists (S_ "([Ljava/lang/String;"). reflexivity. }
  assert (receiver true s1 c) as Rc. { destruct M0 as ((L & D & _) & _). inversion D as [? ? Cc _ _]; subst. unfold class_at in Cc. rewrite <- C1 in Cc. destruct (contents s1 c) as [[]|] eqn:Ec; try congruence. eexists. exact Ec. }
  assert (Forall (passable G s1) [CObj Y args]) as P1.
  { constructor; [|constructor]. revert Pa. apply passable_same; intros i; [rewrite C1; apply C0|rewrite L1; apply L0]. }
  destruct (@native_good G t true c m x fn RVoid [CObj Y args] s1 (so_good R1) N A1 Rc M1 Hn Rt P1) as (s3 & Ei & Lv & Gn).
  exists s3. split; [|rewrite E0, E, Ei; reflexivity].
  assert (rev (objects [CObj Y args]) = objects [CObj Y args]) as Rv by (destruct args; reflexivity). rewrite Rv in Gn.
  destruct Gn as [g1 g2 g3 g4 g5], G1 as [h1 h2 h3 h4 h5], G0 as [k1 k2 k3 k4 k5]. constructor.
  - rewrite g1, h1, k1. reflexivity.
  - congruence.
  - rewrite g3, h3, k3. reflexivity.
  - destruct g4 as [x1 x2 x3 x4 x5], h4 as [y1 y2 y3 y4 y5], k4 as [z1 z2 z3 z4 z5]. constructor; try congruence; intros; rewrite x2, y2, z2 by auto; reflexivity.
  - intros i L. eapply intact_trans; [apply k5; auto|]. eapply intact_trans; [apply h5; rewrite L0; auto|]. apply g5. rewrite L1, L0. auto.
Qed.
Theorem C69_native Y args pre c post m x fn s : reachable G t0 s -> numbered G -> attached s t -> passable G s (CObj Y args) -> Forall (no_main_in G s) pre ->
  mains G s c (mkProxy None None (Some m)) -> method_at s m = Some x -> m_native x = Some fn ->
  exists s1, gained t (add_locals ([] :: frames s t) (c :: objects [CObj Y args])) (s_globals s) (c :: objects [CObj Y args] ++ s_ext s) s s1 /\
    start G t Y args (pre ++ c :: post) s = Some (INative fn RVoid (Some c) [ArgL args], s1).
Proof. intros R. apply native_solid. exact (reachable_solid R). Qed.
(** The first class with a method main has it as an instance method, or both: an exception and nothing has changed, whatever other classes have. *)
Theorem C69_instance Y args pre c post m x s : reachable G t0 s -> attached s t -> Forall (no_main_in G s) pre -> mains G s c x -> x_member x = Some m ->
  exists s', same_view t s s' /\ start G t Y args (pre ++ c :: post) s = Some (IDone (inr (Err (if x_static x then
    S_ "Fake-jni Api Bug, both static and non static functions found" else S_ "No such Method!"))), s').
Proof.
  intros R A F M Xm. apply reachable_solid in R. destruct (@start_skip Y args pre (c :: post) s R A F) as (s0 & R0 & A0 & V0 & E0).
  assert (mains G s0 c x) as M0 by (unfold mains in *; apply (@sm_looked_up G s s0); auto; apply V0).
  destruct (@start_step Y args c post _ s0 R0 A0 M0) as (s1 & s2 & R1 & A1 & G1 & C1 & L1 & R2 & A2 & V & E).
  exists s2. split; [eapply same_view_trans; eauto|]. rewrite E0, E. destruct x as [a b n]. simpl in *. subst a. destruct b; [reflexivity|].
  destruct M as (_ & _ & Nn). simpl in Nn. subst n. reflexivity.
Qed.
(** The end of main: the caller of start gets the pending exception if there is one; the arguments, the class and the frame are let go. *)
Theorem C69_end c Y args s : reachable G t0 s -> attached s t ->
  exists x s1 s2, outcome t VUnit s x /\ let_go t (c :: objects [CObj Y args]) s s1 /\ released t (below (frames s t)) (s_globals s1) (s_ext s1) s1 s2 /\
    start_end G t c Y args s = Some (x, s2) /\ pending s2 t = pending s t.
Proof.
  intros R A. destruct (@C67_end G t0 t (held_by c [CObj Y args]) VUnit s R A) as (x & s1 & E & R1 & Oc & Lg & Pd & Fr).
  assert (attached s1 t) as A1. { destruct (let_go_calm Lg) as (C & _). destruct A as (e & Ge). pose proof (cm_envid C) as Ei. rewrite Ge in Ei. destruct (get_env s1 t) as [e'|] eqn:Ge'; [exists e'; auto|discriminate]. }
  destruct (@PopLocalFrame_step G t None None s1 (reachable_good R1) A1 eq_refl) as (s2 & _ & St & Rl). exists x, s1, s2. split; auto.
  split; [destruct args; exact Lg|]. rewrite Fr in Rl. split; [exact Rl|]. unfold start_end. rewrite E. unfold pop. rewrite St. split; [reflexivity|].
  rewrite (cm_pending (rl_calm Rl)). exact Pd.
Qed.
End Start.

(** ** Cases *)
Definition mn : str := S_ "main".
Definition msg_ : str := S_ "([Ljava/lang/String;)V".
(** 9, 10: classes A and B; 11, 12: their static methods main, hooked; 13: class C with 14, an instance method main; 15: class D with a native main 16;
    17: class E with both, 18 and 19; 21: an array. *)
Definition ex_mains : list event :=
  [(main, UBind_ 5 true (S_ "A")); (main, UBind_ 6 true (S_ "B"));
   (main, UHookMethod_ 9 true mn msg_ (mkHandle 7 KStatic RVoid false)); (main, UHookMethod_ 10 true mn msg_ (mkHandle 8 KStatic RVoid false));
   (main, UBind_ 7 true (S_ "C")); (main, UHookMethod_ 13 false mn msg_ (mkHandle 9 KInst RVoid false));
   (main, UBind_ 8 true (S_ "D")); (main, RegisterNatives_ (Some 15) [(mn, msg_, Some 3)] 1);
   (main, UBind_ 9 true (S_ "E")); (main, UHookMethod_ 17 false mn msg_ (mkHandle 10 KInst RVoid false)); (main, UHookMethod_ 17 true mn msg_ (mkHandle 11 KStatic RVoid false));
   (main, NewObjectArray_ 1 (Some 2) None)].
Notation sx := (after Gd ex_mains).
Lemma ex_mains_reachable : reachable Gd main sx.
Proof. apply after_reachable. vm_compute. reflexivity. Qed.
Lemma ex_mains_attached : attached sx main.
Proof. eexists. vm_compute. reflexivity. Qed.
Definition found_mains (s : st) (c : oid) : option proxy :=
  match step Gd main (UGetMethod_ c msg_ mn) s with Some (OVal (RTriple a b n), _) => Some (mkProxy a b n) | _ => None end.
Lemma found_mains_by s c L x : reachable Gd main s -> attached s main -> dfs Gd s c L -> found_mains s c = Some x -> mains Gd s c x.
Proof.
  intros R A D E. destruct (@C68_getMethod Gd main s main c L mn msg_ R A D) as (y & s' & St & Lk & _); [vm_compute; discriminate|].
  unfold found_mains in E. rewrite St in E. injection E as <-. destruct y. exact Lk.
Qed.
Lemma ex_mains_dfs : dfs Gd sx 9 [9] /\ dfs Gd sx 10 [10] /\ dfs Gd sx 13 [13] /\ dfs Gd sx 15 [15] /\ dfs Gd sx 17 [17] /\ dfs Gd sx 0 [0].
Proof.
  assert (forall c L M, dfs Gd sx c L -> L = M -> dfs Gd sx c M) as K by (intros; subst; auto).
  split; [|split; [|split; [|split; [|split]]]]; (eapply K; [dfs_tac|reflexivity]).
Qed.
Local Opaque after.
Example C68_ex : mains Gd sx 9 (mkProxy None (Some 11) None) /\ mains Gd sx 10 (mkProxy None (Some 12) None) /\ mains Gd sx 13 (mkProxy (Some 14) None None) /\
  mains Gd sx 15 (mkProxy None None (Some 16)) /\ mains Gd sx 17 (mkProxy (Some 18) (Some 19) None) /\ no_main_in Gd sx 0.
Proof.
  destruct ex_mains_dfs as (D1 & D2 & D3 & D4 & D5 & D6).
  split; [|split; [|split; [|split; [|split]]]]; (eapply found_mains_by; [exact ex_mains_reachable|exact ex_mains_attached|eassumption|vm_compute; reflexivity]).
Qed.
(** "A condition on the result says whether there is a method to call" is false *)
Theorem C68_refuted : exists s c x m, reachable Gd main s /\ looked_up Gd s c mn msg_ x /\ callable x /\ proxy_bool x = false /\ (exists e, proxy_ptr x = inr e) /\ chosen true x = Some m /\
  of_run (proxy_invoke Gd main true x c [CObj TObject None] s) = Some (IHook RVoid 11 (Some c) [ArgL None]).
Proof.
  exists sx, 17, (mkProxy (Some 18) (Some 19) None), 19. split; [apply ex_mains_reachable|]. split; [exact (proj1 (proj2 (proj2 (proj2 (proj2 C68_ex)))))|]. split; [exists true, 19; reflexivity|].
  split; [reflexivity|]. split; [eexists; reflexivity|]. split; [reflexivity|vm_compute; reflexivity].
Qed.
Example C69_ex_args : passable Gd sx (CObj (TArr None) (Some 21)) /\ Forall (no_main_in Gd sx) [0].
Proof.
  split; [|constructor; [exact (proj2 (proj2 (proj2 (proj2 (proj2 C68_ex)))))|constructor]]. split; [eapply den_obj; [vm_compute; reflexivity|vm_compute; discriminate|vm_compute; discriminate]|].
  eapply ht_arr. vm_compute. reflexivity.
Qed.
Example C69_ex_runs : of_run (start Gd main (TArr None) (Some 21) [0; 10; 9] sx) = Some (IHook RVoid 8 (Some 10) [ArgL (Some 21)]) /\
  of_run (start Gd main (TArr None) (Some 21) [0; 15; 9] sx) = Some (INative 3 RVoid (Some 15) [ArgL (Some 21)]) /\
  of_run (start Gd main (TArr None) (Some 21) [0] sx) = Some (IDone (inr no_main)).
Proof. split; [|split]; vm_compute; reflexivity. Qed.
(** "If a class has a static method main, start runs it" is false: the outcome depends on the order of the iteration over the classes. *)
Theorem C69_refuted : exists s a b, reachable Gd main s /\ Permutation a b /\ mains Gd s 9 (mkProxy None (Some 11) None) /\ In 9 a /\
  of_run (start Gd main (TArr None) (Some 21) a s) = Some (IHook RVoid 7 (Some 9) [ArgL (Some 21)]) /\
  of_run (start Gd main (TArr None) (Some 21) b s) = Some (IDone (inr (Err (S_ "No such Method!")))) /\
  exists c, Permutation a c /\ of_run (start Gd main (TArr None) (Some 21) c s) = Some (IHook RVoid 8 (Some 10) [ArgL (Some 21)]).
Proof.
  exists sx, [9; 10; 13], [13; 9; 10]. split; [apply ex_mains_reachable|]. split; [apply (Permutation_middle [9; 10] [] 13) || (apply Permutation_sym, (Permutation_middle [9; 10] [] 13))|].
  split; [exact (proj1 C68_ex)|]. split; [simpl; auto|]. split; [vm_compute; reflexivity|]. split; [vm_compute; reflexivity|].
  exists [10; 9; 13]. split; [apply perm_swap|vm_compute; reflexivity].
Qed.

Print Assumptions C68_getMethod.
Print Assumptions C68_invoke.
Print Assumptions C68_missing.
Print Assumptions C68_chosen.
Print Assumptions C68_none.
Print Assumptions C68_condition_partial.
Print Assumptions C68_pointer_partial.
Print Assumptions C68_both.
Print Assumptions C68_refuted.
Print Assumptions C69_none.
Print Assumptions C69_runs.
Print Assumptions C69_native.
Print Assumptions C69_instance.
Print Assumptions C69_end.
Print Assumptions C69_refuted.
