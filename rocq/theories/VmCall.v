(** Calls, hooks and pending exceptions: exact effects. *)
From Verif Require Import Base BaseProofs SigModel VmState VmModel VmStep VmSpec MemSpec CallSpec VmBase VmFrame VmWf VmPrim VmInv VmReg
  VmFine VmRegInv VmExact VmQuiet VmClass VmMember VmMember2 VmMember3 VmTables VmHook VmMemHist VmEnvInv.
Set Implicit Arguments.
Unset Strict Implicit.
Local Open Scope vm_scope.

Lemma und_spares t s s' : undisturbed t s s' -> spares (fun _ => False) t s s'.
Proof. intros []. constructor; auto. Qed.
Lemma spares_trans (X Y : oid -> Prop) t a b c : spares X t a b -> spares Y t b c -> (forall i, Y i -> live a i = true -> X i) -> spares X t a c.
Proof.
  intros A B H. constructor.
  - intros i L N. pose proof (sp_obj A L N) as I1. eapply intact_trans; [exact I1|]. apply (sp_obj B); [eapply intact_live; eauto|eauto].
  - rewrite (sp_globals B). apply A.
  - rewrite (sp_ext B). apply A.
  - intros T. rewrite (sp_types B). apply A.
  - intros u Nu. rewrite (sp_others B) by auto. apply A; auto.
  - rewrite (sp_envid B). apply A.
Qed.
Lemma spares_refl X t s : spares X t s s.
Proof. constructor; auto. intros. apply intact_refl. auto. Qed.

(** ** Replacing the environment *)
Lemma env_ok_intro s e : (forall i, In i (env_roots e) -> live s i = true) -> (forall i, e_exc e = Some i -> is_throw s i = true) -> env_ok s e = true.
Proof.
  intros A B. unfold env_ok. rewrite !andb_true_iff, !forallb_In. split; auto. intros x Hx. destruct (e_exc e); simpl in Hx; [|tauto].
  destruct Hx as [<-|[]]. auto.
Qed.
Lemma env_live s t e i : wf s -> get_env s t = Some e -> In i (env_roots e) -> live s i = true.
Proof. intros W E H. eapply wf_live; eauto. eapply env_root; eauto. Qed.
Lemma env_exc_throw s t e i : wf s -> get_env s t = Some e -> e_exc e = Some i -> is_throw s i = true.
Proof.
  intros W E H. destruct (wf_env_ok W E) as (O & _). unfold env_ok in O. rewrite andb_true_iff, !forallb_In in O. apply O. rewrite H. simpl. auto.
Qed.
Lemma put_env_eq s t e : env_ok s e = true -> put_env t e s = Ret tt (penv s t e).
Proof. intros O. unfold put_env, bind, check. rewrite O. reflexivity. Qed.
Lemma penv_wf s t e e' : wf s -> get_env s t = Some e -> env_ok s e' = true -> e_frames e' <> [] -> e_id e' = e_id e -> wf (penv s t e').
Proof.
  intros W E O F I. apply wf_envs_aset; auto.
  - intros e0 H. rewrite E in H. inversion H; subst. auto.
  - rewrite E. discriminate.
Qed.
Lemma frames_penv s t e : frames (penv s t e) t = e_frames e.
Proof. unfold frames. rewrite get_env_penv, Nat.eqb_refl. reflexivity. Qed.
Lemma pending_penv s t e : pending (penv s t e) t = e_exc e.
Proof. unfold pending. rewrite get_env_penv, Nat.eqb_refl. reflexivity. Qed.
Lemma running_penv s t e : running (penv s t e) t = e_calls e.
Proof. unfold running. rewrite get_env_penv, Nat.eqb_refl. reflexivity. Qed.
Lemma lookup_heap s s' i : s_heap s' = s_heap s -> lookup s' i = lookup s i.
Proof. intros E. unfold lookup. rewrite E. reflexivity. Qed.
Lemma penv_spares X s t e e' : get_env s t = Some e -> e_id e' = e_id e -> spares X t s (penv s t e').
Proof.
  intros E I. constructor; auto.
  - intros i L _. apply intact_heap; auto.
  - intros u N. rewrite get_env_penv. destruct (Nat.eqb_spec t u); congruence.
  - rewrite get_env_penv, Nat.eqb_refl, E. simpl. congruence.
Qed.

(** what survives when the environment drops the leaves [X] *)
Lemma finish_penv (X Z : oid -> Prop) s t e e' : wf s -> tidy_but Z s -> get_env s t = Some e ->
  (forall i, In i (env_roots e) -> X i \/ In i (env_roots e')) -> (forall i, Z i -> In i (env_roots e')) ->
  (forall k o, X k -> lookup s k = Some o -> refs (o_pay o) = []) ->
  forall i, live s i = true -> ~ X i -> lookup (finish (penv s t e')) i = lookup s i.
Proof.
  intros W [T Ti] E R RZ Lf i L N.
  change (lookup s i) with (lookup (penv s t e') i). apply (@finish_closed (fun j => live s j = true /\ ~ X j) (penv s t e')); auto.
  intros j [Lj Nj]. destruct (Ti j Lj) as [H|H].
  - apply In_held in H. destruct H as [H|(k & o & Lk & H)].
    + left. apply In_roots. apply In_roots in H. destruct H as [H|[H|[H|[H|[(u & e0 & H & H')|H]]]]]; auto 10.
      right. right. right. right. left. assert (get_env s u = Some e0) as E0 by (apply (NoDup_aget Nat.eqb Nat.eqb_spec); auto; apply W).
      destruct (Nat.eq_dec t u) as [->|Nu].
      * exists u, e'. split.
        { apply (aget_In Nat.eqb Nat.eqb_spec). fold (get_env (penv s u e') u). rewrite get_env_penv, Nat.eqb_refl. auto. }
        rewrite E in E0. inversion E0; subst. destruct (R j H'); tauto.
      * exists u, e0. split; auto. apply (aget_In Nat.eqb Nat.eqb_spec). fold (get_env (penv s t e') u). rewrite get_env_penv. destruct (Nat.eqb_spec t u); congruence.
    + right. exists k, o. split; auto. split; [apply live_lookup; eauto|]. intros Xk. rewrite (Lf k o Xk Lk) in H. destruct H.
  - left. eapply env_root; [rewrite get_env_penv, Nat.eqb_refl; reflexivity|auto].
Qed.

(** ** A new running call *)
Definition calling (e : env) (k : call) : env := env_calls e (k :: e_calls e).
Lemma calling_roots e k i : In i (env_roots (calling e k)) <-> In i (env_roots e) \/ In i (k_held k).
Proof. unfold env_roots, calling. simpl. rewrite !in_app_iff. tauto. Qed.
Lemma call_push_eq s t e k : wf s -> get_env s t = Some e -> (forall i, In i (k_held k) -> is_cls s i = true) ->
  call_push t k s = Ret tt (penv s t (calling e k)).
Proof.
  intros W E H. unfold call_push, bind at 1, check. rewrite (proj2 (forallb_forall _ _)) by exact H. unfold upd_env, bind at 1, the_env. rewrite E. apply put_env_eq. apply env_ok_intro.
  - intros i Hi. change (env_calls e (k :: e_calls e)) with (calling e k) in Hi. apply calling_roots in Hi. destruct Hi; [eapply env_live; eauto|apply is_cls_live; auto].
  - intros i Hi. eapply env_exc_throw; eauto.
Qed.
Lemma calling_tidy s t e k : wf s -> tidy s -> get_env s t = Some e -> tidy (penv s t (calling e k)).
Proof. intros W T E. apply (tidy_env W E); auto. intros i Hi. apply calling_roots. auto. Qed.
Lemma calling_running s t e k : get_env s t = Some e -> now_running t k s (penv s t (calling e k)) /\ frames (penv s t (calling e k)) t = frames s t.
Proof.
  intros E. split; [|rewrite frames_penv; unfold frames; rewrite E; reflexivity]. split; [|split; [|split]].
  - rewrite running_penv. unfold running. rewrite E. reflexivity.
  - rewrite pending_penv. unfold pending. rewrite E. reflexivity.
  - intros i. apply live_heap. reflexivity.
  - apply (penv_spares _ E). reflexivity.
Qed.

(** ** A new pending exception *)
Definition thrown (s : VmState.st) (t : tid) (e : env) (x : exn) : VmState.st :=
  penv (add s (new_obj None (PThrow x))) t (env_exc e (Some (length (s_heap s)))).
Lemma add_wf s o : wf s -> obj_ok s o = true -> wf (add s o).
Proof. apply alloc_wf. Qed.
Lemma add_env s o t : get_env (add s o) t = get_env s t.
Proof. reflexivity. Qed.
Lemma live_add s o i : live (add s o) i = true <-> live s i = true \/ i = length (s_heap s).
Proof.
  unfold live. rewrite lookup_add. destruct (Nat.eqb_spec i (length (s_heap s))); [tauto|]. intuition.
Qed.
Lemma set_exc_eq s t e o : wf s -> get_env s t = Some e -> (forall i, o = Some i -> is_throw s i = true) ->
  set_exc t o s = Ret tt (penv s t (env_exc e o)).
Proof.
  intros W E H. unfold set_exc, upd_env, bind at 1, the_env. rewrite E. apply put_env_eq. apply env_ok_intro; auto.
  intros i. unfold env_roots. simpl. rewrite !in_app_iff. intros [K|[K|[K|K]]].
  - eapply env_live; eauto. unfold env_roots. rewrite !in_app_iff. auto.
  - eapply env_live; eauto. unfold env_roots. rewrite !in_app_iff. auto.
  - destruct o as [j|]; simpl in K; [|tauto]. destruct K as [<-|[]]. apply is_throw_live. auto.
  - eapply env_live; eauto. unfold env_roots. rewrite !in_app_iff. auto.
Qed.
Lemma set_pending_eq s t e x : wf s -> get_env s t = Some e -> set_pending t x s = Ret tt (thrown s t e x).
Proof.
  intros W E. unfold set_pending, bind at 1. rewrite (alloc_eq (s := s) (o := new_obj None (PThrow x))) by reflexivity.
  apply set_exc_eq; auto.
  - apply add_wf; auto.
  - intros i H. inversion H; subst. unfold is_throw. rewrite lookup_add_new. reflexivity.
Qed.
(** the end of an operation that set the pending exception to [o] *)
Lemma finish_exc Z s t e o : wf s -> tidy_but Z s -> get_env s t = Some e -> (forall i, Z i -> o = Some i) ->
  forall i, live s i = true -> e_exc e <> Some i -> lookup (finish (penv s t (env_exc e o))) i = lookup s i.
Proof.
  intros W T E H i L N. apply (finish_penv (X := fun j => e_exc e = Some j) (Z := Z) (e := e)); auto.
  - intros j. unfold env_roots. simpl. rewrite !in_app_iff. destruct (e_exc e) as [k|]; simpl; intuition congruence.
  - intros j Zj. apply H in Zj. subst o. unfold env_roots. simpl. rewrite !in_app_iff. simpl. auto.
  - intros k x Xk Lk. pose proof (env_exc_throw W E Xk) as Th. unfold is_throw in Th. rewrite Lk in Th. destruct (o_pay x); try discriminate. reflexivity.
Qed.
Lemma finish_types_reg s T : registered (finish s) T = registered s T.
Proof. unfold registered, get_type. rewrite finish_types. reflexivity. Qed.
Lemma finish_exc_spares Z s t e o : wf s -> tidy_but Z s -> get_env s t = Some e -> (forall i, Z i -> o = Some i) ->
  spares (fun i => pending s t = Some i) t s (finish (penv s t (env_exc e o))).
Proof.
  intros W T E H. assert (forall i, live s i = true -> e_exc e <> Some i -> lookup (finish (penv s t (env_exc e o))) i = lookup s i) as K
    by (apply (finish_exc W T E H)).
  assert (pending s t = e_exc e) as Ep by (unfold pending; rewrite E; auto).
  constructor.
  - intros i L N. rewrite Ep in N. pose proof L as L'. apply live_lookup in L'. destruct L' as (x & Lx).
    exists x, x. split; [auto|]. split; [rewrite (K i L N); auto|]. split; [auto|]. split; [auto|]. intros c Hc. unfold class_ptr in *. rewrite (K i L N). rewrite Lx in *.
    destruct (o_clazz x) as [d|] eqn:Ec; [|discriminate]. destruct (live s d) eqn:Ld; [|discriminate]. inversion Hc; subst d.
    assert (lookup (finish (penv s t (env_exc e o))) c = lookup s c) as Kc.
    { apply K; [exact Ld|]. intros Ex. pose proof (env_exc_throw W E Ex) as Th. pose proof (wf_obj W _ Lx) as O. unfold obj_ok in O.
      rewrite andb_true_iff in O. destruct O as [_ O]. unfold clazz_ok in O. rewrite Ec, Ld, andb_true_iff in O. destruct O as [_ O].
      unfold is_cls, is_throw in *. destruct (lookup s c) as [y|]; [|discriminate]. destruct (o_pay y); discriminate. }
    unfold live. rewrite Kc. unfold live in Ld. destruct (lookup s c); [reflexivity|discriminate].
  - rewrite finish_globals. reflexivity.
  - rewrite finish_ext. reflexivity.
  - intros Y. rewrite finish_types_reg. reflexivity.
  - intros u N. rewrite finish_env, get_env_penv. destruct (Nat.eqb_spec t u); congruence.
  - rewrite finish_env, get_env_penv, Nat.eqb_refl, E. reflexivity.
Qed.
Lemma thrown_wf s t e x : wf s -> get_env s t = Some e -> wf (thrown s t e x).
Proof.
  intros W E. unfold thrown. apply (penv_wf (e := e)); auto.
  - apply add_wf; auto.
  - apply env_ok_intro.
    + intros i. unfold env_roots. simpl. rewrite !in_app_iff. intros [K|[K|[<-|K]]]; apply live_add; auto;
        left; eapply env_live; eauto; unfold env_roots; rewrite !in_app_iff; auto.
    + intros i H. inversion H; subst. unfold is_throw. rewrite lookup_add_new. reflexivity.
  - simpl. apply (wf_env_ok W E).
Qed.
Lemma add_spares X t s o : wf s -> spares X t s (add s o).
Proof.
  intros W. constructor; auto. intros i L _. apply live_lookup in L. destruct L as (x & L).
  assert (i < length (s_heap s)) as Lt by (eapply lookup_lt; eauto). exists x, x. rewrite lookup_add_old by auto.
  split; [auto|]. split; [auto|]. split; [auto|]. split; [auto|]. intros c. unfold class_ptr. rewrite lookup_add_old, L by auto.
  destruct (o_clazz x) as [d|]; auto. destruct (live s d) eqn:Ld; [|discriminate]. intros [= <-].
  replace (live (add s o) d) with true; auto. symmetry. apply live_add. auto.
Qed.
Lemma live_fresh s : live s (length (s_heap s)) = false.
Proof. unfold live, lookup. rewrite (proj2 (nth_error_None _ _)); auto. Qed.
Lemma finish_live s i : live (finish s) i = true -> live s i = true.
Proof. intros H. apply live_lookup in H. destruct H as (o & H). apply finish_sub in H. apply live_lookup. eauto. Qed.
(** an operation that made [x] the pending exception *)
Lemma thrown_pending s t e x : wf s -> tidy s -> get_env s t = Some e -> now_pending t x s (finish (thrown s t e x)) /\
  frames (finish (thrown s t e x)) t = frames s t /\ running (finish (thrown s t e x)) t = running s t.
Proof.
  intros W T E. set (o := new_obj None (PThrow x)). assert (wf (add s o)) as W1 by (apply add_wf; auto).
  assert (get_env (add s o) t = Some e) as E1 by auto.
  assert (In (length (s_heap s)) (roots (with_tmp (thrown s t e x) []))) as Rt.
  { eapply (env_root (t := t)). unfold get_env. simpl. rewrite (aget_aset Nat.eqb Nat.eqb_spec), Nat.eqb_refl. reflexivity.
    unfold env_roots. simpl. rewrite !in_app_iff. simpl. auto. }
  pose proof (finish_lookup (thrown_wf x W E) Rt) as L. rewrite (@lookup_heap (add s o) (thrown s t e x)) in L by reflexivity.
  rewrite lookup_add_new in L. split.
  - exists (length (s_heap s)). split; [apply live_fresh|]. split; [|split; [|split]].
    + unfold pending, thrown. rewrite finish_env, get_env_penv, Nat.eqb_refl. reflexivity.
    + unfold contents. rewrite L. reflexivity.
    + intros i Hi. apply finish_live in Hi. rewrite (live_heap (s := add s o)) in Hi by reflexivity. apply live_add in Hi. auto.
    + assert (spares (fun i => pending (add s o) t = Some i) t (add s o) (finish (thrown s t e x))) as Sp.
      { unfold thrown. apply (@finish_exc_spares (fun i => i = length (s_heap s)) (add s o) t e); [exact W1| |exact E1|intros i ->; reflexivity].
        eapply tidy_weaken; [|apply tidy_add; exact T]. simpl. intros i [[]|]; auto. }
      eapply spares_trans; [apply (@add_spares (fun i => pending s t = Some i) t s o W)|exact Sp|]. intros i H _. exact H.
  - unfold frames, running, thrown. rewrite finish_env, get_env_penv, Nat.eqb_refl, E. auto.
Qed.

(** ** Entering a hook *)
Definition outcome (o : out callres) : option (obs * VmState.st) :=
  match o with
  | Ret r s => Some (OVal (RCall r), finish s)
  | Thr e s => Some (OExn e, finish s)
  | _ => None
  end.
Lemma hkind_eqb_spec a b : reflect (a = b) (hkind_eqb a b).
Proof. destruct a, b; constructor; congruence. Qed.
Lemma rty_eqb_spec a b : reflect (a = b) (rty_eqb a b).
Proof. destruct a as [|[]|], b as [|[]|]; constructor; congruence. Qed.
Lemma enter_spec t catch hd kind nonvirt T recv held args s : wf s -> tidy s -> attached s t ->
  (forall i, In i held -> is_cls s i = true) ->
  exists v s', outcome (enter t catch hd kind nonvirt T recv held args s) = Some (v, s') /\
    entered t catch hd kind nonvirt T recv held args s s' v.
Proof.
  intros W Ti (e & E) H. unfold enter.
  assert (forall m, fails hd kind nonvirt T m -> exists v s',
     outcome ((if catch then set_pending t (Err m) ;;; ret Default else err m) s) = Some (v, s') /\
       entered t catch hd kind nonvirt T recv held args s s' v) as Fl.
  { intros m Hm. destruct catch eqn:C.
    - unfold bind. rewrite (set_pending_eq _ W E). destruct (thrown_pending (Err m) W Ti E) as (A & B & D).
      eexists _, _. split; [reflexivity|]. eapply en_pending; eauto.
    - exists (OExn (Err m)), s. split; [simpl; rewrite (tidy_finish_id Ti); reflexivity|]. eapply en_throw; eauto. }
  destruct (hkind_eqb_spec (h_kind hd) kind) as [Hk|Hk]; cbn [andb].
  2: { apply Fl. apply fl_mismatch. intros [? _]; auto. }
  destruct (rty_eqb_spec (h_ret hd) T) as [Hr|Hr].
  2: { apply Fl. apply fl_mismatch. intros [_ ?]; auto. }
  destruct (nonvirt && h_memfn hd) eqn:Nv.
  - apply andb_true_iff in Nv. apply Fl. apply fl_nonvirt; [split| |]; tauto.
  - set (k := mkCall _ _ _ _). unfold bind. rewrite (@call_push_eq s t e k W E H). eexists _, _. split; [reflexivity|].
    rewrite (tidy_finish_id (calling_tidy k W Ti E)). destruct (calling_running k E) as [A B]. apply en_run; auto.
    + split; auto.
    + intros ->. destruct (h_memfn hd); [discriminate|auto].
    + destruct kind; exact A.
Qed.

(** ** Invariants of all reachable states *)
Record solid (G : cfg) (s : VmState.st) : Prop := { so_good : good G s; so_owned : owned s; so_snat : snat s; so_env : einv s }.
Lemma reachable_solid G t s : reachable G t s -> solid G s.
Proof. intros R. constructor; [eapply reachable_good|eapply reachable_owned|eapply reachable_snat|eapply reachable_einv]; eauto. Qed.
Lemma exec_solid G l s vs s' : solid G s -> exec G l s = Some (vs, s') -> solid G s'.
Proof.
  intros [A B C D] E. pose proof (good_wf A) as W. constructor;
    [eapply exec_good|eapply exec_owned|eapply exec_snat|eapply exec_einv]; eauto.
Qed.
Lemma step_exec G t o s v s' : step G t o s = Some (v, s') -> exec G [(t, o)] s = Some ([v], s').
Proof. intros E. simpl. rewrite E. auto. Qed.
Lemma step_solid G t o s v s' : solid G s -> step G t o s = Some (v, s') -> solid G s'.
Proof. intros So E. eapply exec_solid; [exact So|eapply step_exec; eauto]. Qed.

Section Steps.
Variable G : cfg.

Lemma step_outcome t o s (m : M callres) : attached s t -> (body G t o s = as_call m s) -> step G t o s = outcome (m s).
Proof. intros A E. unfold step. rewrite run_attached, E by auto. unfold as_call, bind, outcome. destruct (m s); auto. Qed.
Lemma jnicast_class_opt s h cl : wf s -> denotes_opt s h cl -> (forall j, cl = Some j -> is_cls s j = true) -> jnicast G TClass h s = Ret cl s.
Proof.
  intros W D H. destruct cl as [j|].
  - specialize (H j eq_refl). apply is_cls_class_at in H. destruct H as (c & H). eapply jnicast_class; eauto.
  - destruct h as [i|]; simpl in D; [rewrite (jnicast_spec _ _ W D)|]; reflexivity.
Qed.
Lemma get_mth_eq s i m : method_at s i = Some m -> get_mth i s = Ret m s.
Proof. intros H. apply method_at_lookup in H. destruct H as (o & L & P). unfold get_mth, bind, deref. rewrite L, P. reflexivity. Qed.
Lemma get_fld_eq s i m : field_at s i = Some m -> get_fld i s = Ret m s.
Proof. intros H. apply field_at_lookup in H. destruct H as (o & L & P). unfold get_fld, bind, deref. rewrite L, P. reflexivity. Qed.
Lemma opt_list_In (o : option oid) i : In i (opt_list o) -> o = Some i.
Proof. destruct o; simpl; [intros [->|[]]; auto|tauto]. Qed.
Lemma handle_at_eq s i hd : handle_at s i = Some hd -> exists m, method_at s i = Some m /\ m_handle m = Some hd.
Proof. unfold handle_at. destruct (method_at s i) as [m|]; [eauto|discriminate]. Qed.

(** *** Static calls *)
Theorem CallStaticMethodA_step t T cls cl i hd args s : good G s -> attached s t -> denotes_opt s cls cl ->
  (forall j, cl = Some j -> is_cls s j = true) -> handle_at s i = Some hd ->
  exists v s', step G t (CallStaticMethodA_ T cls (Some i) args) s = Some (v, s') /\ good G s' /\
    entered t true hd KStatic false T cl (opt_list cl) args s s' v.
Proof.
  intros Gs A D C H. pose proof (good_wf Gs) as W. destruct (handle_at_eq H) as (m & Hm & Hh).
  destruct (@enter_spec t true hd KStatic false T cl (opt_list cl) args s W (g_tidy Gs) A) as (v & s' & E & En).
  { intros j Hj. apply C. apply opt_list_In. auto. }
  assert (step G t (CallStaticMethodA_ T cls (Some i) args) s = Some (v, s')) as St.
  { rewrite (step_outcome (m := CallStaticMethodA G t T cls (Some i) args)) by auto. unfold CallStaticMethodA, bind at 1.
    rewrite (jnicast_class_opt W D C). unfold bind at 1. rewrite (get_mth_eq Hm), Hh. exact E. }
  exists v, s'. split; auto. split; auto. eapply step_good; eauto.
Qed.

(** *** Virtual and non virtual calls *)
Lemma overload_spec s m i j : method_at s i = Some m ->
  (match mth_of s j with Some x => overload_match m x | None => false end) = true <-> implements s (m_name m) (m_sig m) j.
Proof.
  intros Hm. unfold implements. rewrite method_at_of. destruct (mth_of s j) as [x|].
  - unfold overload_match. rewrite !andb_true_iff, negb_true_iff.
    destruct (str_eqb_spec (m_name m) (m_name x)); [|split; [intros [[[_ ?] _] _]; discriminate|intros (y & h & E & ? & _); inversion E; subst; congruence]].
    destruct (str_eqb_spec (m_sig m) (m_sig x)); [|split; [intros [[_ ?] _]; discriminate|intros (y & h & E & ? & ? & _); inversion E; subst; congruence]].
    split.
    + intros [[[A _] _] B]. destruct (m_handle x) as [h|] eqn:Eh; [|discriminate]. exists x, h. auto.
    + intros (y & h & E & _ & _ & A & B). inversion E; subst y. rewrite B. auto.
  - split; [discriminate|]. intros (y & h & E & _). discriminate.
Qed.
Lemma nonvirtual_spec s cl i m : (forall c, cl = Some c -> is_cls s c = true) -> method_at s i = Some m ->
  exists r, findNonVirtualOverload cl i s = Ret r s /\
    match cl, r with
    | None, _ => r = Some i
    | Some c, Some j => first_in (implements s (m_name m) (m_sig m)) (methods_of s c) j
    | Some c, None => forall j, In j (methods_of s c) -> ~ implements s (m_name m) (m_sig m) j
    end.
Proof.
  intros C Hm. destruct cl as [c|]; simpl; [|eexists; split; reflexivity]. specialize (C c eq_refl). apply is_cls_class_at in C.
  destruct C as (k & C). unfold bind at 1. rewrite (get_cls_eq C). unfold bind at 1. rewrite (get_mth_eq Hm). unfold bind, gets, ret.
  eexists. split; [reflexivity|]. unfold methods_of. rewrite C. unfold find_mth.
  pose proof (find_first (fun j => match mth_of s j with Some x => overload_match m x | None => false end) (c_methods k)) as F.
  destruct (find _ (c_methods k)) as [j|].
  - eapply first_in_iff; [|exact F]. intros y _. apply (overload_spec _ Hm).
  - intros j Hj K. apply (F j Hj). apply (overload_spec _ Hm). auto.
Qed.
Lemma virtual_spec s cl i m : (forall c, cl = Some c -> is_cls s c = true) -> method_at s i = Some m ->
  exists j, findVirtualOverload cl i s = Ret j s /\ dispatched s cl i j.
Proof.
  intros C Hm. destruct (nonvirtual_spec C Hm) as (r & E & H). unfold findVirtualOverload, bind at 1. rewrite E.
  destruct r as [j|].
  - exists j. split; auto. destruct cl as [c|]; [eapply dp_own; eauto|]. injection H as ->. apply dp_none. auto.
  - exists i. split; auto. destruct cl as [c|]; [eapply dp_id; eauto|discriminate].
Qed.
Lemma dispatched_handle s cl i j m h : method_at s i = Some m -> m_handle m = Some h -> dispatched s cl i j ->
  exists x hd, method_at s j = Some x /\ m_handle x = Some hd.
Proof.
  intros Hm Hh H. destruct H as [c m' j' _ _ F|c m' _ _ _|]; eauto. apply first_in_In in F. destruct F as [_ (x & hd & Hx & _ & _ & _ & Hd)]. eauto.
Qed.
Lemma dispatched_fun s cl i j k : dispatched s cl i j -> dispatched s cl i k -> j = k.
Proof.
  intros H K. destruct H as [c m j C Hm F|c m C Hm F|C]; destruct K as [c' m' j' C' Hm' F'|c' m' C' Hm' F'|C']; try congruence.
  - assert (c' = c) by congruence. assert (m' = m) by congruence. subst. eapply first_in_fun; eauto.
  - assert (c' = c) by congruence. assert (m' = m) by congruence. subst. apply first_in_In in F. destruct F. exfalso. eapply F'; eauto.
  - assert (c' = c) by congruence. assert (m' = m) by congruence. subst. apply first_in_In in F'. destruct F'. exfalso. eapply F; eauto.
Qed.
(** dispatch does not depend on local references *)
Lemma implements_und s s' t nm sg j : undisturbed t s s' -> live s j = true -> (implements s nm sg j <-> implements s' nm sg j).
Proof.
  intros U L. pose proof (u_obj U L) as I. unfold implements.
  assert (forall m, method_at s' j = Some m <-> method_at s j = Some m) as E.
  { intros m. split; [|apply intact_method; auto]. intros H. destruct I as (o & o' & Lo & Lo' & V & _). unfold method_at, contents in *.
    rewrite Lo, Lo' in *. simpl in *. destruct (o_pay o'); try discriminate. destruct (o_pay o); simpl in V; try discriminate. congruence. }
  split; intros (m & h & H & R); exists m, h; split; auto; apply E; auto.
Qed.
Lemma methods_und s s' t c : undisturbed t s s' -> is_cls s c = true -> methods_of s' c = methods_of s c.
Proof.
  intros U C. apply is_cls_class_at in C. destruct C as (k & C).
  assert (live s c = true) as L by (eapply class_at_live; eauto).
  destruct (intact_class (u_obj U L) C) as (k' & C' & M & _). unfold methods_of. rewrite C, C'. auto.
Qed.
Lemma method_live s i m : method_at s i = Some m -> live s i = true.
Proof. intros H. apply method_at_lookup in H. destruct H as (o & L & _). apply live_lookup. eauto. Qed.
Lemma dispatched_und s s' t cl i j m : wf s -> undisturbed t s s' -> (forall c, cl = Some c -> is_cls s c = true) -> method_at s i = Some m ->
  dispatched s cl i j -> dispatched s' cl i j.
Proof.
  intros W U C Hm H. pose proof (intact_method (u_obj U (method_live Hm)) Hm) as Hm'.
  assert (forall c x, cl = Some c -> In x (methods_of s c) -> live s x = true) as Lv.
  { intros c x _ Hx. pose proof (methods_wf W Hx) as M. unfold is_mth in M. unfold live. destruct (lookup s x); auto. }
  destruct H as [c m' j -> Hm1 F|c m' -> Hm1 F| -> ].
  - assert (m' = m) by congruence. subst m'. eapply dp_own; eauto. rewrite (methods_und U (C c eq_refl)).
    eapply first_in_iff; [|exact F]. intros y Hy. eapply implements_und; eauto.
  - assert (m' = m) by congruence. subst m'. eapply dp_id; eauto. rewrite (methods_und U (C c eq_refl)).
    intros x Hx K. apply (F x Hx). eapply implements_und; eauto.
  - apply dp_none. auto.
Qed.

Theorem CallNonvirtualMethodA_step t T obj cls cl i m h j args s : good G s -> attached s t -> denotes_opt s cls cl ->
  (forall c, cl = Some c -> is_cls s c = true) -> method_at s i = Some m -> m_handle m = Some h ->
  match cl with None => j = i | Some c => first_in (implements s (m_name m) (m_sig m)) (methods_of s c) j end ->
  exists hd v s', handle_at s j = Some hd /\
    step G t (CallNonvirtualMethodA_ T obj cls (Some i) args) s = Some (v, s') /\ good G s' /\
    entered t true hd KInst true T obj (opt_list cl) args s s' v.
Proof.
  intros Gs A D C Hm Hh H. pose proof (good_wf Gs) as W.
  assert (exists x hd, method_at s j = Some x /\ m_handle x = Some hd) as (x & hd & Hx & Hd).
  { destruct cl as [c|]; [|subst; eauto]. apply first_in_In in H. destruct H as [_ (x & hd & Hx & _ & _ & _ & Hd)]. eauto. }
  destruct (@enter_spec t true hd KInst true T obj (opt_list cl) args s W (g_tidy Gs) A) as (v & s' & E & En).
  { intros y Hy. apply C. apply opt_list_In. auto. }
  assert (step G t (CallNonvirtualMethodA_ T obj cls (Some i) args) s = Some (v, s')) as St.
  { rewrite (step_outcome (m := CallNonvirtualMethodA G t T obj cls (Some i) args)) by auto. unfold CallNonvirtualMethodA, bind at 1.
    rewrite (get_mth_eq Hm), Hh. unfold bind at 1. rewrite (jnicast_class_opt W D C). unfold bind at 1.
    destruct (nonvirtual_spec C Hm) as (r & Er & Hr). rewrite Er. assert (r = Some j) as ->.
    { destruct cl as [c|]; [|congruence]. destruct r as [k|]; [f_equal; eapply first_in_fun; eauto|]. apply first_in_In in H. destruct H. exfalso. eapply Hr; eauto. }
    unfold bind at 1, nonnull, ret. unfold bind at 1. rewrite (get_mth_eq Hx), Hd. exact E. }
  exists hd, v, s'. split; [unfold handle_at; rewrite Hx; auto|]. split; auto. split; auto. eapply step_good; eauto.
Qed.
(** ... and the program is undefined if the class itself has no implementation *)
Theorem CallNonvirtualMethodA_undef t T obj cls c i m h args s : good G s -> attached s t -> denotes_opt s cls (Some c) ->
  is_cls s c = true -> method_at s i = Some m -> m_handle m = Some h ->
  (forall j, In j (methods_of s c) -> ~ implements s (m_name m) (m_sig m) j) ->
  step G t (CallNonvirtualMethodA_ T obj cls (Some i) args) s = None.
Proof.
  intros Gs A D C Hm Hh H. pose proof (good_wf Gs) as W.
  assert (forall x, Some c = Some x -> is_cls s x = true) as C' by (intros x [= <-]; auto).
  rewrite (step_outcome (m := CallNonvirtualMethodA G t T obj cls (Some i) args)) by auto. unfold CallNonvirtualMethodA, bind at 1.
  rewrite (get_mth_eq Hm), Hh. unfold bind at 1. rewrite (jnicast_class_opt W D C'). unfold bind at 1.
  destruct (nonvirtual_spec C' Hm) as (r & Er & Hr). rewrite Er. destruct r as [k|]; [|reflexivity].
  apply first_in_In in Hr. destruct Hr. exfalso. eapply H; eauto.
Qed.
End Steps.
