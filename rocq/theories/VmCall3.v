(** Every outcome of a call: what it does to the pending exception and the running hooks of the thread. *)
From Verif Require Import Base BaseProofs VmState VmModel VmStep VmSpec MemSpec HookSpec CallSpec VmBase VmFrame VmWf VmPrim VmInv VmReg
  VmFine VmRegInv VmExact VmQuiet VmClass VmEnvInv VmThread.
Set Implicit Arguments.
Unset Strict Implicit.
Local Open Scope vm_scope.

(** the state does not change *)
Definition reads {A} (m : M A) : Prop := forall s, match m s with Ret _ s' | Thr _ s' => s' = s | _ => True end.
Lemma reads_ret A (a : A) : reads (ret a).
Proof. intros s. reflexivity. Qed.
Lemma reads_gets A (f : st -> A) : reads (gets f).
Proof. intros s. reflexivity. Qed.
Lemma reads_bind A B (m : M A) (f : A -> M B) : reads m -> (forall a, reads (f a)) -> reads (bind m f).
Proof.
  intros H K s. unfold bind. specialize (H s). destruct (m s); auto. subst. apply K.
Qed.
Lemma reads_deref i : reads (deref i).
Proof. intros s. unfold deref. destruct (lookup s i); auto. Qed.
Lemma reads_get_mth i : reads (get_mth i).
Proof. apply reads_bind; [apply reads_deref|]. intros o s. destruct (o_pay o); simpl; auto. Qed.
Lemma reads_get_cls i : reads (get_cls i).
Proof. apply reads_bind; [apply reads_deref|]. intros o s. destruct (o_pay o); simpl; auto. Qed.
Lemma reads_nonnull o : reads (nonnull o).
Proof. intros s. destruct o; simpl; auto. Qed.
Lemma reads_jnicast G T h : reads (jnicast G T h).
Proof.
  destruct h as [i|]; [|apply reads_ret]. apply reads_bind.
  - intros s. destruct (unwrap (S i) s i); simpl; auto.
  - intros [j|]; [|apply reads_ret]. apply reads_bind; [apply reads_deref|]. intros o s. destruct (isa G (o_pay o) T); simpl; auto.
Qed.
Lemma reads_nonvirtual cl i : reads (findNonVirtualOverload cl i).
Proof.
  destruct cl as [c|]; [|apply reads_ret]. apply reads_bind; [apply reads_get_cls|]. intros k.
  apply reads_bind; [apply reads_get_mth|]. intros m. apply reads_bind; [apply reads_gets|]. intros s. apply reads_ret.
Qed.
Lemma reads_virtual cl i : reads (findVirtualOverload cl i).
Proof.
  apply reads_bind; [apply reads_nonvirtual|]. intros [j|]; [apply reads_ret|].
  apply reads_bind; [apply reads_nonvirtual|]. intros o. apply reads_nonnull.
Qed.

Definition is_call (o : op) (T : rty) (id : option oid) : Prop :=
  match o with
  | CallMethodA_ T' _ i _ | CallNonvirtualMethodA_ T' _ _ i _ | CallStaticMethodA_ T' _ i _ => T' = T /\ i = id
  | _ => False
  end.

(** How a call can end at once. *)
Inductive call_end (t : tid) (T : rty) (id : option oid) (s s' : st) : obs -> Prop :=
| ce_enter f rv a k : running s' t = k :: running s t -> k_ret k = T -> k_catch k = true -> k_hook k = f -> pending s' t = pending s t ->
    call_end t T id s s' (OVal (RCall (Entered f rv a)))
| ce_none : match id with None => True | Some i => handle_at s i = None end -> running s' t = running s t -> pending s' t = pending s t ->
    call_end t T id s s' (OVal (RCall Default))
| ce_fail i m h : id = Some i -> handle_at s i = Some h -> running s' t = running s t ->
    (exists j, pending s' t = Some j /\ live s j = false /\ contents s' j = Some (PThrow (Err m))) ->
    call_end t T id s s' (OVal (RCall Default))
| ce_throw e : running s' t = running s t -> pending s' t = pending s t -> call_end t T id s s' (OExn e).

Section End_.
Variables (G : cfg) (t : tid) (T : rty) (id : option oid) (s0 : st).
(** outcome of a part of the call, before temporaries are released *)
Definition ends (s : st) (r : out callres) : Prop :=
  running s t = running s0 t -> pending s t = pending s0 t -> length (s_heap s0) <= length (s_heap s) ->
  match r with
  | Ret v s' => call_end t T id s0 (finish s') (OVal (RCall v))
  | Thr e s' => call_end t T id s0 (finish s') (OExn e)
  | _ => True
  end.
Lemma running_finish s u : running (finish s) u = running s u.
Proof. unfold running. rewrite finish_env. auto. Qed.
Lemma pending_finish s u : pending (finish s) u = pending s u.
Proof. unfold pending. rewrite finish_env. auto. Qed.
Lemma ends_bind A (m : M A) f s : reads m -> (forall a, m s = Ret a s -> ends s (f a s)) -> ends s (bind m f s).
Proof.
  intros R H. unfold bind. specialize (R s). destruct (m s); try (intros _ _ _; exact I).
  - subst. apply H. auto.
  - subst. intros A1 A2 _. apply ce_throw; rewrite ?running_finish, ?pending_finish; auto.
Qed.
Lemma ends_enter hd want nv recv held args s i h : id = Some i -> handle_at s0 i = Some h ->
  match want with KInstSet | KStaticSet => False | _ => True end -> ends s (enter t true hd want nv T recv held args s).
Proof.
  intros Hid Hh Hw Er Ep Hl. unfold enter.
  assert (forall m, match (set_pending t (Err m) ;;; ret Default) s with Ret v s' => call_end t T id s0 (finish s') (OVal (RCall v))
    | Thr e s' => call_end t T id s0 (finish s') (OExn e) | _ => True end) as F.
  { intros m. unfold set_pending, bind, alloc, bind, check. destruct (obj_ok s (new_obj None (PThrow (Err m)))); [|exact I]. unfold set_exc, upd_env, bind, the_env.
    set (s1 := with_heap s (s_heap s ++ [Some (new_obj None (PThrow (Err m)))])).
    change (get_env s1 t) with (get_env s t). destruct (get_env s t) as [e|] eqn:E; [|exact I]. unfold put_env, bind, check.
    match goal with |- context [env_ok s1 ?x] => destruct (env_ok s1 x); [|exact I] end. simpl. change (with_envs s1 _) with (penv s1 t (env_exc e (Some (length (s_heap s))))).
    eapply ce_fail with (m := m); eauto.
    - rewrite running_finish. unfold running at 1. rewrite get_env_penv, Nat.eqb_refl. cbn [e_calls env_exc]. rewrite <- Er. unfold running. rewrite E. auto.
    - exists (length (s_heap s)). rewrite pending_finish. unfold pending at 1. rewrite get_env_penv, Nat.eqb_refl. split; auto. split.
      + destruct (live s0 (length (s_heap s))) eqn:L; auto. apply live_lt in L. lia.
      + unfold contents, finish. rewrite collect_reach.
        * change (lookup (with_tmp (penv s1 t (env_exc e (Some (length (s_heap s))))) []) (length (s_heap s))) with (lookup (add s (new_obj None (PThrow (Err m)))) (length (s_heap s))).
          rewrite lookup_add_new. reflexivity.
        * constructor. eapply env_root with (t := t) (e := env_exc e (Some (length (s_heap s)))).
          -- change (get_env (penv s1 t (env_exc e (Some (length (s_heap s))))) t = Some (env_exc e (Some (length (s_heap s))))). rewrite get_env_penv, Nat.eqb_refl. auto.
          -- unfold env_roots. rewrite !in_app_iff. simpl. auto. }
  destruct (hkind_eqb (h_kind hd) want && rty_eqb (h_ret hd) T); [|apply F].
  destruct (nv && h_memfn hd); [apply F|].
  unfold bind at 1, call_push, bind, check, upd_env, the_env. match goal with |- context [forallb (is_cls s) ?x] => destruct (forallb (is_cls s) x); [|exact I] end. unfold bind.
  destruct (get_env s t) as [e|] eqn:E; [|exact I]. unfold put_env, bind, check. match goal with |- context [env_ok s ?x] => destruct (env_ok s x); [|exact I] end. unfold ret.
  match goal with |- context [with_envs s (aset Nat.eqb (s_envs s) t ?x)] => change (with_envs s (aset Nat.eqb (s_envs s) t x)) with (penv s t x); set (e' := x) end.
  eapply ce_enter with (k := mkCall T true (h_id hd) held); auto.
  - rewrite running_finish. unfold running at 1. rewrite get_env_penv, Nat.eqb_refl. unfold e'. cbn [e_calls env_calls]. rewrite <- Er. unfold running. rewrite E.
    destruct want; auto; destruct Hw.
  - rewrite pending_finish. unfold pending at 1. rewrite get_env_penv, Nat.eqb_refl. unfold e'. cbn [e_exc env_calls]. rewrite <- Ep. unfold pending. rewrite E. auto.
Qed.
Lemma ends_default s : match id with None => True | Some i => handle_at s0 i = None end -> ends s (ret Default s).
Proof. intros H A B _. apply ce_none; rewrite ?running_finish, ?pending_finish; auto. Qed.
End End_.

Lemma get_mth_handle i s m : get_mth i s = Ret m s -> handle_at s i = m_handle m.
Proof.
  unfold get_mth, bind, deref, handle_at, method_at, contents. destruct (lookup s i) as [o|]; [|discriminate]. simpl. destruct (o_pay o); try discriminate.
  intros H. unfold ret in H. congruence.
Qed.
Lemma GetObjectClass_env G t obj s r : wf s -> GetObjectClass G t obj s = r -> attached s t ->
  match r with Ret _ s' | Thr _ s' => running s' t = running s t /\ pending s' t = pending s t /\ length (s_heap s) <= length (s_heap s') | _ => True end.
Proof.
  intros W E A. assert (step G t (GetObjectClass_ obj) s = match r with Ret v s' => Some (OVal (RRef v), finish s') | Thr e s' => Some (OExn e, finish s') | _ => None end) as St.
  { unfold step. rewrite run_attached by auto. cbn [body]. unfold as_ref, bind. rewrite E. destruct r; auto. }
  assert (forall x v, step G t (GetObjectClass_ obj) s = Some (v, finish x) -> running x t = running s t /\ pending x t = pending s t /\ length (s_heap s) <= length (s_heap x)) as K.
  { intros x v Sx. split; [|split].
    - rewrite <- (running_finish x t). exact (@running_step G t (GetObjectClass_ obj) _ _ _ W eq_refl Sx).
    - rewrite <- (pending_finish x t). exact (@pending_step G t (GetObjectClass_ obj) _ _ _ W eq_refl Sx).
    - destruct (step_wf G t (GetObjectClass_ obj) W Sx) as [_ Id]. assert (length (s_heap (finish x)) = length (s_heap x)) as <- .
      { unfold finish. clear. unfold collect. set (y := with_tmp x []). assert (length (s_heap y) = length (s_heap x)) as <- by reflexivity.
        assert (forall n z, length (s_heap (iter n sweep z)) = length (s_heap z)) as Q; [|apply Q]. intros n. induction n; intros z; simpl; auto. rewrite IHn. unfold sweep. simpl. apply sweep_length. }
      apply Id. }
  destruct r; auto; eapply K; eauto.
Qed.

Theorem call_inv G t o T id s v s' : wf s -> is_call o T id -> step G t o s = Some (v, s') -> call_end t T id s s' v.
Proof.
  intros W C E. assert (attached s t) as A by (eapply step_attached; [exact E|destruct o; auto; contradiction]).
  assert (exists m, body G t o = as_call m /\ ends t T id s s (m s)) as (m & B & H).
  { destruct o; try contradiction; destruct C as [-> ->]; (eexists; split; [reflexivity|]).
    - unfold CallMethodA. destruct id as [i|]; [|apply ends_default; exact I]. apply ends_bind; [apply reads_get_mth|]. intros m Em. apply get_mth_handle in Em.
      destruct (m_handle m) as [h|] eqn:Eh; [|apply ends_default; auto]. unfold bind at 1.
      pose proof (@GetObjectClass_env G t obj s _ W eq_refl A) as K. destruct (GetObjectClass G t obj s) as [k s1|e s1| | | | ]; try (intros _ _ _; exact I).
      2: { intros _ _ _. apply ce_throw; rewrite ?running_finish, ?pending_finish; tauto. }
      intros _ _ _. destruct K as (K1 & K2 & K3). revert K1 K2 K3. change (ends t T (Some i) s s1 ((cl <- jnicast G TClass k ;; j <- findVirtualOverload cl i ;; x <- get_mth j ;;
          match m_handle x with None => undef | Some hd => enter t true hd KInst false T obj (opt_list cl) args end) s1)).
      apply ends_bind; [apply reads_jnicast|]. intros cl _. apply ends_bind; [apply reads_virtual|]. intros j _. apply ends_bind; [apply reads_get_mth|]. intros x _.
      destruct (m_handle x); [|intros _ _ _; exact I]. eapply ends_enter; eauto; exact I.
    - unfold CallNonvirtualMethodA. destruct id as [i|]; [|apply ends_default; exact I]. apply ends_bind; [apply reads_get_mth|]. intros m Em. apply get_mth_handle in Em.
      destruct (m_handle m) as [h|] eqn:Eh; [|apply ends_default; auto]. apply ends_bind; [apply reads_jnicast|]. intros cl _.
      apply ends_bind; [apply reads_nonvirtual|]. intros j _. apply ends_bind; [apply reads_nonnull|]. intros j' _. apply ends_bind; [apply reads_get_mth|]. intros x _.
      destruct (m_handle x); [|intros _ _ _; exact I]. eapply ends_enter; eauto; exact I.
    - unfold CallStaticMethodA. apply ends_bind; [apply reads_jnicast|]. intros cl _. destruct id as [i|]; [|apply ends_default; exact I].
      apply ends_bind; [apply reads_get_mth|]. intros m Em. apply get_mth_handle in Em.
      destruct (m_handle m) as [h|] eqn:Eh; [|apply ends_default; auto]. eapply ends_enter; eauto; exact I. }
  unfold step in E. rewrite run_attached in E by auto. rewrite B in E. unfold as_call, bind in E. specialize (H eq_refl eq_refl (le_n _)).
  destruct (m s); inversion E; subst; auto.
Qed.
