(** What operations can change in the environments: other threads are never touched, and pending exceptions and running
    hooks only change by the operations made for that. *)
From Verif Require Import Base BaseProofs VmState VmModel VmStep VmSpec VmBase VmFrame VmWf VmPrim VmInv VmReg
  VmFine VmRegInv VmExact VmQuiet VmClass.
Set Implicit Arguments.
Unset Strict Implicit.

(** A relation that only looks at one environment is respected by everything but changes of that environment. *)
Section One.
Variables (u : tid) (E : option env -> option env -> Prop).
Hypothesis Erefl : forall x, E x x.
Hypothesis Etrans : forall a b c, E a b -> E b c -> E a c.
Definition looks (s s' : st) : Prop := E (get_env s u) (get_env s' u).
Lemma looks_envs s s' : s_envs s' = s_envs s -> looks s s'.
Proof. intros H. unfold looks, get_env. rewrite H. apply Erefl. Qed.
Lemma looks_fine G t (ok : prim -> Prop) :
  (forall s e e', t = u -> env_chg ok s e e' -> E (Some e) (Some e')) ->
  (ok PrAttach -> t = u -> forall k, E None (Some (new_env k))) ->
  (ok PrDetach -> t = u -> forall e, e_calls e = [] -> E (Some e) None) ->
  fine G t ok looks.
Proof.
  intros C A D. constructor; intros; try (apply looks_envs; reflexivity).
  - unfold looks in *. eauto.
  - apply (@find_fine G looks); auto; intros; try (apply looks_envs; reflexivity). unfold looks in *. eauto.
  - unfold looks. rewrite get_env_penv. destruct (Nat.eqb_spec t u); [subst; rewrite H0; eauto|apply Erefl].
  - unfold looks, get_env. simpl. rewrite (aget_aset Nat.eqb Nat.eqb_spec). unfold get_env in *. destruct (Nat.eqb_spec t u); [subst|apply Erefl].
    rewrite H1. auto.
  - unfold looks, get_env. simpl. rewrite (aget_adel Nat.eqb Nat.eqb_spec). unfold get_env in *. destruct (Nat.eqb_spec t u); [subst|apply Erefl].
    rewrite H1. auto.
  - apply looks_envs. pose proof (collect_same s) as Sa. unfold same_but_heap in Sa. symmetry. apply Sa.
Qed.
End One.

(** Other threads are not touched. *)
Theorem others_step G t u o s v s' : wf s -> u <> t -> step G t o s = Some (v, s') -> get_env s' u = get_env s u.
Proof.
  intros W N E. eapply (@fine_step G t (fun _ => True) (looks u (fun a b => b = a))); eauto.
  apply looks_fine; auto; intros; congruence.
Qed.
Theorem others_exec G u l s vs s' : wf s -> Forall (fun e : event => fst e <> u) l -> exec G l s = Some (vs, s') -> get_env s' u = get_env s u.
Proof.
  revert s vs. induction l as [|[t o] l IH]; intros s vs W A E; simpl in E; [congruence|].
  destruct (step G t o s) as [[v s1]|] eqn:E1; [|discriminate]. destruct (exec G l s1) as [[w s2]|] eqn:E2; [|discriminate].
  inversion E; subst. inversion A; subst. simpl in *.
  rewrite (IH s1 w (proj1 (step_wf G t o W E1)) H2 E2). refine (others_step W _ E1). auto.
Qed.

(** Pending exceptions *)
Definition exc_of (x : option env) : option oid := match x with Some e => e_exc e | None => None end.
Definition exc_op (o : op) : bool :=
  match o with
  | Throw_ _ | ThrowNew_ _ _ | ExceptionClear_ | CallMethodA_ _ _ _ _ | CallNonvirtualMethodA_ _ _ _ _ _ | CallStaticMethodA_ _ _ _ _
  | HookThrow_ _ | Detach_ => true
  | _ => false
  end.
Theorem pending_step G t o s v s' : wf s -> exc_op o = false -> step G t o s = Some (v, s') -> pending s' t = pending s t.
Proof.
  intros W N E. eapply (@fine_step G t (fun p => p <> PrExc /\ p <> PrDetach) (looks t (fun a b => exc_of b = exc_of a))); eauto.
  - apply looks_fine; auto; intros; simpl; try tauto; try congruence.
    destruct H0; simpl in *; auto; try tauto. destruct (e_free e); auto.
  - destruct o; try discriminate; simpl; intros pr H; repeat (destruct H as [<-|H]; [split; discriminate|]); destruct H.
Qed.

(** Running hooks *)
Definition calls_of (x : option env) : list call := match x with Some e => e_calls e | None => [] end.
Definition call_op (o : op) : bool :=
  match o with
  | CallMethodA_ _ _ _ _ | CallNonvirtualMethodA_ _ _ _ _ _ | CallStaticMethodA_ _ _ _ _ | GetField_ _ _ _ _ | SetField_ _ _ _ _ _
  | HookReturn_ _ | HookThrow_ _ => true
  | _ => false
  end.
Theorem running_step G t o s v s' : wf s -> call_op o = false -> step G t o s = Some (v, s') -> running s' t = running s t.
Proof.
  intros W N E. eapply (@fine_step G t (fun p => p <> PrCallPush /\ p <> PrCallPop) (looks t (fun a b => calls_of b = calls_of a))); eauto.
  - apply looks_fine; auto; intros; simpl; try tauto; try congruence.
    destruct H0; simpl in *; auto; try tauto. destruct (e_free e); auto.
  - destruct o; try discriminate; simpl; intros pr H; repeat (destruct H as [<-|H]; [split; discriminate|]); destruct H.
Qed.

(** Environment identity *)
Theorem envid_step G t u o s v s' e : wf s -> get_env s u = Some e -> o <> Detach_ \/ u <> t -> step G t o s = Some (v, s') ->
  exists e', get_env s' u = Some e' /\ e_id e' = e_id e.
Proof.
  intros W Ge N E. destruct (Nat.eq_dec u t) as [->|Nu].
  - assert (looks t (fun a b => forall e, a = Some e -> exists e', b = Some e' /\ e_id e' = e_id e) s s') as H.
    { eapply (@fine_step G t (fun p => p <> PrDetach)); eauto.
      - apply looks_fine; intros; try tauto; try discriminate.
        + eauto.
        + destruct (H _ H1) as (y & -> & Y). destruct (H0 _ eq_refl) as (z & -> & Z). exists z. split; congruence.
        + injection H1 as <-. eexists. split; [reflexivity|]. destruct H0; auto. destruct (e_free e0); auto.
      - destruct N as [N|N]; [|congruence].
        destruct o; try congruence; simpl; intros pr H; repeat (destruct H as [<-|H]; [discriminate|]); destruct H. }
    apply H. auto.
  - rewrite (others_step W Nu E). eauto.
Qed.
