(** Function tables: C57, for every history of constructions, attachments, hooks and overrides. *)
From Verif Require Import Base BaseProofs TableModel.
Set Implicit Arguments.
Unset Strict Implicit.

Lemma set_nth_length A (l : list A) i x : i < length l -> length (set_nth l i x) = length l.
Proof. intros H. unfold set_nth. rewrite app_length. cbn [length]. rewrite firstn_length, skipn_length. lia. Qed.
Lemma nth_set_nth A (l : list A) i x j : i < length l -> nth_error (set_nth l i x) j = if Nat.eqb i j then Some x else nth_error l j.
Proof.
  intros H. unfold set_nth. revert i j H. induction l as [|y l IH]; intros i j H; [cbn in H; lia|].
  destruct i, j; cbn in *; try reflexivity. apply IH. lia.
Qed.
Lemma nth_lt A (l : list A) i x : nth_error l i = Some x -> i < length l.
Proof. intros H. apply nth_error_Some. congruence. Qed.
Lemma ptr_eqb_eq a b : ptr_eqb a b = true <-> a = b.
Proof. destruct a, b; cbn; split; try discriminate; try (intros H; apply Nat.eqb_eq in H; congruence); intros [= ->]; apply Nat.eqb_refl. Qed.

Record bound (m : mem) : Prop := {
  bd_vm : forall v x, nth_error (vms m) v = Some x -> t_self (m_inv x) = Some (PVm v);
  bd_env : forall e x, nth_error (envs m) e = Some x -> t_self (n_table x) = Some (PEnv e) /\ n_vm x < length (vms m);
  bd_own : forall v x t e, nth_error (vms m) v = Some x -> env_of x t = Some e -> exists y, nth_error (envs m) e = Some y /\ n_vm y = v }.

Lemma override_self old new r : override old new = Some r -> t_self r = t_self old /\ t_slots r = t_slots new.
Proof. unfold override. destruct (match t_self new with None => false | Some p => _ end); [discriminate|]. intros [= <-]. auto. Qed.
Lemma override_reject old new : override old new = None <-> exists p, t_self new = Some p /\ t_self old <> Some p.
Proof.
  unfold override. destruct (t_self new) as [p|]; [|split; [discriminate|intros (p & H & _); discriminate]].
  destruct (t_self old) as [q|].
  - destruct (ptr_eqb p q) eqn:E; cbn.
    + apply ptr_eqb_eq in E. subst q. split; [discriminate|]. intros (r & [= ->] & H). congruence.
    + split; [|reflexivity]. intros _. exists p. split; [reflexivity|]. intros [= ->]. rewrite (proj2 (ptr_eqb_eq p p) eq_refl) in E. discriminate.
  - split; [|reflexivity]. intros _. exists p. split; [reflexivity|discriminate].
Qed.
Lemma env_of_cons t e i tm h l u : env_of (mkV i tm h ((t, e) :: l)) u = if Nat.eqb t u then Some e else env_of (mkV i tm h l) u.
Proof. unfold env_of. cbn. destruct (Nat.eqb t u); reflexivity. Qed.
Lemma env_of_filter t i tm h l u : env_of (mkV i tm h (filter (fun p : nat * nat => negb (Nat.eqb (fst p) t)) l)) u = if Nat.eqb t u then None else env_of (mkV i tm h l) u.
Proof.
  unfold env_of. cbn [m_envs]. induction l as [|[a b] l IH]; cbn; [destruct (Nat.eqb t u); reflexivity|].
  destruct (Nat.eqb_spec a t) as [->|N]; cbn.
  - rewrite IH. destruct (Nat.eqb_spec t u); reflexivity.
  - destruct (Nat.eqb_spec a u) as [->|]; [|exact IH]. destruct (Nat.eqb_spec t u); [congruence|reflexivity].
Qed.
Lemma env_of_same i tm h i' tm' h' l u : env_of (mkV i tm h l) u = env_of (mkV i' tm' h' l) u.
Proof. reflexivity. Qed.

Lemma tstep_bound o m : bound m -> bound (snd (tstep o m)).
Proof.
  intros [B1 B2 B3]. destruct o as [inv slots|t v|t v|v h|v tb|e tb]; cbn [tstep].
  - constructor; cbn.
    + intros v x H. destruct (Nat.lt_ge_cases v (length (vms m))).
      * rewrite nth_error_app1 in H by auto. eauto.
      * rewrite nth_error_app2 in H by auto. destruct (v - length (vms m)) as [|n] eqn:D; cbn in H; [|destruct n; discriminate].
        injection H as <-. cbn. do 2 f_equal. lia.
    + intros e x H. destruct (B2 e x H). split; [auto|]. rewrite app_length. lia.
    + intros v x t e H Ho. destruct (Nat.lt_ge_cases v (length (vms m))).
      * rewrite nth_error_app1 in H by auto. eauto.
      * rewrite nth_error_app2 in H by auto. destruct (v - length (vms m)) as [|n] eqn:D; cbn in H; [|destruct n; discriminate].
        injection H as <-. discriminate.
  - destruct (nth_error (vms m) v) as [x|] eqn:V; [|constructor; auto]. pose proof (nth_lt V) as L.
    destruct (env_of x t) as [e|] eqn:Eo; [constructor; auto|]. unfold create_env. constructor; cbn [snd vms envs].
    + intros w y. rewrite nth_set_nth by auto. destruct (Nat.eqb_spec v w) as [->|]; [|auto]. intros [= <-]. cbn. eauto.
    + intros e y H. rewrite set_nth_length by auto. destruct (Nat.lt_ge_cases e (length (envs m))).
      * rewrite nth_error_app1 in H by auto. auto.
      * rewrite nth_error_app2 in H by auto. destruct (e - length (envs m)) as [|n] eqn:D; cbn in H; [|destruct n; discriminate].
        injection H as <-. cbn. split; [do 2 f_equal; lia|auto].
    + intros w y u e. rewrite nth_set_nth by auto. destruct (Nat.eqb_spec v w) as [->|].
      * intros [= <-]. rewrite env_of_cons. destruct (Nat.eqb t u).
        -- intros [= <-]. rewrite nth_error_app2 by auto. rewrite Nat.sub_diag. cbn. eauto.
        -- intros H. destruct (B3 w x u e V H) as (z & Z & Q). exists z. rewrite nth_error_app1 by (eapply nth_lt; eauto). auto.
      * intros H1 H2. destruct (B3 w y u e H1 H2) as (z & Z & Q). exists z. rewrite nth_error_app1 by (eapply nth_lt; eauto). auto.
  - destruct (nth_error (vms m) v) as [x|] eqn:V; [|constructor; auto]. pose proof (nth_lt V) as L. constructor; cbn [snd vms envs].
    + intros w y. rewrite nth_set_nth by auto. destruct (Nat.eqb_spec v w) as [->|]; [|auto]. intros [= <-]. cbn. eauto.
    + intros e y H. rewrite set_nth_length by auto. auto.
    + intros w y u e. rewrite nth_set_nth by auto. destruct (Nat.eqb_spec v w) as [->|]; [|eauto].
      intros [= <-]. rewrite env_of_filter. destruct (Nat.eqb t u); [discriminate|]. intros H. exact (B3 w x u e V H).
  - destruct (nth_error (vms m) v) as [x|] eqn:V; [|constructor; auto]. pose proof (nth_lt V) as L. constructor; cbn [snd vms envs].
    + intros w y. rewrite nth_set_nth by auto. destruct (Nat.eqb_spec v w) as [->|]; [|auto]. intros [= <-]. cbn. eauto.
    + intros e y H. rewrite set_nth_length by auto. auto.
    + intros w y u e. rewrite nth_set_nth by auto. destruct (Nat.eqb_spec v w) as [->|]; [|eauto]. intros [= <-] H. exact (B3 w x u e V H).
  - destruct (nth_error (vms m) v) as [x|] eqn:V; [|constructor; auto]. pose proof (nth_lt V) as L.
    destruct (override (m_inv x) tb) as [r|] eqn:O; [|constructor; auto]. destruct (override_self O) as (S1 & _). constructor; cbn [snd vms envs].
    + intros w y. rewrite nth_set_nth by auto. destruct (Nat.eqb_spec v w) as [->|]; [|auto]. intros [= <-]. cbn. rewrite S1. eauto.
    + intros e y H. rewrite set_nth_length by auto. auto.
    + intros w y u e. rewrite nth_set_nth by auto. destruct (Nat.eqb_spec v w) as [->|]; [|eauto]. intros [= <-] H. exact (B3 w x u e V H).
  - destruct (nth_error (envs m) e) as [x|] eqn:V; [|constructor; auto]. pose proof (nth_lt V) as L.
    destruct (override (n_table x) tb) as [r|] eqn:O; [|constructor; auto]. destruct (override_self O) as (S1 & _). constructor; cbn [snd vms envs].
    + auto.
    + intros e' y. rewrite nth_set_nth by auto. destruct (Nat.eqb_spec e e') as [->|]; [|auto]. intros [= <-]. cbn. rewrite S1. eauto.
    + intros w y u e' H1 H2. destruct (B3 w y u e' H1 H2) as (z & Z & Q). rewrite nth_set_nth by auto.
      destruct (Nat.eqb_spec e e') as [->|]; [|eauto]. rewrite V in Z. injection Z as <-. eexists. split; [reflexivity|]. exact Q.
Qed.
Lemma truns_bound l m : bound m -> bound (truns l m).
Proof. revert m. induction l; cbn; intros; auto. apply IHl, tstep_bound, H. Qed.
Lemma tstart_bound : bound tstart.
Proof. constructor; intros; cbn in *; [destruct v|destruct e|destruct v]; discriminate. Qed.

(** * Property C57 *)
(** After any history every JavaVM and every JNIEnv leads back to its own object. *)
Theorem C57_java_vm : forall l v, v < length (vms (truns l tstart)) -> FromJavaVM (Some v) (truns l tstart) = Ok (PVm v).
Proof.
  intros l v L. pose proof (truns_bound l tstart_bound) as B. unfold FromJavaVM. destruct (nth_error _ v) as [x|] eqn:V.
  - rewrite (bd_vm B V). reflexivity.
  - apply nth_error_None in V. lia.
Qed.
Theorem C57_jni_env : forall l e, e < length (envs (truns l tstart)) -> FromJNIEnv (Some e) (truns l tstart) = Ok (PEnv e).
Proof.
  intros l e L. pose proof (truns_bound l tstart_bound) as B. unfold FromJNIEnv. destruct (nth_error _ e) as [x|] eqn:V.
  - rewrite (proj1 (bd_env B V)). reflexivity.
  - apply nth_error_None in V. lia.
Qed.
Theorem C57_null : forall m, FromJavaVM None m = Thrown (Err (S_ "Failed to get reference to jnivm::VM")) /\ FromJNIEnv None m = Thrown (Err (S_ "Failed to get reference to jnivm::ENV")) /\
  (forall v x, nth_error (vms m) v = Some x -> t_self (m_inv x) = None -> FromJavaVM (Some v) m = Thrown (Err (S_ "Failed to get reference to jnivm::VM"))) /\
  (forall e x, nth_error (envs m) e = Some x -> t_self (n_table x) = None -> FromJNIEnv (Some e) m = Thrown (Err (S_ "Failed to get reference to jnivm::ENV"))).
Proof. intros m. split; [reflexivity|]. split; [reflexivity|]. split; intros v x V T; cbn; rewrite V, T; reflexivity. Qed.
(** The environment of a thread belongs to the VM it was obtained from. *)
Theorem C57_owner : forall l v x t e, let m := truns l tstart in nth_error (vms m) v = Some x -> env_of x t = Some e ->
  FromJNIEnv (Some e) m = Ok (PEnv e) /\ exists y, nth_error (envs m) e = Some y /\ n_vm y = v.
Proof.
  intros l v x t e m V Eo. pose proof (truns_bound l tstart_bound) as B. fold m in B. destruct (bd_own B V Eo) as (y & Y & Q).
  split; [|eauto]. apply C57_jni_env. exact (nth_lt Y).
Qed.
(** Overriding succeeds exactly for tables without owner or with the own one, installs exactly the given functions, and
    touches nothing else; a rejected table changes nothing. *)
Theorem C57_override_env : forall l e tb x, let m := truns l tstart in nth_error (envs m) e = Some x ->
  match t_self tb with
  | Some p => p = PEnv e
  | None => True
  end ->
  exists m', tstep (TOverEnv e tb) m = (Ok m', m') /\
    (exists y, nth_error (envs m') e = Some y /\ t_slots (n_table y) = t_slots tb /\ n_vm y = n_vm x) /\
    (forall e', e' <> e -> nth_error (envs m') e' = nth_error (envs m) e') /\ vms m' = vms m.
Proof.
  intros l e tb x m V H. pose proof (truns_bound l tstart_bound) as B. fold m in B. cbn [tstep]. rewrite V.
  destruct (override (n_table x) tb) as [r|] eqn:O.
  - destruct (override_self O) as (S1 & S2). pose proof (nth_lt V) as L. eexists. split; [reflexivity|]. cbn [envs vms]. split; [|split; [|reflexivity]].
    + rewrite nth_set_nth, Nat.eqb_refl by auto. eexists. split; [reflexivity|]. auto.
    + intros e' N. rewrite nth_set_nth by auto. destruct (Nat.eqb_spec e e'); [congruence|reflexivity].
  - apply override_reject in O. destruct O as (p & P & N). rewrite P in H. subst p. rewrite (proj1 (bd_env B V)) in N. congruence.
Qed.
Theorem C57_reject_env : forall l e tb x p, let m := truns l tstart in nth_error (envs m) e = Some x ->
  t_self tb = Some p -> p <> PEnv e -> exists er, tstep (TOverEnv e tb) m = (Thrown er, m).
Proof.
  intros l e tb x p m V P N. pose proof (truns_bound l tstart_bound) as B. fold m in B. cbn [tstep]. rewrite V.
  destruct (override (n_table x) tb) as [r|] eqn:O; [|eauto]. exfalso.
  assert (override (n_table x) tb = None) as O2; [|congruence]. apply override_reject. exists p. rewrite (proj1 (bd_env B V)). split; [exact P|congruence].
Qed.
Theorem C57_override_vm : forall l v tb x, let m := truns l tstart in nth_error (vms m) v = Some x ->
  match t_self tb with
  | Some p => p = PVm v
  | None => True
  end ->
  exists m', tstep (TOverVm v tb) m = (Ok m', m') /\
    (exists y, nth_error (vms m') v = Some y /\ t_slots (m_inv y) = t_slots tb /\ m_tmpl y = m_tmpl x /\ m_hooks y = m_hooks x /\ m_envs y = m_envs x) /\
    (forall v', v' <> v -> nth_error (vms m') v' = nth_error (vms m) v') /\ envs m' = envs m.
Proof.
  intros l v tb x m V H. pose proof (truns_bound l tstart_bound) as B. fold m in B. cbn [tstep]. rewrite V.
  destruct (override (m_inv x) tb) as [r|] eqn:O.
  - destruct (override_self O) as (S1 & S2). pose proof (nth_lt V) as L. eexists. split; [reflexivity|]. cbn [envs vms]. split; [|split; [|reflexivity]].
    + rewrite nth_set_nth, Nat.eqb_refl by auto. eexists. split; [reflexivity|]. cbn. auto.
    + intros v' N. rewrite nth_set_nth by auto. destruct (Nat.eqb_spec v v'); [congruence|reflexivity].
  - apply override_reject in O. destruct O as (p & P & N). rewrite P in H. subst p. rewrite (bd_vm B V) in N. congruence.
Qed.
Theorem C57_reject_vm : forall l v tb x p, let m := truns l tstart in nth_error (vms m) v = Some x ->
  t_self tb = Some p -> p <> PVm v -> exists er, tstep (TOverVm v tb) m = (Thrown er, m).
Proof.
  intros l v tb x p m V P N. pose proof (truns_bound l tstart_bound) as B. fold m in B. cbn [tstep]. rewrite V.
  destruct (override (m_inv x) tb) as [r|] eqn:O; [|eauto]. exfalso.
  assert (override (m_inv x) tb = None) as O2; [|congruence]. apply override_reject. exists p. rewrite (bd_vm B V). split; [exact P|congruence].
Qed.
(** A thread that attaches for the first time gets the functions of the template changed by all hooks, in the order in
    which they were added, whatever they do to reserved0. *)
Theorem C57_hooks : forall l v x t, let m := truns l tstart in nth_error (vms m) v = Some x -> env_of x t = None ->
  exists m' y z, tstep (TAttach t v) m = (Ok m', m') /\ nth_error (vms m') v = Some y /\ env_of y t = Some (length (envs m)) /\
    nth_error (envs m') (length (envs m)) = Some z /\ n_vm z = v /\
    t_slots (n_table z) = t_slots (fold_left (fun tb h => h tb) (m_hooks x) (m_tmpl x)) /\
    (forall e, e < length (envs m) -> nth_error (envs m') e = nth_error (envs m) e) /\
    m_hooks y = m_hooks x /\ m_tmpl y = m_tmpl x /\ m_inv y = m_inv x /\ (forall u, u <> t -> env_of y u = env_of x u) /\
    (forall v', v' <> v -> nth_error (vms m') v' = nth_error (vms m) v').
Proof.
  intros l v x t m V Eo. cbn [tstep]. rewrite V, Eo. pose proof (nth_lt V) as L. unfold create_env. do 3 eexists. split; [reflexivity|]. cbn [vms envs].
  rewrite nth_set_nth, Nat.eqb_refl by auto. split; [reflexivity|]. rewrite env_of_cons, Nat.eqb_refl. split; [reflexivity|].
  rewrite nth_error_app2, Nat.sub_diag by auto. split; [reflexivity|]. cbn [n_vm n_table t_slots]. split; [reflexivity|]. split; [reflexivity|].
  split; [intros e H; rewrite nth_error_app1 by auto; reflexivity|]. split; [reflexivity|]. split; [reflexivity|]. split; [reflexivity|]. split.
  - intros u N. rewrite env_of_cons. destruct (Nat.eqb_spec t u); [congruence|reflexivity].
  - intros v' N. rewrite nth_set_nth by auto. destruct (Nat.eqb_spec v v'); [congruence|reflexivity].
Qed.
(** Adding a hook appends it and changes no environment; attaching an attached thread changes nothing. *)
Theorem C57_add_hook : forall v x h m, nth_error (vms m) v = Some x ->
  exists m' y, tstep (THook v h) m = (Ok m', m') /\ nth_error (vms m') v = Some y /\ m_hooks y = m_hooks x ++ [h] /\ m_tmpl y = m_tmpl x /\ m_envs y = m_envs x /\
    m_inv y = m_inv x /\ envs m' = envs m /\ forall v', v' <> v -> nth_error (vms m') v' = nth_error (vms m) v'.
Proof.
  intros v x h m V. cbn [tstep]. rewrite V. pose proof (nth_lt V) as L. do 2 eexists. split; [reflexivity|]. cbn [vms envs].
  rewrite nth_set_nth, Nat.eqb_refl by auto. repeat split; auto. intros v' N. rewrite nth_set_nth by auto. destruct (Nat.eqb_spec v v'); [congruence|reflexivity].
Qed.
Theorem C57_attached : forall v x t e m, nth_error (vms m) v = Some x -> env_of x t = Some e -> tstep (TAttach t v) m = (Ok m, m).
Proof. intros v x t e m V Eo. cbn [tstep]. rewrite V, Eo. reflexivity. Qed.
(** The template of a VM never changes. *)
Theorem C57_template : forall l m v x, nth_error (vms m) v = Some x -> exists y, nth_error (vms (truns l m)) v = Some y /\ m_tmpl y = m_tmpl x.
Proof.
  induction l as [|o l IH]; intros m v x V; cbn [truns]; [eauto|].
  assert (exists y, nth_error (vms (snd (tstep o m))) v = Some y /\ m_tmpl y = m_tmpl x) as (y & Y & Q).
  { destruct o as [inv slots|t w|t w|w h|w tb|e tb]; cbn [tstep].
    - cbn. exists x. rewrite nth_error_app1 by (eapply nth_lt; eauto). auto.
    - destruct (nth_error (vms m) w) as [z|] eqn:Z; [|eauto]. destruct (env_of z t); [eauto|]. cbn. rewrite nth_set_nth by (eapply nth_lt; eauto).
      destruct (Nat.eqb_spec w v) as [->|]; [|eauto]. rewrite V in Z. injection Z as <-. eauto.
    - destruct (nth_error (vms m) w) as [z|] eqn:Z; [|eauto]. cbn. rewrite nth_set_nth by (eapply nth_lt; eauto).
      destruct (Nat.eqb_spec w v) as [->|]; [|eauto]. rewrite V in Z. injection Z as <-. eauto.
    - destruct (nth_error (vms m) w) as [z|] eqn:Z; [|eauto]. cbn. rewrite nth_set_nth by (eapply nth_lt; eauto).
      destruct (Nat.eqb_spec w v) as [->|]; [|eauto]. rewrite V in Z. injection Z as <-. eauto.
    - destruct (nth_error (vms m) w) as [z|] eqn:Z; [|eauto]. destruct (override (m_inv z) tb); [|eauto]. cbn. rewrite nth_set_nth by (eapply nth_lt; eauto).
      destruct (Nat.eqb_spec w v) as [->|]; [|eauto]. rewrite V in Z. injection Z as <-. eauto.
    - destruct (nth_error (envs m) e) as [z|] eqn:Z; [|eauto]. destruct (override (n_table z) tb); eauto. }
  destruct (IH _ v y Y) as (z & Z & Q2). exists z. split; [exact Z|congruence].
Qed.

(** * Example: two VMs, hooks that overwrite functions and even reserved0, good and bad overrides *)
Definition hist : list top :=
  [TNew [1; 2] [10; 20; 30]; TAttach 7 0; THook 0 (fun tb => mkT (Some (PForeign 3)) (99 :: tl (t_slots tb))); THook 0 (fun tb => mkT None (rev (t_slots tb)));
   TNew [1; 2] [10; 20; 30]; TAttach 8 0; TAttach 8 1; TOverEnv 0 (mkT None [5]); TOverEnv 2 (mkT (Some (PEnv 1)) [6]); TOverEnv 2 (mkT (Some (PEnv 2)) [7]);
   TOverVm 0 (mkT (Some (PVm 1)) [8]); TOverVm 1 (mkT None [9]); TDetach 8 0; TAttach 8 0].
Example C57_case : map n_table (envs (truns hist tstart)) =
    [mkT (Some (PEnv 0)) [5]; mkT (Some (PEnv 1)) [30; 20; 99]; mkT (Some (PEnv 2)) [7]; mkT (Some (PEnv 3)) [30; 20; 99]] /\
  map m_inv (vms (truns hist tstart)) = [mkT (Some (PVm 0)) [1; 2]; mkT (Some (PVm 1)) [9]].
Proof. vm_compute. auto. Qed.

Print Assumptions C57_java_vm.
Print Assumptions C57_jni_env.
Print Assumptions C57_owner.
Print Assumptions C57_override_env.
Print Assumptions C57_hooks.
Print Assumptions C57_template.
