(** Scoped contexts: C49, C65. *)
From Verif Require Import Base BaseProofs SigModel VmState VmModel VmStep VmSpec MemSpec CallSpec RefSpec VmBase VmFrame VmWf VmPrim VmInv VmReg
  VmFine VmRegInv VmExact VmQuiet VmClass VmEnvInv VmMember VmMember2 VmMember3 VmTables VmHook VmMemHist VmCall VmCall2 VmThread VmDemo VmRef VmRef2 VmRef3
  CtxModel.
Set Implicit Arguments.
Unset Strict Implicit.
Local Opaque after.

(** * Specification *)
(** thread [t] has an environment with number [k] in VM [v] *)
Definition env_in (w : world) (t : tid) (v k : nat) : Prop :=
  exists s e, vm w v = Some s /\ get_env s t = Some e /\ e_id e = k.
Definition frames_in (w : world) (t : tid) (v : nat) : list (list oid) :=
  match vm w v with Some s => frames s t | None => [] end.
(** How frames change under use that does not push or pop: references are added to the innermost frame, and those in
    [ds] deleted. *)
Inductive evolve : list oid -> list (list oid) -> list (list oid) -> Prop :=
| ev_refl fs : evolve [] fs fs
| ev_add xs ds fs fs' : evolve ds (RefSpec.add_locals fs xs) fs' -> evolve ds fs fs'
| ev_del i ds fs fs1 fs' : deleted i fs fs1 -> evolve ds fs1 fs' -> evolve (i :: ds) fs fs'.

(** Code that does not push, pop, attach or detach itself but by scopes; sizes of frames are not negative *)
Definition tame_op (o : op) : bool :=
  match o with PushLocalFrame_ _ | PopLocalFrame_ _ | Detach_ | Attach_ => false | _ => true end.
(** the thread whose environments are concerned; [None]: those of all threads *)
Definition wop_thread (o : wop) : option tid :=
  match o with WNew u => Some u | WAttach u _ => Some u | WDetach u _ => Some u | WOp u _ _ => Some u | WExit u => Some u | WDestroy _ => None end.
Fixpoint tame (t : tid) (p : prog) : bool :=
  match p with
  | PDo o => tame_op o
  | POther o => match wop_thread o with Some u => negb (Nat.eqb u t) | None => false end
  | PScope _ n b => match n with Some c => (0 <=? c)%Z | None => true end &&
                    (fix go l := match l with [] => true | x :: l => tame t x && go l end) b
  | PTry b => (fix go l := match l with [] => true | x :: l => tame t x && go l end) b
  end.
Definition tames (t : tid) (l : list prog) : bool := forallb (tame t) l.
(** … and never calls DeleteLocalRef *)
Fixpoint keeping (p : prog) : bool :=
  match p with
  | PDo (DeleteLocalRef_ _) => false
  | PDo _ => true
  | POther _ => true
  | PScope _ _ b => (fix go l := match l with [] => true | x :: l => keeping x && go l end) b
  | PTry b => (fix go l := match l with [] => true | x :: l => keeping x && go l end) b
  end.
Definition keepings (l : list prog) : bool := forallb keeping l.

(** * Frames *)
Lemma evolve_trans d1 d2 a b c : evolve d1 a b -> evolve d2 b c -> evolve (d1 ++ d2) a c.
Proof. induction 1; intros H2; cbn; [exact H2|eapply ev_add; eauto|eapply ev_del; eauto]. Qed.
Lemma evolve_deleted ds a b : deleted_all ds a b -> evolve ds a b.
Proof. induction 1; [constructor|eapply ev_del; eauto]. Qed.
Lemma deleted_cons i f r fs : deleted i (f :: r) fs ->
  (exists f', fs = f' :: r) \/ (exists r', fs = f :: r' /\ deleted i r r').
Proof. inversion 1; subst; eauto. Qed.
Lemma evolve_tail ds f r fs : evolve ds (f :: r) fs ->
  exists f' r' ds', fs = f' :: r' /\ deleted_all ds' r r' /\ incl ds' ds.
Proof.
  intros H. remember (f :: r) as x eqn:E. revert f r E. induction H; intros f r E; subst.
  - exists f, r, []. repeat split; [constructor|intros i []].
  - cbn in *. apply (IHevolve _ _ eq_refl).
  - destruct (deleted_cons H) as [(f' & ->)|(r' & -> & D)].
    + destruct (IHevolve _ _ eq_refl) as (f2 & r2 & ds2 & -> & D & I). exists f2, r2, ds2. repeat split; auto. apply incl_tl, I.
    + destruct (IHevolve _ _ eq_refl) as (f2 & r2 & ds2 & -> & D2 & I). exists f2, r2, (i :: ds2). repeat split.
      * econstructor; eauto.
      * intros x [<-|X]; [left; reflexivity|right; apply I; exact X].
Qed.
Lemma evolve_nil a b : evolve [] a b -> exists xs, b = RefSpec.add_locals a xs.
Proof.
  remember [] as ds eqn:E. induction 1; try discriminate.
  - exists []. rewrite add_locals_nil. reflexivity.
  - destruct (IHevolve E) as (ys & ->). exists (xs ++ ys). apply add_locals_app.
Qed.
Lemma incl_nil (l : list oid) : incl l [] -> l = [].
Proof. destruct l as [|x l]; [reflexivity|]. intros H. destruct (H x). left. reflexivity. Qed.

(** * The initial state of a VM *)
Section Init.
Variables (G : cfg) (t : tid) (P : st -> st -> Prop).
Hypothesis F : fine G t (fun p => p <> PrDetach) P.
Let Q (s s' : st) : Prop := wf s -> wf s' /\ P s s'.
Let Qtrans a b c : Q a b -> Q b c -> Q a c.
Proof. intros H1 H2 W. destruct (H1 W) as [W1 K1]. destruct (H2 W1) as [W2 K2]. split; auto. eapply (f_trans F); eauto. Qed.
Let Qrefl s : Q s s.
Proof. intros W. split; auto. apply (f_refl F). Qed.
Lemma Qg_GetClassT T i n : keeps Q (GetClassT G T i n).
Proof.
  unfold GetClassT. apply keeps_bind; [apply Qtrans| |].
  { intros s. pose proof (coarse_find_class G wfi_coarse false n s) as A.
    assert (B := @f_find _ _ _ _ F ltac:(discriminate) false n s).
    destruct (find_class G false n s); auto; intros W; split; auto; apply A; auto. }
  intros o. apply keeps_bind; [apply Qtrans|apply keeps_nonnull, Qrefl|]. intros j.
  apply keeps_bind; [apply Qtrans| |].
  - apply I_set_type. intros s H W. split; [|apply (f_bind F); auto; discriminate].
    apply (c_types wfi_coarse); auto.
  - intros _. apply keeps_bind; [apply Qtrans| |intros; apply keeps_ret, Qrefl].
    apply I_upd_cls. intros s0 o0 c L E O W. split.
    + eapply (c_put wfi_coarse); eauto. rewrite E. simpl. auto.
    + eapply (f_cls F); eauto. apply cc_bind; auto. discriminate.
Qed.
Lemma initialize_after s s' : Attach t s = Ret 0 s' -> wf s' -> forall x s2, initialize G t s = Ret x s2 -> P s' (finish s2).
Proof.
  intros A W x s2 E. unfold initialize in E. unfold bind at 1 in E. rewrite A in E.
  match type of E with ?m s' = _ => assert (keeps Q m) as K end.
  { repeat (apply keeps_bind; [apply Qtrans|apply Qg_GetClassT|intros _]). apply keeps_ret, Qrefl. }
  specialize (K s'). rewrite E in K. destruct (K W) as [W1 P1]. eapply (f_trans F); [exact P1|]. unfold finish.
  assert (wf (with_tmp s2 [])) by (apply wf_tmp_only; auto; simpl; tauto).
  eapply (f_trans F); [apply (f_tmp F) with (l := [])|apply (f_collect F)]; auto; simpl; tauto.
Qed.
End Init.
Lemma init_attached G t u : attached (init_vm G t) u <-> u = t.
Proof.
  split.
  - intros (e & E). destruct (Nat.eq_dec u t) as [|N]; [auto|]. exfalso.
    assert (looks u (fun a b => b = a) empty_vm (init_vm G t)) as H.
    { apply (@fine_init G t). apply looks_fine; auto; intros; congruence. }
    unfold looks in H. rewrite E in H. discriminate.
  - intros ->. unfold init_vm. destruct (initialize_ok G t) as (s & E). rewrite E.
    set (s1 := with_nextenv (with_envs empty_vm (aset Nat.eqb (s_envs empty_vm) t (new_env 0))) 1).
    assert (Attach t empty_vm = Ret 0 s1) as A by reflexivity.
    assert (wf s1) as W by (apply (c_attach wfi_coarse empty_vm t); [reflexivity|apply empty_wf]).
    assert (looks t (fun a b => a <> None -> b <> None) s1 (finish s)) as H.
    { refine (initialize_after (P := looks t (fun a b => a <> None -> b <> None)) _ A W E).
      apply looks_fine; auto; intros; try discriminate; try congruence. }
    unfold attached. unfold looks in H. assert (get_env s1 t <> None) as N.
    { unfold get_env, s1. cbn. rewrite Nat.eqb_refl. discriminate. }
    specialize (H N). destruct (get_env (finish s) t); [eauto|congruence].
Qed.
Lemma init_solid G t : solid G (init_vm G t).
Proof. apply (reachable_solid (t := t)). exists [], []. reflexivity. Qed.

(** * Worlds *)
Record winv (G : cfg) (w : world) : Prop := {
  wi_solid : forall v s, vm w v = Some s -> solid G s;
  wi_cur : forall t v s, vm w v = Some s -> (attached s t <-> cur w t = Some v);
  wi_lt : forall t v, cur w t = Some v -> exists s, vm w v = Some s }.

Lemma vm_set w v s x j : v < length (w_vms w) ->
  vm (mkW (list_set (w_vms w) v s) x) j = if Nat.eqb v j then s else vm w j.
Proof.
  intros L. unfold vm. cbn [w_vms]. rewrite nth_list_set. destruct (Nat.eqb_spec v j) as [->|]; [|reflexivity].
  destruct (nth_error (w_vms w) j) eqn:E; [reflexivity|]. apply nth_error_None in E. lia.
Qed.
Lemma vm_lt w v s : vm w v = Some s -> v < length (w_vms w).
Proof. intros H. apply nth_error_Some. unfold vm in H. destruct (nth_error (w_vms w) v); congruence. Qed.
Lemma cur_set (c : list (tid * nat)) t v u x : cur (mkW x (aset Nat.eqb c t v)) u = if Nat.eqb t u then Some v else aget Nat.eqb c u.
Proof. unfold cur. cbn [w_cur]. rewrite (aget_aset Nat.eqb Nat.eqb_spec). reflexivity. Qed.
Lemma cur_del (c : list (tid * nat)) t u x : cur (mkW x (adel Nat.eqb c t)) u = if Nat.eqb t u then None else aget Nat.eqb c u.
Proof. unfold cur. cbn [w_cur]. rewrite (aget_adel Nat.eqb Nat.eqb_spec). reflexivity. Qed.

Section Worlds.
Variable G : cfg.
Notation winv := (winv G).

(** one step of a VM that is not attaching or detaching *)
Lemma keep_attached t o s r s' u : solid G s -> threads_op o = false -> step G t o s = Some (r, s') -> (attached s' u <-> attached s u).
Proof.
  intros So N St. pose proof (good_wf (so_good So)) as W. destruct (Nat.eq_dec u t) as [->|Nu].
  - split; intros (e & E).
    + destruct (needs_env o) eqn:Ne; [eapply step_attached; eauto|].
      destruct (get_env s t) as [e0|] eqn:E0; [exists e0; auto|]. exfalso.
      assert (looks t (fun a b => a = None -> b = None) s s') as H.
      { eapply (@fine_step G t (fun p => p <> PrAttach)); eauto.
        - apply looks_fine; auto; intros; try congruence; try tauto. 
        - destruct o; try discriminate; simpl; intros pr H; repeat (destruct H as [<-|H]; [discriminate|]); destruct H. }
      unfold looks in H. rewrite E in H. specialize (H E0). discriminate.
    + assert (o <> Detach_ \/ t <> t) as Nd by (left; intros ->; discriminate).
      destruct (envid_step W E Nd St) as (e' & E' & _). exists e'. auto.
  - pose proof (others_step W Nu St) as H. unfold attached. rewrite H. reflexivity.
Qed.

Lemma vmop_winv t v o w r w' : winv w -> threads_op o = false -> vmop G t v o w = Some (r, w') -> winv w' /\ w_cur w' = w_cur w.
Proof.
  intros I N E. unfold vmop in E. destruct (vm w v) as [s|] eqn:V; [|discriminate].
  destruct (step G t o s) as [[r' s']|] eqn:St; [|discriminate]. injection E as <- <-. split; [|reflexivity].
  pose proof (wi_solid I V) as So. pose proof (vm_lt V) as L. unfold set_vm. constructor.
  - intros j x. rewrite vm_set by auto. destruct (Nat.eqb_spec v j); [|apply (wi_solid I)]. intros [= <-]. eapply step_solid; eauto.
  - intros u j x. rewrite vm_set by auto. change (cur (mkW _ (w_cur w)) u) with (cur w u). destruct (Nat.eqb_spec v j) as [->|]; [|apply (wi_cur I)].
    intros [= <-]. rewrite (keep_attached u So N St). apply (wi_cur I). exact V.
  - intros u j C. rewrite vm_set by auto. destruct (Nat.eqb v j); [eauto|]. apply (wi_lt I (t := u)). exact C.
Qed.
Lemma attach_winv t v w w' : winv w -> attach G t v w = Some w' ->
  winv w' /\ (forall u, u <> t -> cur w' u = cur w u) /\ cur w' t = Some v.
Proof.
  intros I E. unfold attach in E. destruct (vm w v) as [s|] eqn:V; [|discriminate].
  destruct (get_env s t) as [e|] eqn:Ge.
  - injection E as <-. split; [exact I|]. split; [auto|]. apply (wi_cur I t V). exists e. exact Ge.
  - destruct (cur w t) as [x|] eqn:C; [discriminate|]. pose proof (wi_solid I V) as So. pose proof (vm_lt V) as L.
    pose proof (Attach_step t (so_good So)) as H. rewrite Ge in H. destruct H as (k & s' & St & _ & _ & Ge' & Ot & _). rewrite St in E.
    injection E as <-. split; [|split].
    + constructor.
      * intros j x. rewrite vm_set by auto. destruct (Nat.eqb_spec v j); [|apply (wi_solid I)]. intros [= <-]. eapply step_solid; eauto.
      * intros u j x. rewrite vm_set by auto. rewrite cur_set. destruct (Nat.eqb_spec v j) as [->|Nj].
        -- intros [= <-]. destruct (Nat.eqb_spec t u) as [->|Nu].
           ++ split; [reflexivity|]. intros _. eexists. exact Ge'.
           ++ unfold attached. rewrite Ot by auto. apply (wi_cur I u V).
        -- intros X. destruct (Nat.eqb_spec t u) as [->|Nu]; [|apply (wi_cur I u X)].
           split; [|congruence]. intros A. apply (wi_cur I u X) in A. congruence.
      * intros u j. rewrite cur_set. rewrite vm_set by auto. destruct (Nat.eqb_spec v j) as [->|]; [eauto|]. destruct (Nat.eqb t u); [congruence|apply (wi_lt I)].
    + intros u Nu. rewrite cur_set. destruct (Nat.eqb_spec t u); [congruence|reflexivity].
    + rewrite cur_set, Nat.eqb_refl. reflexivity.
Qed.
Lemma detach_step_inv t s r s' : solid G s -> step G t Detach_ s = Some (r, s') ->
  get_env s' t = None /\ forall u, u <> t -> get_env s' u = get_env s u.
Proof.
  intros So St. destruct (get_env s t) as [e|] eqn:Ge.
  - destruct (e_calls e) as [|c cs] eqn:C.
    + assert (running s t = []) as R by (unfold running; rewrite Ge, C; reflexivity).
      destruct (Detach_step So R) as (s2 & St2 & _ & A & B & _). rewrite St in St2. injection St2 as -> ->. auto.
    + exfalso. unfold step, run in St. cbn [needs_env body] in St. unfold as_int, bind, ret, Detach in St. rewrite Ge, C in St. discriminate.
  - assert (running s t = []) as R by (unfold running; rewrite Ge; reflexivity).
    destruct (Detach_step So R) as (s2 & St2 & _ & A & B & _). rewrite St in St2. injection St2 as -> ->. auto.
Qed.
Lemma detach_winv t v w w' : winv w -> detach G t v w = Some w' ->
  winv w' /\ (forall u, u <> t -> cur w' u = cur w u) /\ (cur w t = Some v -> cur w' t = None) /\ (cur w t <> Some v -> cur w' t = cur w t).
Proof.
  intros I E. unfold detach in E. destruct (vm w v) as [s|] eqn:V; [|discriminate].
  destruct (step G t Detach_ s) as [[r s']|] eqn:St; [|discriminate]. injection E as <-.
  pose proof (wi_solid I V) as So. pose proof (vm_lt V) as L. destruct (detach_step_inv So St) as (Ge & Ot).
  assert (CU : forall u x, cur (mkW x (match cur w t with Some x => if Nat.eqb x v then adel Nat.eqb (w_cur w) t else w_cur w | None => w_cur w end)) u =
               if Nat.eqb t u then match cur w t with Some x => if Nat.eqb x v then None else Some x | None => None end else cur w u).
  { intros u x. destruct (cur w t) as [y|] eqn:C.
    - destruct (Nat.eqb_spec y v) as [->|N].
      + rewrite cur_del. reflexivity.
      + destruct (Nat.eqb_spec t u) as [->|]; [exact C|reflexivity].
    - destruct (Nat.eqb_spec t u) as [->|]; [exact C|reflexivity]. }
  split; [constructor|split; [|split]].
  - intros j x. rewrite vm_set by auto. destruct (Nat.eqb_spec v j); [|apply (wi_solid I)]. intros [= <-]. eapply step_solid; eauto.
  - intros u j x. rewrite vm_set by auto. rewrite CU. destruct (Nat.eqb_spec v j) as [->|Nj].
    + intros [= <-]. destruct (Nat.eqb_spec t u) as [->|Nu].
      * split; [intros (e & X); congruence|]. destruct (cur w u) as [y|]; [|discriminate]. destruct (Nat.eqb_spec y j); [discriminate|congruence].
      * unfold attached. rewrite Ot by auto. apply (wi_cur I u V).
    + intros X. destruct (Nat.eqb_spec t u) as [->|Nu]; [|apply (wi_cur I u X)].
      rewrite (wi_cur I u X). destruct (cur w u) as [y|]; [|reflexivity]. destruct (Nat.eqb_spec y v); [|reflexivity].
      split; [congruence|discriminate].
  - intros u j. rewrite CU. rewrite vm_set by auto. destruct (Nat.eqb_spec v j) as [->|]; [eauto|]. destruct (Nat.eqb t u); [|apply (wi_lt I)].
    destruct (cur w t) as [y|] eqn:C; [|discriminate]. destruct (Nat.eqb y v); [discriminate|]. intros [= <-]. apply (wi_lt I C).
  - intros u Nu. rewrite CU. destruct (Nat.eqb_spec t u); [congruence|reflexivity].
  - intros C. rewrite CU, Nat.eqb_refl, C, Nat.eqb_refl. reflexivity.
  - intros C. rewrite CU, Nat.eqb_refl. destruct (cur w t) as [y|]; [|reflexivity]. destruct (Nat.eqb_spec y v); [congruence|reflexivity].
Qed.
Lemma create_winv t w w' : winv w -> create G t w = Some w' -> winv w' /\ (forall u, u <> t -> cur w' u = cur w u) /\ cur w' t = Some (length (w_vms w)).
Proof.
  intros I E. unfold create in E. destruct (cur w t) eqn:C; [discriminate|]. injection E as <-.
  assert (VM : forall j x, vm (mkW (w_vms w ++ [Some (init_vm G t)]) (aset Nat.eqb (w_cur w) t (length (w_vms w)))) j = Some x ->
               (j < length (w_vms w) /\ vm w j = Some x) \/ (j = length (w_vms w) /\ x = init_vm G t)).
  { intros j x H. unfold vm in *. cbn [w_vms] in H. destruct (Nat.lt_ge_cases j (length (w_vms w))) as [Lj|Lj].
    - rewrite nth_error_app1 in H by auto. auto.
    - rewrite nth_error_app2 in H by auto. destruct (j - length (w_vms w)) as [|n] eqn:D; cbn in H; [|destruct n; discriminate].
      right. split; [lia|congruence]. }
  split; [constructor|split].
  - intros j x H. destruct (VM _ _ H) as [[_ X]|[_ ->]]; [apply (wi_solid I X)|apply init_solid].
  - intros u j x H. rewrite cur_set. destruct (VM _ _ H) as [[Lj X]|[-> ->]].
    + destruct (Nat.eqb_spec t u) as [->|]; [|apply (wi_cur I u X)]. rewrite (wi_cur I u X), C. split; [discriminate|]. intros [= <-]. lia.
    + rewrite init_attached. destruct (Nat.eqb_spec t u) as [->|N]; [split; auto|]. split; [congruence|]. intros X. destruct (wi_lt I X) as (y & Y). apply vm_lt in Y. lia.
  - intros u j. rewrite cur_set. destruct (Nat.eqb t u).
    + intros [= <-]. exists (init_vm G t). unfold vm. cbn [w_vms]. rewrite nth_error_app2, Nat.sub_diag by auto. reflexivity.
    + intros X. destruct (wi_lt I X) as (y & Y). exists y. pose proof (vm_lt Y) as L. unfold vm in *. cbn [w_vms]. rewrite nth_error_app1 by auto. exact Y.
  - intros u N. rewrite cur_set. destruct (Nat.eqb_spec t u); [congruence|reflexivity].
  - rewrite cur_set, Nat.eqb_refl. reflexivity.
Qed.
Lemma exit_winv t w w' : winv w -> thread_exit G t w = Some w' -> winv w' /\ (forall u, u <> t -> cur w' u = cur w u) /\ cur w' t = None.
Proof.
  intros I E. unfold thread_exit in E. destruct (cur w t) as [v|] eqn:C; [|injection E as <-; auto]. destruct (detach_winv I E) as (A & B & D & _). auto.
Qed.
Lemma expire_cur (l : list (tid * env)) c u x : cur (mkW x (fold_right (fun e c => adel Nat.eqb c (fst e)) c l)) u = match aget Nat.eqb l u with Some _ => None | None => aget Nat.eqb c u end.
Proof.
  induction l as [|[t e] l IH]; [reflexivity|]. cbn [fold_right fst aget]. rewrite cur_del. destruct (Nat.eqb_spec t u) as [->|N]; [reflexivity|exact IH].
Qed.
Lemma destroy_winv v w w' : winv w -> destroy v w = Some w' -> winv w' /\ vm w' v = None /\ (forall x, x <> v -> vm w' x = vm w x) /\
  (forall u, cur w' u = match cur w u with Some x => if Nat.eqb x v then None else Some x | None => None end).
Proof.
  intros I E. unfold destroy in E. destruct (vm w v) as [s|] eqn:V; [|discriminate]. destruct (forallb _ (s_envs s)); [|discriminate]. injection E as <-. pose proof (vm_lt V) as L.
  set (w' := mkW _ _).
  assert (CU : forall u, cur w' u = match cur w u with Some x => if Nat.eqb x v then None else Some x | None => None end).
  { intros u. unfold w'. rewrite expire_cur. change (aget Nat.eqb (s_envs s) u) with (get_env s u). change (aget Nat.eqb (w_cur w) u) with (cur w u). destruct (get_env s u) as [e|] eqn:Ge.
    - rewrite (proj1 (wi_cur I u V) (ex_intro _ e Ge)), Nat.eqb_refl. reflexivity.
    - destruct (cur w u) as [x|] eqn:C; auto. destruct (Nat.eqb_spec x v) as [->|]; auto. destruct (proj2 (wi_cur I u V) C) as (e & X). congruence. }
  assert (VM : forall j, vm w' j = if Nat.eqb v j then None else vm w j) by (intros j; apply vm_set; exact L).
  split; [constructor|split; [|split]].
  - intros j x. rewrite VM. destruct (Nat.eqb v j); [discriminate|apply (wi_solid I)].
  - intros u j x. rewrite VM, CU. destruct (Nat.eqb_spec v j) as [|Nj]; [discriminate|]. intros X. rewrite (wi_cur I u X). destruct (cur w u) as [y|]; [|reflexivity]. destruct (Nat.eqb_spec y v); [|reflexivity]. split; congruence.
  - intros u j. rewrite VM, CU. destruct (cur w u) as [y|] eqn:C; [|discriminate]. destruct (Nat.eqb_spec y v); [discriminate|]. intros [= ->]. destruct (Nat.eqb_spec v j); [congruence|]. apply (wi_lt I C).
  - rewrite VM, Nat.eqb_refl. reflexivity.
  - intros x N. rewrite VM. destruct (Nat.eqb_spec v x); [congruence|reflexivity].
  - exact CU.
Qed.
Lemma wstep_winv o w w' : winv w -> wstep G o w = Some w' -> winv w' /\ forall t u, wop_thread o = Some t -> u <> t -> cur w' u = cur w u.
Proof.
  intros I E. destruct o as [t|t v|t v|t v o|t|v]; cbn in *.
  - destruct (create_winv I E) as (A & B & _). split; [exact A|]. intros x u [= <-]. auto.
  - destruct (attach_winv I E) as (A & B & _). split; [exact A|]. intros x u [= <-]. auto.
  - destruct (detach_winv I E) as (A & B & _). split; [exact A|]. intros x u [= <-]. auto.
  - destruct (threads_op o) eqn:N; [discriminate|]. destruct (vmop G t v o w) as [[r w2]|] eqn:V; [|discriminate]. injection E as <-.
    destruct (vmop_winv I N V) as (A & B). split; [exact A|]. intros x u _ _. unfold cur. rewrite B. reflexivity.
  - destruct (exit_winv I E) as (A & B & _). split; [exact A|]. intros x u [= <-]. auto.
  - split; [apply (destroy_winv I E)|discriminate].
Qed.
Theorem wreach_inv w : wreach G w -> winv w.
Proof.
  induction 1 as [|o w w' R IH E]; [|exact (proj1 (wstep_winv IH E))].
  constructor; intros; unfold vm, cur in *; cbn in *; try (destruct v; discriminate); discriminate.
Qed.

(** * What a piece of code does to its thread *)
Variable t : tid.
(** thread [t] keeps its environment; the frames evolve *)
Definition kept (ds : list oid) (w w' : world) : Prop :=
  cur w' t = cur w t /\
  forall v s e, cur w t = Some v -> vm w v = Some s -> get_env s t = Some e ->
    exists s' e', vm w' v = Some s' /\ get_env s' t = Some e' /\ e_id e' = e_id e /\ evolve ds (e_frames e) (e_frames e').
Lemma kept_refl w : kept [] w w.
Proof. split; [reflexivity|]. intros v s e _ A B. exists s, e. repeat split; auto. constructor. Qed.
Lemma kept_trans d1 d2 a b c : kept d1 a b -> kept d2 b c -> kept (d1 ++ d2) a c.
Proof.
  intros [C1 H1] [C2 H2]. split; [congruence|]. intros v s e C V E. destruct (H1 v s e C V E) as (s1 & e1 & V1 & E1 & I1 & F1).
  destruct (H2 v s1 e1 ltac:(congruence) V1 E1) as (s2 & e2 & V2 & E2 & I2 & F2). exists s2, e2. repeat split; auto; [congruence|].
  eapply evolve_trans; eauto.
Qed.

(** other threads *)
Lemma detach_vm u x v w w' s : vm w v = Some s -> u <> t -> winv w -> detach G u x w = Some w' -> exists s', vm w' v = Some s' /\ get_env s' t = get_env s t.
Proof.
  intros V N I E. pose proof (wi_solid I V) as So. pose proof (good_wf (so_good So)) as W. unfold detach in E. destruct (vm w x) as [y|] eqn:X; [|discriminate].
  destruct (step G u Detach_ y) as [[r y']|] eqn:St; [|discriminate]. injection E as <-.
  rewrite vm_set by (eapply vm_lt; eauto). destruct (Nat.eqb_spec x v) as [->|]; [|eauto]. rewrite V in X. injection X as <-.
  exists y'. split; [reflexivity|]. exact (others_step W (not_eq_sym N) St).
Qed.
Lemma other_kept u0 o w w' : winv w -> wop_thread o = Some u0 -> u0 <> t -> wstep G o w = Some w' -> kept [] w w'.
Proof.
  intros I Hu N E. split; [apply (proj2 (wstep_winv I E) u0); auto|]. intros v s e C V Ge.
  assert (exists s', vm w' v = Some s' /\ get_env s' t = get_env s t) as (s' & V' & Ge').
  { pose proof (wi_solid I V) as So. pose proof (good_wf (so_good So)) as W. pose proof (vm_lt V) as L.
    destruct o as [u|u x|u x|u x o|u|x]; cbn in Hu, E; try (injection Hu as ->); [| | | | |discriminate].
    - unfold create in E. destruct (cur w u0); [discriminate|]. injection E as <-. exists s. split; [|reflexivity].
      unfold vm in *. cbn [w_vms]. rewrite nth_error_app1; auto.
    - unfold attach in E. destruct (vm w x) as [y|] eqn:X; [|discriminate]. destruct (get_env y u0) eqn:Gy; [injection E as <-; eauto|].
      destruct (cur w u0); [discriminate|]. destruct (step G u0 Attach_ y) as [[r y']|] eqn:St; [|discriminate]. injection E as <-.
      rewrite vm_set by (eapply vm_lt; eauto). destruct (Nat.eqb_spec x v) as [->|]; [|eauto]. rewrite V in X. injection X as <-.
      exists y'. split; [reflexivity|]. exact (others_step W (not_eq_sym N) St).
    - exact (detach_vm V N I E).
    - destruct (threads_op o); [discriminate|]. unfold vmop in E. destruct (vm w x) as [y|] eqn:X; [|discriminate].
      destruct (step G u0 o y) as [[r y']|] eqn:St; [|discriminate]. injection E as <-. unfold set_vm.
      rewrite vm_set by (eapply vm_lt; eauto). destruct (Nat.eqb_spec x v) as [->|]; [|eauto]. rewrite V in X. injection X as <-.
      exists y'. split; [reflexivity|]. exact (others_step W (not_eq_sym N) St).
    - unfold thread_exit in E. destruct (cur w u0) as [x|]; [exact (detach_vm V N I E)|]. injection E as <-. eauto. }
  rewrite Ge in Ge'. exists s', e. repeat split; auto. constructor.
Qed.

(** the operation of [t] in its VM *)
Lemma own_op o w b w' v s e : winv w -> cur w t = Some v -> vm w v = Some s -> get_env s t = Some e -> threads_op o = false ->
  do_op G t o w = Some (b, w') ->
  exists r s' e', step G t o s = Some (r, s') /\ b = is_exn r /\ w' = set_vm w v s' /\ vm w' v = Some s' /\
    get_env s' t = Some e' /\ e_id e' = e_id e /\ winv w' /\ cur w' t = cur w t.
Proof.
  intros I C V Ge N E. unfold do_op in E. rewrite C in E. destruct (vmop G t v o w) as [[r w2]|] eqn:X; [|discriminate].
  injection E as <- <-. pose proof (vmop_winv I N X) as (I2 & C2). unfold vmop in X. rewrite V in X.
  destruct (step G t o s) as [[r2 s']|] eqn:St; [|discriminate]. injection X as <- <-.
  assert (o <> Detach_ \/ t <> t) as Nd by (left; intros ->; discriminate).
  destruct (envid_step (good_wf (so_good (wi_solid I V))) Ge Nd St) as (e' & Ge' & Id).
  exists r2, s', e'. do 3 (split; [auto|]). split; [|split; [exact Ge'|split; [exact Id|split; [exact I2|]]]].
  - unfold set_vm. rewrite vm_set by (eapply vm_lt; eauto). rewrite Nat.eqb_refl. reflexivity.
  - unfold cur. rewrite C2. reflexivity.
Qed.
Lemma do_kept o w b w' : winv w -> tame_op o = true -> do_op G t o w = Some (b, w') ->
  winv w' /\ exists ds, kept ds w w' /\ (keeping (PDo o) = true -> ds = []).
Proof.
  intros I Tm E. destruct (cur w t) as [v|] eqn:C.
  - destruct (wi_lt I C) as (s & V).
    destruct (proj2 (wi_cur I t V) C) as (e & Ge). assert (threads_op o = false) as N by (destruct o; try discriminate; reflexivity).
    destruct (own_op I C V Ge N E) as (r & s' & e' & St & _ & -> & V' & Ge' & Id & I' & C'). split; [exact I'|].
    pose proof (wi_solid I V) as So.
    assert (exists ds, evolve ds (e_frames e) (e_frames e') /\ (keeping (PDo o) = true -> ds = [])) as (ds & Ev & K).
    { destruct (frame_op o) eqn:F.
      - destruct o; try discriminate. destruct (delete_frames (so_good So) St) as (_ & r0 & _ & D). rewrite (frames_env Ge), (frames_env Ge') in D.
        destruct r0 as [i|].
        + exists [i]. split; [eapply ev_del; [exact D|constructor]|discriminate].
        + subst. rewrite Ge in Ge'. injection Ge' as <-. exists []. split; [constructor|auto].
      - destruct (plain_frames (good_wf (so_good So)) (ex_intro _ e Ge) F St) as (_ & xs & D). rewrite (frames_env Ge), (frames_env Ge') in D.
        exists []. split; [eapply (@ev_add xs); rewrite D; constructor|auto]. }
    exists ds. split; [|exact K]. split; [exact C'|]. intros v2 s2 e2 C2 V2 Ge2.
    assert (v2 = v) by congruence. subst v2. rewrite V in V2. injection V2 as <-. rewrite Ge in Ge2. injection Ge2 as <-. eauto 10.
  - unfold do_op in E. rewrite C in E. injection E as <- <-. split; [exact I|]. exists []. split; [apply kept_refl|auto].
Qed.

(** * Programs *)
Lemma pexecs_nil w : pexecs G t [] w = Some (false, w).
Proof. reflexivity. Qed.
Lemma pexecs_cons p l w : pexecs G t (p :: l) w = match pexec G t p w with Some (false, w') => pexecs G t l w' | x => x end.
Proof. reflexivity. Qed.
Lemma pexec_scope v n b w : pexec G t (PScope v n b) w =
  match enter G t v w with
  | None => None
  | Some (own, w1) =>
      match n with
      | None => then_leave G t own (pexecs G t b w1)
      | Some n => match do_op G t (PushLocalFrame_ n) w1 with
                  | Some (true, w2) => then_leave G t own (Some (true, w2))
                  | Some (false, w2) => then_leave G t own (then_pop G t (pexecs G t b w2))
                  | None => None
                  end
      end
  end.
Proof. reflexivity. Qed.
Lemma pexec_try b w : pexec G t (PTry b) w = match pexecs G t b w with Some (_, w') => Some (false, w') | None => None end.
Proof. reflexivity. Qed.
Lemma tame_scope v n b : tame t (PScope v n b) = match n with Some c => (0 <=? c)%Z | None => true end && tames t b.
Proof. reflexivity. Qed.
Lemma tame_try b : tame t (PTry b) = tames t b.
Proof. reflexivity. Qed.
Lemma keeping_scope v n b : keeping (PScope v n b) = keepings b.
Proof. reflexivity. Qed.
Lemma keeping_try b : keeping (PTry b) = keepings b.
Proof. reflexivity. Qed.
Lemma prog_ind' (P : prog -> Prop) (Q : list prog -> Prop) :
  (forall o, P (PDo o)) -> (forall o, P (POther o)) -> (forall v n b, Q b -> P (PScope v n b)) -> (forall b, Q b -> P (PTry b)) ->
  Q [] -> (forall x l, P x -> Q l -> Q (x :: l)) -> forall p, P p.
Proof.
  intros H1 H2 H3 H4 H5 H6. fix IH 1. destruct p as [o|o|v n b|b]; [apply H1|apply H2|apply H3|apply H4];
  (induction b as [|x b IHb]; [apply H5|apply H6; [apply IH|exact IHb]]).
Qed.

(** ** Entering and leaving *)
Lemma enter_inv v w own w1 : winv w -> enter G t v w = Some (own, w1) ->
  winv w1 /\
  match own with
  | None => w1 = w /\ (cur w t = None -> v = None)
  | Some x => v = Some x /\ cur w t = None /\ cur w1 t = Some x
  end.
Proof.
  intros I E. unfold enter in E. destruct (cur w t) as [c|] eqn:C.
  - injection E as <- <-. split; [exact I|]. split; [reflexivity|discriminate].
  - destruct v as [x|]; [|injection E as <- <-; auto].
    destruct (attach G t x w) as [w2|] eqn:A; [|discriminate]. injection E as <- <-. destruct (attach_winv I A) as (I1 & _ & C1). auto.
Qed.
(** leaving a context that attached the thread *)
Lemma leave_own x w w2 w3 : winv w2 -> cur w t = None -> cur w2 t = Some x -> leave G t (Some x) w2 = Some w3 -> winv w3 /\ kept [] w w3.
Proof.
  intros I C C2 E. cbn in E. destruct (detach_winv I E) as (I3 & _ & D & _). split; [exact I3|]. split; [rewrite C; auto|].
  intros v s e X. congruence.
Qed.

(** ** The frame of a LocalFrame *)
Lemma frame_kept n w w2 w3 w4 v ds : winv w -> cur w t = Some v ->
  do_op G t (PushLocalFrame_ n) w = Some (false, w2) -> winv w3 -> kept ds w2 w3 ->
  forall b, do_op G t (PopLocalFrame_ None) w3 = Some (b, w4) ->
  winv w4 /\ exists ds', kept ds' w w4 /\ incl ds' ds /\
    forall s e, vm w v = Some s -> get_env s t = Some e -> exists s' e', vm w4 v = Some s' /\ get_env s' t = Some e' /\ deleted_all ds' (e_frames e) (e_frames e').
Proof.
  intros I C E1 I3 [KC KH] b E3. destruct (wi_lt I C) as (s & V).
  destruct (proj2 (wi_cur I t V) C) as (e & Ge).
  destruct (own_op (o := PushLocalFrame_ n) I C V Ge eq_refl E1) as (r & s2 & e2 & St & _ & Ew & V2 & Ge2 & Id2 & I2 & C2).
  destruct (push_frames (wi_solid I V) St) as (_ & F2). rewrite (frames_env Ge), (frames_env Ge2) in F2.
  assert (C2' : cur w2 t = Some v) by congruence.
  destruct (KH v s2 e2 C2' V2 Ge2) as (s3 & e3 & V3 & Ge3 & Id3 & Ev). rewrite F2 in Ev. destruct (evolve_tail Ev) as (f' & r' & ds' & F3 & D & In0).
  assert (C3 : cur w3 t = Some v) by congruence.
  destruct (own_op (o := PopLocalFrame_ None) I3 C3 V3 Ge3 eq_refl E3) as (r4 & s4 & e4 & St4 & _ & Ew4 & V4 & Ge4 & Id4 & I4 & C4).
  destruct (pop_frames (so_good (wi_solid I3 V3)) St4) as (_ & r0 & Dn & F4 & _). cbn in Dn. subst r0.
  rewrite (frames_env Ge3), (frames_env Ge4), add_locals_nil, F3 in F4.
  assert (DA : deleted_all ds' (e_frames e) (e_frames e4)).
  { rewrite F4. assert (r' <> []) as Nn.
    { intros ->. pose proof (wf_env_ok (good_wf (so_good (wi_solid I V))) Ge) as (_ & Nn & _). revert D Nn. clear. intros D.
      assert (forall ds a b, deleted_all ds a b -> length a = length b) as LL.
      { induction 1; [reflexivity|]. rewrite (deleted_length H). exact IHdeleted_all. }
      apply LL in D. destruct (e_frames e); [congruence|discriminate]. }
    destruct r' as [|g r']; [congruence|exact D]. }
  split; [exact I4|]. exists ds'. split; [|split; [exact In0|]].
  - split; [congruence|]. intros v' s' e' C' V' Ge'. assert (v' = v) by congruence. subst v'. rewrite V in V'. injection V' as <-.
    rewrite Ge in Ge'. injection Ge' as <-. exists s4, e4. repeat split; auto; [congruence|]. apply evolve_deleted. exact DA.
  - intros s' e' V' Ge'. rewrite V in V'. injection V' as <-. rewrite Ge in Ge'. injection Ge' as <-. exists s4, e4. auto.
Qed.
Lemma push_ok n w b w2 v : winv w -> cur w t = Some v -> (0 <= n)%Z -> do_op G t (PushLocalFrame_ n) w = Some (b, w2) -> b = false.
Proof.
  intros I C N E. destruct (wi_lt I C) as (s & V).
  destruct (proj2 (wi_cur I t V) C) as (e & Ge). destruct (own_op (o := PushLocalFrame_ n) I C V Ge eq_refl E) as (r & s2 & e2 & St & -> & _).
  destruct (PushLocalFrame_step n (wi_solid I V) (ex_intro _ e Ge)) as (s1 & St1 & _). rewrite St in St1.
  destruct (Z.ltb_spec n 0); [lia|]. injection St1 as -> _. reflexivity.
Qed.

Definition fine_run (k : bool) (w : world) (x : result) : Prop :=
  forall b w', x = Some (b, w') -> winv w' /\ exists ds, kept ds w w' /\ (k = true -> ds = []).
Lemma pexec_kept : forall p w, winv w -> tame t p = true -> fine_run (keeping p) w (pexec G t p w).
Proof.
  apply (prog_ind' (P := fun p => forall w, winv w -> tame t p = true -> fine_run (keeping p) w (pexec G t p w))
                   (Q := fun l => forall w, winv w -> tames t l = true -> fine_run (keepings l) w (pexecs G t l w))).
  - intros o w I Tm b w' E. exact (do_kept I Tm E).
  - intros o w I Tm b w' E. cbn in E, Tm. destruct (wop_thread o) as [u|] eqn:Hu; [|discriminate]. apply negb_true_iff, Nat.eqb_neq in Tm. destruct (wstep G o w) as [w2|] eqn:St; [|discriminate].
    injection E as <- <-. split; [exact (proj1 (wstep_winv I St))|]. exists []. split; [exact (other_kept I Hu Tm St)|auto].
  - intros v n b IHb w I Tm x w' E. rewrite tame_scope in Tm. apply andb_true_iff in Tm. destruct Tm as [Tn Tb].
    rewrite keeping_scope. rewrite pexec_scope in E.
    destruct (enter G t v w) as [[own w1]|] eqn:En; [|discriminate]. destruct (enter_inv I En) as (I1 & O).
    destruct n as [n|].
    + apply Z.leb_le in Tn. destruct (do_op G t (PushLocalFrame_ n) w1) as [[b1 w2]|] eqn:Pu; [|discriminate].
      destruct (cur w1 t) as [c|] eqn:C1.
      * pose proof (push_ok I1 C1 Tn Pu) as ->. unfold then_leave, then_pop in E.
        assert (do_op G t (PushLocalFrame_ n) w1 = Some (false, w2)) as Pu' by exact Pu.
        assert (winv w2) as I2.
        { destruct (wi_lt I1 C1) as (s & V).
          destruct (proj2 (wi_cur I1 t V) C1) as (e & Ge). destruct (own_op (o := PushLocalFrame_ n) I1 C1 V Ge eq_refl Pu) as (? & ? & ? & _ & _ & _ & _ & _ & _ & X & _). exact X. }
        destruct (pexecs G t b w2) as [[b3 w3]|] eqn:Bd; [|discriminate].
        destruct (IHb w2 I2 Tb _ _ Bd) as (I3 & ds & K & Kd).
        destruct (do_op G t (PopLocalFrame_ None) w3) as [[b4 w4]|] eqn:Po; [|discriminate].
        destruct (frame_kept I1 C1 Pu I3 K Po) as (I4 & ds' & K' & In0 & _).
        destruct (leave G t own w4) as [w5|] eqn:Le; [|discriminate]. injection E as <- <-.
        destruct own as [x0|].
        -- destruct O as (-> & Cn & Co). assert (c = x0) by congruence. subst c.
           assert (cur w4 t = Some x0) as C4 by (rewrite (proj1 K'); exact C1).
           destruct (leave_own (w := w) I4 Cn C4 Le) as (I5 & K5). split; [exact I5|]. exists []. auto.
        -- destruct O as (-> & _). injection Le as <-. split; [exact I4|]. exists ds'. split; [exact K'|].
           intros Q. specialize (Kd Q). subst ds. apply incl_nil. exact In0.
      * unfold do_op in Pu. rewrite C1 in Pu. injection Pu as <- <-. unfold then_leave in E.
        destruct own as [x0|]; [destruct O as (_ & _ & Co); congruence|]. destruct O as (-> & _). cbn in E. injection E as <- <-.
        split; [exact I|]. exists []. split; [apply kept_refl|auto].
    + unfold then_leave in E. destruct (pexecs G t b w1) as [[b3 w3]|] eqn:Bd; [|discriminate].
      destruct (IHb w1 I1 Tb _ _ Bd) as (I3 & ds & K & Kd).
      destruct (leave G t own w3) as [w5|] eqn:Le; [|discriminate]. injection E as <- <-. destruct own as [x0|].
      * destruct O as (-> & Cn & Co). assert (cur w3 t = Some x0) as C3 by (rewrite (proj1 K); exact Co).
        destruct (leave_own (w := w) I3 Cn C3 Le) as (I5 & K5). split; [exact I5|]. exists []. auto.
      * destruct O as (-> & _). injection Le as <-. eauto.
  - intros b IHb w I Tm x w' E. rewrite tame_try in Tm. rewrite keeping_try. rewrite pexec_try in E.
    destruct (pexecs G t b w) as [[b3 w3]|] eqn:Bd; [|discriminate]. injection E as <- <-. exact (IHb w I Tm _ _ Bd).
  - intros w I _ b w' E. injection E as <- <-. split; [exact I|]. exists []. split; [apply kept_refl|auto].
  - intros p l Hp Hl w I Tm b w' E. cbn in Tm. apply andb_true_iff in Tm. destruct Tm as [T1 T2]. rewrite pexecs_cons in E.
    destruct (pexec G t p w) as [[b1 w1]|] eqn:E1; [|discriminate]. destruct (Hp w I T1 _ _ E1) as (I1 & d1 & K1 & Q1).
    destruct b1.
    + injection E as <- <-. split; [exact I1|]. exists d1. split; [exact K1|]. intros Q. cbn in Q. apply andb_true_iff in Q. apply Q1, Q.
    + destruct (Hl w1 I1 T2 _ _ E) as (I2 & d2 & K2 & Q2). split; [exact I2|]. exists (d1 ++ d2). split; [eapply kept_trans; eauto|].
      intros Q. cbn in Q. apply andb_true_iff in Q. rewrite Q1, Q2 by apply Q. reflexivity.
Qed.
End Worlds.

(** * Property C49 *)
(** Any code built from scopes leaves its thread attached to exactly the VMs to which it was attached, with the same
    environment, whether it ends normally or with an exception. *)
Theorem C49_attachment G t p w b w' : wreach G w -> tame t p = true -> pexec G t p w = Some (b, w') ->
  forall v k, env_in w' t v k <-> env_in w t v k.
Proof.
  intros R Tm E v k. pose proof (wreach_inv R) as I. destruct (pexec_kept I Tm E) as (I' & ds & [C K] & _). split.
  - intros (s' & e' & V' & Ge' & <-). assert (cur w' t = Some v) as C' by (apply (wi_cur I' t V'); exists e'; exact Ge').
    rewrite C in C'. destruct (wi_lt I C') as (s & V).
    destruct (proj2 (wi_cur I t V) C') as (e & Ge). destruct (K v s e C' V Ge) as (s2 & e2 & V2 & Ge2 & Id & _).
    rewrite V' in V2. injection V2 as <-. rewrite Ge' in Ge2. injection Ge2 as <-. exists s, e. auto.
  - intros (s & e & V & Ge & <-). assert (cur w t = Some v) as C' by (apply (wi_cur I t V); exists e; exact Ge).
    destruct (K v s e C' V Ge) as (s2 & e2 & V2 & Ge2 & Id & _). exists s2, e2. auto.
Qed.
(** The frames of the thread: a LocalFrame restores them, but for references that the code deleted itself. *)
Lemma kept_frames G t w w' ds : winv G w -> kept t ds w w' -> forall v, cur w t = Some v -> evolve ds (frames_in w t v) (frames_in w' t v).
Proof.
  intros I [_ K] v C. destruct (wi_lt I C) as (s & V).
  destruct (proj2 (wi_cur I t V) C) as (e & Ge). destruct (K v s e C V Ge) as (s2 & e2 & V2 & Ge2 & Id & Ev).
  unfold frames_in. rewrite V, V2, (frames_env Ge), (frames_env Ge2). exact Ev.
Qed.
Theorem C49_frames G t x n body w b w' : wreach G w -> tame t (PScope x (Some n) body) = true ->
  pexec G t (PScope x (Some n) body) w = Some (b, w') ->
  forall v k, env_in w t v k -> exists ds, deleted_all ds (frames_in w t v) (frames_in w' t v) /\ (keepings body = true -> ds = []).
Proof.
  intros R Tm E v k (s & e & V & Ge & _). pose proof (wreach_inv R) as I. assert (cur w t = Some v) as C by (apply (wi_cur I t V); exists e; exact Ge).
  rewrite pexec_scope in E. unfold enter in E. rewrite C in E. rewrite tame_scope in Tm. apply andb_true_iff in Tm. destruct Tm as [Tn Tb]. apply Z.leb_le in Tn.
  destruct (do_op G t (PushLocalFrame_ n) w) as [[b1 w2]|] eqn:Pu; [|discriminate]. pose proof (push_ok I C Tn Pu) as ->.
  assert (winv G w2) as I2. { destruct (own_op (o := PushLocalFrame_ n) I C V Ge eq_refl Pu) as (? & ? & ? & _ & _ & _ & _ & _ & _ & X & _). exact X. }
  unfold then_leave, then_pop in E. destruct (pexecs G t body w2) as [[b3 w3]|] eqn:Bd; [|discriminate].
  assert (pexec G t (PTry body) w2 = Some (false, w3)) as Bt by (rewrite pexec_try, Bd; reflexivity).
  destruct (pexec_kept I2 (p := PTry body) Tb Bt) as (I3 & ds & K & Kd).
  destruct (do_op G t (PopLocalFrame_ None) w3) as [[b4 w4]|] eqn:Po; [|discriminate].
  destruct (frame_kept I C Pu I3 K Po) as (I4 & ds' & K' & In0 & D). cbn in E. injection E as <- <-.
  destruct (D s e V Ge) as (s' & e' & V' & Ge' & DA). exists ds'. split.
  - unfold frames_in. rewrite V, V', (frames_env Ge), (frames_env Ge'). exact DA.
  - intros Q. rewrite keeping_try in Kd. specialize (Kd Q). subst ds. apply incl_nil. exact In0.
Qed.
(** In particular: exactly, if the code deletes no references. *)
Corollary C49_frames_exact G t x n body w b w' : wreach G w -> tame t (PScope x (Some n) body) = true -> keepings body = true ->
  pexec G t (PScope x (Some n) body) w = Some (b, w') ->
  forall v k, env_in w t v k -> frames_in w' t v = frames_in w t v.
Proof.
  intros R Tm Kp E v k H. destruct (C49_frames R Tm E H) as (ds & D & Q). rewrite (Q Kp) in D. inversion D. reflexivity.
Qed.
(** A JniEnvContext, or code without scope, only adds references to the innermost frame. *)
Theorem C49_context G t p w b w' : wreach G w -> tame t p = true -> pexec G t p w = Some (b, w') ->
  forall v k, env_in w t v k -> exists ds, evolve ds (frames_in w t v) (frames_in w' t v) /\
    (keeping p = true -> exists xs, frames_in w' t v = RefSpec.add_locals (frames_in w t v) xs).
Proof.
  intros R Tm E v k (s & e & V & Ge & _). pose proof (wreach_inv R) as I. destruct (pexec_kept I Tm E) as (I' & ds & K & Q).
  assert (cur w t = Some v) as C by (apply (wi_cur I t V); exists e; exact Ge). pose proof (kept_frames I K C) as Ev.
  exists ds. split; [exact Ev|]. intros Kp. rewrite (Q Kp) in Ev. exact (evolve_nil Ev).
Qed.
(** During a context of VM [v] on a thread that was not attached, the thread is attached to it. *)
Theorem C49_inside G t v w own w1 : wreach G w -> (forall x k, ~ env_in w t x k) -> enter G t (Some v) w = Some (own, w1) ->
  own = Some v /\ (exists k, env_in w1 t v k) /\ frames_in w1 t v = [[]] /\
  (forall u x, u <> t -> forall k, env_in w1 u x k <-> env_in w u x k).
Proof.
  intros R N E. pose proof (wreach_inv R) as I. assert (cur w t = None) as C.
  { destruct (cur w t) as [x|] eqn:C; [|reflexivity]. exfalso. destruct (wi_lt I C) as (s & V).
    destruct (proj2 (wi_cur I t V) C) as (e & Ge). apply (N x (e_id e)). exists s, e. auto. }
  unfold enter in E. rewrite C in E. destruct (attach G t v w) as [w2|] eqn:A; [|discriminate]. injection E as <- <-. split; [reflexivity|].
  unfold attach in A. destruct (vm w v) as [s|] eqn:V; [|discriminate].
  destruct (get_env s t) as [e|] eqn:Ge; [exfalso; apply (N v (e_id e)); exists s, e; auto|]. rewrite C in A.
  pose proof (Attach_step t (so_good (wi_solid I V))) as H. rewrite Ge in H. destruct H as (k & s' & St & _ & _ & Ge' & Ot & _).
  rewrite St in A. injection A as <-. pose proof (vm_lt V) as L.
  assert (VM : forall j x, vm (mkW (list_set (w_vms w) v (Some s')) x) j = if Nat.eqb v j then Some s' else vm w j).
  { intros j x. exact (vm_set (Some s') x j L). }
  split; [|split].
  - exists k. exists s', (mkEnv k [[]] [] None []). rewrite VM, Nat.eqb_refl. auto.
  - unfold frames_in. rewrite VM, Nat.eqb_refl. rewrite (frames_env Ge'). reflexivity.
  - intros u x Nu k'. unfold env_in. rewrite VM. destruct (Nat.eqb_spec v x) as [->|]; [|reflexivity].
    rewrite V. split; intros (s0 & e0 & X & Y); injection X as <-.
    + rewrite Ot in Y by auto. exists s, e0. auto.
    + exists s', e0. rewrite Ot by auto. auto.
Qed.
Lemma env_in_cur G w t v k : wreach G w -> env_in w t v k -> cur w t = Some v.
Proof. intros R (s & e & V & Ge & _). apply (wi_cur (wreach_inv R) t V). exists e. exact Ge. Qed.
(** Negative sizes are outside of the property: the frame stays. *)
Definition one : list (option st) := [Some (init_vm Gd main)].
Definition w1 : world := mkW one [(main, 0)].
Definition at_end (r : result) : option (bool * list (list oid)) :=
  match r with Some (b, w) => Some (b, frames_in w main 0) | None => None end.
Theorem C49_refuted_negative : exists w p w', wreach Gd w /\ pexec Gd main p w = Some (true, w') /\
  p = PScope (Some 0) (Some (-1)%Z) [] /\ frames_in w main 0 = [[]] /\ frames_in w' main 0 = [[]; []].
Proof.
  exists w1, (PScope (Some 0) (Some (-1)%Z) []). eexists. split.
  - apply (wr_step (o := WNew main) (wr_start Gd)). reflexivity.
  - split; [vm_compute; reflexivity|]. split; [reflexivity|]. split; vm_compute; reflexivity.
Qed.

(** * Property C65 *)
(** The environment of a context of VM [v] is that of [v], if the thread has no environment of another VM … *)
Theorem C65_partial G t v w own w1 : wreach G w -> (forall x k, env_in w t x k -> x = v) -> enter G t (Some v) w = Some (own, w1) ->
  cur w1 t = Some v /\ exists k, env_in w1 t v k.
Proof.
  intros R N E. pose proof (wreach_inv R) as I. unfold enter in E. destruct (cur w t) as [x|] eqn:C.
  - injection E as <- <-. destruct (wi_lt I C) as (s & V).
    destruct (proj2 (wi_cur I t V) C) as (e & Ge). assert (env_in w t x (e_id e)) as H by (exists s, e; auto).
    pose proof (N _ _ H) as ->. eauto.
  - destruct (attach G t v w) as [w2|] eqn:A; [|discriminate]. injection E as <- <-. destruct (attach_winv I A) as (I1 & _ & C1). split; [exact C1|].
    destruct (wi_lt I1 C1) as (s & V).
    destruct (proj2 (wi_cur I1 t V) C1) as (e & Ge). exists (e_id e), s, e. auto.
Qed.
(** … otherwise it silently is the environment of the other VM, and what the code does happens there. *)
Definition w2 : world := mkW [Some (init_vm Gd main); Some (init_vm Gd 2)] [(main, 0); (2, 1)].
Lemma w1_reach : wreach Gd w1.
Proof. apply (wr_step (o := WNew main) (wr_start Gd)). reflexivity. Qed.
Lemma w2_reach : wreach Gd w2.
Proof. apply (wr_step (o := WNew 2) w1_reach). reflexivity. Qed.
Theorem C65_refuted : exists w w', wreach Gd w /\ (forall k, ~ env_in w main 1 k) /\
  pexec Gd main (PScope (Some 1) None [PDo (NewStringUTF_ (Some (S_ "hi")))]) w = Some (false, w') /\
  vm w' 1 = vm w 1 /\ frames_in w main 0 = [[]] /\ frames_in w' main 0 = [[9]].
Proof.
  exists w2. eexists. split; [apply w2_reach|split; [|split]].
  - intros k H. pose proof (env_in_cur w2_reach H) as C. discriminate C.
  - vm_compute. reflexivity.
  - split; [vm_compute; reflexivity|]. split; vm_compute; reflexivity.
Qed.

(** * Property C92 *)
Definition nowhere (w : world) (t : tid) : Prop := forall v k, ~ env_in w t v k.
Lemma nowhere_cur G w t : wreach G w -> nowhere w t <-> cur w t = None.
Proof.
  intros R. pose proof (wreach_inv R) as I. split.
  - intros N. destruct (cur w t) as [v|] eqn:C; [|reflexivity]. exfalso. destruct (wi_lt I C) as (s & V). destruct (proj2 (wi_cur I t V) C) as (e & Ge). apply (N v (e_id e)). exists s, e. auto.
  - intros C v k H. pose proof (env_in_cur R H). congruence.
Qed.
(** What the end of a thread does to a VM: the environment of the thread is gone; objects that are still referred to stay as they are. *)
Record left_by (t : tid) (s s' : st) : Prop := {
  lb_env : get_env s' t = None;
  lb_others : forall u, u <> t -> get_env s' u = get_env s u;
  lb_globals : s_globals s' = s_globals s;
  lb_ext : s_ext s' = s_ext s;
  lb_types : forall T, registered s' T = registered s T;
  lb_obj : forall i, live s i = true -> strong s' i -> intact s s' i;
  lb_live : forall i, live s' i = true -> live s i = true }.
(** The end of a thread detaches it from the VM it is attached to; all other VMs stay as they are. *)
Theorem C92_exit G t w : wreach G w -> (forall v s, vm w v = Some s -> running s t = []) ->
  exists w', wstep G (WExit t) w = Some w' /\ nowhere w' t /\
    (forall v, (forall k, ~ env_in w t v k) -> vm w' v = vm w v) /\
    (forall v k s, env_in w t v k -> vm w v = Some s -> exists s', vm w' v = Some s' /\ left_by t s s').
Proof.
  intros R Ru. pose proof (wreach_inv R) as I. cbn [wstep]. unfold thread_exit. destruct (cur w t) as [v|] eqn:C.
  - destruct (wi_lt I C) as (s & V). pose proof (wi_solid I V) as So. destruct (Detach_step So (Ru v s V)) as (s' & St & _ & E1 & E2 & E3 & E4 & E5 & E6 & E7).
    destruct (detach G t v w) as [w'|] eqn:D; [|unfold detach in D; rewrite V, St in D; discriminate]. exists w'. split; [reflexivity|].
    assert (wreach G w') as R' by (apply (wr_step (o := WDetach t v) R); exact D). destruct (detach_winv I D) as (_ & _ & C' & _).
    assert (VM : forall j, vm w' j = if Nat.eqb v j then Some s' else vm w j).
    { intros j. unfold detach in D. rewrite V, St in D. injection D as <-. apply vm_set. exact (vm_lt V). }
    split; [apply (nowhere_cur t R'); auto|]. split.
    + intros x N. rewrite VM. destruct (Nat.eqb_spec v x) as [->|]; [|reflexivity]. exfalso. destruct (proj2 (wi_cur I t V) C) as (e & Ge). apply (N (e_id e)). exists s, e. auto.
    + intros x k s0 H V0. pose proof (env_in_cur R H) as X. rewrite C in X. injection X as <-. rewrite V in V0. injection V0 as <-. exists s'. rewrite VM, Nat.eqb_refl. split; [reflexivity|]. constructor; auto.
  - exists w. split; [reflexivity|]. pose proof (proj2 (nowhere_cur t R) C) as N. split; [exact N|]. split; [reflexivity|]. intros v k s H. destruct (N v k H).
Qed.
(** If the VM is gone before the thread, nothing is done. *)
Theorem C92_exit_detached G t w : wreach G w -> nowhere w t -> wstep G (WExit t) w = Some w.
Proof. intros R N. apply (nowhere_cur t R) in N. cbn [wstep]. unfold thread_exit. rewrite N. reflexivity. Qed.
(** The destruction of a VM takes the environments of all threads away, and those of no other VM. *)
Theorem C92_destroy G v s w : wreach G w -> vm w v = Some s -> (forall t, running s t = []) ->
  exists w', wstep G (WDestroy v) w = Some w' /\ vm w' v = None /\ (forall x, x <> v -> vm w' x = vm w x) /\
    forall t x k, env_in w' t x k <-> env_in w t x k /\ x <> v.
Proof.
  intros R V Ru. pose proof (wreach_inv R) as I. cbn [wstep]. destruct (destroy v w) as [w'|] eqn:D.
  - exists w'. split; [reflexivity|]. destruct (destroy_winv I D) as (_ & V1 & V2 & _). split; [exact V1|]. split; [exact V2|]. intros t x k. unfold env_in. destruct (Nat.eq_dec x v) as [->|N].
    + rewrite V1. split; [intros (? & ? & ? & _); discriminate|intros [_ []]; reflexivity].
    + rewrite (V2 x N). tauto.
  - exfalso. unfold destroy in D. rewrite V in D. destruct (forallb _ (s_envs s)) eqn:F; [discriminate|]. apply Bool.not_true_iff_false in F. apply F. apply forallb_forall. intros [t e] H. cbn [snd].
    specialize (Ru t). unfold running in Ru. pose proof (NoDup_aget Nat.eqb Nat.eqb_spec _ _ _ (wf_nodup (good_wf (so_good (wi_solid I V)))) H) as Ge. unfold get_env in Ru. rewrite Ge in Ru. rewrite Ru. reflexivity.
Qed.
(** Undefined: the end of a thread, or the destruction of the VM, during a call that the VM makes. *)
Theorem C92_exit_running G t v k s w : wreach G w -> env_in w t v k -> vm w v = Some s -> running s t <> [] -> wstep G (WExit t) w = None.
Proof.
  intros R H V Ru. pose proof (env_in_cur R H) as C. cbn [wstep]. unfold thread_exit. rewrite C. unfold detach. rewrite V. unfold running in Ru. destruct (get_env s t) as [e|] eqn:Ge; [|congruence].
  destruct (e_calls e) as [|c cs] eqn:Ec; [congruence|]. unfold step, run. cbn [needs_env body]. unfold as_int, bind, ret, Detach. rewrite Ge, Ec. reflexivity.
Qed.
Theorem C92_destroy_running G t v s w : wreach G w -> vm w v = Some s -> running s t <> [] -> wstep G (WDestroy v) w = None.
Proof.
  intros R V Ru. cbn [wstep]. unfold destroy. rewrite V. destruct (forallb _ (s_envs s)) eqn:F; [|reflexivity]. exfalso. unfold running in Ru. destruct (get_env s t) as [e|] eqn:Ge; [|congruence].
  unfold get_env in Ge. apply (aget_In Nat.eqb Nat.eqb_spec) in Ge. rewrite forallb_forall in F. specialize (F _ Ge). cbn [snd] in F. destruct (e_calls e); [apply Ru; reflexivity|discriminate].
Qed.
(** Once ended, a thread has no environments until it attaches or creates a VM: nothing that other threads do, and no destruction of a VM, gives it one. *)
Inductive later (G : cfg) (t : tid) : world -> world -> Prop :=
| lt_refl w : later G t w w
| lt_step o w w1 w2 : wop_thread o <> Some t -> wstep G o w = Some w1 -> later G t w1 w2 -> later G t w w2.
Theorem C92_later G t w w' : wreach G w -> nowhere w t -> later G t w w' -> nowhere w' t.
Proof.
  intros R N L. revert R N. induction L as [w|o w a b No E L IH]; intros R N; [exact N|]. apply IH; [exact (wr_step R E)|]. apply (nowhere_cur t (wr_step R E)). apply (nowhere_cur t R) in N.
  pose proof (wreach_inv R) as I. destruct (wop_thread o) as [u|] eqn:Hu.
  - rewrite (proj2 (wstep_winv I E) u t Hu); [exact N|congruence].
  - destruct o; try discriminate Hu. cbn [wstep] in E. destruct (destroy_winv I E) as (_ & _ & _ & C). rewrite C, N. reflexivity.
Qed.
(** Then a thread, also a new one with the same id, attaches to any VM with an environment of its own, without references of its predecessor, … *)
Theorem C92_attach G t v s w : wreach G w -> nowhere w t -> vm w v = Some s ->
  exists w' k, wstep G (WAttach t v) w = Some w' /\ env_in w' t v k /\ (forall u, ~ env_in w u v k) /\ frames_in w' t v = [[]] /\
    forall u x j, u <> t -> (env_in w' u x j <-> env_in w u x j).
Proof.
  intros R N V. pose proof (wreach_inv R) as I. pose proof (proj1 (nowhere_cur t R) N) as C. assert (get_env s t = None) as Ge by (destruct (get_env s t) as [e|] eqn:E; auto; destruct (N v (e_id e)); exists s, e; auto).
  pose proof (Attach_step t (so_good (wi_solid I V))) as H. rewrite Ge in H. destruct H as (k & s' & St & _ & Fr & Ge' & Ot & _).
  exists (mkW (list_set (w_vms w) v (Some s')) (aset Nat.eqb (w_cur w) t v)), k.
  assert (VM : forall j x, vm (mkW (list_set (w_vms w) v (Some s')) x) j = if Nat.eqb v j then Some s' else vm w j) by (intros j x; apply vm_set; exact (vm_lt V)).
  split; [cbn [wstep]; unfold attach; rewrite V, Ge, C, St; reflexivity|]. split; [|split; [|split]].
  - exists s', (mkEnv k [[]] [] None []). rewrite VM, Nat.eqb_refl. auto.
  - intros u (s0 & e & V0 & Ge0 & Ek). rewrite V in V0. injection V0 as <-. exact (Fr _ _ Ge0 Ek).
  - unfold frames_in. rewrite VM, Nat.eqb_refl. rewrite (frames_env Ge'). reflexivity.
  - intros u x j Nu. unfold env_in. rewrite VM. destruct (Nat.eqb_spec v x) as [->|]; [|reflexivity]. split; intros (s0 & e0 & X & Y & Z).
    + injection X as <-. rewrite Ot in Y by auto. exists s, e0. auto.
    + rewrite V in X. injection X as <-. exists s', e0. rewrite Ot by auto. auto.
Qed.
(** … and can create another VM. *)
Theorem C92_new G t w : wreach G w -> nowhere w t -> exists w', wstep G (WNew t) w = Some w' /\ vm w' (length (w_vms w)) = Some (init_vm G t) /\ forall v s, vm w v = Some s -> vm w' v = Some s.
Proof.
  intros R N. apply (nowhere_cur t R) in N. cbn [wstep]. unfold create. rewrite N. eexists. split; [reflexivity|]. unfold vm. cbn [w_vms]. split.
  - rewrite nth_error_app2, Nat.sub_diag by auto. reflexivity.
  - intros v s V. assert (v < length (w_vms w)) as L by (apply nth_error_Some; destruct (nth_error (w_vms w) v); congruence). rewrite nth_error_app1 by auto. exact V.
Qed.
(** * Examples *)
(** nested contexts and frames on a thread that is not attached, with other threads at work and an exception in flight *)
Definition nest_ : prog :=
  PScope (Some 0) None
    [PDo (NewStringUTF_ (Some (S_ "hi")));
     PScope (Some 0) (Some 4%Z) [PDo (NewLocalRef_ (Some 9)); POther (WOp main 0 (FindClass_ (S_ "A")));
                                  PTry [PScope None (Some 1%Z) [PDo (NewLocalRef_ (Some 9)); PDo (DeleteLocalRef_ (Some 9))]]]].
Example C49_case : wreach Gd w1 /\ tame 5 nest_ = true /\ (forall k, ~ env_in w1 5 0 k) /\
  exists w', pexec Gd 5 nest_ w1 = Some (false, w') /\ frames_in w' main 0 = [[10]] /\ cur w' 5 = None.
Proof.
  split; [apply w1_reach|]. split; [reflexivity|]. split.
  - intros k H. pose proof (env_in_cur w1_reach H) as C. discriminate C.
  - eexists. split; [vm_compute; reflexivity|]. split; vm_compute; reflexivity.
Qed.
(** a frame on an attached thread, left by an exception; one reference of an outer frame is deleted inside *)
Definition before : list prog := [PDo (NewStringUTF_ (Some (S_ "hi"))); PDo (NewLocalRef_ (Some 9))].
Definition thrown : prog :=
  PScope None (Some 0%Z) [PDo (NewStringUTF_ (Some (S_ "x"))); PDo (DeleteLocalRef_ (Some 9)); PDo (DeleteGlobalRef_ (Some 9)); PDo (NewLocalRef_ (Some 9))].
Example C49_thrown : tame main thrown = true /\ exists w' w'', pexecs Gd main before w1 = Some (false, w') /\ frames_in w' main 0 = [[9; 9]] /\
  pexec Gd main thrown w' = Some (true, w'') /\ frames_in w'' main 0 = [[9]].
Proof. split; [reflexivity|]. do 2 eexists. split; [vm_compute; reflexivity|]. split; [vm_compute; reflexivity|]. split; vm_compute; reflexivity. Qed.
Print Assumptions C49_attachment.
Print Assumptions C49_frames.
Print Assumptions C49_context.
Print Assumptions C49_inside.
Print Assumptions C65_partial.
Print Assumptions C65_refuted.
(** thread 2 attaches to the VM of the main thread, makes a string, ends; then the VM is destroyed and the main thread creates another *)
Definition ends_ : list wop := [WNew main; WAttach 2 0; WOp 2 0 (NewStringUTF_ (Some (S_ "hi"))); WExit 2; WDestroy 0; WExit main; WNew main].
Fixpoint wexec (l : list wop) (w : world) : option (list (option nat) * world) :=
  match l with
  | [] => Some ([], w)
  | o :: l => match wstep Gd o w with Some w1 => match wexec l w1 with Some (x, w2) => Some (cur w1 2 :: x, w2) | None => None end | None => None end
  end.
Example C92_case : exists w', wexec ends_ (mkW [] []) = Some ([None; Some 0; Some 0; None; None; None; None], w') /\ vm w' 0 = None /\ cur w' main = Some 1.
Proof. eexists. split; [vm_compute; reflexivity|]. split; vm_compute; reflexivity. Qed.
Example C92_hypotheses : wreach Gd w2 /\ (forall v s, vm w2 v = Some s -> running s 2 = []) /\ (exists k, env_in w2 2 1 k) /\ nowhere w2 5.
Proof.
  split; [apply w2_reach|]. split; [|split].
  - intros v s V. assert (inj : forall a b : st, Some a = Some b -> b = a) by (intros a b E; injection E; auto).
    destruct v as [|[|[|v]]].
    + rewrite (inj _ _ (V : Some (init_vm Gd main) = Some s)). vm_compute. reflexivity.
    + rewrite (inj _ _ (V : Some (init_vm Gd 2) = Some s)). vm_compute. reflexivity.
    + discriminate (V : None = Some s).
    + discriminate (V : None = Some s).
  - eexists. eexists. eexists. split; [reflexivity|]. split; vm_compute; reflexivity.
  - apply (nowhere_cur 5 w2_reach). reflexivity.
Qed.
Print Assumptions C92_exit. Print Assumptions C92_exit_detached. Print Assumptions C92_destroy. Print Assumptions C92_exit_running. Print Assumptions C92_destroy_running.
Print Assumptions C92_later. Print Assumptions C92_attach. Print Assumptions C92_new.
