(** Exact results of the helper functions that most operations consist of. *)
From Verif Require Import Base BaseProofs VmState VmModel VmStep VmSpec VmBase VmFrame VmWf VmPrim VmInv.
Set Implicit Arguments.
Unset Strict Implicit.
Local Open Scope vm_scope.

(** ** References *)
Lemma denotes_live s i r : denotes s i r -> live s i = true.
Proof. intros H. apply live_lookup. inversion H; eauto. Qed.

Lemma denotes_fun s i r r' : denotes s i r -> denotes s i r' -> r = r'.
Proof.
  intros H. revert r'. induction H; intros r' H'; inversion H'; subst; auto.
  all: repeat match goal with A : lookup _ _ = Some ?o, B : lookup _ _ = Some ?p |- _ =>
         rewrite A in B; inversion B; subst; clear B end.
  all: try (exfalso; eauto; fail).
  all: try congruence.
  all: try (match goal with A : o_pay ?o = PGlobal _, B : o_pay ?o = PGlobal _ |- _ => rewrite A in B; inversion B; subst end; auto).
  all: try (match goal with A : o_pay ?o = PWeak _, B : o_pay ?o = PWeak _ |- _ => rewrite A in B; inversion B; subst end; auto).
  all: try congruence.
Qed.

Lemma unwrap_denotes s fuel i r : unwrap fuel s i = Ok r -> denotes s i r.
Proof.
  revert i. induction fuel; simpl; intros i H; [discriminate|].
  destruct (lookup s i) as [o|] eqn:E; [|discriminate]. destruct (o_pay o) eqn:Ep.
  all: try (inversion H; subst; eapply den_obj; eauto; congruence).
  - destruct (live s t) eqn:L.
    + eapply den_weak; eauto.
    + inversion H; subst. eapply den_dead; eauto.
  - eapply den_global; eauto.
Qed.

Lemma unwrap_total s i : wf s -> live s i = true -> forall fuel, i < fuel -> exists r, unwrap fuel s i = Ok r.
Proof.
  intros W. revert i. assert (forall n i, i < n -> live s i = true -> forall fuel, i < fuel -> exists r, unwrap fuel s i = Ok r) as H.
  { induction n; [lia|]. intros i Hn L fuel Hf. destruct fuel; [lia|]. simpl.
    pose proof L as L'. apply live_lookup in L'. destruct L' as (o & E). rewrite E.
    destruct (o_pay o) eqn:Ep; eauto.
    - pose proof (wf_wrap W i E (or_introl Ep)). destruct (live s t) eqn:Lt; eauto. apply IHn; auto; lia.
    - pose proof (wf_wrap W i E (or_intror Ep)). apply IHn; auto; try lia.
      pose proof (wf_obj W _ E) as O. unfold obj_ok in O. rewrite Ep in O. simpl in O. rewrite !andb_true_iff in O. tauto. }
  intros i L fuel Hf. eapply (H (S i)); eauto.
Qed.

Lemma denotes_unwrap s i r : wf s -> denotes s i r -> unwrap (S i) s i = Ok r.
Proof.
  intros W D. destruct (@unwrap_total s i W (denotes_live D) (S i) ltac:(lia)) as (r' & E).
  rewrite E. f_equal. eapply denotes_fun; [eapply unwrap_denotes; eauto|auto].
Qed.
Lemma denotes_total s i : wf s -> live s i = true -> exists r, denotes s i r.
Proof.
  intros W L. destruct (@unwrap_total s i W L (S i) ltac:(lia)) as (r & E). eauto using unwrap_denotes.
Qed.

(** the object is alive and is no wrapper *)
Lemma denotes_target s i j : denotes s i (Some j) ->
  exists o, lookup s j = Some o /\ (forall k, o_pay o <> PWeak k) /\ (forall k, o_pay o <> PGlobal k).
Proof. intros H. remember (Some j) as r. induction H; subst; auto; try discriminate. inversion Heqr; subst. eauto. Qed.
Lemma denotes_target_live s i j : denotes s i (Some j) -> live s j = true.
Proof. intros H. apply denotes_target in H. destruct H as (o & H & _). apply live_lookup. eauto. Qed.
Lemma denotes_self s i j : denotes s i (Some j) -> denotes s j (Some j).
Proof. intros H. apply denotes_target in H. destruct H as (o & H & A & B). eapply den_obj; eauto. Qed.

Section Cfg.
Variable G : cfg.

Definition is_a (s : st) (j : oid) (T : ty) : bool :=
  match lookup s j with Some o => isa G (o_pay o) T | None => false end.

Lemma jnicast_none T s : jnicast G T None s = Ret None s.
Proof. reflexivity. Qed.
Lemma jnicast_spec T s i r : wf s -> denotes s i r ->
  jnicast G T (Some i) s = match r with
    | None => Ret None s
    | Some j => if is_a s j T then Ret (Some j) s else Thr (Err bad_ref) s
    end.
Proof.
  intros W D. unfold jnicast, bind. rewrite (denotes_unwrap W D). cbn [of_res]. unfold ret. destruct r as [j|]; auto.
  destruct (denotes_target D) as (o & L & _). unfold is_a, deref. rewrite L. destruct (isa G (o_pay o) T); reflexivity.
Qed.
Lemma jnicast_dead T s i : live s i = false -> jnicast G T (Some i) s = Undef.
Proof.
  intros D. unfold jnicast, bind. cbn [unwrap]. unfold live in D. destruct (lookup s i); [discriminate|]. reflexivity.
Qed.
Lemma jnicast_obj s h r : wf s -> denotes_opt s h r -> jnicast G TObject h s = Ret r s.
Proof.
  intros W D. destruct h as [i|]; simpl in D; [|subst; reflexivity]. rewrite (jnicast_spec _ W D). destruct r as [j|]; auto.
  unfold is_a. destruct (denotes_target D) as (o & -> & _). destruct (o_pay o); reflexivity.
Qed.
(** every outcome of a cast that goes on *)
Lemma jnicast_inv T h s r s' : wf s -> jnicast G T h s = Ret r s' ->
  s' = s /\ denotes_opt s h r /\ (forall j, r = Some j -> is_a s j T = true).
Proof.
  intros W E. destruct h as [i|]; [|inversion E; subst; repeat split; auto; discriminate].
  destruct (live s i) eqn:L; [|rewrite jnicast_dead in E by auto; discriminate].
  destruct (denotes_total W L) as (r' & D). rewrite (jnicast_spec _ W D) in E. destruct r' as [j|].
  - destruct (is_a s j T) eqn:A; inversion E; subst. repeat split; auto. intros k Hk. inversion Hk; subst. auto.
  - inversion E; subst. repeat split; auto. discriminate.
Qed.
Lemma jnicast_thr T h s e s' : wf s -> jnicast G T h s = Thr e s' ->
  s' = s /\ e = Err bad_ref /\ exists i j, h = Some i /\ denotes s i (Some j) /\ is_a s j T = false.
Proof.
  intros W E. destruct h as [i|]; [|inversion E].
  destruct (live s i) eqn:L; [|rewrite jnicast_dead in E by auto; discriminate].
  destruct (denotes_total W L) as (r' & D). rewrite (jnicast_spec _ W D) in E. destruct r' as [j|]; [|discriminate].
  destruct (is_a s j T) eqn:A; inversion E; subst. repeat split; auto. exists i, j. auto.
Qed.
End Cfg.

(** ** Local references *)
Definition ensured (s : st) (Y : ty) (i : oid) : st :=
  match lookup s i with
  | Some o =>
      match o_clazz o with
      | Some c => if live s c then s else put s i (mkObj (type_class s Y) (o_mon o) (o_pay o))
      | None => put s i (mkObj (type_class s Y) (o_mon o) (o_pay o))
      end
  | None => s
  end.
Definition pushed (s : st) (t : tid) (i : oid) : st :=
  match get_env s t with
  | Some e => match e_frames e with
              | f :: r => penv s t (env_frames e ((f ++ [i]) :: r))
              | [] => s
              end
  | None => s
  end.

Lemma wf_env_ok s t e : wf s -> get_env s t = Some e -> env_ok s e = true /\ e_frames e <> [] /\ e_id e < s_nextenv s.
Proof. intros W E. eapply (wf_envs W). eapply (aget_In Nat.eqb Nat.eqb_spec); eauto. Qed.

Lemma type_class_ok s Y c : wf s -> type_class s Y = Some c -> is_cls s c = true.
Proof.
  intros W. unfold type_class. destruct (get_type s Y) as [[x|]|] eqn:E; try discriminate. intros H. inversion H; subst.
  eapply (wf_types W). eapply (aget_In ty_eqb ty_eqb_spec); eauto.
Qed.
Lemma clazz_type_ok s Y : wf s -> clazz_ok s (type_class s Y) = true.
Proof.
  intros W. destruct (type_class s Y) as [c|] eqn:E; auto. apply type_class_ok in E; auto. simpl.
  rewrite (is_cls_live _ _ E), E. rewrite andb_true_r. apply Nat.ltb_lt. eapply live_lt. eapply is_cls_live. eauto.
Qed.
Lemma ensured_ok s Y i o : wf s -> lookup s i = Some o -> obj_ok s (mkObj (type_class s Y) (o_mon o) (o_pay o)) = true.
Proof.
  intros W L. pose proof (wf_obj W _ L) as O. unfold obj_ok in *. rewrite !andb_true_iff in *. simpl.
  split; [tauto|apply clazz_type_ok; auto].
Qed.

Lemma ensure_eq s Y i : wf s -> live s i = true -> ensure_class Y i s = Ret tt (ensured s Y i).
Proof.
  intros W L. apply live_lookup in L. destruct L as (o & L). unfold ensure_class, ensured, bind, deref, gets. rewrite L.
  assert (set_clazz i (type_class s Y) s = Ret tt (put s i (mkObj (type_class s Y) (o_mon o) (o_pay o)))) as E.
  { unfold set_clazz, bind, deref. rewrite L. unfold put_obj, bind, check. rewrite (ensured_ok Y W L). reflexivity. }
  destruct (o_clazz o) as [c|]; auto. destruct (live s c); auto.
Qed.
Lemma ensured_wf s Y i : wf s -> wf (ensured s Y i) /\ grow s (ensured s Y i).
Proof.
  intros W. unfold ensured. destruct (lookup s i) as [o|] eqn:L; [|split; auto using grow_refl].
  assert (wf (put s i (mkObj (type_class s Y) (o_mon o) (o_pay o))) /\ grow s (put s i (mkObj (type_class s Y) (o_mon o) (o_pay o)))) as E.
  { split; [eapply put_wf|eapply put_grow]; eauto; try apply same_kind_refl. eapply ensured_ok; eauto. }
  destruct (o_clazz o) as [c|]; auto. destruct (live s c); auto. split; auto using grow_refl.
Qed.
Lemma ensured_env s Y i t : get_env (ensured s Y i) t = get_env s t.
Proof.
  unfold ensured. destruct (lookup s i) as [o|]; auto. destruct (o_clazz o) as [c|]; auto. destruct (live s c); auto.
Qed.

Lemma push_ok s t i e f r : wf s -> get_env s t = Some e -> e_frames e = f :: r -> live s i = true ->
  env_ok s (env_frames e ((f ++ [i]) :: r)) = true.
Proof.
  intros W E F L. destruct (wf_env_ok W E) as (O & _ & _). unfold env_ok in *. rewrite !andb_true_iff in *.
  destruct O as [O1 O2]. split; auto. unfold env_roots in *. rewrite F in O1. simpl in *.
  rewrite !forallb_app in *. simpl. rewrite L. rewrite !andb_true_iff in *. tauto.
Qed.
Lemma push_eq s t i : wf s -> attached s t -> live s i = true -> push_local t i s = Ret tt (pushed s t i).
Proof.
  intros W (e & E) L. unfold push_local, pushed, bind, the_env. rewrite E.
  destruct (wf_env_ok W E) as (O & F & _). destruct (e_frames e) as [|f r] eqn:Ef; [congruence|].
  unfold put_env, bind, check. rewrite (push_ok W E Ef L). reflexivity.
Qed.
Lemma pushed_wf s t i : wf s -> live s i = true -> wf (pushed s t i).
Proof.
  intros W L. unfold pushed. destruct (get_env s t) as [e|] eqn:E; auto.
  destruct (e_frames e) as [|f r] eqn:Ef; auto. apply wf_envs_aset; auto.
  - apply (push_ok W E Ef L).
  - discriminate.
  - intros e0 H. rewrite E in H. inversion H; subst. auto.
  - congruence.
Qed.
Lemma pushed_lookup s t i j : lookup (pushed s t i) j = lookup s j.
Proof. unfold pushed. destruct (get_env s t) as [e|]; auto. destruct (e_frames e); auto. Qed.
Lemma pushed_live s t i j : live (pushed s t i) j = live s j.
Proof. unfold live. rewrite pushed_lookup. auto. Qed.

Lemma get_env_penv s t e u : get_env (penv s t e) u = if Nat.eqb t u then Some e else get_env s u.
Proof. unfold get_env, penv. simpl. apply (aget_aset Nat.eqb Nat.eqb_spec). Qed.
Lemma get_env_pushed s t i u :
  get_env (pushed s t i) u =
  if Nat.eqb t u then
    match get_env s t with
    | Some e => match e_frames e with f :: r => Some (env_frames e ((f ++ [i]) :: r)) | [] => Some e end
    | None => None
    end
  else get_env s u.
Proof.
  unfold pushed. destruct (Nat.eqb_spec t u).
  - subst. destruct (get_env s u) as [e|] eqn:E; auto. destruct (e_frames e) eqn:F; auto.
    rewrite get_env_penv, Nat.eqb_refl. auto.
  - destruct (get_env s t) as [e|]; auto. destruct (e_frames e); auto. rewrite get_env_penv.
    destruct (Nat.eqb_spec t u); auto; congruence.
Qed.

Lemma to_jni_eq s t Y i : wf s -> attached s t -> live s i = true ->
  to_jni t Y i s = Ret (Some i) (pushed (ensured s Y i) t i).
Proof.
  intros W A L. unfold to_jni, bind. rewrite (ensure_eq Y W L). destruct (ensured_wf Y i W) as [W' Gr].
  rewrite push_eq; auto.
  - destruct A as (e & A). exists e. rewrite ensured_env. auto.
  - apply (grow_live _ Gr L).
Qed.
Lemma to_jni_wf s t Y i : wf s -> live s i = true -> wf (pushed (ensured s Y i) t i).
Proof. intros W L. destruct (ensured_wf Y i W) as [W' Gr]. apply pushed_wf; auto. apply (grow_live _ Gr L). Qed.

(** ** What remains after a step *)
Lemma finish_lookup s i : wf s -> In i (roots (with_tmp s [])) -> lookup (finish s) i = lookup s i.
Proof. intros W H. unfold finish. rewrite collect_reach; [reflexivity|]. apply reach_root. auto. Qed.
Lemma finish_sub s i o : lookup (finish s) i = Some o -> lookup s i = Some o.
Proof. intros H. apply collect_sub in H. exact H. Qed.
Lemma finish_same s : same_but_heap (with_tmp s []) (finish s).
Proof. apply collect_same. Qed.
Lemma finish_env s t : get_env (finish s) t = get_env s t.
Proof. unfold get_env. destruct (finish_same s) as (_ & _ & _ & _ & E & _). rewrite <- E. reflexivity. Qed.
Lemma finish_class s n : get_class (finish s) n = get_class s n.
Proof. unfold get_class. destruct (finish_same s) as (_ & E & _). rewrite <- E. reflexivity. Qed.
Lemma finish_globals s : s_globals (finish s) = s_globals s.
Proof. destruct (finish_same s) as (E & _). rewrite <- E. reflexivity. Qed.
Lemma finish_types s : s_types (finish s) = s_types s.
Proof. destruct (finish_same s) as (_ & _ & _ & E & _). rewrite <- E. reflexivity. Qed.
Lemma finish_ext s : s_ext (finish s) = s_ext s.
Proof. destruct (finish_same s) as (_ & _ & _ & _ & _ & _ & E & _). rewrite <- E. reflexivity. Qed.
Lemma finish_tmp s : s_tmp (finish s) = [].
Proof. destruct (finish_same s) as (_ & _ & _ & _ & _ & _ & _ & E & _). rewrite <- E. reflexivity. Qed.

(** a local reference keeps its object *)
Lemma local_root s t e i : get_env s t = Some e -> In i (concat (e_frames e)) -> In i (roots s).
Proof.
  intros E H. apply In_roots. right. right. right. right. left. exists t, e. split.
  - eapply (aget_In Nat.eqb Nat.eqb_spec); eauto.
  - unfold env_roots. rewrite in_app_iff. auto.
Qed.

(** running an operation on an attached thread *)
Lemma run_attached G t o s : attached s t -> run G t o s = body G t o s.
Proof.
  intros (e & E). unfold run. destruct (needs_env o); unfold bind, the_env, ret; auto. rewrite E. auto.
Qed.
Lemma run_detached G t o s : ~ attached s t -> needs_env o = true -> run G t o s = Undef.
Proof.
  intros A N. unfold run, bind, the_env. rewrite N. destruct (get_env s t) eqn:E; auto. exfalso. apply A. exists e. auto.
Qed.
Lemma step_attached G t o s v s' : step G t o s = Some (v, s') -> needs_env o = true -> attached s t.
Proof.
  unfold step, run. intros H N. rewrite N in H. unfold bind at 1, bind at 1, the_env in H.
  destruct (get_env s t) eqn:E; [exists e; auto|discriminate].
Qed.
