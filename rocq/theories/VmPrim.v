(** What each elementary change does, as introduction rules for [keeps]. *)
From Verif Require Import Base BaseProofs VmState VmModel VmStep VmBase VmFrame VmWf.
Set Implicit Arguments.
Local Open Scope vm_scope.

(** Writing object [i]. *)
Definition put (s : st) (i : oid) (o : obj) : st := with_heap s (list_set (s_heap s) i (Some o)).
Definition add (s : st) (o : obj) : st := with_heap s (s_heap s ++ [Some o]).
Definition penv (s : st) (t : tid) (e : env) : st := with_envs s (aset Nat.eqb (s_envs s) t e).

Section Intro.
Variable P : st -> st -> Prop.
Hypothesis Prefl : forall s, P s s.
Hypothesis Ptrans : forall a b c, P a b -> P b c -> P a c.

Lemma I_check f (k : M unit) : (forall s, f s = true -> match k s with Ret _ s' | Thr _ s' => P s s' | _ => True end) ->
  keeps P (check f ;;; k).
Proof. intros H s. unfold bind, check. destruct (f s) eqn:E; auto. apply H. auto. Qed.

Lemma I_alloc o : (forall s, obj_ok s o = true -> P s (add s o)) -> keeps P (alloc o).
Proof. intros H s. unfold alloc, bind, check. destruct (obj_ok s o) eqn:E; auto. apply H. auto. Qed.

Lemma I_upd_cls i f :
  (forall s o c, lookup s i = Some o -> o_pay o = PClass c -> obj_ok s (set_pay o (PClass (f c))) = true ->
     P s (put s i (set_pay o (PClass (f c))))) -> keeps P (upd_cls i f).
Proof.
  intros H s. unfold upd_cls, bind, deref. destruct (lookup s i) as [o|] eqn:E; auto.
  destruct (o_pay o) eqn:Ep; try exact I. unfold put_obj, bind, check.
  destruct (obj_ok s _) eqn:Eo; auto. apply H; auto.
Qed.
Lemma I_upd_mth i f :
  (forall s o c, lookup s i = Some o -> o_pay o = PMethod c -> obj_ok s (set_pay o (PMethod (f c))) = true ->
     P s (put s i (set_pay o (PMethod (f c))))) -> keeps P (upd_mth i f).
Proof.
  intros H s. unfold upd_mth, bind, deref. destruct (lookup s i) as [o|] eqn:E; auto.
  destruct (o_pay o) eqn:Ep; try exact I. unfold put_obj, bind, check.
  destruct (obj_ok s _) eqn:Eo; auto. apply H; auto.
Qed.
Lemma I_upd_fld i f :
  (forall s o c, lookup s i = Some o -> o_pay o = PField c -> obj_ok s (set_pay o (PField (f c))) = true ->
     P s (put s i (set_pay o (PField (f c))))) -> keeps P (upd_fld i f).
Proof.
  intros H s. unfold upd_fld, bind, deref. destruct (lookup s i) as [o|] eqn:E; auto.
  destruct (o_pay o) eqn:Ep; try exact I. unfold put_obj, bind, check.
  destruct (obj_ok s _) eqn:Eo; auto. apply H; auto.
Qed.
Lemma I_upd_prim i f :
  (forall s o p l, lookup s i = Some o -> o_pay o = PPrim p l -> obj_ok s (set_pay o (PPrim p (f l))) = true ->
     P s (put s i (set_pay o (PPrim p (f l))))) -> keeps P (upd_prim i f).
Proof.
  intros H s. unfold upd_prim, bind, deref. destruct (lookup s i) as [o|] eqn:E; auto.
  destruct (o_pay o) eqn:Ep; try exact I. unfold put_obj, bind, check.
  destruct (obj_ok s _) eqn:Eo; auto. apply H; auto.
Qed.
Lemma I_upd_arr i f :
  (forall s o p l, lookup s i = Some o -> o_pay o = PArr p l -> obj_ok s (set_pay o (PArr p (f l))) = true ->
     P s (put s i (set_pay o (PArr p (f l))))) -> keeps P (upd_arr i f).
Proof.
  intros H s. unfold upd_arr, bind, deref. destruct (lookup s i) as [o|] eqn:E; auto.
  destruct (o_pay o) eqn:Ep; try exact I. unfold put_obj, bind, check.
  destruct (obj_ok s _) eqn:Eo; auto. apply H; auto.
Qed.
Lemma I_array_set G a k v : (forall s, P s s) ->
  (forall s o p l, lookup s a = Some o -> o_pay o = PArr p l -> obj_ok s (set_pay o (PArr p (list_set l (Z.to_nat k) v))) = true ->
     elem_ok G s p v = true -> P s (put s a (set_pay o (PArr p (list_set l (Z.to_nat k) v))))) -> keeps P (array_set G a k v).
Proof.
  intros R H s. unfold array_set, upd_arr, gets, bind, deref. destruct (lookup s a) as [o|] eqn:E; auto.
  destruct (o_pay o) eqn:Ep; try exact I. destruct (elem_ok G s t v) eqn:Ee; [cbn [negb]|apply R].
  destruct (_ || _); [exact I|]. rewrite E, Ep. unfold put_obj, bind, check.
  destruct (obj_ok s _) eqn:Eo; auto. apply H; auto.
Qed.
Lemma I_upd_user i f :
  (forall s o p l, lookup s i = Some o -> o_pay o = PUser p l -> obj_ok s (set_pay o (PUser p (f l))) = true ->
     P s (put s i (set_pay o (PUser p (f l))))) -> keeps P (upd_user i f).
Proof.
  intros H s. unfold upd_user, bind, deref. destruct (lookup s i) as [o|] eqn:E; auto.
  destruct (o_pay o) eqn:Ep; try exact I. unfold put_obj, bind, check.
  destruct (obj_ok s _) eqn:Eo; auto. apply H; auto.
Qed.
Lemma I_set_clazz i c :
  (forall s o, lookup s i = Some o -> obj_ok s (mkObj c (o_mon o) (o_pay o)) = true ->
     P s (put s i (mkObj c (o_mon o) (o_pay o)))) -> keeps P (set_clazz i c).
Proof.
  intros H s. unfold set_clazz, bind, deref. destruct (lookup s i) as [o|] eqn:E; auto.
  unfold put_obj, bind, check. destruct (obj_ok s _) eqn:Eo; auto. apply H; auto.
Qed.
Lemma I_set_mon i m :
  (forall s o, lookup s i = Some o -> obj_ok s (mkObj (o_clazz o) m (o_pay o)) = true ->
     P s (put s i (mkObj (o_clazz o) m (o_pay o)))) -> keeps P (set_mon i m).
Proof.
  intros H s. unfold set_mon, bind, deref. destruct (lookup s i) as [o|] eqn:E; auto.
  unfold put_obj, bind, check. destruct (obj_ok s _) eqn:Eo; auto. apply H; auto.
Qed.
(** [ensure_class] only sets the class of an object that has no (living) class *)
Lemma I_ensure_class Y i :
  (forall s o, lookup s i = Some o -> (forall c, o_clazz o = Some c -> live s c = false) ->
     obj_ok s (mkObj (type_class s Y) (o_mon o) (o_pay o)) = true ->
     P s (put s i (mkObj (type_class s Y) (o_mon o) (o_pay o)))) -> keeps P (ensure_class Y i).
Proof.
  intros H s. unfold ensure_class, bind, deref, gets. destruct (lookup s i) as [o|] eqn:E; auto.
  assert ((forall c, o_clazz o = Some c -> live s c = false) ->
    match set_clazz i (type_class s Y) s with Ret _ s' | Thr _ s' => P s s' | _ => True end) as K.
  { intros D. unfold set_clazz, bind, deref. rewrite E. unfold put_obj, bind, check.
    destruct (obj_ok s _) eqn:Eo; auto. apply H; auto. }
  destruct (o_clazz o) as [c|] eqn:Ec.
  - destruct (live s c) eqn:L; [apply Prefl|]. apply K. congruence.
  - apply K. congruence.
Qed.
Lemma I_upd_env t f :
  (forall s e, get_env s t = Some e -> env_ok s (f e) = true -> P s (penv s t (f e))) -> keeps P (upd_env t f).
Proof.
  intros H s. unfold upd_env, bind, the_env. destruct (get_env s t) as [e|] eqn:E; auto.
  unfold put_env, bind, check. destruct (env_ok s (f e)) eqn:Eo; auto. apply H; auto.
Qed.
Lemma I_call_push t k :
  (forall s e, get_env s t = Some e -> (forall i, In i (k_held k) -> is_cls s i = true) ->
     env_ok s (env_calls e (k :: e_calls e)) = true -> P s (penv s t (env_calls e (k :: e_calls e)))) -> keeps P (call_push t k).
Proof.
  intros H s. unfold call_push, bind at 1, check. destruct (forallb (is_cls s) (k_held k)) eqn:C; auto.
  unfold upd_env, bind, the_env. destruct (get_env s t) as [e|] eqn:E; auto.
  unfold put_env, bind, check. destruct (env_ok s _) eqn:Eo; auto. apply H; auto. apply forallb_forall. auto.
Qed.
Lemma I_push_local t i :
  (forall s e f r, get_env s t = Some e -> e_frames e = f :: r -> live s i = true ->
     env_ok s (env_frames e ((f ++ [i]) :: r)) = true -> P s (penv s t (env_frames e ((f ++ [i]) :: r)))) ->
  keeps P (push_local t i).
Proof.
  intros H s. unfold push_local, bind, the_env. destruct (get_env s t) as [e|] eqn:E; auto.
  destruct (e_frames e) as [|f r] eqn:Ef; [exact I|].
  unfold put_env, bind, check. destruct (env_ok s _) eqn:Eo; auto. apply H; auto.
  unfold env_ok in Eo. apply andb_true_iff in Eo. destruct Eo as [Eo _]. rewrite forallb_forall in Eo.
  apply Eo. unfold env_roots. simpl. rewrite !in_app_iff. simpl. auto.
Qed.
Lemma I_frame_pop t :
  (forall s e f r, get_env s t = Some e -> e_frames e = f :: r ->
     let e' := env_free (env_frames e (match r with [] => [[]] | _ => r end)) ([] :: e_free e) in
     env_ok s e' = true -> P s (collect (penv s t e'))) ->
  keeps P (frame_pop t).
Proof.
  intros H s. unfold frame_pop, bind, the_env. destruct (get_env s t) as [e|] eqn:E; auto.
  destruct (e_frames e) as [|f r] eqn:Ef; [exact I|].
  unfold put_env, bind, check. destruct (env_ok s _) eqn:Eo; auto. simpl. eapply H; eauto.
Qed.
Lemma I_call_pop t :
  (forall s e k r, get_env s t = Some e -> e_calls e = k :: r -> env_ok s (env_calls e r) = true ->
     P s (penv s t (env_calls e r))) -> keeps P (call_pop t).
Proof.
  intros H s. unfold call_pop, bind, the_env. destruct (get_env s t) as [e|] eqn:E; auto.
  destruct (e_calls e) as [|k r] eqn:Ef; [exact I|].
  unfold put_env, bind, check. destruct (env_ok s _) eqn:Eo; auto. simpl. eapply H; eauto.
Qed.
Lemma I_add_global i : (forall s, live s i = true -> P s (with_globals s (s_globals s ++ [i]))) -> keeps P (add_global i).
Proof.
  intros H s. unfold add_global, bind, live_all, check. simpl. destruct (live s i) eqn:E; simpl; auto. all: try (apply H; exact E).
Qed.
Lemma I_del_global i : (forall s, P s (with_globals s (remove_first i (s_globals s)))) -> keeps P (del_global i).
Proof. intros H s. apply H. Qed.
Lemma I_add_ext i : (forall s, live s i = true -> P s (with_ext s (i :: s_ext s))) -> keeps P (add_ext i).
Proof.
  intros H s. unfold add_ext, bind, live_all, check. simpl. destruct (live s i) eqn:E; simpl; auto. all: try (apply H; exact E).
Qed.
Lemma I_del_ext i : (forall s, P s (with_ext s (remove_first i (s_ext s)))) -> keeps P (del_ext i).
Proof. intros H s. apply H. Qed.
Lemma I_set_tmp l : (forall s, (forall i, In i l -> live s i = true) -> P s (with_tmp s l)) -> keeps P (set_tmp l).
Proof.
  intros H s. unfold set_tmp, bind, live_all, check. simpl. destruct (forallb (live s) l) eqn:E; auto.
  apply H. apply forallb_forall. auto.
Qed.
Lemma I_set_class n i :
  (forall s, is_cls s i = true -> P s (with_classes s (aset str_eqb (s_classes s) n i))) -> keeps P (set_class n i).
Proof.
  intros H s. unfold set_class, bind, check. destruct (is_cls s i) eqn:E; auto.
Qed.
Lemma I_set_type T o :
  (forall s, (forall i, o = Some i -> is_cls s i = true) -> P s (with_types s (aset ty_eqb (s_types s) T o))) ->
  keeps P (set_type T o).
Proof.
  intros H s. unfold set_type, bind, check. destruct (forallb _ _) eqn:E; auto. apply H.
  intros i ->. simpl in E. apply andb_true_iff in E. tauto.
Qed.
Lemma I_type_entry B :
  (forall s, get_type s B = None -> P s (with_types s (aset ty_eqb (s_types s) B None))) -> keeps P (type_entry B).
Proof.
  intros H s. unfold type_entry, bind, gets. destruct (get_type s B) eqn:E; simpl; auto.
Qed.
Lemma I_new_ns k n :
  (forall s p, nth_error (s_ns s) k = Some p ->
     P s (with_ns s (list_set (s_ns s) k (mkNs (n_name p) (n_subs p ++ [length (s_ns s)]) (n_classes p)) ++ [mkNs n [] []]))) ->
  keeps P (new_ns k n).
Proof. intros H s. unfold new_ns. destruct (nth_error (s_ns s) k) eqn:E; auto. Qed.
Lemma I_ns_add_class k i :
  (forall s p, nth_error (s_ns s) k = Some p -> is_cls s i = true ->
     P s (with_ns s (list_set (s_ns s) k (mkNs (n_name p) (n_subs p) (n_classes p ++ [i]))))) ->
  keeps P (ns_add_class k i).
Proof.
  intros H s. unfold ns_add_class, bind, check. destruct (is_cls s i) eqn:E; auto.
  destruct (nth_error (s_ns s) k) eqn:E'; auto.
Qed.
Lemma I_Attach t :
  (forall s, get_env s t = None ->
     P s (with_nextenv (penv s t (new_env (s_nextenv s))) (S (s_nextenv s)))) -> keeps P (Attach t).
Proof. intros H s. unfold Attach. destruct (get_env s t) eqn:E; auto. apply H. auto. Qed.
Lemma I_Detach t :
  (forall s e, get_env s t = Some e -> e_calls e = [] ->
     P s (with_envs s (adel Nat.eqb (s_envs s) t))) -> keeps P (Detach t).
Proof.
  intros H s. unfold Detach. destruct (get_env s t) eqn:E; auto.
  destruct (e_calls e) eqn:Ec; auto. eapply H; eauto.
Qed.
End Intro.

(** ** Coarse rule: all changes of the heap that keep identities, all changes of environments ... *)
Record coarse (P : st -> st -> Prop) : Prop := {
  c_refl : forall s, P s s;
  c_trans : forall a b c, P a b -> P b c -> P a c;
  c_add : forall s o, obj_ok s o = true -> P s (add s o);
  c_put : forall s i x o, lookup s i = Some x -> same_kind (o_pay x) (o_pay o) -> obj_ok s o = true -> P s (put s i o);
  c_env : forall s t e e', get_env s t = Some e -> env_ok s e' = true -> e_id e' = e_id e ->
  (e_frames e <> [] -> e_frames e' <> []) -> P s (penv s t e');
  c_globals : forall s l, (forall i, In i l -> In i (s_globals s) \/ live s i = true) -> P s (with_globals s l);
  c_ext : forall s l, (forall i, In i l -> In i (s_ext s) \/ live s i = true) -> P s (with_ext s l);
  c_tmp : forall s l, (forall i, In i l -> live s i = true) -> P s (with_tmp s l);
  c_classes : forall s n i, is_cls s i = true -> P s (with_classes s (aset str_eqb (s_classes s) n i));
  c_types : forall s T o, (forall i, o = Some i -> is_cls s i = true) -> P s (with_types s (aset ty_eqb (s_types s) T o));
  c_ns : forall s k p n, nth_error (s_ns s) k = Some p ->
  P s (with_ns s (list_set (s_ns s) k (mkNs (n_name p) (n_subs p ++ [length (s_ns s)]) (n_classes p)) ++ [mkNs n [] []]));
  c_nsc : forall s k p i, nth_error (s_ns s) k = Some p -> is_cls s i = true ->
  P s (with_ns s (list_set (s_ns s) k (mkNs (n_name p) (n_subs p) (n_classes p ++ [i]))));
  c_collect : forall s, P s (collect s);
  c_attach : forall s t, get_env s t = None ->
  P s (with_nextenv (penv s t (new_env (s_nextenv s))) (S (s_nextenv s)));
  c_detach : forall s t, P s (with_envs s (adel Nat.eqb (s_envs s) t))
}.

Section Coarse.
Variable G : cfg.
Variable P : st -> st -> Prop.
Hypothesis C : coarse P.
Let Prefl := c_refl C.
Let Ptrans := c_trans C.
Let Padd := c_add C.
Let Pput := c_put C.
Let Penv := c_env C.
Let Pglobals := c_globals C.
Let Pext := c_ext C.
Let Ptmp := c_tmp C.
Let Pclasses := c_classes C.
Let Ptypes := c_types C.
Let Pns := c_ns C.
Let Pnsc := c_nsc C.
Let Pcollect := c_collect C.
Let Pattach := c_attach C.
Let Pdetach := c_detach C.

Lemma sk_eq x p : o_pay x = p -> same_kind (o_pay x) p.
Proof. intros ->. apply same_kind_refl. Qed.

Ltac put_goal := eapply Pput; eauto; simpl; match goal with H : o_pay _ = _ |- _ => rewrite H end; simpl; auto.

Lemma list_set_len A (l : list A) k x : length l = length (list_set l k x).
Proof. symmetry. apply list_set_length. Qed.

Lemma splice_length l k b : length (splice l k b) = length l.
Proof. intros. unfold splice. rewrite !app_length, !firstn_length, skipn_length. lia. Qed.

Lemma coarse_find_class z n : keeps P (find_class G z n).
Proof.
  apply keeps_find_class; auto.
  - intros. apply I_new_ns. auto.
  - intros. apply I_alloc. auto.
  - intros. apply I_set_class. auto.
  - intros. apply I_ns_add_class. auto.
  - intros. apply I_upd_cls. intros. put_goal.
Qed.

Lemma coarse_GetClassT T i n : keeps P (GetClassT G T i n).
Proof.
  unfold GetClassT. apply keeps_bind; auto using coarse_find_class. intros.
  apply keeps_bind; auto using keeps_nonnull. intros. apply keeps_bind; [auto| |].
  - apply I_set_type. intros. apply Ptypes. auto.
  - intros. apply keeps_bind; auto using keeps_ret. apply I_upd_cls. intros. put_goal.
Qed.

Lemma coarse_initialize t : keeps P (initialize G t).
Proof.
  unfold initialize. apply keeps_bind; [auto|apply I_Attach; auto|]. intros _.
  repeat (apply keeps_bind; auto using coarse_GetClassT; intros _).
Qed.

Theorem coarse_run t o : keeps P (run G t o).
Proof.
  apply keeps_run with (ok := fun _ => True); auto; try (intros p Hp; exact I); intros _.
  - intros z n. apply coarse_find_class.
  - intros. apply I_type_entry; auto. intros. apply Ptypes. discriminate.
  - intros. apply I_alloc. auto.
  - intros. apply I_ensure_class; auto. intros. eapply Pput; eauto. apply same_kind_refl.
  - intros. apply I_push_local. intros. eapply Penv; eauto. simpl. discriminate.
  - intros. apply keeps_bind; [auto|apply I_alloc; auto|]. intros. apply keeps_bind; [auto| |auto using keeps_ret].
    apply I_upd_cls. intros. put_goal.
  - intros. apply keeps_bind; [auto|apply I_alloc; auto|]. intros. apply keeps_bind; [auto| |auto using keeps_ret].
    apply I_upd_cls. intros. put_goal.
  - intros. apply I_upd_cls. intros. put_goal.
  - intros. intros s. unfold drop_natives, bind, gets. pose proof (@I_upd_cls P c) as K.
    match goal with |- context [upd_cls c ?f] => specialize (K f) end.
    apply K. intros. put_goal.
  - intros. apply I_set_type. intros. apply Ptypes. auto.
  - intros. apply I_upd_cls. intros. put_goal.
  - intros. apply I_upd_cls. intros. put_goal.
  - intros. apply I_upd_mth. intros. put_goal.
  - intros. apply I_upd_fld. intros. put_goal.
  - intros. apply I_upd_env. intros. eapply Penv; eauto; destruct (e_free e); simpl; auto; discriminate.
  - intros. apply I_frame_pop. intros. eapply Ptrans; [|apply Pcollect]. eapply Penv; eauto.
    simpl. destruct r; discriminate.
  - intros. apply I_upd_env. intros. eapply Penv; eauto. simpl. destruct (e_frames e); simpl; auto.
    destruct (memb i l); discriminate.
  - intros. apply I_set_tmp. auto.
  - intros. apply I_add_global. intros. apply Pglobals. intros j. rewrite in_app_iff. simpl.
    intros [?|[<-|[]]]; auto.
  - intros. apply I_del_global. intros. apply Pglobals. intros j Hj. left. eapply remove_first_In; eauto.
  - intros. apply I_upd_env. intros. eapply Penv; eauto.
  - intros. apply I_call_push. intros. eapply Penv; eauto.
  - intros. apply I_call_pop. intros. eapply Penv; eauto.
  - intros. apply I_array_set; auto. intros. put_goal. rewrite list_set_length. auto.
  - intros. apply I_upd_prim. intros. put_goal. rewrite splice_length. auto.
  - intros. apply I_upd_prim. intros. put_goal. rewrite list_set_length. auto.
  - intros. apply I_set_mon. intros. eapply Pput; eauto. apply same_kind_refl.
  - intros. apply I_upd_user. intros. put_goal. rewrite list_set_length. auto.
  - intros. apply I_add_ext. intros. apply Pext. intros j [<-|?]; auto.
  - intros. apply I_del_ext. intros. apply Pext. intros j Hj. left. eapply remove_first_In; eauto.
  - intros. apply I_Attach; auto.
  - intros. apply I_Detach; auto.
Qed.
End Coarse.
