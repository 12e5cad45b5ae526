(** Fine rule: a relation that every elementary change of an operation respects is respected by the
    operation, by steps and by histories.  Everything may assume well-formed states. *)
From Verif Require Import Base BaseProofs VmState VmModel VmStep VmBase VmFrame VmWf VmPrim VmInv.
Set Implicit Arguments.
Local Open Scope vm_scope.

(** Changes of a class object (other than new inner classes) *)
Inductive cls_chg (ok : prim -> Prop) (s : st) (c : cls) : cls -> Prop :=
| cc_native l : ok PrNatives ->
    cls_chg ok s c (mkCls (c_name c) (c_prefix c) (c_inner c) (c_fields c) (c_methods c)
                       l (c_inst c) (c_instarr c) (c_bases c))
| cc_drop l : ok PrDrop -> l = unreg_loop s (length (c_methods c)) 0 (c_methods c) ->
    cls_chg ok s c (mkCls (c_name c) (c_prefix c) (c_inner c) (c_fields c) l
                       [] (c_inst c) (c_instarr c) (c_bases c))
| cc_bind x T : ok PrBind ->
    cls_chg ok s c (mkCls (c_name c) (c_prefix c) (c_inner c) (c_fields c) (c_methods c)
                       (c_natives c) x (c_instarr c) (Some T))
| cc_instarr n : ok PrInstarr ->
    cls_chg ok s c (mkCls (c_name c) (c_prefix c) (c_inner c) (c_fields c) (c_methods c)
                       (c_natives c) (c_inst c) (match c_instarr c with Some x => Some x | None => Some n end) (c_bases c)).

(** A new member *)
Definition newm (s : st) (i : oid) (o : obj) (c : cls) (m : mth) : st :=
  put (add s (new_obj None (PMethod m))) i
    (set_pay o (PClass (mkCls (c_name c) (c_prefix c) (c_inner c) (c_fields c) (c_methods c ++ [length (s_heap s)])
                         (c_natives c) (c_inst c) (c_instarr c) (c_bases c)))).
Definition newf (s : st) (i : oid) (o : obj) (c : cls) (f : fld) : st :=
  put (add s (new_obj None (PField f))) i
    (set_pay o (PClass (mkCls (c_name c) (c_prefix c) (c_inner c) (c_fields c ++ [length (s_heap s)]) (c_methods c)
                         (c_natives c) (c_inst c) (c_instarr c) (c_bases c)))).

(** Changes of the environment of the running thread *)
Inductive env_chg (ok : prim -> Prop) (s : st) (e : env) : env -> Prop :=
| ec_local i f r : ok PrLocal -> e_frames e = f :: r -> live s i = true ->
    env_chg ok s e (env_frames e ((f ++ [i]) :: r))
| ec_push : ok PrFramePush ->
    env_chg ok s e (match e_free e with
                 | [] => env_frames e ([] :: e_frames e)
                 | f :: r => env_free (env_frames e (f :: e_frames e)) r
                 end)
| ec_pop f r : ok PrFramePop -> e_frames e = f :: r ->
    env_chg ok s e (env_free (env_frames e (match r with [] => [[]] | _ => r end)) ([] :: e_free e))
| ec_del i : ok PrFrameDel -> env_chg ok s e (env_frames e (del_frames i (e_frames e)))
| ec_exc o : ok PrExc -> env_chg ok s e (env_exc e o)
| ec_call k : ok PrCallPush -> (forall i, In i (k_held k) -> is_cls s i = true) -> env_chg ok s e (env_calls e (k :: e_calls e))
| ec_ret k r : ok PrCallPop -> e_calls e = k :: r -> env_chg ok s e (env_calls e r).

Record fine (G : cfg) (t : tid) (ok : prim -> Prop) (P : st -> st -> Prop) : Prop := {
  f_refl : forall s, P s s;
  f_trans : forall a b c, P a b -> P b c -> P a c;
  f_find : ok PrClass -> forall z n s, wf s ->
    match find_class G z n s with Ret _ s' | Thr _ s' => P s s' | _ => True end;
  f_alloc : ok PrAlloc -> forall s c p, wf s -> not_class p -> obj_ok s (new_obj c p) = true -> blank p -> P s (add s (new_obj c p));
  f_ensure : ok PrEnsure -> forall s i o Y, wf s -> lookup s i = Some o ->
    (forall c, o_clazz o = Some c -> live s c = false) ->
    obj_ok s (mkObj (type_class s Y) (o_mon o) (o_pay o)) = true ->
    P s (put s i (mkObj (type_class s Y) (o_mon o) (o_pay o)));
  f_cls : forall s i o c c', wf s -> lookup s i = Some o -> o_pay o = PClass c -> cls_chg ok s c c' ->
    obj_ok s (set_pay o (PClass c')) = true -> P s (put s i (set_pay o (PClass c')));
  f_newm : ok PrMethods -> forall s i o c m, wf s -> lookup s i = Some o -> o_pay o = PClass c -> fresh_mth m ->
    P s (newm s i o c m);
  f_newf : ok PrFields -> forall s i o c f, wf s -> lookup s i = Some o -> o_pay o = PClass c -> f_get f = None ->
    f_set f = None -> P s (newf s i o c f);
  f_mth : ok PrMHandle -> forall s i o m h, wf s -> lookup s i = Some o -> o_pay o = PMethod m ->
    P s (put s i (set_pay o (PMethod (mkMth (m_name m) (m_sig m) (m_static m) (m_native m) (Some h)))));
  f_fld : ok PrFHandle -> forall s i o f x y, wf s -> lookup s i = Some o -> o_pay o = PField f ->
    P s (put s i (set_pay o (PField (mkFld (f_name f) (f_type f) (f_static f) x y))));
  f_env : forall s e e', wf s -> get_env s t = Some e -> env_ok s e' = true -> env_chg ok s e e' -> P s (penv s t e');
  f_gadd : ok PrGlobalAdd -> forall s i, wf s -> live s i = true -> P s (with_globals s (s_globals s ++ [i]));
  f_gdel : ok PrGlobalDel -> forall s i, wf s -> P s (with_globals s (remove_first i (s_globals s)));
  f_xadd : ok PrExtAdd -> forall s i, wf s -> live s i = true -> P s (with_ext s (i :: s_ext s));
  f_xdel : ok PrExtDel -> forall s i, wf s -> P s (with_ext s (remove_first i (s_ext s)));
  f_arr : ok PrArr -> forall s i o x l k v, wf s -> lookup s i = Some o -> o_pay o = PArr x l ->
    obj_ok s (set_pay o (PArr x (list_set l k v))) = true -> elem_ok G s x v = true -> P s (put s i (set_pay o (PArr x (list_set l k v))));
  f_prim : ok PrPrim -> forall s i o x l m, wf s -> lookup s i = Some o -> o_pay o = PPrim x l -> length m = length l ->
    P s (put s i (set_pay o (PPrim x m)));
  f_user : ok PrUser -> forall s i o x l k v, wf s -> lookup s i = Some o -> o_pay o = PUser x l ->
    obj_ok s (set_pay o (PUser x (list_set l k v))) = true -> P s (put s i (set_pay o (PUser x (list_set l k v))));
  f_mon : ok PrMon -> forall s i o m, wf s -> lookup s i = Some o -> P s (put s i (mkObj (o_clazz o) m (o_pay o)));
  f_type : ok PrType -> forall s T, wf s -> get_type s T = None -> P s (with_types s (aset ty_eqb (s_types s) T None));
  f_bind : ok PrBind -> forall s T i, wf s -> is_cls s i = true -> P s (with_types s (aset ty_eqb (s_types s) T (Some i)));
  f_attach : ok PrAttach -> forall s, wf s -> get_env s t = None ->
    P s (with_nextenv (penv s t (new_env (s_nextenv s))) (S (s_nextenv s)));
  f_detach : ok PrDetach -> forall s e, wf s -> get_env s t = Some e -> e_calls e = [] ->
    P s (with_envs s (adel Nat.eqb (s_envs s) t));
  f_tmp : forall s l, wf s -> (forall i, In i l -> live s i = true) -> P s (with_tmp s l);
  f_collect : forall s, wf s -> P s (collect s)
}.

Section Fine.
Variables (G : cfg) (t : tid) (ok : prim -> Prop) (P : st -> st -> Prop).
Hypothesis F : fine G t ok P.

Let Q (s s' : st) : Prop := wf s -> wf s' /\ P s s'.
Lemma Q_refl s : Q s s.
Proof. intros W. split; [auto|apply (f_refl F)]. Qed.
Lemma Q_trans a b c : Q a b -> Q b c -> Q a c.
Proof.
  intros H1 H2 W. destruct (H1 W) as [W1 P1]. destruct (H2 W1) as [W2 P2].
  split; auto. eapply (f_trans F); eauto.
Qed.

(** [Q] from the part about [wf] (already known) and the part about [P] *)
Lemma Q_both A (m : M A) : keeps wfi m -> keeps (fun s s' => wf s -> P s s') m -> keeps Q m.
Proof.
  intros H1 H2 s. specialize (H1 s). specialize (H2 s). destruct (m s); auto; intros W; destruct (H1 W); auto.
Qed.

Ltac put_wfi := intros; eapply (c_put wfi_coarse); eauto; simpl;
  match goal with H : o_pay _ = _ |- _ => rewrite H; simpl; auto | _ => apply same_kind_refl end.

Lemma alloc_pay o s : obj_ok s o = true -> alloc o s = Ret (length (s_heap s)) (add s o).
Proof. intros E. unfold alloc, bind, check. rewrite E. auto. Qed.
Lemma wfi_new_method c m : keeps wfi (new_method c m).
Proof.
  apply keeps_bind; [apply wfi_trans|apply I_alloc; intros; apply (c_add wfi_coarse); auto|]. intros i.
  apply keeps_bind; [apply wfi_trans|apply I_upd_cls; put_wfi|]. intros. apply keeps_ret, wfi_refl.
Qed.
Lemma wfi_new_field c m : keeps wfi (new_field c m).
Proof.
  apply keeps_bind; [apply wfi_trans|apply I_alloc; intros; apply (c_add wfi_coarse); auto|]. intros i.
  apply keeps_bind; [apply wfi_trans|apply I_upd_cls; put_wfi|]. intros. apply keeps_ret, wfi_refl.
Qed.

Let R (s s' : st) : Prop := wf s -> P s s'.
Lemma R_refl s : R s s.
Proof. intros _. apply (f_refl F). Qed.

Theorem fine_run_Q o : (forall p, In p (uses o) -> ok p) -> keeps Q (run G t o).
Proof.
  intros U. apply keeps_run with (ok := ok); auto using Q_refl.
  - apply Q_trans.
  - intros K z n. apply Q_both; [apply coarse_find_class, wfi_coarse|]. intros s.
    pose proof (@f_find _ _ _ _ F K z n s) as H. destruct (find_class G z n s); auto.
  - intros K B. apply Q_both.
    + apply I_type_entry; [apply wfi_refl|]. intros. apply (c_types wfi_coarse). discriminate.
    + apply I_type_entry; [apply R_refl|]. intros s H W. apply (f_type F); auto.
  - intros K c p N N'. apply Q_both.
    + apply I_alloc. intros. apply (c_add wfi_coarse). auto.
    + apply I_alloc. intros s H W. apply (f_alloc F); auto.
  - intros K Y i. apply Q_both.
    + apply I_ensure_class; [apply wfi_refl|]. put_wfi.
    + apply I_ensure_class; [apply R_refl|]. intros s o' H1 H2 H3 W. apply (f_ensure F); auto.
  - intros K i. apply Q_both.
    + apply I_push_local. intros. eapply (c_env wfi_coarse); eauto. simpl. discriminate.
    + apply I_push_local. intros s e f r H1 H2 H3 H4 W. eapply (f_env F); eauto. econstructor; eauto.
  - intros K c m E. apply Q_both; [apply wfi_new_method|]. intros s. unfold new_method, bind.
    rewrite alloc_pay by reflexivity. unfold add_method, upd_cls, bind, deref.
    destruct (lookup s c) as [o'|] eqn:L.
    + unfold add. rewrite lookup_alloc. pose proof (lookup_lt _ _ L).
      destruct (Nat.eqb_spec c (length (s_heap s))); [lia|]. rewrite L. destruct (o_pay o') eqn:E'; try exact I.
      unfold put_obj, bind, check. destruct (obj_ok _ _); try exact I. simpl. intros W. apply (f_newm F); auto.
    + unfold add. rewrite lookup_alloc. destruct (Nat.eqb_spec c (length (s_heap s))); [simpl; auto|rewrite L; auto].
  - intros K c m E Es. apply Q_both; [apply wfi_new_field|]. intros s. unfold new_field, bind.
    rewrite alloc_pay by reflexivity. unfold add_field, upd_cls, bind, deref.
    destruct (lookup s c) as [o'|] eqn:L.
    + unfold add. rewrite lookup_alloc. pose proof (lookup_lt _ _ L).
      destruct (Nat.eqb_spec c (length (s_heap s))); [lia|]. rewrite L. destruct (o_pay o') eqn:E'; try exact I.
      unfold put_obj, bind, check. destruct (obj_ok _ _); try exact I. simpl. intros W. apply (f_newf F); auto.
    + unfold add. rewrite lookup_alloc. destruct (Nat.eqb_spec c (length (s_heap s))); [simpl; auto|rewrite L; auto].
  - intros K c n f. apply Q_both.
    + apply I_upd_cls. put_wfi.
    + apply I_upd_cls. intros s o' c0 H1 H2 H3 W. eapply (f_cls F); eauto. apply cc_native; auto.
  - intros K c. apply Q_both.
    + intros s. unfold drop_natives, bind, gets. pose proof (@I_upd_cls wfi c) as J.
      match goal with |- context [upd_cls c ?f] => specialize (J f) end. apply J. put_wfi.
    + intros s. unfold drop_natives, bind, gets.
      pose proof (@I_upd_cls (fun s0 s' => s0 = s -> wf s0 -> P s0 s') c) as J.
      match goal with |- context [upd_cls c ?f] => specialize (J f) end.
      match goal with |- context [upd_cls c ?f s] => assert (match upd_cls c f s with Ret _ s' | Thr _ s' => s = s -> wf s -> P s s' | _ => True end) as X end.
      { apply J. intros s0 o' c0 H1 H2 H3 -> W. eapply (f_cls F); eauto. apply cc_drop; auto. }
      match goal with |- context [upd_cls c ?f s] => destruct (upd_cls c f s); auto end.
  - intros K T i. apply Q_both.
    + apply I_set_type. intros. apply (c_types wfi_coarse). auto.
    + apply I_set_type. intros s H W. apply (f_bind F); auto.
  - intros K i T n. apply Q_both.
    + apply I_upd_cls. put_wfi.
    + apply I_upd_cls. intros s o' c0 H1 H2 H3 W. eapply (f_cls F); eauto. apply cc_bind; auto.
  - intros K i n. apply Q_both.
    + apply I_upd_cls. put_wfi.
    + apply I_upd_cls. intros s o' c0 H1 H2 H3 W. eapply (f_cls F); eauto. apply cc_instarr; auto.
  - intros K i h. apply Q_both.
    + apply I_upd_mth. put_wfi.
    + apply I_upd_mth. intros s o' c0 H1 H2 H3 W. eapply (f_mth F); eauto.
  - intros K i g h. apply Q_both.
    + apply I_upd_fld. put_wfi.
    + apply I_upd_fld. intros s o' c0 H1 H2 H3 W. eapply (f_fld F); eauto.
  - intros K. apply Q_both.
    + apply I_upd_env. intros. eapply (c_env wfi_coarse); eauto; destruct (e_free e); simpl; auto; discriminate.
    + apply I_upd_env. intros s e H1 H2 W. eapply (f_env F); eauto. apply ec_push; auto.
  - intros K. apply Q_both.
    + apply I_frame_pop. intros. eapply (c_trans wfi_coarse); [|apply (c_collect wfi_coarse)].
      eapply (c_env wfi_coarse); eauto. simpl. destruct r; discriminate.
    + apply I_frame_pop. intros s e f r H1 H2 e' H3 W.
      assert (wf (penv s t e')) as W'.
      { eapply (c_env wfi_coarse); eauto. unfold e'. simpl. destruct r; discriminate. }
      eapply (f_trans F); [|apply (f_collect F); auto]. eapply (f_env F); eauto. eapply ec_pop; eauto.
  - intros K i. apply Q_both.
    + apply I_upd_env. intros. eapply (c_env wfi_coarse); eauto. simpl. destruct (e_frames e); simpl; auto.
      destruct (memb i l); discriminate.
    + apply I_upd_env. intros s e H1 H2 W. eapply (f_env F); eauto. apply ec_del; auto.
  - intros K l. apply Q_both.
    + apply I_set_tmp. intros. apply (c_tmp wfi_coarse); auto.
    + apply I_set_tmp. intros s H W. apply (f_tmp F); auto.
  - intros K i. apply Q_both.
    + apply I_add_global. intros. apply (c_globals wfi_coarse). intros j. rewrite in_app_iff. simpl.
      intros [?|[<-|[]]]; auto.
    + apply I_add_global. intros s H W. apply (f_gadd F); auto.
  - intros K i. apply Q_both.
    + apply I_del_global. intros. apply (c_globals wfi_coarse). intros j Hj. left. eapply remove_first_In; eauto.
    + apply I_del_global. intros s W. apply (f_gdel F); auto.
  - intros K x. apply Q_both.
    + apply I_upd_env. intros. eapply (c_env wfi_coarse); eauto.
    + apply I_upd_env. intros s e H1 H2 W. eapply (f_env F); eauto. apply ec_exc; auto.
  - intros K x. apply Q_both.
    + apply I_call_push. intros. eapply (c_env wfi_coarse); eauto.
    + apply I_call_push. intros s e H1 Hk H2 W. eapply (f_env F); eauto. apply ec_call; auto.
  - intros K. apply Q_both.
    + apply I_call_pop. intros. eapply (c_env wfi_coarse); eauto.
    + apply I_call_pop. intros s e k r H1 H2 H3 W. eapply (f_env F); eauto. eapply ec_ret; eauto.
  - intros K a k v. apply Q_both.
    + apply I_array_set; [apply wfi_refl|]. put_wfi. rewrite list_set_length. auto.
    + apply I_array_set; [apply R_refl|]. intros s o' x l H1 H2 H3 H4 W. eapply (f_arr F); eauto.
  - intros K a k v. apply Q_both.
    + apply I_upd_prim. put_wfi. rewrite splice_length. auto.
    + apply I_upd_prim. intros s o' x l H1 H2 H3 W. eapply (f_prim F); eauto. apply splice_length.
  - intros K a k v. apply Q_both.
    + apply I_upd_prim. put_wfi. rewrite list_set_length. auto.
    + apply I_upd_prim. intros s o' x l H1 H2 H3 W. eapply (f_prim F); eauto. apply list_set_length.
  - intros K i m. apply Q_both.
    + apply I_set_mon. put_wfi.
    + apply I_set_mon. intros s o' H1 H3 W. eapply (f_mon F); eauto.
  - intros K a k v. apply Q_both.
    + apply I_upd_user. put_wfi. rewrite list_set_length. auto.
    + apply I_upd_user. intros s o' x l H1 H2 H3 W. eapply (f_user F); eauto.
  - intros K i. apply Q_both.
    + apply I_add_ext. intros. apply (c_ext wfi_coarse). intros j [<-|?]; auto.
    + apply I_add_ext. intros s H W. apply (f_xadd F); auto.
  - intros K i. apply Q_both.
    + apply I_del_ext. intros. apply (c_ext wfi_coarse). intros j Hj. left. eapply remove_first_In; eauto.
    + apply I_del_ext. intros s W. apply (f_xdel F); auto.
  - intros K. apply Q_both.
    + apply I_Attach; [apply wfi_refl|]. intros. apply (c_attach wfi_coarse). auto.
    + apply I_Attach; [apply R_refl|]. intros s H W. apply (f_attach F); auto.
  - intros K. apply Q_both.
    + apply I_Detach; [apply wfi_refl|]. intros. apply (c_detach wfi_coarse).
    + apply I_Detach; [apply R_refl|]. intros s e H1 H2 W. eapply (f_detach F); eauto.
Qed.

Theorem fine_run o s : (forall p, In p (uses o) -> ok p) -> wf s ->
  match run G t o s with Ret _ s' | Thr _ s' => wf s' /\ P s s' | _ => True end.
Proof.
  intros U W. pose proof (fine_run_Q o U s) as H. destruct (run G t o s); auto; apply H; auto.
Qed.

Theorem fine_step o s v s' : (forall p, In p (uses o) -> ok p) -> wf s -> step G t o s = Some (v, s') -> P s s'.
Proof.
  intros U W E. unfold step in E. pose proof (fine_run o U W) as K.
  assert (forall s1, wf s1 -> P s s1 -> P s (finish s1)) as Fi.
  { intros s1 W1 P1. eapply (f_trans F); [exact P1|]. unfold finish.
    assert (wf (with_tmp s1 [])) by (apply wf_tmp_only; auto; simpl; tauto).
    eapply (f_trans F); [apply (f_tmp F) with (l := [])|apply (f_collect F)]; auto. }
  destruct (run G t o s); try discriminate; inversion E; subst; destruct K; auto.
Qed.
End Fine.

(** Histories: all steps are by threads / operations allowed by [allow]. *)
Theorem fine_exec G (allow : tid -> op -> Prop) (ok : tid -> prim -> Prop) P :
  (forall t o, allow t o -> forall p, In p (uses o) -> ok t p) ->
  (forall t, fine G t (ok t) P) ->
  forall l s vs s', wf s -> Forall (fun e => allow (fst e) (snd e)) l -> exec G l s = Some (vs, s') -> P s s'.
Proof.
  intros U F l. induction l as [|[t o] l IH]; intros s vs s' W A E; simpl in E.
  - inversion E; subst. apply (f_refl (F 0)).
  - inversion A as [|? ? A1 A2]; subst. destruct (step G t o s) as [[v s1]|] eqn:E1; [|discriminate].
    destruct (exec G l s1) as [[vs2 s2]|] eqn:E2; [|discriminate]. inversion E; subst.
    eapply (f_trans (F 0)); [|eapply IH; [|exact A2|exact E2]].
    + eapply (fine_step (F t)); eauto.
    + eapply step_wf; eauto.
Qed.

(** [f_find] for relations that do not care about the registry *)
Lemma find_fine G (P : st -> st -> Prop) :
  (forall s, P s s) -> (forall a b c, P a b -> P b c -> P a c) ->
  (forall s n p, wf s -> P s (add s (new_obj None (PClass (new_cls n p))))) ->
  (forall s i o c k, wf s -> lookup s i = Some o -> o_pay o = PClass c -> is_cls s k = true ->
     P s (put s i (set_pay o (PClass (mkCls (c_name c) (c_prefix c) (c_inner c ++ [k]) (c_fields c) (c_methods c)
                                     (c_natives c) (c_inst c) (c_instarr c) (c_bases c)))))) ->
  (forall s l, wf s -> P s (with_ns s l)) ->
  (forall s n i, wf s -> is_cls s i = true -> P s (with_classes s (aset str_eqb (s_classes s) n i))) ->
  forall z n s, wf s -> match find_class G z n s with Ret _ s' | Thr _ s' => P s s' | _ => True end.
Proof.
  intros R T A I N C z n s W.
  set (Q := fun s s' => wf s -> wf s' /\ P s s').
  assert (keeps Q (find_class G z n)) as K.
  { apply keeps_find_class.
    - intros a Wa. auto.
    - intros a b c H1 H2 Wa. destruct (H1 Wa) as [Wb ?]. destruct (H2 Wb). eauto.
    - intros. apply I_new_ns. intros a p H Wa. split; [|apply N; auto]. apply (c_ns wfi_coarse); auto.
    - intros. apply I_alloc. intros a H Wa. split; [|apply A; auto]. apply (c_add wfi_coarse); auto.
    - intros. apply I_set_class. intros a H Wa. split; [|apply C; auto]. apply (c_classes wfi_coarse); auto.
    - intros. apply I_ns_add_class. intros a p H1 H2 Wa. split; [|apply N; auto]. apply (c_nsc wfi_coarse); auto.
    - intros. apply I_upd_cls. intros a o c0 H1 H2 H3 Wa. split.
      + eapply (c_put wfi_coarse); eauto. rewrite H2. simpl. auto.
      + apply I; auto. unfold obj_ok in H3. cbn [o_pay set_pay pay_ok c_inner] in H3. rewrite !andb_true_iff in H3.
        destruct H3 as [[[H3 _] _] _]. rewrite forallb_app in H3. cbn [forallb] in H3. rewrite !andb_true_iff in H3. tauto. }
  specialize (K s). destruct (find_class G z n s); auto; apply K; auto.
Qed.
