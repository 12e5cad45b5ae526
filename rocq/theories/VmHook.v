(** Hooking and native registration: exact effects. *)
From Verif Require Import Base BaseProofs SigModel VmState VmModel VmStep VmSpec MemSpec HookSpec VmBase VmFrame VmWf VmPrim VmInv VmReg
  VmFine VmRegInv VmExact VmQuiet VmClass VmMember VmMember2 VmMember3 VmTables.
Set Implicit Arguments.
Unset Strict Implicit.
Local Open Scope vm_scope.

(** ** What survives the end of an operation that drops references *)
Lemma sweep_closed (S : oid -> Prop) s :
  (forall i, S i -> In i (roots s) \/ exists k o, S k /\ lookup s k = Some o /\ In i (refs (o_pay o))) ->
  forall n i, S i -> lookup (iter n sweep s) i = lookup s i.
Proof.
  intros H n. revert s H. induction n as [|n IH]; intros s H i Si; simpl; auto.
  assert (forall j, S j -> lookup (sweep s) j = lookup s j) as E.
  { intros j Sj. rewrite lookup_sweep. rewrite (proj2 (memb_In _ _)); auto. apply In_held.
    destruct (H j Sj) as [R|(k & o & _ & L & R)]; eauto. }
  rewrite IH; auto. intros j Sj. rewrite roots_sweep. destruct (H j Sj) as [R|(k & o & Sk & L & R)]; auto.
  right. exists k, o. split; auto. rewrite E; auto.
Qed.
Lemma finish_closed (S : oid -> Prop) s : s_tmp s = [] ->
  (forall i, S i -> In i (roots s) \/ exists k o, S k /\ lookup s k = Some o /\ In i (refs (o_pay o))) ->
  forall i, S i -> lookup (finish s) i = lookup s i.
Proof.
  intros T H i Si. unfold finish, collect. assert (with_tmp s [] = s) as -> by (rewrite <- T; destruct s; reflexivity).
  apply (sweep_closed (S := S)); auto.
Qed.

(** ** Steps *)
Lemma step_ret G t o s v s1 : attached s t -> body G t o s = Ret v s1 -> step G t o s = Some (OVal v, finish s1).
Proof. intros A E. unfold step. rewrite run_attached by auto. rewrite E. auto. Qed.
Lemma step_tidy_ret G t o s v s1 : attached s t -> body G t o s = Ret v s1 -> tidy s1 -> step G t o s = Some (OVal v, s1).
Proof. intros A E T. rewrite (step_ret A E), tidy_finish_id; auto. Qed.

Lemma upd_mth_eq s i o m f : wf s -> lookup s i = Some o -> o_pay o = PMethod m ->
  upd_mth i f s = Ret tt (put s i (set_pay o (PMethod (f m)))).
Proof.
  intros W L P. unfold upd_mth, bind, deref. rewrite L, P. unfold put_obj, bind, check.
  pose proof (wf_obj W _ L) as O. unfold obj_ok in *. apply andb_true_iff in O. destruct O as [_ O].
  cbn [o_pay set_pay o_clazz pay_ok refs forallb andb]. rewrite O. reflexivity.
Qed.
Lemma upd_fld_eq s i o m f : wf s -> lookup s i = Some o -> o_pay o = PField m ->
  upd_fld i f s = Ret tt (put s i (set_pay o (PField (f m)))).
Proof.
  intros W L P. unfold upd_fld, bind, deref. rewrite L, P. unfold put_obj, bind, check.
  pose proof (wf_obj W _ L) as O. unfold obj_ok in *. apply andb_true_iff in O. destruct O as [_ O].
  cbn [o_pay set_pay o_clazz pay_ok refs forallb andb]. rewrite O. reflexivity.
Qed.
Lemma method_at_lookup s i m : method_at s i = Some m -> exists o, lookup s i = Some o /\ o_pay o = PMethod m.
Proof.
  unfold method_at, contents, option_map. destruct (lookup s i) as [o|]; [|discriminate]. destruct (o_pay o) eqn:P; try discriminate.
  intros E. inversion E; subst. eauto.
Qed.
Lemma field_at_lookup s i m : field_at s i = Some m -> exists o, lookup s i = Some o /\ o_pay o = PField m.
Proof.
  unfold field_at, contents, option_map. destruct (lookup s i) as [o|]; [|discriminate]. destruct (o_pay o) eqn:P; try discriminate.
  intros E. inversion E; subst. eauto.
Qed.
Lemma lookup_method_at s i o m : lookup s i = Some o -> o_pay o = PMethod m -> method_at s i = Some m.
Proof. intros L P. unfold method_at, contents. rewrite L. simpl. rewrite P. auto. Qed.
Lemma lookup_field_at s i o m : lookup s i = Some o -> o_pay o = PField m -> field_at s i = Some m.
Proof. intros L P. unfold field_at, contents. rewrite L. simpl. rewrite P. auto. Qed.
Lemma lookup_class_at s i o c : lookup s i = Some o -> o_pay o = PClass c -> class_at s i = Some c.
Proof. intros L P. unfold class_at, contents. rewrite L. simpl. rewrite P. auto. Qed.

Lemma key_match_spec s st nm sg i :
  (match mth_of s i with Some m => Bool.eqb (m_static m) st && str_eqb (m_name m) nm && str_eqb (m_sig m) sg | None => false end) = true
  <-> same_key s st nm sg i.
Proof.
  unfold same_key. rewrite method_at_of. destruct (mth_of s i) as [m|].
  - rewrite !andb_true_iff, !eqb_true_iff.
    destruct (str_eqb_spec (m_name m) nm); [|split; [intros [[_ ?] _]; discriminate|intros (x & E & ? & _); inversion E; subst; congruence]].
    destruct (str_eqb_spec (m_sig m) sg); [|split; [intros [_ ?]; discriminate|intros (x & E & ? & ? & _); inversion E; subst; congruence]].
    split.
    + intros [[A _] _]. exists m. auto.
    + intros (x & E & _ & _ & A). inversion E; subst x. auto.
  - split; [discriminate|]. intros (m & E & _). discriminate.
Qed.
Lemma find_key_spec s st nm sg l :
  match find_mth s (fun m => Bool.eqb (m_static m) st && str_eqb (m_name m) nm && str_eqb (m_sig m) sg) l with
  | Some i => first_in (same_key s st nm sg) l i
  | None => forall i, In i l -> ~ same_key s st nm sg i end.
Proof.
  unfold find_mth. match goal with |- context [find ?f l] => pose proof (find_first f l) as H end.
  destruct (find _ l) as [i|].
  - eapply first_in_iff; [|exact H]. intros. apply key_match_spec.
  - intros i Hi K. apply (H i Hi). apply key_match_spec. auto.
Qed.

Lemma put_tidy s i x o : lookup s i = Some x -> refs (o_pay o) = refs (o_pay x) -> tidy s -> tidy (put s i o).
Proof. intros L R T. apply (tidy_put L); auto. rewrite R. auto. Qed.

Lemma disturbs_then (X Y : oid -> Prop) t a b c : disturbs X t a b -> disturbs Y t b c -> (forall i, Y i -> live a i = true -> X i) ->
  disturbs X t a c.
Proof.
  intros H H' N. constructor.
  - intros i L Nx. pose proof (d_obj H L Nx) as I. eapply intact_trans; eauto. apply (d_obj H'); [eapply intact_live; eauto|].
    intros Hy. apply Nx. eauto.
  - rewrite (d_globals H'). apply H.
  - rewrite (d_ext H'). apply H.
  - intros T. rewrite (d_types H'). apply H.
  - intros u Nu. rewrite (d_others H' Nu). apply H. auto.
  - rewrite (d_pending H'). apply H.
  - rewrite (d_running H'). apply H.
  - rewrite (d_envid H'). apply H.
Qed.
Lemma live_length s : live s (length (s_heap s)) = false.
Proof. destruct (live s (length (s_heap s))) eqn:E; auto. apply live_lt in E. lia. Qed.

Section Cfg.
Variable G : cfg.

Theorem hook_method_step t cl st nm sg hd s : good G s -> attached s t -> is_cls s cl = true ->
  exists i s', step G t (UHookMethod_ cl st nm sg hd) s = Some (OVal (RRef (Some i)), s') /\ good G s' /\
    hooked_method t cl st nm sg hd s s' i.
Proof.
  intros Gs A Hc. pose proof (good_wf Gs) as W. apply is_cls_class_at in Hc. destruct Hc as (c & Hc).
  destruct (class_at_lookup Hc) as (o & L & P).
  assert (exists i s', hook_method cl st nm sg hd s = Ret i s' /\ tidy s' /\ hooked_method t cl st nm sg hd s s' i) as (i & s' & E & T & H).
  { unfold hook_method, bind at 1. rewrite (get_cls_eq Hc). unfold bind at 1, gets.
    pose proof (find_key_spec s st nm sg (c_methods c)) as F. destruct (find_mth _ _ _) as [i|].
    - pose proof (first_in_In F) as (_ & m & Hm & E1 & E2 & E3). destruct (method_at_lookup Hm) as (x & Lx & Px).
      exists i. eexists. unfold bind at 1, ret at 1, bind at 1. unfold set_mhandle. rewrite (upd_mth_eq _ W Lx Px). split; [reflexivity|].
      split; [apply (put_tidy Lx); [simpl; rewrite Px; auto|apply Gs]|].
      apply hk_old with (m := m); auto.
      + unfold methods_of. rewrite Hc. auto.
      + erewrite lookup_method_at; [|rewrite (lookup_put _ _ Lx), Nat.eqb_refl; reflexivity|reflexivity]. simpl. congruence.
      + unfold monitor. rewrite (lookup_put _ _ Lx), Nat.eqb_refl, Lx. auto.
      + apply (put_disturbs _ _ Lx).
      + intros j. apply (live_put _ _ Lx).
    - set (m := mkMth nm sg st None None). set (k := length (s_heap s)).
      set (s1 := fab s cl o c (PMethod m)). assert (inv G s1) as I1 by (apply (fab_inv (p := PMethod m) (g_inv Gs) Logic.I L P)).
      assert (lookup s1 k = Some (new_obj None (PMethod m))) as L1 by (apply (fab_new c (PMethod m) L)).
      exists k. eexists. unfold bind at 1. unfold bind at 1. rewrite (alloc_eq (member_ok s (p := PMethod m) Logic.I)). unfold bind at 1.
      rewrite (add_method_eq m W L P). fold s1. fold k. unfold ret at 1. unfold bind at 1. unfold set_mhandle.
      rewrite (upd_mth_eq _ (inv_wf I1) L1 eq_refl). split; [reflexivity|].
      assert (k <> cl) as Nk by (pose proof (lookup_lt _ _ L); unfold k; lia).
      split; [apply (put_tidy L1); [auto|apply (fab_tidy (p := PMethod m) Logic.I L P); apply Gs]|].
      apply hk_new; auto.
      + unfold methods_of. rewrite Hc. auto.
      + erewrite lookup_method_at; [|rewrite (lookup_put _ _ L1), Nat.eqb_refl; reflexivity|reflexivity]. simpl. reflexivity.
      + exists c, (with_member c (PMethod m) k). split; auto. split.
        { eapply lookup_class_at; [rewrite (lookup_put _ _ L1)|]; [destruct (Nat.eqb_spec k cl); [congruence|apply (fab_cl c (PMethod m) L)]|reflexivity]. }
        simpl. rewrite app_nil_r. repeat split; auto. unfold monitor. rewrite (lookup_put _ _ L1), L.
        destruct (Nat.eqb_spec k cl); [congruence|]. unfold s1. rewrite (fab_cl c (PMethod m) L). auto.
      + eapply disturbs_then; [apply (fab_disturbs c (PMethod m) L)|apply (put_disturbs _ _ L1)|].
        intros j <- Lj. unfold k in Lj. rewrite live_length in Lj. discriminate.
      + intros j. rewrite (live_put _ _ L1). unfold live. unfold s1. rewrite (fab_lookup c (PMethod m) L). fold k.
        destruct (Nat.eqb_spec cl j); [subst; rewrite L; tauto|]. destruct (Nat.eqb_spec j k); [tauto|]. intuition. }
  exists i, s'. assert (step G t (UHookMethod_ cl st nm sg hd) s = Some (OVal (RRef (Some i)), s')) as St.
  { apply step_tidy_ret; auto. cbn [body]. unfold as_oid, bind. rewrite E. reflexivity. }
  split; auto. split; auto. eapply step_good; eauto.
Qed.

Theorem hook_field_step t cl st gt nm sg hd s : good G s -> attached s t -> is_cls s cl = true ->
  exists i s', step G t (UHookField_ cl st gt nm sg hd) s = Some (OVal (RRef (Some i)), s') /\ good G s' /\
    hooked_field t cl st gt nm sg hd s s' i.
Proof.
  intros Gs A Hc. pose proof (good_wf Gs) as W. apply is_cls_class_at in Hc. destruct Hc as (c & Hc).
  destruct (class_at_lookup Hc) as (o & L & P).
  assert (exists i s', hook_field cl st gt nm sg hd s = Ret i s' /\ tidy s' /\ hooked_field t cl st gt nm sg hd s s' i) as (i & s' & E & T & H).
  { unfold hook_field, bind at 1. rewrite (get_cls_eq Hc). unfold bind at 1, gets.
    pose proof (find_fld_spec s st nm sg (c_fields c)) as F. destruct (find_fld _ _ _) as [i|].
    - pose proof (first_in_In F) as (_ & m & Hm & E1 & E2 & E3). destruct (field_at_lookup Hm) as (x & Lx & Px).
      exists i. eexists. unfold bind at 1, ret at 1, bind at 1. unfold set_fhandle. rewrite (upd_fld_eq _ W Lx Px). split; [reflexivity|].
      split; [apply (put_tidy Lx); [simpl; rewrite Px; auto|apply Gs]|].
      apply hf_old with (f := m); auto.
      + unfold fields_of. rewrite Hc. auto.
      + erewrite lookup_field_at; [|rewrite (lookup_put _ _ Lx), Nat.eqb_refl; reflexivity|reflexivity]. unfold with_hook; destruct gt; reflexivity.
      + unfold monitor. rewrite (lookup_put _ _ Lx), Nat.eqb_refl, Lx. auto.
      + apply (put_disturbs _ _ Lx).
      + intros j. apply (live_put _ _ Lx).
    - set (m := mkFld nm sg st None None). set (k := length (s_heap s)).
      set (s1 := fab s cl o c (PField m)). assert (inv G s1) as I1 by (apply (fab_inv (p := PField m) (g_inv Gs) Logic.I L P)).
      assert (lookup s1 k = Some (new_obj None (PField m))) as L1 by (apply (fab_new c (PField m) L)).
      exists k. eexists. unfold bind at 1. unfold bind at 1. rewrite (alloc_eq (member_ok s (p := PField m) Logic.I)). unfold bind at 1.
      rewrite (add_field_eq m W L P). fold s1. fold k. unfold ret at 1. unfold bind at 1. unfold set_fhandle.
      rewrite (upd_fld_eq _ (inv_wf I1) L1 eq_refl). split; [reflexivity|].
      assert (k <> cl) as Nk by (pose proof (lookup_lt _ _ L); unfold k; lia).
      split; [apply (put_tidy L1); [auto|apply (fab_tidy (p := PField m) Logic.I L P); apply Gs]|].
      apply hf_new; auto.
      + unfold fields_of. rewrite Hc. auto.
      + erewrite lookup_field_at; [|rewrite (lookup_put _ _ L1), Nat.eqb_refl; reflexivity|reflexivity]. unfold with_hook; destruct gt; reflexivity.
      + exists c, (with_member c (PField m) k). split; auto. split.
        { eapply lookup_class_at; [rewrite (lookup_put _ _ L1)|]; [destruct (Nat.eqb_spec k cl); [congruence|apply (fab_cl c (PField m) L)]|reflexivity]. }
        simpl. rewrite app_nil_r. repeat split; auto. unfold monitor. rewrite (lookup_put _ _ L1), L.
        destruct (Nat.eqb_spec k cl); [congruence|]. unfold s1. rewrite (fab_cl c (PField m) L). auto.
      + eapply disturbs_then; [apply (fab_disturbs c (PField m) L)|apply (put_disturbs _ _ L1)|].
        intros j <- Lj. unfold k in Lj. rewrite live_length in Lj. discriminate.
      + intros j. rewrite (live_put _ _ L1). unfold live. unfold s1. rewrite (fab_lookup c (PField m) L). fold k.
        destruct (Nat.eqb_spec cl j); [subst; rewrite L; tauto|]. destruct (Nat.eqb_spec j k); [tauto|]. intuition. }
  exists i, s'. assert (step G t (UHookField_ cl st gt nm sg hd) s = Some (OVal (RRef (Some i)), s')) as St.
  { apply step_tidy_ret; auto. cbn [body]. unfold as_oid, bind. rewrite E. reflexivity. }
  split; auto. split; auto. eapply step_good; eauto.
Qed.

(** ** RegisterNatives *)
Lemma native_fn_aget c nm : native_fn c nm = aget str_eqb (c_natives c) nm.
Proof.
  unfold native_fn. induction (c_natives c) as [|[n f] l IH]; simpl; auto. destruct (str_eqb n nm); simpl; auto.
Qed.
Definition nat_set (c : cls) (name : str) (fn : option nat) : cls :=
  mkCls (c_name c) (c_prefix c) (c_inner c) (c_fields c) (c_methods c)
        (match fn with Some f => aset str_eqb (c_natives c) name f | None => adel str_eqb (c_natives c) name end)
        (c_inst c) (c_instarr c) (c_bases c).
Lemma native_fn_set c nm fn x : native_fn (nat_set c nm fn) x = if str_eqb nm x then fn else native_fn c x.
Proof.
  rewrite !native_fn_aget. unfold nat_set. cbn [c_natives]. destruct fn as [f|].
  - rewrite (aget_aset str_eqb str_eqb_spec). auto.
  - rewrite (aget_adel str_eqb str_eqb_spec). auto.
Qed.
Definition reg1 (cl : oid) (x : str * str * option nat) : M unit :=
  match x with (nm, sg, fn) =>
    set_native cl nm fn ;;; i <- alloc (new_obj None (PMethod (mkMth nm sg false fn None))) ;; add_method cl i end.
Lemma reg_one t cl x s c : inv G s -> tidy s -> class_at s cl = Some c ->
  exists s', reg1 cl x s = Ret tt s' /\ inv G s' /\ tidy s' /\ length (s_heap s') = S (length (s_heap s)) /\ natives_added t cl [x] s s'.
Proof.
  intros I T C. destruct (class_at_lookup C) as (o & L & P). destruct x as [[nm sg] fn].
  set (c1 := nat_set c nm fn). set (s1 := put s cl (set_pay o (PClass c1))).
  assert (obj_ok s (set_pay o (PClass c1)) = true) as O.
  { pose proof (wf_obj (inv_wf I) _ L) as O. unfold obj_ok in *. rewrite P in O. exact O. }
  assert (inv G s1) as I1 by (eapply inv_put_cls; eauto).
  assert (tidy s1) as T1 by (apply (put_tidy L); [rewrite P; reflexivity|auto]).
  assert (lookup s1 cl = Some (set_pay o (PClass c1))) as L1 by (unfold s1; rewrite (lookup_put _ _ L), Nat.eqb_refl; auto).
  assert (length (s_heap s1) = length (s_heap s)) as Ln by apply list_set_length.
  set (p := PMethod (mkMth nm sg false fn None)). set (k := length (s_heap s)) in *.
  assert (k <> cl) as Nk by (pose proof (lookup_lt _ _ L); unfold k; lia).
  exists (fab s1 cl (set_pay o (PClass c1)) c1 p). split; [|split; [|split; [|split]]].
  - unfold reg1, bind at 1, set_native. match goal with |- context [upd_cls cl ?f s] => change f with (fun c => nat_set c nm fn) end. rewrite (upd_cls_eq (f := fun c => nat_set c nm fn) L P O). fold s1. unfold bind at 1. change (PMethod (mkMth nm sg false fn None)) with p. change (put s cl (set_pay o (PClass (nat_set c nm fn)))) with s1.
    rewrite (alloc_eq (member_ok s1 (p := p) Logic.I)). apply (add_method_eq (mkMth nm sg false fn None) (inv_wf I1) L1 eq_refl).
  - apply (fab_inv (p := p) I1 Logic.I L1 eq_refl).
  - apply (fab_tidy (p := p) Logic.I L1 eq_refl T1).
  - unfold fab, put, add. cbn [s_heap with_heap]. rewrite list_set_length, app_length, Ln. cbn [length]. lia.
  - exists c, (with_member c1 p k). split; auto. split.
    { eapply lookup_class_at; [rewrite (fab_cl c1 p L1), Ln|]; reflexivity. }
    cbn [with_member p c_methods c_fields c_name c_prefix c_inst c_instarr c_bases length seq c1 nat_set].
    split; auto. split.
    { intros [|[|j]] nm' sg' fn' E; cbn in E; inversion E; subst. rewrite Nat.add_0_r. unfold method_at, contents.
      fold k. rewrite <- Ln at 1. rewrite (fab_new c1 p L1). reflexivity. }
    split.
    { intros x. unfold last_given. cbn [fold_left]. pose proof (native_fn_set c nm fn x) as E. rewrite <- E. reflexivity. }
    repeat (split; [reflexivity|]). split.
    { unfold monitor. rewrite (fab_cl c1 p L1), L. reflexivity. }
    split; [eapply disturbs_trans; [exact (put_disturbs t (set_pay o (PClass c1)) L)|apply (fab_disturbs c1 p L1)]|]. split; [reflexivity|].
    intros j. unfold live. rewrite (fab_lookup c1 p L1), Ln. unfold s1. rewrite (lookup_put _ _ L). fold k.
    destruct (Nat.eqb_spec cl j); [subst; rewrite L; split; auto|]. destruct (Nat.eqb_spec j k); [split; auto; lia|].
    split; [auto|]. intros [?|?]; auto. lia.
Qed.
Lemma intact_method' s s' X t i m : disturbs X t s s' -> ~ X i -> method_at s i = Some m -> method_at s' i = Some m.
Proof.
  intros D N H. eapply intact_method; eauto. apply (d_obj D); auto. destruct (method_at_lookup H) as (o & L & _). unfold live. rewrite L. auto.
Qed.
Lemma natives_added_cons t cl x l s s1 s2 : length (s_heap s1) = S (length (s_heap s)) -> natives_added t cl [x] s s1 ->
  natives_added t cl l s1 s2 -> natives_added t cl (x :: l) s s2.
Proof.
  intros Ln (c & c1 & C & C1 & Ms & Mt & Nf & F1 & F2 & F3 & F4 & F5 & F6 & F7 & D & Fr & Lv)
    (c1' & c2 & C1' & C2 & Ms' & Mt' & Nf' & F1' & F2' & F3' & F4' & F5' & F6' & F7' & D' & Fr' & Lv').
  rewrite C1 in C1'. inversion C1'; subst c1'. exists c, c2. split; auto. split; auto.
  rewrite Ln in *. simpl in Ms. assert (length (s_heap s) <> cl) as Nk.
  { destruct (class_at_lookup C) as (o & L & _). pose proof (lookup_lt _ _ L). lia. }
  split; [rewrite Ms', Ms, <- app_assoc; reflexivity|]. split.
  { intros [|k] nm sg fn E; cbn [nth_error] in E.
    - eapply intact_method'; [exact D'|rewrite Nat.add_0_r; congruence|]. eapply (Mt 0); eauto.
    - rewrite <- (Mt' _ _ _ _ E). f_equal. lia. }
  split; [intros nm; rewrite Nf', Nf; reflexivity|].
  repeat (split; [congruence|]). split; [eapply disturbs_trans; eauto|]. split; [congruence|].
  intros j. rewrite Lv', Lv. cbn [length]. split.
  - intros [[H|H]|H]; [auto|right; lia|right; lia].
  - intros [H|H]; auto. destruct (Nat.eq_dec j (length (s_heap s))); [left; right; lia|right; lia].
Qed.
Lemma reg_many t cl l s c : inv G s -> tidy s -> class_at s cl = Some c ->
  exists s', mapM_ (reg1 cl) l s = Ret tt s' /\ inv G s' /\ tidy s' /\ natives_added t cl l s s'.
Proof.
  revert s c. induction l as [|x l IH]; intros s c I T C.
  - exists s. repeat (split; auto). exists c, c. cbn [length seq]. rewrite app_nil_r. repeat (split; auto).
    + intros k ? ? ? E. destruct k; discriminate.
    + intros. apply intact_refl. auto.
    + intros [?|?]; auto. lia.
  - destruct (reg_one t x I T C) as (s1 & E1 & I1 & T1 & Ln & N1). pose proof N1 as (c0 & c1 & _ & C1 & _).
    destruct (IH _ _ I1 T1 C1) as (s2 & E2 & I2 & T2 & N2). exists s2. split; [|split; [|split]]; auto.
    + cbn [mapM_]. unfold bind. rewrite E1. auto.
    + eapply natives_added_cons; eauto.
Qed.
Theorem RegisterNatives_step t h cl l n s : good G s -> attached s t -> denotes_opt s h (Some cl) -> is_cls s cl = true ->
  n <= length l -> exists s',
  step G t (RegisterNatives_ h l (Z.of_nat n)) s = Some (OVal (RInt 0), s') /\ good G s' /\ natives_added t cl (firstn n l) s s'.
Proof.
  intros Gs A Dh Hc Hn. apply is_cls_class_at in Hc. destruct Hc as (c & Hc).
  destruct (reg_many t (firstn n l) (g_inv Gs) (g_tidy Gs) Hc) as (s' & E & I & T & N). exists s'.
  split; [|split]; [|constructor; auto|auto].
  apply step_tidy_ret; auto. cbn [body]. unfold as_int, bind at 1. unfold RegisterNatives, bind at 1.
  rewrite (jnicast_class G (good_wf Gs) Dh Hc).
  assert ((Z.of_nat n <? 0)%Z || (Z.of_nat (length l) <? Z.of_nat n)%Z = false) as ->.
  { apply orb_false_iff. split; [apply Z.ltb_ge|apply Z.ltb_ge]; lia. }
  rewrite Nat2Z.id. unfold bind at 1. fold (reg1 cl). change (mapM_ _ (firstn n l) s) with (mapM_ (reg1 cl) (firstn n l) s).
  rewrite E. reflexivity.
Qed.

(** ** UnregisterNatives *)
Theorem UnregisterNatives_step t h cl s : good G s -> attached s t -> denotes_opt s h (Some cl) -> is_cls s cl = true -> exists s',
  step G t (UnregisterNatives_ h) s = Some (OVal (RInt 0), s') /\ good G s' /\ natives_removed t cl s s'.
Proof.
  intros Gs A Dh Hc. pose proof (good_wf Gs) as W. apply is_cls_class_at in Hc. destruct Hc as (c & Hc).
  destruct (class_at_lookup Hc) as (o & L & P).
  set (c1 := mkCls (c_name c) (c_prefix c) (c_inner c) (c_fields c) (filter (nonnative s) (c_methods c)) [] (c_inst c) (c_instarr c) (c_bases c)).
  set (s1 := put s cl (set_pay o (PClass c1))).
  assert (obj_ok s (set_pay o (PClass c1)) = true) as O.
  { pose proof (wf_obj W _ L) as O. unfold obj_ok in *. rewrite P in O. cbn [o_pay set_pay o_clazz pay_ok c1 c_inner c_fields c_methods] in *.
    rewrite !andb_true_iff in *. intuition. rewrite forallb_forall in *. intros x Hx. apply filter_In in Hx. intuition. }
  assert (lookup s1 cl = Some (set_pay o (PClass c1))) as L1 by (unfold s1; rewrite (lookup_put _ _ L), Nat.eqb_refl; auto).
  assert (body G t (UnregisterNatives_ h) s = Ret (RInt 0) s1) as E.
  { cbn [body]. unfold as_int, bind at 1, UnregisterNatives, bind at 1. rewrite (jnicast_class G W Dh Hc). unfold drop_natives, bind at 1.
    unfold bind at 1, gets. rewrite (@upd_cls_eq s cl o c); auto; rewrite unreg_loop_filter; auto. }
  exists (finish s1). pose proof (step_ret A E) as St. split; auto. split; [eapply step_good; eauto|].
  assert (forall i, In i (c_methods c) -> (nonnative s i = false <-> is_native_method s i)) as Hp.
  { intros i _. unfold nonnative, is_native, is_native_method. rewrite <- method_at_of. destruct (method_at s i) as [m|].
    - destruct (m_native m) eqn:Em; simpl; split; intros Hq; try discriminate; try congruence.
      + exists m. split; congruence.
      + destruct Hq as (m' & Hq & Hn). inversion Hq; subst. congruence.
    - simpl. split; [discriminate|]. intros (m & Hq & _). discriminate. }
  set (X := fun i => In i (c_methods c) /\ nonnative s i = false).
  assert (forall i, live s i = true -> ~ X i -> lookup (finish s1) i = lookup s1 i) as Kp.
  { intros i Li Xi. apply (finish_closed (S := fun i => live s i = true /\ ~ X i)); auto; [apply (g_tidy Gs)|].
    clear i Li Xi. intros i [Li Xi]. destruct (g_tidy Gs) as [_ Td]. destruct (Td i Li) as [H|[]]. apply In_held in H.
    destruct H as [H|(k & x & Lk & H)]; auto. right. assert (~ X k) as Xk.
    { intros [Xk Nk]. pose proof (methods_wf (s := s) (cl := cl) (i := k) W) as Hm. unfold methods_of in Hm. rewrite Hc in Hm.
      specialize (Hm Xk). unfold is_mth in Hm. rewrite Lk in Hm. destruct (o_pay x); try discriminate. destruct H. }
    destruct (Nat.eq_dec cl k) as [<-|Ne].
    - exists cl, (set_pay o (PClass c1)). split; [split; auto; unfold live; rewrite L; auto|]. split; auto.
      rewrite L in Lk. inversion Lk; subst x. rewrite P in H. cbn [o_pay set_pay c1 refs c_inner c_fields c_methods] in *.
      rewrite !in_app_iff in *. destruct H as [H|[H|H]]; auto. right. right. apply filter_In. split; auto.
      destruct (nonnative s i) eqn:En; auto. exfalso. apply Xi. split; auto.
    - exists k, x. split; [split; auto; unfold live; rewrite Lk; auto|]. split; auto. unfold s1. rewrite (lookup_put _ _ L).
      destruct (Nat.eqb_spec cl k); congruence. }
  assert (~ X cl) as Xcl.
  { intros [Xk Nk]. pose proof (methods_wf (s := s) (cl := cl) (i := cl) W) as Hm. unfold methods_of in Hm. rewrite Hc in Hm.
    specialize (Hm Xk). unfold is_mth in Hm. rewrite L, P in Hm. discriminate. }
  assert (lookup (finish s1) cl = Some (set_pay o (PClass c1))) as Lf by (rewrite Kp; auto; unfold live; rewrite L; auto).
  exists c, c1, (nonnative s). split; auto. split; [eapply lookup_class_at; eauto; reflexivity|]. split; [reflexivity|]. split; [exact Hp|].
  split; [reflexivity|]. repeat (split; [reflexivity|]). split; [unfold monitor; rewrite Lf, L; reflexivity|].
  assert (forall i, live (finish s1) i = true -> live s i = true) as Lv.
  { intros i Li. apply live_lookup in Li. destruct Li as (x & Li). apply finish_sub in Li. rewrite <- (live_put (s := s) (i := cl) (set_pay o (PClass c1)) i L).
    unfold live. fold s1. rewrite Li. auto. }
  split; [|split]; auto.
  - constructor; auto; try (unfold registered, get_type, pending, running; rewrite ?finish_types, ?finish_env; reflexivity).
    + intros i Li Ni. assert (cl <> i) as Ne by (intros <-; apply Ni; auto). assert (~ X i) as Nx.
      { intros [Xi Xn]. apply Ni. right. split; auto. apply Hp; auto. }
      pose proof (@intact_put_other s cl o (set_pay o (PClass c1)) i L Ne Li) as (a & b & La & Lb & Vi & Mo & Cp).
      exists a, b. fold s1 in Lb, Cp. rewrite (Kp i Li Nx). repeat split; auto.
      intros k Hk. specialize (Cp k Hk). revert Cp Hk. unfold class_ptr. rewrite (Kp i Li Nx), Lb, La. destruct (o_clazz b) as [j|]; auto.
      destruct (live s1 j) eqn:Lj; [|discriminate]. intros Ej. inversion Ej; subst j. destruct (o_clazz a) as [j|] eqn:Ca; [|discriminate].
      destruct (live s j) eqn:Lj'; [|discriminate]. intros Ej'. inversion Ej'; subst j. unfold live. rewrite Kp; auto.
      * fold (live s1 k). rewrite Lj. auto.
      * intros [Xk _]. pose proof (methods_wf (s := s) (cl := cl) (i := k) W) as Hm. unfold methods_of in Hm. rewrite Hc in Hm.
        specialize (Hm Xk).
        destruct (is_cls s k) eqn:Ik; [unfold is_cls, is_mth in *; destruct (lookup s k) as [y|]; [destruct (o_pay y)|]; discriminate|].
        pose proof (wf_obj W _ La) as Oa. unfold obj_ok in Oa. apply andb_true_iff in Oa. destruct Oa as [_ Oa]. rewrite Ca in Oa.
        unfold clazz_ok in Oa. rewrite Lj', Ik, andb_false_r in Oa. discriminate.
    + rewrite finish_globals. auto.
    + rewrite finish_ext. auto.
    + intros u _. rewrite finish_env. auto.
  - unfold frames. rewrite finish_env. auto.
Qed.
End Cfg.
