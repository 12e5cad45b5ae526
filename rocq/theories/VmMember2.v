(** GetMethodID and GetFieldID: exact results and effects. *)
From Verif Require Import Base BaseProofs SigModel VmState VmModel VmStep VmSpec MemSpec VmBase VmFrame VmWf VmPrim VmInv VmReg
  VmFine VmRegInv VmExact VmQuiet VmClass VmMember.
Set Implicit Arguments.
Unset Strict Implicit.
Local Open Scope vm_scope.
Local Open Scope char_scope.

(** ** disturbs *)
Lemma disturbs_un X t s s' : undisturbed t s s' -> disturbs X t s s'.
Proof. intros [A B C D E F H I]. constructor; auto. Qed.
Lemma un_disturbs t s s' : disturbs (fun _ => False) t s s' -> undisturbed t s s'.
Proof. intros [A B C D E F H I]. constructor; auto. Qed.
Lemma disturbs_trans X t a b c : disturbs X t a b -> disturbs X t b c -> disturbs X t a c.
Proof.
  intros H H'. constructor.
  - intros i L N. pose proof (d_obj H L N) as I. eapply intact_trans; eauto. apply (d_obj H'); auto. eapply intact_live; eauto.
  - rewrite (d_globals H'). apply H.
  - rewrite (d_ext H'). apply H.
  - intros T. rewrite (d_types H'). apply H.
  - intros u N. rewrite (d_others H' N). apply H. auto.
  - rewrite (d_pending H'). apply H.
  - rewrite (d_running H'). apply H.
  - rewrite (d_envid H'). apply H.
Qed.
Lemma disturbs_weaken (X Y : oid -> Prop) t s s' : (forall i, X i -> Y i) -> disturbs X t s s' -> disturbs Y t s s'.
Proof. intros H [A B C D E F K I]. constructor; auto. Qed.
Lemma intact_put_other s i x o j : lookup s i = Some x -> i <> j -> live s j = true -> intact s (put s i o) j.
Proof.
  intros L N Lj. apply live_lookup in Lj. destruct Lj as (y & Lj). exists y, y.
  assert (lookup (put s i o) j = Some y) as Lj'.
  { unfold put. rewrite (lookup_set _ _ _ _ L). destruct (Nat.eqb_spec i j); auto. congruence. }
  repeat split; auto. intros c. unfold class_ptr. rewrite Lj, Lj'. destruct (o_clazz y); auto. rewrite (live_put _ _ L). auto.
Qed.
Lemma put_disturbs t s i x o : lookup s i = Some x -> disturbs (eq i) t s (put s i o).
Proof. intros L. constructor; auto. intros j Lj N. eapply intact_put_other; eauto. Qed.

Lemma tidy_put_ref X s i x o k : lookup s i = Some x -> (forall j, In j (refs (o_pay x)) -> In j (refs (o_pay o))) ->
  In k (refs (o_pay o)) -> tidy_but X s -> tidy_but (fun j => X j /\ j <> k) (put s i o).
Proof.
  intros L R K T. pose proof (tidy_put L R T) as [A B]. split; auto. intros j Lj. destruct (Nat.eq_dec j k) as [->|N].
  - left. apply In_held. right. exists i, o. split; auto. unfold put. rewrite (lookup_set _ _ _ _ L), Nat.eqb_refl. auto.
  - destruct (B j Lj); auto.
Qed.

(** [inv] under changes of member tables *)
Lemma inv_put_cls G s cl o c c' : inv G s -> lookup s cl = Some o -> o_pay o = PClass c -> skel c' = skel c ->
  obj_ok s (set_pay o (PClass c')) = true -> inv G (put s cl (set_pay o (PClass c'))).
Proof.
  intros I L P K O. apply (inv_same I).
  - apply (put_wf cl (x := o)); auto; [apply (inv_wf I)|rewrite P; simpl; unfold skel in K; split; congruence].
  - apply (same_reg_put s cl _ L); simpl.
    + intros c0 E. assert (c0 = c) by congruence. subst. eauto.
    + intros N. exfalso. eapply N; eauto.
Qed.
Lemma add_wf s o : wf s -> obj_ok s o = true -> wf (add s o).
Proof. intros W O. apply (c_add wfi_coarse); auto. Qed.
Lemma inv_add G s o : inv G s -> not_class (o_pay o) -> obj_ok s o = true -> inv G (add s o).
Proof. intros I N O. eapply inv_same; eauto; [apply add_wf; auto; apply I|]. apply same_reg_add. auto. Qed.
Lemma add_live s o i : live s i = true -> live (add s o) i = true.
Proof. intros L. eapply intact_live. apply add_intact. auto. Qed.
Lemma alloc_eq s o : obj_ok s o = true -> alloc o s = Ret (length (s_heap s)) (add s o).
Proof. intros O. unfold alloc, bind, check. rewrite O. reflexivity. Qed.
Lemma upd_cls_eq s i o c f : lookup s i = Some o -> o_pay o = PClass c -> obj_ok s (set_pay o (PClass (f c))) = true ->
  upd_cls i f s = Ret tt (put s i (set_pay o (PClass (f c)))).
Proof. intros L P O. unfold upd_cls, bind, deref. rewrite L, P. unfold put_obj, bind, check. rewrite O. reflexivity. Qed.

(** a new member object, appended to the table of [cl] *)
Definition with_member (c : cls) (p : pay) (i : oid) : cls :=
  match p with
  | PMethod _ => mkCls (c_name c) (c_prefix c) (c_inner c) (c_fields c) (c_methods c ++ [i]) (c_natives c) (c_inst c) (c_instarr c) (c_bases c)
  | PField _ => mkCls (c_name c) (c_prefix c) (c_inner c) (c_fields c ++ [i]) (c_methods c) (c_natives c) (c_inst c) (c_instarr c) (c_bases c)
  | _ => c
  end.
Definition is_member (p : pay) : Prop := match p with PMethod _ | PField _ => True | _ => False end.
Definition fab (s : st) (cl : oid) (o : obj) (c : cls) (p : pay) : st :=
  put (add s (new_obj None p)) cl (set_pay o (PClass (with_member c p (length (s_heap s))))).

Lemma member_ok s p : is_member p -> obj_ok s (new_obj None p) = true.
Proof. destruct p; simpl; tauto || reflexivity. Qed.
Lemma is_cls_add s o j : is_cls s j = true -> is_cls (add s o) j = true.
Proof.
  intros H. pose proof (live_lt _ _ (is_cls_live _ _ H)) as Lt. unfold is_cls in *. rewrite lookup_add_old; auto.
Qed.
Lemma is_mth_add s o j : is_mth s j = true -> is_mth (add s o) j = true.
Proof.
  intros H. unfold is_mth in *. destruct (lookup s j) eqn:E; [|discriminate]. rewrite lookup_add_old by (eapply lookup_lt; eauto). rewrite E. auto.
Qed.
Lemma is_fld_add s o j : is_fld s j = true -> is_fld (add s o) j = true.
Proof.
  intros H. unfold is_fld in *. destruct (lookup s j) eqn:E; [|discriminate]. rewrite lookup_add_old by (eapply lookup_lt; eauto). rewrite E. auto.
Qed.
Lemma fab_ok s cl o c p : wf s -> is_member p -> lookup s cl = Some o -> o_pay o = PClass c ->
  obj_ok (add s (new_obj None p)) (set_pay o (PClass (with_member c p (length (s_heap s))))) = true.
Proof.
  intros W M L P. pose proof (add_wf W (member_ok s M)) as W'.
  assert (lookup (add s (new_obj None p)) cl = Some o) as L' by (rewrite lookup_add_old; auto; eapply lookup_lt; eauto).
  pose proof (wf_obj W' _ L') as O. unfold obj_ok in *. rewrite P in O. cbn [o_pay set_pay o_clazz] in *.
  rewrite !andb_true_iff in *. destruct O as [O1 O2]. split; auto. cbn [pay_ok] in *. rewrite !andb_true_iff in *.
  destruct O1 as [[A B] C]. destruct p; simpl in M; try tauto; cbn [with_member c_inner c_fields c_methods]; repeat split; auto.
  - rewrite forallb_app. rewrite C. simpl. unfold is_mth. rewrite lookup_add_new. auto.
  - rewrite forallb_app. rewrite B. simpl. unfold is_fld. rewrite lookup_add_new. auto.
Qed.

Section Fab.
Variables (G : cfg) (s : st) (cl : oid) (o : obj) (c : cls) (p : pay).
Hypothesis I : inv G s.
Hypothesis M : is_member p.
Hypothesis L : lookup s cl = Some o.
Hypothesis P : o_pay o = PClass c.
Let s' := fab s cl o c p.
Let k := length (s_heap s).

Lemma fab_lookup_cl' : lookup (add s (new_obj None p)) cl = Some o.
Proof. rewrite lookup_add_old; auto. eapply lookup_lt; eauto. Qed.
Lemma fab_inv : inv G s'.
Proof.
  unfold s', fab. eapply inv_put_cls.
  - apply inv_add; auto; [|apply member_ok; auto]. destruct p; simpl in *; tauto || (intros ? ?; discriminate).
  - apply fab_lookup_cl'.
  - eauto.
  - destruct p; simpl in M; tauto || reflexivity.
  - exact (fab_ok (inv_wf I) M L P).
Qed.
Lemma fab_lookup j : lookup s' j = if Nat.eqb cl j then Some (set_pay o (PClass (with_member c p k)))
                                   else if Nat.eqb j k then Some (new_obj None p) else lookup s j.
Proof.
  unfold s', fab, put. rewrite (lookup_set _ _ _ _ fab_lookup_cl'). destruct (Nat.eqb cl j); auto.
  unfold add. rewrite lookup_alloc. fold k. auto.
Qed.
Lemma fab_ne : cl <> k.
Proof. unfold k. pose proof (lookup_lt _ _ L). lia. Qed.
Lemma fab_new : lookup s' k = Some (new_obj None p).
Proof. rewrite fab_lookup. destruct (Nat.eqb_spec cl k); [exfalso; apply fab_ne; auto|]. rewrite Nat.eqb_refl. auto. Qed.
Lemma fab_cl : lookup s' cl = Some (set_pay o (PClass (with_member c p k))).
Proof. rewrite fab_lookup, Nat.eqb_refl. auto. Qed.
Lemma fab_disturbs t : disturbs (eq cl) t s s'.
Proof.
  eapply disturbs_trans; [apply disturbs_un, add_undisturbed|]. unfold s', fab. eapply put_disturbs. apply fab_lookup_cl'.
Qed.
Lemma fab_tidy X : tidy_but X s -> tidy_but X s'.
Proof.
  intros T. unfold s', fab. eapply tidy_weaken; [|eapply tidy_put_ref with (k := k); [apply fab_lookup_cl'| | |apply tidy_add; exact T]].
  - intros j [[A|A] B]; auto. exfalso. apply B. exact A.
  - intros j. rewrite P. destruct p; simpl in M; try tauto; simpl; rewrite !in_app_iff; tauto.
  - destruct p; simpl in M; try tauto; simpl; rewrite !in_app_iff; simpl; auto.
Qed.
Lemma fab_env t : get_env s' t = get_env s t.
Proof. reflexivity. Qed.
Lemma fab_class n : get_class s' n = get_class s n.
Proof. reflexivity. Qed.
End Fab.

Lemma add_method_eq s cl o c m : wf s -> lookup s cl = Some o -> o_pay o = PClass c ->
  add_method cl (length (s_heap s)) (add s (new_obj None (PMethod m))) = Ret tt (fab s cl o c (PMethod m)).
Proof.
  intros W L P. unfold add_method. rewrite (@upd_cls_eq _ cl o c); auto.
  - rewrite lookup_add_old; auto. eapply lookup_lt; eauto.
  - apply (fab_ok (p := PMethod m) W Logic.I L P).
Qed.
Lemma add_field_eq s cl o c m : wf s -> lookup s cl = Some o -> o_pay o = PClass c ->
  add_field cl (length (s_heap s)) (add s (new_obj None (PField m))) = Ret tt (fab s cl o c (PField m)).
Proof.
  intros W L P. unfold add_field. rewrite (@upd_cls_eq _ cl o c); auto.
  - rewrite lookup_add_old; auto. eapply lookup_lt; eauto.
  - apply (fab_ok (p := PField m) W Logic.I L P).
Qed.

Section Cfg.
Variable G : cfg.

(** ** Fields *)
Lemma lookup_field t st nm ty : forall fuel s V cl L h,
  wf s -> dfs G s cl L -> chain G s V cl -> length (s_heap s) < fuel + length V -> denotes_opt s h (Some cl) ->
  exists r s', getFieldID G fuel t st true h nm ty s = Ret r s' /\ tstep s s' /\
    picks (is_field s st nm ty) (flat_map (fields_of s) L) r.
Proof.
  induction fuel as [|fuel IH]; intros s V cl L h W D Ch Fu Dh; [pose proof (chain_fuel (fuel := 0) Ch Fu); lia|].
  inversion D as [? L0 N C DA]; subst. destruct (class_at s cl) as [c|] eqn:Ec; [|congruence]. clear N.
  cbn [getFieldID]. unfold bind at 1. rewrite (jnicast_class G W Dh Ec). unfold bind at 1, nonnull, ret. unfold bind at 1. rewrite (get_cls_eq Ec).
  unfold bind at 1, gets. pose proof (find_fld_spec s st nm ty (c_fields c)) as FM.
  assert (fields_of s cl = c_fields c) as Em by (unfold fields_of; rewrite Ec; auto).
  destruct (find_fld s (fld_match st nm ty) (c_fields c)) as [i|].
  - exists (Some i), s. split; auto. split; auto using tstep_refl. simpl. rewrite Em. apply first_in_app. auto.
  - destruct (bases_of_eq Ec C) as (s1 & E1 & T1). unfold bind at 1. rewrite E1.
    assert (forall bs M s1, incl bs (supers G s cl) -> dfs_all G s bs M -> tstep s s1 -> exists r s2,
       first_some (fun b => getFieldID G fuel t st true (Some b) nm ty) bs s1 = Ret r s2 /\ tstep s1 s2 /\
       picks (is_field s st nm ty) (flat_map (fields_of s) M) r) as Loop.
    { clear s1 E1 T1. induction bs as [|b bs IHb]; intros M s1 Inc DM T1; inversion DM; subst.
      - exists None, s1. split; auto. split; auto using tstep_refl. simpl. tauto.
      - simpl. assert (In b (supers G s cl)) as Hb by (apply Inc; simpl; auto).
        pose proof (chain_step W Ch Hb H1) as Chb. pose proof (supers_cls W Hb) as Cb. apply is_cls_class_at in Cb. destruct Cb as (cb & Cb).
        destruct (IH s1 (cl :: V) b L (Some b)) as (r1 & s2 & E2 & T2 & P2).
        + apply T1. auto.
        + apply (dfs_tmore (ts_more T1) H1).
        + apply (chain_tmore (ts_more T1) Chb).
        + rewrite (tmore_heap (ts_more T1)). simpl. lia.
        + simpl. apply (class_denotes (c := cb)). rewrite (tmore_class_at _ (ts_more T1)). auto.
        + unfold bind at 1. rewrite E2.
          assert (picks (is_field s st nm ty) (flat_map (fields_of s) L) r1) as P2'.
          { clear -P2 T1. assert (forall i, is_field s1 st nm ty i <-> is_field s st nm ty i) as E.
            { intros i. unfold is_field, field_at. rewrite (tmore_contents _ (ts_more T1)). reflexivity. }
            assert (flat_map (fields_of s1) L = flat_map (fields_of s) L) as E'.
            { clear P2. induction L; simpl; auto. f_equal; auto. unfold fields_of. rewrite (tmore_class_at _ (ts_more T1)). auto. }
            rewrite E' in P2. destruct r1; simpl in *.
            - eapply first_in_iff; [|exact P2]. auto.
            - intros i Hi K. apply (P2 i Hi). apply E. auto. }
          destruct r1 as [i|].
          * exists (Some i), s2. split; auto. split; auto. rewrite flat_map_app.
            apply (picks_app (r := Some i) (r' := match find_fld s (fld_match st nm ty) (flat_map (fields_of s) M0) with Some j => Some j | None => None end)); auto.
            pose proof (find_fld_spec s st nm ty (flat_map (fields_of s) M0)). destruct (find_fld _ _ _); auto.
          * destruct (IHb M0 s2) as (r & s3 & E3 & T3 & P3); auto.
            -- intros x Hx. apply Inc. simpl; auto.
            -- eapply tstep_trans; eauto.
            -- exists r, s3. split; auto. split; [eapply tstep_trans; eauto|]. rewrite flat_map_app.
               pose proof (picks_app P2' P3) as K. exact K. }
    destruct (Loop (supers G s cl) L0 s1) as (r & s2 & E2 & T2 & P2); auto using incl_refl.
    unfold bind at 1. rewrite E2. exists r, s2. split; [destruct r; reflexivity|]. split; [eapply tstep_trans; eauto|].
    simpl. rewrite Em. assert (picks (is_field s st nm ty) (c_fields c) None) as P1 by (simpl; auto).
    apply (picks_app P1 P2).
Qed.

(** ** One level with creation *)
Definition declared (t : tid) (sg : str) (s s' : st) : Prop :=
  if debug G then exists l, Declare_names sg = Ok l /\ looked G t l s s' else s' = s.

(** outcome of GetMethodID in class [cl] for the (rewritten) query [st nm sg] *)
Inductive method_id (t : tid) (rn : bool) (st : bool) (nm sg : str) (cl : oid) (s : VmState.st) : out (option oid) -> Prop :=
| mi_found i s' : finds_method G s st false nm sg cl (Some i) -> tstep s s' -> method_id t rn st nm sg cl s (Ret (Some i) s')
| mi_null s' : finds_method G s st false nm sg cl None -> rn = true -> tstep s s' -> method_id t rn st nm sg cl s (Ret None s')
| mi_new s1 o c s2 s' : finds_method G s st false nm sg cl None -> rn = false -> tstep s s1 ->
    lookup s1 cl = Some o -> o_pay o = PClass c -> s2 = fab s1 cl o c (PMethod (mkMth nm sg st None None)) ->
    declared t sg s2 s' -> method_id t rn st nm sg cl s (Ret (Some (length (s_heap s))) s')
| mi_bad x : finds_method G s st false nm sg cl None -> rn = false -> debug G = true -> (forall l, Declare_names sg <> Ok l) ->
    (forall r s', x <> Ret r s') -> method_id t rn st nm sg cl s x.

Lemma finds_method_ext s s' st nat nm sg cl r : tmore s s' -> finds_method G s st nat nm sg cl r -> finds_method G s' st nat nm sg cl r.
Proof.
  intros H (L & D & K). exists L. split; [apply (dfs_tmore H D)|].
  assert (forall i, is_method s' st nat nm sg i <-> is_method s st nat nm sg i) as E.
  { intros i. unfold is_method, method_at. rewrite (tmore_contents _ H). reflexivity. }
  assert (flat_map (methods_of s') L = flat_map (methods_of s) L) as ->.
  { clear K D. induction L; simpl; auto. f_equal; auto. unfold methods_of. rewrite (tmore_class_at _ H). auto. }
  destruct r.
  - eapply first_in_iff; [|exact K]. intros. symmetry. apply E.
  - intros i Hi X. apply (K i Hi). apply E. auto.
Qed.
Lemma finds_method_fun s st nat nm sg cl r r' : finds_method G s st nat nm sg cl r -> finds_method G s st nat nm sg cl r' -> r = r'.
Proof.
  intros (L & D & K) (L' & D' & K'). assert (L = L') as <- by (apply (proj1 (dfs_fun G s) _ _ D _ D')). eapply picks_fun; eauto.
Qed.

Lemma getMethodID_level t rn st nm sg fuel s cl L h : (st = true \/ nm <> S_ "<init>") ->
  inv G s -> attached s t -> dfs G s cl L -> length (s_heap s) < fuel -> denotes_opt s h (Some cl) ->
  method_id t rn st nm sg cl s (getMethodID G fuel t st rn false h nm sg s).
Proof.
  intros NI I A D Fu Dh. pose proof (inv_wf I) as W. destruct rn.
  { destruct (@lookup_method G t st false nm sg NI fuel s [] cl L h) as (r & s' & E & T & P); auto.
    - apply chain_one. inversion D; subst. destruct (class_at s cl) eqn:Ec; [|congruence]. eapply live_lt, class_at_live; eauto.
    - lia.
    - rewrite E. destruct r; [apply mi_found|apply mi_null]; auto; exists L; auto. }
  destruct fuel as [|fuel]; [lia|].
  inversion D as [? L0 N C DA]; subst. destruct (class_at s cl) as [c|] eqn:Ec; [|congruence]. clear N.
  assert (chain G s [] cl) as Ch by (apply chain_one; eapply live_lt, class_at_live; eauto).
  cbn [getMethodID]. unfold bind at 1. rewrite (jnicast_class G W Dh Ec). unfold bind at 1. rewrite (get_cls_eq Ec).
  assert (negb st && str_eqb nm (S_ "<init>") = false) as ->.
  { destruct NI as [->|NI]; auto. destruct (str_eqb_spec nm (S_ "<init>")); [congruence|]. apply andb_false_r. }
  unfold bind at 1, gets. pose proof (find_mth_spec s st false nm sg (c_methods c)) as FM.
  assert (methods_of s cl = c_methods c) as Em by (unfold methods_of; rewrite Ec; auto).
  destruct (find_mth s (mth_match st false nm sg) (c_methods c)) as [i|].
  { apply mi_found; auto using tstep_refl. exists (cl :: L0). split; auto. simpl. rewrite Em. apply first_in_app. auto. }
  destruct (bases_of_eq Ec C) as (s1 & E1 & T1). unfold bind at 1. rewrite E1.
  assert (forall bs M s1, incl bs (supers G s cl) -> dfs_all G s bs M -> tstep s s1 -> exists r s2,
       first_some (fun b => getMethodID G fuel t st true false (Some b) nm sg) bs s1 = Ret r s2 /\ tstep s1 s2 /\
       picks (is_method s st false nm sg) (flat_map (methods_of s) M) r) as Loop.
  { clear s1 E1 T1. induction bs as [|b bs IHb]; intros M s1 Inc DM T1; inversion DM; subst.
    - exists None, s1. split; auto. split; auto using tstep_refl. simpl. tauto.
    - simpl. assert (In b (supers G s cl)) as Hb by (apply Inc; simpl; auto).
      pose proof (chain_step W Ch Hb H1) as Chb. pose proof (supers_cls W Hb) as Cb. apply is_cls_class_at in Cb. destruct Cb as (cb & Cb).
      destruct (@lookup_method G t st false nm sg NI fuel s1 [cl] b L (Some b)) as (r1 & s2 & E2 & T2 & P2).
      + apply T1. auto.
      + apply (dfs_tmore (ts_more T1) H1).
      + apply (chain_tmore (ts_more T1) Chb).
      + rewrite (tmore_heap (ts_more T1)). simpl. lia.
      + simpl. apply (class_denotes (c := cb)). rewrite (tmore_class_at _ (ts_more T1)). auto.
      + unfold bind at 1. rewrite E2.
        assert (picks (is_method s st false nm sg) (flat_map (methods_of s) L) r1) as P2'.
        { clear -P2 T1. assert (forall i, is_method s1 st false nm sg i <-> is_method s st false nm sg i) as E.
          { intros i. unfold is_method, method_at. rewrite (tmore_contents _ (ts_more T1)). reflexivity. }
          assert (flat_map (methods_of s1) L = flat_map (methods_of s) L) as E'.
          { clear P2. induction L; simpl; auto. f_equal; auto. unfold methods_of. rewrite (tmore_class_at _ (ts_more T1)). auto. }
          rewrite E' in P2. destruct r1; simpl in *.
          - eapply first_in_iff; [|exact P2]. auto.
          - intros i Hi K. apply (P2 i Hi). apply E. auto. }
        destruct r1 as [i|].
        * exists (Some i), s2. split; auto. split; auto. rewrite flat_map_app.
          apply (picks_app (r := Some i) (r' := match find_mth s (mth_match st false nm sg) (flat_map (methods_of s) M0) with Some j => Some j | None => None end)); auto.
          pose proof (find_mth_spec s st false nm sg (flat_map (methods_of s) M0)). destruct (find_mth _ _ _); auto.
        * destruct (IHb M0 s2) as (r & s3 & E3 & T3 & P3); auto.
          -- intros x Hx. apply Inc. simpl; auto.
          -- eapply tstep_trans; eauto.
          -- exists r, s3. split; auto. split; [eapply tstep_trans; eauto|]. rewrite flat_map_app.
             pose proof (picks_app P2' P3) as K. exact K. }
  destruct (Loop (supers G s cl) L0 s1) as (r & s2 & E2 & T2 & P2); auto using incl_refl.
  unfold bind at 1. rewrite E2. assert (tstep s s2) as T by (eapply tstep_trans; eauto).
  assert (finds_method G s st false nm sg cl r) as Fm.
  { exists (cl :: L0). split; auto. simpl. rewrite Em.
    assert (picks (is_method s st false nm sg) (c_methods c) None) as P1 by (simpl; auto). apply (picks_app P1 P2). }
  destruct r as [i|]; [apply mi_found; auto|].
  pose proof (tstep_inv I T) as I2. pose proof (inv_wf I2) as W2.
  pose proof Ec as Ec2. rewrite <- (tmore_class_at _ (ts_more T)) in Ec2. apply class_at_lookup in Ec2. destruct Ec2 as (o & L2 & Pc).
  unfold bind at 1. rewrite alloc_eq by reflexivity. unfold bind at 1. rewrite (add_method_eq _ W2 L2 Pc).
  set (m := mkMth nm sg st None None). set (s3 := fab s2 cl o c (PMethod m)).
  assert (inv G s3) as I3 by (apply (fab_inv (p := PMethod m) I2 Logic.I L2 Pc)).
  assert (attached s3 t) as A3 by (apply (tmore_attached (ts_more T)) in A; exact A).
  assert ((debug G = true /\ (forall l, Declare_names sg <> Ok l) /\ forall r s', declare G t sg s3 <> Ret r s') \/
    exists s4, (if debug G then declare G t sg else ret tt) s3 = Ret tt s4 /\ declared t sg s3 s4) as [(Dg & Nd & Bad)|(s4 & E4 & D4)].
  { unfold declared. destruct (debug G); [|right; exists s3; auto]. destruct (Declare_names sg) as [l| | | |] eqn:El.
    2-5: left; (split; [auto|split; [congruence|]]); unfold declare, bind; rewrite El; discriminate.
    right. destruct (declare_spec I3 A3 El) as (s4 & E4 & K4). eauto. }
  { apply mi_bad; auto. intros r s'. rewrite Dg. unfold bind. destruct (declare G t sg s3) eqn:E; try discriminate. congruence. }
  unfold bind at 1. rewrite E4. unfold ret. rewrite (tmore_heap (ts_more T)).
  eapply mi_new; eauto.
Qed.
Inductive field_id (t : tid) (rn : bool) (st : bool) (nm sg : str) (cl : oid) (s : VmState.st) : out (option oid) -> Prop :=
| fi_found i s' : finds_field G s st nm sg cl (Some i) -> tstep s s' -> field_id t rn st nm sg cl s (Ret (Some i) s')
| fi_null s' : finds_field G s st nm sg cl None -> rn = true -> tstep s s' -> field_id t rn st nm sg cl s (Ret None s')
| fi_new s1 o c s2 s' : finds_field G s st nm sg cl None -> rn = false -> tstep s s1 ->
    lookup s1 cl = Some o -> o_pay o = PClass c -> s2 = fab s1 cl o c (PField (mkFld nm sg st None None)) ->
    declared t sg s2 s' -> field_id t rn st nm sg cl s (Ret (Some (length (s_heap s))) s')
| fi_bad x : finds_field G s st nm sg cl None -> rn = false -> debug G = true -> (forall l, Declare_names sg <> Ok l) ->
    (forall r s', x <> Ret r s') -> field_id t rn st nm sg cl s x.

Lemma finds_field_ext s s' st nm sg cl r : tmore s s' -> finds_field G s st nm sg cl r -> finds_field G s' st nm sg cl r.
Proof.
  intros H (L & D & K). exists L. split; [apply (dfs_tmore H D)|].
  assert (forall i, is_field s' st nm sg i <-> is_field s st nm sg i) as E.
  { intros i. unfold is_field, field_at. rewrite (tmore_contents _ H). reflexivity. }
  assert (flat_map (fields_of s') L = flat_map (fields_of s) L) as ->.
  { clear K D. induction L; simpl; auto. f_equal; auto. unfold fields_of. rewrite (tmore_class_at _ H). auto. }
  destruct r.
  - eapply first_in_iff; [|exact K]. intros. symmetry. apply E.
  - intros i Hi X. apply (K i Hi). apply E. auto.
Qed.
Lemma finds_field_fun s st nm sg cl r r' : finds_field G s st nm sg cl r -> finds_field G s st nm sg cl r' -> r = r'.
Proof.
  intros (L & D & K) (L' & D' & K'). assert (L = L') as <- by (apply (proj1 (dfs_fun G s) _ _ D _ D')). eapply picks_fun; eauto.
Qed.

Lemma getFieldID_level t rn st nm sg fuel s cl L h :
  inv G s -> attached s t -> dfs G s cl L -> length (s_heap s) < fuel -> denotes_opt s h (Some cl) ->
  field_id t rn st nm sg cl s (getFieldID G fuel t st rn h nm sg s).
Proof.
  intros I A D Fu Dh. pose proof (inv_wf I) as W. destruct rn.
  { destruct (@lookup_field t st nm sg fuel s [] cl L h) as (r & s' & E & T & P); auto.
    - apply chain_one. inversion D; subst. destruct (class_at s cl) eqn:Ec; [|congruence]. eapply live_lt, class_at_live; eauto.
    - lia.
    - rewrite E. destruct r; [apply fi_found|apply fi_null]; auto; exists L; auto. }
  destruct fuel as [|fuel]; [lia|].
  inversion D as [? L0 N C DA]; subst. destruct (class_at s cl) as [c|] eqn:Ec; [|congruence]. clear N.
  assert (chain G s [] cl) as Ch by (apply chain_one; eapply live_lt, class_at_live; eauto).
  cbn [getFieldID]. unfold bind at 1. rewrite (jnicast_class G W Dh Ec). unfold bind at 1, nonnull, ret. unfold bind at 1. rewrite (get_cls_eq Ec).
  unfold bind at 1, gets. pose proof (find_fld_spec s st nm sg (c_fields c)) as FM.
  assert (fields_of s cl = c_fields c) as Em by (unfold fields_of; rewrite Ec; auto).
  destruct (find_fld s (fld_match st nm sg) (c_fields c)) as [i|].
  { apply fi_found; auto using tstep_refl. exists (cl :: L0). split; auto. simpl. rewrite Em. apply first_in_app. auto. }
  destruct (bases_of_eq Ec C) as (s1 & E1 & T1). unfold bind at 1. rewrite E1.
  assert (forall bs M s1, incl bs (supers G s cl) -> dfs_all G s bs M -> tstep s s1 -> exists r s2,
       first_some (fun b => getFieldID G fuel t st true (Some b) nm sg) bs s1 = Ret r s2 /\ tstep s1 s2 /\
       picks (is_field s st nm sg) (flat_map (fields_of s) M) r) as Loop.
  { clear s1 E1 T1. induction bs as [|b bs IHb]; intros M s1 Inc DM T1; inversion DM; subst.
    - exists None, s1. split; auto. split; auto using tstep_refl. simpl. tauto.
    - simpl. assert (In b (supers G s cl)) as Hb by (apply Inc; simpl; auto).
      pose proof (chain_step W Ch Hb H1) as Chb. pose proof (supers_cls W Hb) as Cb. apply is_cls_class_at in Cb. destruct Cb as (cb & Cb).
      destruct (@lookup_field t st nm sg fuel s1 [cl] b L (Some b)) as (r1 & s2 & E2 & T2 & P2).
      + apply T1. auto.
      + apply (dfs_tmore (ts_more T1) H1).
      + apply (chain_tmore (ts_more T1) Chb).
      + rewrite (tmore_heap (ts_more T1)). simpl. lia.
      + simpl. apply (class_denotes (c := cb)). rewrite (tmore_class_at _ (ts_more T1)). auto.
      + unfold bind at 1. rewrite E2.
        assert (picks (is_field s st nm sg) (flat_map (fields_of s) L) r1) as P2'.
        { clear -P2 T1. assert (forall i, is_field s1 st nm sg i <-> is_field s st nm sg i) as E.
          { intros i. unfold is_field, field_at. rewrite (tmore_contents _ (ts_more T1)). reflexivity. }
          assert (flat_map (fields_of s1) L = flat_map (fields_of s) L) as E'.
          { clear P2. induction L; simpl; auto. f_equal; auto. unfold fields_of. rewrite (tmore_class_at _ (ts_more T1)). auto. }
          rewrite E' in P2. destruct r1; simpl in *.
          - eapply first_in_iff; [|exact P2]. auto.
          - intros i Hi K. apply (P2 i Hi). apply E. auto. }
        destruct r1 as [i|].
        * exists (Some i), s2. split; auto. split; auto. rewrite flat_map_app.
          apply (picks_app (r := Some i) (r' := match find_fld s (fld_match st nm sg) (flat_map (fields_of s) M0) with Some j => Some j | None => None end)); auto.
          pose proof (find_fld_spec s st nm sg (flat_map (fields_of s) M0)). destruct (find_fld _ _ _); auto.
        * destruct (IHb M0 s2) as (r & s3 & E3 & T3 & P3); auto.
          -- intros x Hx. apply Inc. simpl; auto.
          -- eapply tstep_trans; eauto.
          -- exists r, s3. split; auto. split; [eapply tstep_trans; eauto|]. rewrite flat_map_app.
             pose proof (picks_app P2' P3) as K. exact K. }
  destruct (Loop (supers G s cl) L0 s1) as (r & s2 & E2 & T2 & P2); auto using incl_refl.
  unfold bind at 1. rewrite E2. assert (tstep s s2) as T by (eapply tstep_trans; eauto).
  assert (finds_field G s st nm sg cl r) as Fm.
  { exists (cl :: L0). split; auto. simpl. rewrite Em.
    assert (picks (is_field s st nm sg) (c_fields c) None) as P1 by (simpl; auto). apply (picks_app P1 P2). }
  destruct r as [i|]; [apply fi_found; auto|].
  pose proof (tstep_inv I T) as I2. pose proof (inv_wf I2) as W2.
  pose proof Ec as Ec2. rewrite <- (tmore_class_at _ (ts_more T)) in Ec2. apply class_at_lookup in Ec2. destruct Ec2 as (o & L2 & Pc).
  unfold bind at 1. rewrite alloc_eq by reflexivity. unfold bind at 1. rewrite (add_field_eq _ W2 L2 Pc).
  set (m := mkFld nm sg st None None). set (s3 := fab s2 cl o c (PField m)).
  assert (inv G s3) as I3 by (apply (fab_inv (p := PField m) I2 Logic.I L2 Pc)).
  assert (attached s3 t) as A3 by (apply (tmore_attached (ts_more T)) in A; exact A).
  assert ((debug G = true /\ (forall l, Declare_names sg <> Ok l) /\ forall r s', declare G t sg s3 <> Ret r s') \/
    exists s4, (if debug G then declare G t sg else ret tt) s3 = Ret tt s4 /\ declared t sg s3 s4) as [(Dg & Nd & Bad)|(s4 & E4 & D4)].
  { unfold declared. destruct (debug G); [|right; exists s3; auto]. destruct (Declare_names sg) as [l| | | |] eqn:El.
    2-5: left; (split; [auto|split; [congruence|]]); unfold declare, bind; rewrite El; discriminate.
    right. destruct (declare_spec I3 A3 El) as (s4 & E4 & K4). eauto. }
  { apply fi_bad; auto. intros r s'. rewrite Dg. unfold bind. destruct (declare G t sg s3) eqn:E; try discriminate. congruence. }
  unfold ret in E4. unfold bind at 1. rewrite E4. unfold ret. rewrite (tmore_heap (ts_more T)).
  eapply fi_new; eauto.
Qed.
End Cfg.
