(** Arrays of objects: exact steps; array contents over histories. *)
From Verif Require Import Base BaseProofs VmState VmModel VmStep VmBase VmWf VmPrim VmInv VmReg VmRegInv VmFrame VmFine VmSpec MemSpec HookSpec CallSpec RefSpec ArrSpec
  VmExact VmQuiet VmClass VmMember VmMember2 VmMember3 VmTables VmHook VmMemHist VmEnvInv VmCall VmCall2 VmThread VmRef VmRef2 VmRef3 VmObj.
Set Implicit Arguments.
Unset Strict Implicit.
Local Open Scope vm_scope.

(** Objects that support each other survive. *)
Lemma sweep_support s (K : oid -> Prop) : (forall i, K i -> exists o, lookup s i = Some o) ->
  (forall i, K i -> In i (roots s) \/ exists j o, K j /\ lookup s j = Some o /\ In i (refs (o_pay o))) ->
  forall i, K i -> lookup (sweep s) i = lookup s i.
Proof.
  intros L H i Ki. rewrite lookup_sweep. replace (memb i (held s)) with true; auto. symmetry. apply memb_In, In_held.
  destruct (H i Ki) as [R|(j & o & _ & Lj & R)]; eauto.
Qed.
Lemma collect_support s (K : oid -> Prop) : (forall i, K i -> exists o, lookup s i = Some o) ->
  (forall i, K i -> In i (roots s) \/ exists j o, K j /\ lookup s j = Some o /\ In i (refs (o_pay o))) ->
  forall i, K i -> lookup (collect s) i = lookup s i.
Proof.
  unfold collect. generalize (length (s_heap s)) as n. intros n. revert s. induction n; intros s L H i Ki; simpl; auto.
  pose proof (sweep_support L H) as E. rewrite IHn; auto.
  - intros j Kj. rewrite E; auto.
  - intros j Kj. rewrite roots_sweep. destruct (H j Kj) as [R|(k & o & Kk & Lk & R)]; auto. right. exists k, o. rewrite E; auto.
Qed.
Lemma finish_add_dead s x i : tidy s -> live s i = true -> lookup (finish (add s x)) i = lookup s i.
Proof.
  intros [T H] L. unfold finish. rewrite (@collect_support (with_tmp (add s x) []) (fun j => live s j = true)); auto.
  - change (lookup (add s x) i = lookup s i). apply lookup_add_old. eapply live_lt; eauto.
  - intros j Lj. change (exists o, lookup (add s x) j = Some o). rewrite lookup_add_old by (eapply live_lt; eauto). apply live_lookup; auto.
  - intros j Lj. destruct (H j Lj) as [Hh|[]]. apply In_held in Hh. destruct Hh as [R|(k & o & Lk & R)].
    + left. assert (roots (with_tmp (add s x) []) = roots s) as ->; auto. unfold roots, add. simpl. rewrite T. reflexivity.
    + right. exists k, o. split; [apply live_lookup; eauto|]. split; auto. change (lookup (add s x) k = Some o). rewrite lookup_add_old; auto. eapply lookup_lt; eauto.
Qed.

Section Cfg.
Variable G : cfg.

(** ** User classes *)
Lemma uderives_derives f n m : uderives G f n m = true -> derives G n m.
Proof.
  revert n. induction f; intros n; simpl; intros H.
  - rewrite orb_false_r in H. apply Nat.eqb_eq in H. subst. constructor.
  - apply orb_true_iff in H. destruct H as [H|H]; [apply Nat.eqb_eq in H; subst; constructor|].
    destruct (ubases G n) as [l|] eqn:E; [|discriminate]. apply existsb_exists in H. destruct H as ([k|] & Hk & H); [|discriminate].
    eapply dv_base; eauto.
Qed.
Lemma derives_uderives n m : numbered G -> derives G n m -> forall f, n <= f -> uderives G f n m = true.
Proof.
  intros N. induction 1; intros f Lf; destruct f; simpl; try (rewrite Nat.eqb_refl; reflexivity).
  - specialize (N _ _ _ H H0). lia.
  - apply orb_true_iff. right. rewrite H. apply existsb_exists. exists (Some k). split; auto. apply IHderives. specialize (N _ _ _ H H0). lia.
Qed.
Lemma top_class_top n f : numbered G -> n <= f -> top_ancestor G n (top_class G f n).
Proof.
  intros N. revert n. induction f; intros n Lf; simpl.
  - constructor. intros [|[k|] r] E; [auto| |right; left; auto]. pose proof (N _ _ k E (or_introl eq_refl)). lia.
  - destruct (ubases G n) as [[|[k|] r]|] eqn:E.
    + constructor. intros l E'. rewrite E in E'. injection E' as <-. auto.
    + destruct (existsb _ r) eqn:X.
      * constructor. intros l E'. rewrite E in E'. injection E' as <-. right. right. apply existsb_exists in X. destruct X as ([b|] & Hb & X); [discriminate|auto].
      * eapply ta_base; [exact E| |].
        { intros Hn. assert (existsb (fun b : option nat => match b with None => true | Some _ => false end) r = true) as Y by (apply existsb_exists; exists None; auto). congruence. }
        apply IHf. pose proof (N _ _ k E (or_introl eq_refl)). lia.
    + constructor. intros l E'. rewrite E in E'. injection E' as <-. right. left. reflexivity.
    + constructor. intros; congruence.
Qed.
Lemma top_ancestor_fun n a b : top_ancestor G n a -> top_ancestor G n b -> a = b.
Proof.
  intros H. revert b. induction H; intros b K; inversion K; subst; auto.
  - destruct (H _ H0) as [Z|[Z|Z]]; [discriminate|discriminate|contradiction].
  - destruct (H2 _ H) as [Z|[Z|Z]]; [discriminate|discriminate|contradiction].
  - apply IHtop_ancestor. congruence.
Qed.
Lemma elem_ok_accepts s p v : numbered G -> (elem_ok G s p v = true <-> accepts G s p v).
Proof.
  intros N. unfold elem_ok, accepts. destruct p as [n|], v as [i|]; try tauto. split.
  - destruct (lookup s i) as [o|] eqn:L; [|discriminate]. intros H. exists (top_class G n n). split; [apply top_class_top; auto|].
    destruct (o_pay o) eqn:P; simpl in H; try discriminate. exists n0, vars. split; [unfold contents; rewrite L; simpl; congruence|]. eapply uderives_derives; eauto.
  - intros (m & Tm & k & l & C & D). unfold contents in C. destruct (lookup s i) as [o|]; [|discriminate]. injection C as P. rewrite P. simpl.
    rewrite (top_ancestor_fun (top_class_top N (le_n n)) Tm). apply derives_uderives; auto.
Qed.

(** ** Storing elements *)
Lemma array_set_eq a o p l k v s : wf s -> lookup s a = Some o -> o_pay o = PArr p l -> (forall i, v = Some i -> live s i = true) ->
  array_set G a k v s = if elem_ok G s p v then if ((0 <=? k) && (k <? Z.of_nat (length l)))%Z then Ret tt (put s a (set_pay o (PArr p (list_set l (Z.to_nat k) v)))) else Undef
    else Thr (Err (S_ "Class Type Exception")) s.
Proof.
  intros W L P Lv. unfold array_set, bind, deref, gets. rewrite L, P. destruct (elem_ok G s p v); [|reflexivity]. cbn [negb].
  destruct (Z.ltb_spec k 0), (Z.leb_spec (Z.of_nat (length l)) k), (Z.leb_spec 0 k), (Z.ltb_spec k (Z.of_nat (length l))); try lia; cbn [orb andb]; try reflexivity.
  unfold upd_arr, bind, deref. rewrite L, P. unfold put_obj, check, bind.
  replace (obj_ok s (set_pay o (PArr p (list_set l (Z.to_nat k) v)))) with true; [reflexivity|].
  symmetry. pose proof (wf_obj W _ L) as K. unfold obj_ok in *. apply andb_true_iff in K. destruct K as [K1 K2]. apply andb_true_iff. split; [|exact K2].
  simpl. rewrite P in K1. simpl in K1. rewrite forallb_forall in *. intros j Hj.
  assert (In (Some j) (list_set l (Z.to_nat k) v)) as Hj'.
  { clear -Hj. induction (list_set l (Z.to_nat k) v) as [|[x|] r IH]; simpl in *; auto. destruct Hj as [->|Hj]; auto. }
  apply In_nth_error in Hj'. destruct Hj' as (q & Hq). rewrite nth_list_set in Hq. destruct (Nat.eqb_spec (Z.to_nat k) q).
  - destruct (nth_error l q); [|discriminate]. injection Hq as ->. apply Lv; auto.
  - apply K1. apply nth_error_In in Hq. clear -Hq. induction l as [|[x|] r IH]; simpl in *; auto; destruct Hq as [Q|Q]; try discriminate; auto. injection Q as ->. auto.
Qed.
Lemma list_set_stored (l : list (option oid)) k v : k < length l -> is_stored l k v (list_set l k v).
Proof.
  intros H. split; [apply list_set_length|]. intros j. rewrite nth_list_set. rewrite (Nat.eqb_sym j k). destruct (Nat.eqb_spec k j); auto. subst.
  destruct (nth_error l j) eqn:E; auto. apply nth_error_None in E. unfold oid in *. lia.
Qed.
Lemma put_stored t a o p p' s : good G s -> lookup s a = Some o -> same_kind (o_pay o) p' -> obj_ok s (set_pay o p') = true -> p = p' -> (forall c, p' <> PClass c) ->
  inv G (finish (put s a (set_pay o p'))) -> stored t a p s (finish (put s a (set_pay o p'))).
Proof.
  intros Gs L K Ok -> Nc If. set (s1 := put s a (set_pay o p')) in *. pose proof (good_wf Gs) as W.
  assert (wf s1) as W1 by (eapply put_wf; eauto). pose proof (@put_disturbs t s a o (set_pay o p') L) as D.
  assert (forall j, live (finish s1) j = true -> live s j = true) as Ll by (intros j Lj; apply finish_live in Lj; unfold s1 in Lj; rewrite (live_put _ _ L) in Lj; auto).
  constructor; try (unfold s1; rewrite ?finish_globals, ?finish_ext, ?frames_finish; reflexivity); auto.
  - intros La. apply live_lookup in La. destruct La as (x & La). unfold contents. rewrite La. apply finish_sub in La. unfold s1 in La. rewrite (lookup_put _ _ L), Nat.eqb_refl in La. injection La as <-. reflexivity.
  - intros La. apply live_lookup in La. destruct La as (x & La). unfold monitor. rewrite La, L. apply finish_sub in La. unfold s1 in La. rewrite (lookup_put _ _ L), Nat.eqb_refl in La. injection La as <-. reflexivity.
  - intros i Li S N. pose proof (strong_live If S) as Lf. eapply intact_trans; [apply (d_obj D); auto|]. apply finish_intact; auto.
    intros c Hc. destruct (inv_reg_all (g_inv Gs) (c := c)) as (n & Hn); [|exists n; exact Hn]. unfold is_cls, s1 in *. rewrite (lookup_put _ _ L) in Hc. destruct (Nat.eqb_spec a c); auto.
    simpl in Hc. destruct p'; try discriminate. destruct (Nc c0 eq_refl).
  - apply calm_finish. apply calm_same; reflexivity.
Qed.
Theorem SetObjectArrayElement_step t h a y k x v s : good G s -> attached s t -> denotes_opt s x v -> denotes_opt s h (Some a) -> contents s a = Some y ->
  match y with
  | PArr p l =>
      (elem_ok G s p v = false -> step G t (SetObjectArrayElement_ h k x) s = Some (OExn (Err (S_ "Class Type Exception")), s)) /\
      (elem_ok G s p v = true -> (0 <= k < Z.of_nat (length l))%Z ->
        exists l' s', step G t (SetObjectArrayElement_ h k x) s = Some (OVal RUnit, s') /\ good G s' /\ is_stored l (Z.to_nat k) v l' /\ stored t a (PArr p l') s s') /\
      (elem_ok G s p v = true -> ~ (0 <= k < Z.of_nat (length l))%Z -> step G t (SetObjectArrayElement_ h k x) s = None)
  | _ => step G t (SetObjectArrayElement_ h k x) s = Some (OExn (Err bad_ref), s)
  end.
Proof.
  intros Gs A Dx D C. pose proof (good_wf Gs) as W. pose proof (@cast_eq G (TArr None) h a y s W D C) as J. destruct (deref_eq C) as (o & L & P & De).
  assert (forall i, v = Some i -> live s i = true) as Lv.
  { intros i ->. destruct x as [x|]; [|discriminate]. simpl in Dx. eapply denotes_target_live; eauto. }
  assert (body G t (SetObjectArrayElement_ h k x) s = if isa G y (TArr None) then as_unit (array_set G a k v) s else Thr (Err bad_ref) s) as B.
  { cbn [body]. unfold as_unit at 1, SetObjectArrayElement. unfold bind at 1 2. rewrite (jnicast_obj G W Dx). unfold bind at 1. rewrite J. destruct (isa G y (TArr None)); reflexivity. }
  destruct y; cbn [isa] in B; try (apply step_thr; auto; fail). rename elems into l.
  assert (body G t (SetObjectArrayElement_ h k x) s = as_unit (array_set G a k v) s) as B' by (rewrite B; destruct t0; reflexivity). clear B.
  unfold as_unit, bind in B'. rewrite (array_set_eq k W L P Lv) in B'. split; [|split].
  - intros E. rewrite E in B'. apply step_thr; auto.
  - intros E R. rewrite E in B'. destruct (Z.leb_spec 0 k), (Z.ltb_spec k (Z.of_nat (length l))); try lia. cbn [andb] in B'.
    set (l' := list_set l (Z.to_nat k) v) in *. set (s1 := put s a (set_pay o (PArr t0 l'))) in *.
    assert (step G t (SetObjectArrayElement_ h k x) s = Some (OVal RUnit, finish s1)) as St by (unfold step; rewrite run_attached, B' by auto; reflexivity).
    pose proof (step_good Gs St) as G'. exists l', (finish s1). split; [exact St|]. split; [exact G'|]. split; [apply list_set_stored; unfold oid in *; lia|].
    apply put_stored; auto.
    + rewrite P. simpl. split; auto. unfold l'. rewrite list_set_length. auto.
    + pose proof (array_set_eq k W L P Lv) as Q. rewrite E in Q. destruct (Z.leb_spec 0 k), (Z.ltb_spec k (Z.of_nat (length l))); try lia. cbn [andb] in Q. fold l' in Q. fold s1 in Q.
      clear -Q L P. unfold array_set, bind, deref, gets in Q. rewrite L, P in Q. destruct (negb _); [discriminate|]. destruct (_ || _); [discriminate|]. unfold upd_arr, bind, deref in Q. rewrite L, P in Q.
      unfold put_obj, check, bind in Q. unfold l'. destruct (obj_ok s _); [auto|discriminate].
    + discriminate.
    + apply G'.
  - intros E R. rewrite E in B'. apply step_undef; auto. rewrite B'. destruct (Z.leb_spec 0 k), (Z.ltb_spec k (Z.of_nat (length l))); try lia; reflexivity.
Qed.
Theorem GetObjectArrayElement_step t h a y k s : good G s -> attached s t -> denotes_opt s h (Some a) -> contents s a = Some y ->
  match y with
  | PArr p l =>
      match (if (k <? 0)%Z then None else nth_error l (Z.to_nat k)) with
      | None => step G t (GetObjectArrayElement_ h k) s = None
      | Some None => step G t (GetObjectArrayElement_ h k) s = Some (OVal (RRef None), s)
      | Some (Some i) => exists s', step G t (GetObjectArrayElement_ h k) s = Some (OVal (RRef (Some i)), s') /\ good G s' /\
          gained t (add_local (frames s t) i) (s_globals s) (s_ext s) s s' /\ (forall j, live s' j = live s j)
      end
  | _ => step G t (GetObjectArrayElement_ h k) s = Some (OExn (Err bad_ref), s)
  end.
Proof.
  intros Gs A D C. pose proof (good_wf Gs) as W. pose proof (@cast_eq G (TArr None) h a y s W D C) as J. destruct (deref_eq C) as (o & L & P & De).
  assert (body G t (GetObjectArrayElement_ h k) s = if isa G y (TArr None) then
    match y with PArr _ l => if (k <? 0)%Z then Undef else match nth_error l (Z.to_nat k) with Some v => as_ref (to_jni_opt t TObject v) s | None => Undef end | _ => Undef end
    else Thr (Err bad_ref) s) as B.
  { cbn [body]. unfold as_ref at 1, GetObjectArrayElement. unfold bind at 1 2. rewrite J. destruct (isa G y (TArr None)); [|reflexivity]. cbn [nonnull]. unfold bind at 1, ret at 1, bind. rewrite De, P.
    destruct y; try reflexivity. destruct (k <? 0)%Z; [reflexivity|]. destruct (nth_error _ _); reflexivity. }
  destruct y; cbn [isa] in B; try (apply step_thr; auto; fail). rename elems into l.
  assert (body G t (GetObjectArrayElement_ h k) s = if (k <? 0)%Z then Undef else match nth_error l (Z.to_nat k) with Some v => as_ref (to_jni_opt t TObject v) s | None => Undef end) as B' by (rewrite B; destruct t0; reflexivity). clear B.
  destruct (k <? 0)%Z; [apply step_undef; auto|]. destruct (nth_error l (Z.to_nat k)) as [[i|]|] eqn:E; [|apply step_read; auto|apply step_undef; auto].
  assert (live s i = true) as Li.
  { eapply (@wf_refs s a o i W L). rewrite P. simpl. apply nth_error_In in E. clear -E. induction l as [|[x|] r IH]; simpl in *; auto; destruct E as [Q|Q]; try discriminate; auto. injection Q as ->. auto. }
  assert (tidy (given s t TObject i)) as T1 by (eapply tidy_weaken; [|apply (given_tidy TObject i W A (g_tidy Gs))]; simpl; tauto).
  assert (step G t (GetObjectArrayElement_ h k) s = Some (OVal (RRef (Some i)), given s t TObject i)) as St.
  { unfold step. rewrite run_attached, B' by auto. unfold as_ref, to_jni_opt. unfold bind. rewrite given_eq by auto. unfold ret. rewrite (tidy_finish_id T1). reflexivity. }
  eexists. split; [exact St|]. split; [eapply step_good; eauto|]. split; [|intros; apply given_live_eq].
  pose proof (given_undisturbed s t TObject i) as U. constructor; [apply given_frames|apply U|apply U|apply und_calm; auto|apply (u_obj U)].
Qed.

(** ** Creating arrays of objects *)
Lemma put_add s x y : put (add s x) (length (s_heap s)) y = add s y.
Proof.
  unfold put, add, with_heap. simpl. f_equal. induction (s_heap s) as [|z l IH]; simpl; auto. f_equal. auto.
Qed.
Lemma list_set_fill (v : option oid) j n : list_set (repeat v j ++ repeat None (S n)) j v = repeat v (S j) ++ repeat None n.
Proof. induction j; [reflexivity|]. change (v :: list_set (repeat v j ++ repeat None (S n)) j v = v :: repeat v (S j) ++ repeat None n). f_equal. auto. Qed.
Lemma elem_ok_add s x p v : (forall i, v = Some i -> live s i = true) -> elem_ok G (add s x) p v = elem_ok G s p v.
Proof. intros H. unfold elem_ok. destruct p as [n|], v as [i|]; auto. rewrite lookup_add_old; auto. eapply live_lt; eauto. Qed.
Lemma fill_ok c p v n : forall j s, wf s -> obj_ok s (new_obj c (PArr p [])) = true -> live s v = true -> elem_ok G s p (Some v) = true ->
  mapM_ (fun j => live_all [v] ;;; array_set G (length (s_heap s)) (Z.of_nat j) (Some v)) (seq j n) (add s (new_obj c (PArr p (repeat (Some v) j ++ repeat None n)))) =
  Ret tt (add s (new_obj c (PArr p (repeat (Some v) (j + n))))).
Proof.
  induction n; intros j s W Ok Lv E; cbn [seq mapM_].
  - unfold ret. simpl. rewrite app_nil_r, Nat.add_0_r. reflexivity.
  - set (s1 := add s (new_obj c (PArr p (repeat (Some v) j ++ repeat None (S n))))).
    assert (obj_ok s (new_obj c (PArr p (repeat (Some v) j ++ repeat None (S n)))) = true) as Ok1.
    { unfold obj_ok in *. apply andb_true_iff in Ok. destruct Ok as [_ Ok]. apply andb_true_iff. split; [|exact Ok]. simpl. apply forallb_forall. intros k Hk.
      assert (k = v) as ->; auto. clear -Hk. induction j; simpl in *.
      - exfalso. induction n; simpl in *; auto.
      - destruct Hk as [->|Hk]; auto. }
    assert (wf s1) as W1 by (apply VmCall.add_wf; auto).
    assert (live s1 v = true) as L1 by (unfold s1; unfold live; rewrite lookup_add_old by (eapply live_lt; eauto); exact Lv).
    unfold bind at 1. unfold bind at 1. unfold live_all, check. cbn [forallb]. rewrite L1. cbn [andb].
    assert (array_set G (length (s_heap s)) (Z.of_nat j) (Some v) s1 = Ret tt (add s (new_obj c (PArr p (repeat (Some v) (S j) ++ repeat None n))))) as Q.
    { rewrite (@array_set_eq (length (s_heap s)) (new_obj c (PArr p (repeat (Some v) j ++ repeat None (S n)))) p (repeat (Some v) j ++ repeat None (S n)) (Z.of_nat j) (Some v) s1); auto.
      - unfold s1. rewrite elem_ok_add by (intros ? [= <-]; auto). rewrite E. rewrite app_length, !repeat_length.
        destruct (Z.leb_spec 0 (Z.of_nat j)), (Z.ltb_spec (Z.of_nat j) (Z.of_nat (j + S n))); try lia. cbn [andb]. rewrite put_add, Nat2Z.id, list_set_fill. reflexivity.
      - apply lookup_add_new.
      - intros i [= <-]. auto. }
    rewrite Q. rewrite IHn; auto. replace (j + S n) with (S j + n) by lia. reflexivity.
Qed.
Lemma fill_bad c p v n s : wf s -> obj_ok s (new_obj c (PArr p [])) = true -> live s v = true -> elem_ok G s p (Some v) = false ->
  mapM_ (fun j => live_all [v] ;;; array_set G (length (s_heap s)) (Z.of_nat j) (Some v)) (seq 0 (S n)) (add s (new_obj c (PArr p (repeat None (S n))))) =
  Thr (Err (S_ "Class Type Exception")) (add s (new_obj c (PArr p (repeat None (S n))))).
Proof.
  intros W Ok Lv E. cbn [seq mapM_]. set (s1 := add s (new_obj c (PArr p (repeat None (S n))))).
  assert (obj_ok s (new_obj c (PArr p (repeat None (S n)))) = true) as Ok1.
  { unfold obj_ok in *. apply andb_true_iff in Ok. destruct Ok as [_ Ok]. apply andb_true_iff. split; [|exact Ok]. simpl. clear. induction n; simpl; auto. }
  assert (wf s1) as W1 by (apply VmCall.add_wf; auto).
  assert (live s1 v = true) as L1 by (unfold s1; unfold live; rewrite lookup_add_old by (eapply live_lt; eauto); exact Lv).
  unfold bind at 1. unfold bind at 1. unfold live_all, check. cbn [forallb]. rewrite L1. cbn [andb].
  rewrite (@array_set_eq (length (s_heap s)) (new_obj c (PArr p (repeat None (S n)))) p (repeat None (S n)) (Z.of_nat 0) (Some v) s1); auto.
  - unfold s1. rewrite elem_ok_add by (intros ? [= <-]; auto). rewrite E. reflexivity.
  - apply lookup_add_new.
  - intros i [= <-]. auto.
Qed.
Lemma array_name_eq p : (match p with "[" :: _ => "[" :: p | _ => "[" :: "L" :: p ++ [";"] end)%char = array_name p.
Proof.
  unfold array_name. destruct p as [|c r]; [reflexivity|]. destruct (ascii_dec c "["%char) as [->|N]; [reflexivity|].
  destruct c as [[] [] [] [] [] [] [] []]; try reflexivity. destruct (N eq_refl).
Qed.
Lemma quiet_elem s s1 p v : wf s -> quiet s s1 -> (forall i, v = Some i -> live s i = true) -> elem_ok G s1 p v = elem_ok G s p v.
Proof.
  intros W Q H. unfold elem_ok. destruct p as [n|], v as [i|]; auto. specialize (H i eq_refl). destruct (quiet_intact Q H) as (o & o' & L & L' & V & _). rewrite L, L'.
  destruct (o_pay o), (o_pay o'); simpl in V |- *; try discriminate; auto. congruence.
Qed.
Lemma array_elem_quiet s s1 n ci ck : good G s -> inv G s1 -> quiet s s1 -> kept s s1 -> class_named s1 n ci -> contents s1 ci = Some (PClass ck) -> array_elem s n (c_instarr ck).
Proof.
  intros Gs I1 Q K Cn Cc. pose proof (proj1 (class_named_iff _ _ I1) Cn) as G1. split.
  - intros c0 k0 H C0. apply (class_named_iff _ _ (g_inv Gs)) in H. apply K in H. assert (c0 = ci) as -> by congruence.
    assert (live s ci = true) as L by (unfold contents, live in *; destruct (lookup s ci); [auto|discriminate]).
    destruct (quiet_intact Q L) as (o & o' & L0 & L1 & V & _). unfold contents in *. rewrite L0 in C0. rewrite L1 in Cc. simpl in *. injection C0 as C0. injection Cc as Cc.
    rewrite C0, Cc in V. simpl in V. congruence.
  - intros N. destruct (live s ci) eqn:L.
    + exfalso. apply N. exists ci. destruct (quiet_intact Q L) as (o & o' & L0 & L1 & V & _). destruct Cn as (oc & c & Lc & Pc & Pn). rewrite L1 in Lc. injection Lc as <-.
      rewrite Pc in V. destruct (o_pay o) eqn:P; simpl in V; try discriminate. exists o, c0. split; auto. split; auto. congruence.
    + unfold contents in Cc. destruct (lookup s1 ci) as [o|] eqn:L1; [|discriminate]. simpl in Cc. injection Cc as Cc.
      destruct (Nat.lt_ge_cases ci (length (s_heap s))) as [Lt|Ge].
      * rewrite (q_dead Q Lt) in L1; [discriminate|]. unfold live in L. destruct (lookup s ci); [discriminate|auto].
      * destruct (q_new Q Ge L1) as (_ & _ & m & p & l & P). rewrite Cc in P. injection P as P. rewrite P. reflexivity.
Qed.
Theorem NewObjectArray_step t n h c k v s : good G s -> attached s t -> denotes_opt s h (Some c) -> contents s c = Some (PClass k) ->
  (forall i, v = Some i -> live s i = true) ->
  exists p, array_elem s (array_name (c_prefix k)) p /\
  ((n < 0)%Z -> exists s', step G t (NewObjectArray_ n h v) s = Some (OExn (Err (S_ "std::bad_array_new_length")), s') /\ good G s' /\ no_effect t s s') /\
  ((0 <= n)%Z -> n = 0%Z \/ elem_ok G s p v = true ->
     exists i s', step G t (NewObjectArray_ n h v) s = Some (OVal (RRef (Some i)), s') /\ good G s' /\ made t i (PArr p (repeat v (Z.to_nat n))) s s' /\
       exists ci, class_ptr s' i = Some ci /\ class_named s' (array_name (c_prefix k)) ci) /\
  ((0 < n)%Z -> elem_ok G s p v = false ->
     exists s', step G t (NewObjectArray_ n h v) s = Some (OExn (Err (S_ "Class Type Exception")), s') /\ good G s' /\ no_effect t s s').
Proof.
  intros Gs A D C Lv. pose proof (good_wf Gs) as W. pose proof (@cast_eq G TClass h c (PClass k) s W D C) as J. destruct (deref_eq C) as (o & L & P & De).
  destruct (find_kept (array_name (c_prefix k)) Gs) as (ci & s1 & Ef & I1 & Q & K & T1 & Gc).
  pose proof (inv_wf I1) as W1. pose proof (proj2 (class_named_iff _ _ I1) Gc) as Cn. pose proof Cn as (oc & ck & Lc & Pc & _).
  assert (contents s1 ci = Some (PClass ck)) as Cc by (unfold contents; rewrite Lc; simpl; congruence).
  assert (is_cls s1 ci = true) as Hc by (apply is_cls_named; eauto).
  set (p := c_instarr ck). exists p. split; [exact (array_elem_quiet Gs I1 Q K Cn Cc)|].
  assert (forall i, v = Some i -> live s1 i = true) as Lv1 by (intros i Hi; eapply quiet_live; eauto).
  assert (obj_ok s1 (new_obj (Some ci) (PArr p [])) = true) as Ok1.
  { unfold obj_ok. simpl. rewrite (is_cls_live _ _ Hc), Hc, andb_true_r. apply Nat.ltb_lt, live_lt, is_cls_live; auto. }
  assert (forall m, obj_ok s1 (new_obj (Some ci) (PArr p (repeat None m))) = true) as Ok2.
  { intros m. unfold obj_ok in *. apply andb_true_iff in Ok1. destruct Ok1 as [_ Ok]. apply andb_true_iff. split; [|exact Ok]. simpl. clear. induction m; simpl; auto. }
  assert (body G t (NewObjectArray_ n h v) s =
    (if (n <? 0)%Z then Thr (Err (S_ "std::bad_array_new_length")) s1 else
      as_ref (match v with
       | None => ret tt
       | Some v0 => mapM_ (fun j => live_all [v0] ;;; array_set G (length (s_heap s1)) (Z.of_nat j) v) (seq 0 (Z.to_nat n))
       end ;;; to_jni t (TArr None) (length (s_heap s1))) (add s1 (new_obj (Some ci) (PArr p (repeat None (Z.to_nat n))))))) as B.
  { cbn [body]. unfold as_ref at 1, NewObjectArray. unfold bind at 1 2. rewrite J. cbn [isa]. cbn [nonnull]. unfold bind at 1, ret at 1. unfold bind at 1.
    unfold get_cls at 1. unfold bind at 1. rewrite De, P. unfold ret at 1. unfold bind at 1.
    assert ((if (0 <? n)%Z then live_all (opt_list v) else ret tt) s = Ret tt s) as Lq.
    { destruct (0 <? n)%Z; [|reflexivity]. unfold live_all, check. destruct v as [v|]; [|reflexivity]. cbn [opt_list forallb]. rewrite (Lv v eq_refl). reflexivity. }
    rewrite Lq. cbv zeta. rewrite array_name_eq. unfold bind at 1. rewrite Ef. cbn [nonnull]. unfold bind at 1, ret at 1. unfold bind at 1.
    unfold get_cls at 1. unfold bind at 1, deref. rewrite Lc, Pc. unfold ret at 1. fold p. destruct (n <? 0)%Z; [reflexivity|].
    unfold bind at 1. rewrite alloc_eq by apply Ok2. reflexivity. }
  assert (no_effect t s s1) as Ne.
  { split; [|intros j Lj; apply (quiet_new Q Lj)]. pose proof (quiet_undisturbed t Q) as U. constructor; [|apply U|apply U|apply und_calm; auto|apply (u_obj U)].
    unfold frames. rewrite (quiet_env t Q). auto. }
  split; [|split].
  - intros Nn. destruct (Z.ltb_spec n 0); [|lia]. assert (step G t (NewObjectArray_ n h v) s = Some (OExn (Err (S_ "std::bad_array_new_length")), s1)) as St.
    { unfold step. rewrite run_attached, B by auto. rewrite (tidy_finish_id T1). reflexivity. }
    exists s1. split; [exact St|]. split; [eapply step_good; eauto|]. exact Ne.
  - intros Nn Ok. destruct (Z.ltb_spec n 0); [lia|].
    destruct (@made_core G t (NewObjectArray_ n h v) (TArr None) (Some ci) (PArr p (repeat v (Z.to_nat n))) s s1) as (i & s' & St & Gs' & M & Cp & Cl); auto.
    + intros ?. discriminate.
    + simpl. apply forallb_forall. intros j Hj. apply Lv1. clear -Hj. induction (Z.to_nat n); simpl in *; [tauto|]. destruct v; simpl in Hj; [destruct Hj as [->|Hj]|]; auto.
    + intros k0 [= <-]. auto.
    + rewrite B. unfold as_ref at 1, bind at 1 2. destruct v as [v|]; [|reflexivity]. destruct Ok as [->|Ok]; [reflexivity|].
      pose proof (@fill_ok (Some ci) p v (Z.to_nat n) 0 s1 W1 Ok1 (Lv1 v eq_refl)) as F. rewrite (quiet_elem p W Q Lv) in F. specialize (F Ok).
      change (repeat (Some v) 0 ++ repeat None (Z.to_nat n)) with (repeat (@None oid) (Z.to_nat n)) in F. rewrite F. reflexivity.
    + exists i, s'. split; [exact St|]. split; [exact Gs'|]. split; [exact M|]. exists ci. split; auto.
  - intros Nn Bad. destruct (Z.ltb_spec n 0); [lia|]. destruct v as [v|]; [|unfold elem_ok in Bad; destruct p; discriminate].
    destruct (Z.to_nat n) as [|m] eqn:En; [lia|]. set (x := new_obj (Some ci) (PArr p (repeat None (S m)))) in *.
    assert (step G t (NewObjectArray_ n h (Some v)) s = Some (OExn (Err (S_ "Class Type Exception")), finish (add s1 x))) as St.
    { unfold step. rewrite run_attached, B by auto. unfold as_ref at 1, bind at 1 2.
      pose proof (@fill_bad (Some ci) p v m s1 W1 Ok1 (Lv1 v eq_refl)) as F. rewrite (quiet_elem p W Q Lv) in F. specialize (F Bad). fold x in F. rewrite F. reflexivity. }
    eexists. split; [exact St|]. pose proof (step_good Gs St) as G'. split; [exact G'|]. destruct Ne as [Ne1 Ne2].
    assert (forall j o1, lookup (finish (add s1 x)) j = Some o1 -> lookup s1 j = Some o1) as Sub.
    { intros j o1 Lj. pose proof Lj as Lj'. apply finish_sub in Lj. rewrite lookup_add in Lj. destruct (Nat.eqb_spec j (length (s_heap s1))); auto. exfalso. subst.
      injection Lj as <-. assert (In (length (s_heap s1)) (held (finish (add s1 x)))) as H1.
      { destruct (proj2 (g_tidy G') (length (s_heap s1))) as [H1|[]]; auto. apply live_lookup. eauto. }
      apply In_held in H1. destruct H1 as [H1|(q & oq & Lq & Rq)].
      - unfold finish in H1. rewrite roots_collect in H1. assert (In (length (s_heap s1)) (roots s1)) as H2.
        { assert (roots (with_tmp (add s1 x) []) = roots s1) as R; [|rewrite <- R; auto]. unfold roots, add. simpl. rewrite (proj1 T1). reflexivity. }
        apply (wf_live _ W1) in H2. apply live_lt in H2. lia.
      - apply finish_sub in Lq. rewrite lookup_add in Lq. destruct (Nat.eqb_spec q (length (s_heap s1))).
        + injection Lq as <-. unfold x in Rq. simpl in Rq. clear -Rq. induction m; simpl in *; auto.
        + apply (@wf_refs s1 q oq _ W1 Lq) in Rq. apply live_lt in Rq. lia. }
    assert (forall j, live s1 j = true -> lookup (finish (add s1 x)) j = lookup s1 j) as Kp by (intros j Lj; apply finish_add_dead; auto).
    assert (forall j, live s1 j = true -> intact s1 (finish (add s1 x)) j) as In1.
    { intros j Lj. pose proof Lj as Lj'. apply live_lookup in Lj'. destruct Lj' as (oj & Lo). exists oj, oj. split; [auto|]. split; [rewrite Kp; auto|]. split; [auto|]. split; [auto|].
      intros c1. unfold class_ptr. rewrite Kp, Lo by auto. destruct (o_clazz oj) as [d|]; auto. destruct (live s1 d) eqn:Ld; [|discriminate]. intros [= <-].
      unfold live. rewrite Kp by auto. unfold live in Ld. rewrite Ld. auto. }
    split.
    + constructor.
      * rewrite frames_finish. apply Ne1.
      * rewrite finish_globals. apply Ne1.
      * rewrite finish_ext. apply Ne1.
      * eapply calm_trans; [apply Ne1|]. apply calm_finish. apply calm_same; reflexivity.
      * intros j Lj. eapply intact_trans; [apply (gn_obj Ne1); auto|]. apply In1. eapply quiet_live; eauto.
    + intros j Lj. apply live_lookup in Lj. destruct Lj as (oj & Lj). pose proof (Sub _ _ Lj) as Lj1. destruct (Ne2 j) as [H1|H1]; [apply live_lookup; eauto|auto|]. right.
      unfold is_cls in *. rewrite Lj. rewrite Lj1 in H1. auto.
Qed.
End Cfg.
