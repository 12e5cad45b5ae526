(** Base class search, reflection and object classes: exact steps. *)
From Verif Require Import Base BaseProofs VmState VmModel VmStep VmBase VmWf VmPrim VmInv VmReg VmRegInv VmFrame VmFine VmSpec MemSpec HookSpec CallSpec RefSpec HierSpec ArrSpec
  VmExact VmQuiet VmClass VmMember VmMember2 VmMember3 VmTables VmHook VmMemHist VmEnvInv VmCall VmCall2 VmThread VmRef VmRef2 VmRef3 VmObj.
Set Implicit Arguments.
Unset Strict Implicit.
Local Open Scope vm_scope.

Section Cfg.
Variable G : cfg.

Lemma existsb_app A (f : A -> bool) l m : existsb f (l ++ m) = existsb f l || existsb f m.
Proof. induction l; simpl; auto. rewrite IHl. apply orb_assoc. Qed.
Lemma has_base_eq x : forall fuel s V cl L, wf s -> dfs G s cl L -> chain G s V cl -> length (s_heap s) < fuel + length V ->
  exists s', has_base G fuel cl x s = Ret (existsb (Nat.eqb x) L) s' /\ tstep s s'.
Proof.
  induction fuel as [|fuel IH]; intros s V cl L W D Ch Fu; [pose proof (chain_fuel (fuel := 0) Ch Fu); lia|].
  inversion D as [? L0 N C DA]; subst. destruct (class_at s cl) as [c|] eqn:Ec; [|congruence]. clear N.
  cbn [has_base existsb]. rewrite (Nat.eqb_sym cl x). destruct (Nat.eqb x cl); [exists s; split; [reflexivity|apply tstep_refl]|].
  unfold bind at 1. rewrite (get_cls_eq Ec). destruct (bases_of_eq Ec C) as (s1 & E1 & T1). unfold bind at 1. rewrite E1.
  assert (forall bs M s1, incl bs (supers G s cl) -> dfs_all G s bs M -> tstep s s1 -> exists s2,
     anyM (fun b => has_base G fuel b x) bs s1 = Ret (existsb (Nat.eqb x) M) s2 /\ tstep s1 s2) as Loop.
  { clear s1 E1 T1. induction bs as [|b bs IHb]; intros M s1 Inc DM T1; inversion DM; subst.
    - exists s1. split; [reflexivity|apply tstep_refl].
    - simpl. assert (In b (supers G s cl)) as Hb by (apply Inc; simpl; auto). pose proof (chain_step W Ch Hb H1) as Chb.
      destruct (IH s1 (cl :: V) b L) as (s2 & E2 & T2).
      + apply T1. auto.
      + apply (dfs_tmore (ts_more T1) H1).
      + apply (chain_tmore (ts_more T1) Chb).
      + rewrite (tmore_heap (ts_more T1)). simpl. lia.
      + unfold bind at 1. rewrite E2, existsb_app. unfold oid in *. destruct (existsb (Nat.eqb x) L); [exists s2; split; [reflexivity|exact T2]|]. cbn [orb].
        destruct (IHb M0 s2) as (s3 & E3 & T3); auto.
        * intros y Hy. apply Inc. simpl; auto.
        * eapply tstep_trans; eauto.
        * exists s3. split; [exact E3|]. eapply tstep_trans; eauto. }
  destruct (Loop (supers G s cl) L0 s1 (incl_refl _) DA T1) as (s2 & E2 & T2). exists s2. split; [exact E2|]. eapply tstep_trans; eauto.
Qed.

(** ** Ancestors *)
Lemma ancestor_trans s a b c : ancestor G s a b -> ancestor G s b c -> ancestor G s a c.
Proof. intros A B. induction B; auto. eapply ac_base; eauto. Qed.
Lemma dfs_ancestor s : (forall cl L, dfs G s cl L -> forall x, In x L <-> ancestor G s cl x) /\
  (forall bs L, dfs_all G s bs L -> forall x, In x L <-> exists b, In b bs /\ ancestor G s b x).
Proof.
  apply dfs_both.
  - intros cl L N C D IH x. simpl. rewrite IH. split.
    + intros [->|(b & Hb & A)]; [constructor|]. eapply ancestor_trans; [|exact A]. eapply ac_base; [constructor|exact Hb].
    + intros A. induction A as [|b c A IHA Hc]; [auto|]. right. destruct IHA as [<-|(d & Hd & A')].
      * exists c. split; [exact Hc|constructor].
      * exists d. split; [exact Hd|]. eapply ac_base; eauto.
  - intros x. simpl. split; [tauto|intros (b & [] & _)].
  - intros b bs L M _ IH1 _ IH2 x. rewrite in_app_iff, IH1, IH2. split.
    + intros [A|(d & Hd & A)]; [exists b|exists d]; simpl; auto.
    + intros (d & [<-|Hd] & A); eauto.
Qed.
Lemma acyclic_dfs s a : wf s -> acyclic G s a -> class_at s a <> None -> (forall x, ancestor G s a x -> complete G s x) -> exists L, dfs G s a L.
Proof.
  intros W H. induction H as [a _ IH]. intros N C. assert (exists M, dfs_all G s (supers G s a) M) as (M & D).
  { assert (forall bs, incl bs (supers G s a) -> exists M, dfs_all G s bs M) as K; [|apply K, incl_refl].
    induction bs as [|b bs IHb]; intros Inc; [exists []; constructor|].
    assert (In b (supers G s a)) as Hb by (apply Inc; left; reflexivity).
    destruct (IH b Hb) as (L & DL).
    - pose proof (supers_cls W Hb) as Cb. apply is_cls_class_at in Cb. destruct Cb as (c & ->). discriminate.
    - intros x A. apply C. eapply ancestor_trans; [|exact A]. eapply ac_base; [constructor|exact Hb].
    - destruct IHb as (M & DM); [intros y Hy; apply Inc; right; exact Hy|]. exists (L ++ M). constructor; auto. }
  exists (a :: M). constructor; auto. apply C. constructor.
Qed.
Lemma dfs_acyclic s a L : dfs G s a L -> acyclic G s a /\ forall x, ancestor G s a x -> complete G s x.
Proof.
  intros D. split.
  - destruct (dfs_acc G s) as [H _]. specialize (H a L D). clear D. induction H as [a _ IH]. constructor. intros b Hb. apply IH. exact Hb.
  - intros x A. assert (exists M, dfs G s x M) as (M & H); [|inversion H; auto].
    induction A as [|b c A IHA Hc]; [eauto|]. destruct IHA as (M & Hb). inversion Hb as [? M0 N C DA]; subst. clear -Hc DA. revert Hc DA. generalize (supers G s b).
    intros bs. revert M0. induction bs as [|d bs IH]; intros M0 Hc DA; [destruct Hc|]. inversion DA; subst. destruct Hc as [<-|Hc]; eauto.
Qed.

(** ** IsAssignableFrom *)
Theorem IsAssignableFrom_step t ha hb a L b s : good G s -> attached s t -> denotes_opt s ha (Some a) -> dfs G s a L -> denotes_opt s hb b -> (forall j, b = Some j -> is_cls s j = true) ->
  exists r s', step G t (IsAssignableFrom_ ha hb) s = Some (OVal (RBool r), s') /\ good G s' /\ same_but_types s s' /\
    (r = true <-> exists j, b = Some j /\ ancestor G s a j).
Proof.
  intros Gs A Da D Db Cb. pose proof (good_wf Gs) as W. inversion D as [? L0 N C DA]; subst. destruct (class_at s a) as [c|] eqn:Ec; [|congruence]. clear N.
  pose proof (jnicast_class_opt G W Db Cb) as Jb.
  set (x := match b with Some j => j | None => length (s_heap s) end).
  assert (a < length (s_heap s)) as La by (apply class_at_lookup in Ec; destruct Ec as (o & Lo & _); eapply lookup_lt; eauto).
  destruct (@has_base_eq x (depth s) s [] a (a :: L0) W D (chain_one G La)) as (s' & E & T); [unfold depth; simpl; lia|].
  assert (body G t (IsAssignableFrom_ ha hb) s = Ret (RBool (existsb (Nat.eqb x) (a :: L0))) s') as B.
  { cbn [body]. unfold as_bool, IsAssignableFrom. unfold bind at 1 2. rewrite (jnicast_class G W Da Ec). unfold bind at 1. rewrite Jb. unfold bind at 1, gets. fold x. rewrite E. reflexivity. }
  assert (tidy s') as T' by (eapply tstep_tidy; eauto; apply Gs).
  pose proof (step_tidy_ret A B T') as St. exists (existsb (Nat.eqb x) (a :: L0)), s'. split; [exact St|]. split; [exact (step_good Gs St)|]. split; [apply tstep_same; exact T|].
  rewrite existsb_exists. destruct (dfs_ancestor s) as [An _]. specialize (An a _ D). split.
  - intros (y & Hy & Q). apply Nat.eqb_eq in Q. subst y. apply An in Hy. destruct b as [j|]; [eauto|]. exfalso. clear -Hy La W.
    change (ancestor G s a (length (s_heap s))) in Hy. remember (length (s_heap s)) as n eqn:En. destruct Hy as [|b c An Hs]; [lia|].
    apply (supers_cls W) in Hs. apply is_cls_live, live_lt in Hs. lia.
  - intros (j & -> & Aj). exists j. split; [apply An; exact Aj|]. apply Nat.eqb_refl.
Qed.

(** ** The class of an object *)
Lemma given_contents s t Y i j : contents (given s t Y i) j = contents s j.
Proof.
  unfold given, contents. rewrite pushed_lookup. unfold ensured. destruct (lookup s i) as [o|] eqn:L; auto.
  assert (option_map o_pay (lookup (put s i (mkObj (type_class s Y) (o_mon o) (o_pay o))) j) = option_map o_pay (lookup s j)) as K.
  { rewrite (lookup_put _ _ L). destruct (Nat.eqb_spec i j); [subst; rewrite L|]; reflexivity. }
  destruct (o_clazz o) as [c|]; [destruct (live s c)|]; auto.
Qed.
Lemma given_class_at s t Y i j : class_at (given s t Y i) j = class_at s j.
Proof. unfold class_at. rewrite given_contents. reflexivity. Qed.
Lemma given_dfs s t Y i cl L : dfs G s cl L -> dfs G (given s t Y i) cl L.
Proof. apply dfs_ext; [intros; apply given_class_at|apply (given_undisturbed s t Y i)]. Qed.
Lemma given_supers s t Y i cl : supers G (given s t Y i) cl = supers G s cl.
Proof.
  unfold supers, super_types. rewrite given_class_at. f_equal. apply map_ext. apply (given_undisturbed s t Y i).
Qed.
Lemma given_ancestor s t Y i a b : ancestor G (given s t Y i) a b <-> ancestor G s a b.
Proof. split; intros H; induction H; try constructor; eapply ac_base; eauto; [rewrite given_supers in *|rewrite given_supers]; auto. Qed.
Lemma given_passed s t c : wf s -> attached s t -> tidy s -> is_cls s c = true ->
  class_passed t (Some c) s (given s t TClass c) /\ wf (given s t TClass c) /\ tidy (given s t TClass c) /\ attached (given s t TClass c) t.
Proof.
  intros W A T C. assert (live s c = true) as Lc by (apply is_cls_live; auto). split; [|split; [|split]].
  - split; [apply given_undisturbed|]. split; [apply given_frames|]. intros k. apply given_live_eq.
  - apply to_jni_wf; auto.
  - eapply tidy_weaken; [|apply (given_tidy TClass c W A T)]; simpl; tauto.
  - apply given_attached; auto.
Qed.
Theorem GetObjectClass_step t h i s : good G s -> attached s t -> denotes_opt s h (Some i) ->
  exists s', step G t (GetObjectClass_ h) s = Some (OVal (RRef (class_ptr s i)), s') /\ good G s' /\ class_passed t (class_ptr s i) s s'.
Proof.
  intros Gs A D. pose proof (good_wf Gs) as W. destruct h as [h|]; [|discriminate].
  assert (body G t (GetObjectClass_ (Some h)) s = Ret (RRef (class_ptr s i)) (match class_ptr s i with Some c => given s t TClass c | None => s end)) as B.
  { cbn [body]. unfold as_ref, bind. rewrite (GetObjectClass_eq G W A D). reflexivity. }
  destruct (class_ptr s i) as [c|] eqn:C.
  - destruct (given_passed W A (g_tidy Gs) (class_ptr_cls W C)) as (P & _ & T & _). pose proof (step_tidy_ret A B T) as St. exists (given s t TClass c). split; [exact St|]. split; [exact (step_good Gs St)|exact P].
  - exists s. split; [apply step_read; auto|]. split; [exact Gs|reflexivity].
Qed.
Theorem IsInstanceOf_step t h hc i k L b s : good G s -> attached s t -> denotes_opt s h (Some i) -> class_ptr s i = Some k -> dfs G s k L ->
  denotes_opt s hc b -> (forall j, b = Some j -> is_cls s j = true) ->
  exists r s', step G t (IsInstanceOf_ h hc) s = Some (OVal (RBool r), s') /\ good G s' /\ class_passed t (Some k) s s' /\
    (r = true <-> exists j, b = Some j /\ ancestor G s k j).
Proof.
  intros Gs A D Ck Df Db Cb. pose proof (good_wf Gs) as W. destruct h as [h|]; [|discriminate].
  destruct (given_passed W A (g_tidy Gs) (class_ptr_cls W Ck)) as (P & W1 & T1 & A1). set (s1 := given s t TClass k) in *.
  pose proof (class_ptr_cls W Ck) as Kc. assert (is_cls s1 k = true) as Kc1 by (apply is_cls_given; auto).
  pose proof (proj1 (is_cls_class_at s1 k) Kc1) as (ck & Ek).
  assert (forall j, b = Some j -> is_cls s1 j = true) as Cb1 by (intros j Hj; apply is_cls_given; auto).
  assert (jnicast G TClass hc s1 = Ret b s1) as Jb.
  { destruct hc as [c|]; [|simpl in Db; subst b; reflexivity].
    assert (denotes_opt s1 (Some c) b) as Db1; [|exact (jnicast_class_opt G W1 Db1 Cb1)]. simpl in *.
    assert (forall x r, denotes s x r -> denotes s1 x r) as Dn; [|auto]. intros x r Dx.
    assert (forall y o, lookup s y = Some o -> exists o', lookup s1 y = Some o' /\ o_pay o' = o_pay o) as Lk.
    { intros y o Ly. pose proof (given_contents s t TClass k y) as Q. unfold contents in Q. fold s1 in Q. rewrite Ly in Q. destruct (lookup s1 y) as [o'|]; [|discriminate]. exists o'. split; auto. simpl in Q. congruence. }
    assert (forall y, live s1 y = live s y) as Lv by (intros y; apply given_live_eq).
    induction Dx as [y o Ly N1 N2|y o z r Ly Py _ IH|y o z r Ly Py Lz _ IH|y o z Ly Py Lz]; destruct (Lk y o Ly) as (o' & L' & P'); rewrite <- P' in *.
    - eapply den_obj; eauto.
    - eapply den_global; eauto.
    - eapply den_weak; eauto; rewrite Lv; auto.
    - eapply den_dead; eauto; rewrite Lv; auto. }
  set (x := match b with Some j => j | None => length (s_heap s1) end).
  assert (k < length (s_heap s1)) as La by (apply is_cls_live, live_lt in Kc1; exact Kc1).
  assert (dfs G s1 k L) as D1 by (apply given_dfs; exact Df).
  destruct (@has_base_eq x (depth s1) s1 [] k L W1 D1 (chain_one G La)) as (s' & E & T); [unfold depth; simpl; lia|].
  assert (body G t (IsInstanceOf_ (Some h) hc) s = Ret (RBool (existsb (Nat.eqb x) L)) s') as B.
  { cbn [body]. unfold as_bool, IsInstanceOf. unfold bind at 1 2. rewrite (GetObjectClass_eq G W A D), Ck. fold s1. unfold IsAssignableFrom. unfold bind at 1.
    rewrite (@jnicast_class G s1 (Some k) k ck W1 (denotes_cls Kc1) Ek). unfold bind at 1. rewrite Jb. unfold bind at 1, gets. fold x. rewrite E. reflexivity. }
  assert (tidy s') as T' by (eapply tstep_tidy; eauto).
  pose proof (step_tidy_ret A B T') as St. exists (existsb (Nat.eqb x) L), s'. split; [exact St|]. split; [exact (step_good Gs St)|]. split.
  { destruct P as (U & F & Lv). pose proof (tstep_same T) as Sm. split; [eapply undisturbed_trans; [exact U|apply same_types_undisturbed; exact Sm]|]. destruct Sm as [Q _]. split.
    - rewrite <- F. rewrite Q. reflexivity.
    - intros j. rewrite <- Lv. rewrite Q. reflexivity. }
  rewrite existsb_exists. destruct (dfs_ancestor s) as [An _]. specialize (An k _ Df). split.
  - intros (y & Hy & Q). apply Nat.eqb_eq in Q. subst y. destruct b as [j|]; [exists j; split; [reflexivity|apply An; exact Hy]|]. exfalso.
    destruct (dfs_ancestor s1) as [An1 _]. specialize (An1 k _ D1). apply An1 in Hy. clear -Hy La W1.
    change (ancestor G s1 k (length (s_heap s1))) in Hy. remember (length (s_heap s1)) as n eqn:En. destruct Hy as [|b c An Hs]; [lia|].
    apply (supers_cls W1) in Hs. apply is_cls_live, live_lt in Hs. lia.
  - intros (j & -> & Aj). exists j. split; [apply An; exact Aj|]. apply Nat.eqb_refl.
Qed.

(** ** Failures *)
Lemma isa_class x : isa G x TClass = match x with PClass _ => true | _ => false end.
Proof. destruct x; reflexivity. Qed.
Theorem IsAssignableFrom_not_class t ha hb a x s : good G s -> attached s t -> denotes_opt s ha (Some a) -> contents s a = Some x -> (forall c, x <> PClass c) ->
  step G t (IsAssignableFrom_ ha hb) s = Some (OExn (Err bad_ref), s).
Proof.
  intros Gs A D C N. apply step_thr; auto. cbn [body]. unfold as_bool, IsAssignableFrom, bind. rewrite (@cast_eq G TClass ha a x s (good_wf Gs) D C), isa_class.
  destruct x; try reflexivity. exfalso. eapply N; eauto.
Qed.
Theorem IsAssignableFrom_null t ha hb b s : good G s -> attached s t -> denotes_opt s ha None -> denotes_opt s hb b -> (forall j, b = Some j -> is_cls s j = true) ->
  step G t (IsAssignableFrom_ ha hb) s = match b with None => Some (OVal (RBool true), s) | Some _ => None end.
Proof.
  intros Gs A Da Db Cb. pose proof (good_wf Gs) as W. assert (jnicast G TClass ha s = Ret None s) as Ja by (apply jnicast_class_opt; auto; discriminate).
  pose proof (jnicast_class_opt G W Db Cb) as Jb. destruct b as [j|]; [apply step_undef; auto|apply step_read; auto]; cbn [body]; unfold as_bool, IsAssignableFrom, bind; rewrite Ja, Jb; reflexivity.
Qed.
Lemma incomplete_bases s cl c : class_at s cl = Some c -> ~ complete G s cl -> exists s', bases_of G c s = Thr (Err (S_ "Fatal BaseClass not registred!")) s' /\ tstep s s'.
Proof.
  intros E N. unfold bases_of. destruct (c_bases c) as [T|] eqn:Ct; [|exfalso; apply N; intros _ B; unfold super_types; rewrite E, Ct; intros []].
  assert (super_types G s cl = parents G T) as Es by (unfold super_types; rewrite E, Ct; reflexivity).
  unfold base_classes. rewrite parents_bases in Es. destruct (ty_bases G T) as [l|]; [|exfalso; apply N; intros _ B; rewrite Es; intros []].
  destruct (mapM_entries l s) as (s' & Em & T'). exists s'. unfold bind. rewrite Em. split; [|exact T'].
  destruct (negb (ndebug G) && existsb (fun o : option oid => match o with Some _ => false | None => true end) (map (type_class s) l)) eqn:X; [reflexivity|].
  exfalso. apply N. intros Nd B HB. rewrite Es in HB. rewrite Nd in X. cbn [negb andb] in X. intros Q.
  assert (existsb (fun o : option oid => match o with Some _ => false | None => true end) (map (type_class s) l) = true); [|congruence].
  apply existsb_exists. exists None. split; [|reflexivity]. apply in_map_iff. exists B. split; [exact Q|exact HB].
Qed.
Theorem IsAssignableFrom_incomplete t ha hb a b s : good G s -> attached s t -> denotes_opt s ha (Some a) -> is_cls s a = true -> denotes_opt s hb b -> (forall j, b = Some j -> is_cls s j = true) ->
  b <> Some a -> ~ complete G s a -> exists s', step G t (IsAssignableFrom_ ha hb) s = Some (OExn (Err (S_ "Fatal BaseClass not registred!")), s') /\ same_but_types s s'.
Proof.
  intros Gs A Da Ca Db Cb Ne Nc. pose proof (good_wf Gs) as W. apply is_cls_class_at in Ca. destruct Ca as (c & Ec). destruct (incomplete_bases Ec Nc) as (s' & Eb & T). exists s'.
  assert (body G t (IsAssignableFrom_ ha hb) s = Thr (Err (S_ "Fatal BaseClass not registred!")) s') as B.
  { cbn [body]. unfold as_bool, IsAssignableFrom. unfold bind at 1 2. rewrite (jnicast_class G W Da Ec). unfold bind at 1. rewrite (jnicast_class_opt G W Db Cb). unfold bind at 1, gets.
    set (x := match b with Some j => j | None => length (s_heap s) end). assert (a <> x) as Nx.
    { unfold x. destruct b as [j|]; [congruence|]. apply class_at_lookup in Ec. destruct Ec as (o & Lo & _). apply lookup_lt in Lo. lia. }
    replace (depth s) with (S (length (s_heap s) + 1)) by (unfold depth; lia). cbn [has_base]. destruct (Nat.eqb_spec a x); [congruence|]. unfold bind at 1. rewrite (get_cls_eq Ec). unfold bind. rewrite Eb. reflexivity. }
  split; [|apply tstep_same; exact T]. unfold step. rewrite run_attached, B by auto. rewrite tidy_finish_id; [reflexivity|]. eapply tstep_tidy; eauto. apply Gs.
Qed.
Theorem IsInstanceOf_unset t h hc i b s : good G s -> attached s t -> denotes_opt s h (Some i) -> class_ptr s i = None -> denotes_opt s hc b -> (forall j, b = Some j -> is_cls s j = true) ->
  step G t (IsInstanceOf_ h hc) s = match b with None => Some (OVal (RBool true), s) | Some _ => None end.
Proof.
  intros Gs A D Ck Db Cb. pose proof (good_wf Gs) as W. destruct h as [h|]; [|discriminate]. pose proof (jnicast_class_opt G W Db Cb) as Jb.
  destruct b as [j|]; [apply step_undef; auto|apply step_read; auto]; cbn [body]; unfold as_bool, IsInstanceOf, bind; rewrite (GetObjectClass_eq G W A D), Ck; unfold IsAssignableFrom; cbn [jnicast]; unfold bind, ret; rewrite Jb; reflexivity.
Qed.
Theorem IsInstanceOf_null t hc s : good G s -> attached s t -> step G t (IsInstanceOf_ None hc) s = Some (OVal (RBool false), s).
Proof. intros Gs A. apply step_read; auto. Qed.

(** ** GetSuperclass *)
Theorem GetSuperclass_step t h a c s : good G s -> attached s t -> denotes_opt s h (Some a) -> class_at s a = Some c -> complete G s a ->
  match c_bases c with
  | Some T =>
      match ty_bases G T with
      | None => exists s', step G t (GetSuperclass_ h) s = Some (OVal (RRef None), s') /\ same_but_types s s'
      | Some [] => step G t (GetSuperclass_ h) s = None
      | Some (B :: _) => exists s', step G t (GetSuperclass_ h) s = Some (OVal (RRef (registered s B)), s') /\ same_but_types s s'
      end
  | None => step G t (GetSuperclass_ h) s = Some (OVal (RRef None), s)
  end.
Proof.
  intros Gs A D Ec C. pose proof (good_wf Gs) as W.
  assert (body G t (GetSuperclass_ h) s = as_ref (match c_bases c with None => ret None | Some T => l <- base_classes G T ;; match l with x :: _ => ret x | [] => undef end end) s) as B.
  { cbn [body]. unfold as_ref at 1, GetSuperclass. unfold bind at 1 2. rewrite (jnicast_class G W D Ec). cbn [nonnull]. unfold bind at 1, ret at 1. unfold bind at 1. rewrite (get_cls_eq Ec). reflexivity. }
  destruct (c_bases c) as [T|] eqn:Ct; [|apply step_read; auto].
  assert (ndebug G = false -> forall B, In B (parents G T) -> type_class s B <> None) as C'.
  { intros Nd B0 H. apply (C Nd B0). unfold super_types. rewrite Ec, Ct. exact H. }
  destruct (base_classes_eq C') as (l & s' & E & T1 & _ & El). rewrite parents_bases in El. unfold as_ref, bind in B. rewrite E in B.
  assert (tidy s') as T' by (eapply tstep_tidy; eauto; apply Gs).
  destruct (ty_bases G T) as [[|B0 r]|]; subst l; [apply step_undef; auto| |]; exists s'; (split; [apply (step_tidy_ret A B T')|apply tstep_same; exact T1]).
Qed.

(** ** Reflection *)
Definition reflects (t : tid) (h : oid) (i : oid) (n : str) (s s' : st) (r : option oid) : Prop :=
  exists k, class_named s' n k /\ frames s' t = RefSpec.add_locals (frames s t) (opt_list (class_ptr s i) ++ [k]) /\ undisturbed t s s' /\
    (forall j, live s' j = true -> live s j = true \/ is_cls s' j = true) /\
    (class_ptr s i = Some k -> r = Some h) /\ (class_ptr s i <> Some k -> r = None).
Lemma FromReflected_eq t n h i s : good G s -> attached s t -> denotes s h (Some i) ->
  exists r s', FromReflected G t n (Some h) s = Ret r s' /\ tidy s' /\ reflects t h i n s s' r.
Proof.
  intros Gs A D. pose proof (good_wf Gs) as W. set (s1 := match class_ptr s i with Some c => given s t TClass c | None => s end).
  assert (inv G s1 /\ attached s1 t /\ tidy s1 /\ undisturbed t s s1 /\ frames s1 t = RefSpec.add_locals (frames s t) (opt_list (class_ptr s i)) /\ (forall j, live s1 j = live s j) /\ (forall k, class_ptr s i = Some k -> is_cls s1 k = true)) as (I1 & A1 & T1 & U1 & F1 & L1 & C1).
  { unfold s1. destruct (class_ptr s i) as [c|] eqn:C.
    - pose proof (class_ptr_cls W C) as Kc. destruct (given_passed W A (g_tidy Gs) Kc) as ((U & F & Lv) & _ & T & A').
      split; [apply given_inv; [apply Gs|apply is_cls_live; exact Kc]|]. split; [exact A'|]. split; [exact T|]. split; [exact U|]. split; [exact F|]. split; [exact Lv|]. intros k [= <-]. apply is_cls_given; auto.
    - split; [apply Gs|]. split; [exact A|]. split; [apply Gs|]. split; [apply undisturbed_refl|]. split; [|split; [auto|discriminate]]. unfold RefSpec.add_locals. simpl. destruct (frames s t); rewrite ?app_nil_r; reflexivity. }
  destruct (FindClass_z_spec false n I1 A1) as (r & s2 & s3 & E & I2 & Q & K & R & _ & N & F & I3 & S). destruct (N eq_refl) as [Nn _]. destruct r as [k|]; [|congruence].
  assert (class_named s2 n k) as Cn by (apply (class_named_iff _ _ I2); auto).
  assert (is_cls s2 k = true) as Kc by (apply is_cls_named; eauto).
  assert (attached s2 t) as A2 by (eapply quiet_attached; eauto).
  assert (tidy s2) as T2 by (apply (tidy_quiet I1 I2 K Q); exact T1).
  destruct (given_passed (inv_wf I2) A2 T2 Kc) as ((U3 & F3 & Lv3) & W3 & T3 & A3). rewrite <- S in *.
  assert (is_cls s3 k = true) as Kc3 by (subst s3; apply is_cls_given; auto).
  assert (forall x y, (forall j, x = Some j -> is_cls s3 j = true) -> (forall j, y = Some j -> is_cls s3 j = true) -> IsSameObject G x y s3 = Ret (opt_eqb x y) s3) as Eq.
  { intros x y Hx Hy. unfold IsSameObject. destruct (opt_eqb x y) eqn:Exy; [reflexivity|]. unfold bind.
    rewrite (@jnicast_obj G s3 x x W3) by (destruct x; [apply denotes_cls; auto|reflexivity]). rewrite (@jnicast_obj G s3 y y W3) by (destruct y; [apply denotes_cls; auto|reflexivity]). rewrite Exy. reflexivity. }
  exists (if opt_eqb (class_ptr s i) (Some k) then Some h else None), s3. split; [|split; [exact T3|]].
  - unfold FromReflected. unfold bind at 1. rewrite (GetObjectClass_eq G W A D). fold s1. unfold bind at 1. rewrite F. unfold bind. rewrite Eq; [reflexivity| |].
    + intros j Hj. specialize (C1 j Hj). apply is_cls_class_at in C1. destruct C1 as (c & C1). destruct (intact_class (quiet_intact Q (class_at_live C1)) C1) as (c' & C' & _). subst s3. apply is_cls_given. apply is_cls_class_at. eauto.
    + intros j [= <-]. exact Kc3.
  - exists k. split; [apply (class_named_iff _ _ I3); rewrite S, given_class; auto|]. split.
    { rewrite F3, (frames_quiet _ Q), F1. unfold RefSpec.add_locals, add_local. destruct (frames s t); [reflexivity|]. rewrite <- app_assoc. reflexivity. }
    split; [eapply undisturbed_trans; [exact U1|]; eapply undisturbed_trans; [apply quiet_undisturbed; exact Q|exact U3]|].
    split; [intros j Lj; rewrite Lv3 in Lj; destruct (quiet_new Q Lj) as [H|H]; [left; rewrite <- L1; exact H|right; subst s3; apply is_cls_given; exact H]|].
    destruct (opt_eqb_spec (class_ptr s i) (Some k)); split; congruence.
Qed.
Theorem FromReflected_step t h i s : good G s -> attached s t -> denotes s h (Some i) ->
  (exists r s', step G t (FromReflectedMethod_ (Some h)) s = Some (OVal (RRef r), s') /\ reflects t h i (S_ "java/lang/reflect/Method") s s' r) /\
  (exists r s', step G t (FromReflectedField_ (Some h)) s = Some (OVal (RRef r), s') /\ reflects t h i (S_ "java/lang/reflect/Field") s s' r).
Proof.
  intros Gs A D. split; [destruct (FromReflected_eq (S_ "java/lang/reflect/Method") Gs A D) as (r & s' & E & T & H)|destruct (FromReflected_eq (S_ "java/lang/reflect/Field") Gs A D) as (r & s' & E & T & H)];
    exists r, s'; (split; [|exact H]); apply step_tidy_ret; auto; cbn [body]; unfold as_ref, FromReflectedMethod, FromReflectedField, bind; rewrite E; reflexivity.
Qed.
Theorem ToReflected_step t c i isStatic s : good G s -> attached s t ->
  (forall m, method_at s i = Some m ->
     if Bool.eqb (m_static m) isStatic then
       exists s', step G t (ToReflectedMethod_ (Some c) (Some i) isStatic) s = Some (OVal (RRef (Some i)), s') /\ good G s' /\
         gained t (add_local (frames s t) i) (s_globals s) (s_ext s) s s' /\ (forall j, live s' j = live s j) /\ (forall j, class_ptr s' j = class_ptr s j)
     else step G t (ToReflectedMethod_ (Some c) (Some i) isStatic) s = Some (OVal (RRef None), s)) /\
  (forall f, field_at s i = Some f ->
     if Bool.eqb (f_static f) isStatic then
       exists s', step G t (ToReflectedField_ (Some c) (Some i) isStatic) s = Some (OVal (RRef (Some i)), s') /\ good G s' /\
         gained t (add_local (frames s t) i) (s_globals s) (s_ext s) s s' /\ (forall j, live s' j = live s j) /\ (forall j, class_ptr s' j = class_ptr s j)
     else step G t (ToReflectedField_ (Some c) (Some i) isStatic) s = Some (OVal (RRef None), s)).
Proof.
  intros Gs A. pose proof (good_wf Gs) as W.
  assert (forall o, (exists m, method_at s i = Some m) \/ (exists f, field_at s i = Some f) -> body G t o s = as_ref (NewLocalRef G t (Some i)) s ->
    exists s', step G t o s = Some (OVal (RRef (Some i)), s') /\ good G s' /\ gained t (add_local (frames s t) i) (s_globals s) (s_ext s) s s' /\ (forall j, live s' j = live s j) /\ (forall j, class_ptr s' j = class_ptr s j)) as K.
  { intros o Hk B. assert (denotes s i (Some i)) as Di.
    { destruct Hk as [(m & Hm)|(m & Hm)]; unfold method_at, field_at, contents in Hm; destruct (lookup s i) as [x|] eqn:L; try discriminate; simpl in Hm; destruct (o_pay x) eqn:P; try discriminate;
        eapply den_obj; eauto; rewrite P; discriminate. }
    assert (live s i = true) as L by (eapply denotes_target_live; eauto).
    assert (finish (pushed s t i) = pushed s t i) as F.
    { apply tidy_finish_id. eapply tidy_weaken; [|apply (tidy_pushed i W A (g_tidy Gs))]. simpl. tauto. }
    assert (step G t o s = Some (OVal (RRef (Some i)), pushed s t i)) as St.
    { unfold step. rewrite run_attached by auto. rewrite B. unfold as_ref, bind at 1, NewLocalRef, bind at 1. rewrite (@jnicast_obj G s (Some i) (Some i) W Di).
      unfold bind at 1. rewrite push_eq by auto. simpl. rewrite F. reflexivity. }
    exists (pushed s t i). split; [exact St|]. split; [eapply step_good; eauto|]. split; [apply pushed_gained; auto|]. split; [intros k; apply pushed_live|].
    intros k. apply class_ptr_heap, pushed_heap. }
  split; intros m Hm; (destruct (Bool.eqb _ isStatic) eqn:X; [apply K; eauto|apply step_read; auto]); cbn [body]; unfold as_ref at 1, ToReflectedMethod, ToReflectedField; unfold bind at 1 2;
    [rewrite (get_mth_eq Hm)|rewrite (get_mth_eq Hm)|rewrite (get_fld_eq Hm)|rewrite (get_fld_eq Hm)]; rewrite X; reflexivity.
Qed.

(** ** The class of an object *)
Definition CP (s s' : st) : Prop := length (s_heap s) <= length (s_heap s') /\
  forall i, i < length (s_heap s) -> live s' i = true -> live s i = true /\
    forall o o', lookup s i = Some o -> lookup s' i = Some o' -> forall c, o_clazz o = Some c -> c < length (s_heap s) -> live s' c = true -> o_clazz o' = Some c.
Lemma CP_trans a b c : CP a b -> CP b c -> CP a c.
Proof.
  intros [A B] [C D]. split; [lia|]. intros i L K. destruct (D i ltac:(lia) K) as [E F]. destruct (B i L E) as [E' F']. split; auto.
  intros o o' Lo Lo' k Ek Lk Lv. apply live_lookup in E. destruct E as (ob & Lb). destruct (D k ltac:(lia) Lv) as [Kb _]. apply (F ob o' Lb Lo' k); auto; [|lia]. eapply F'; eauto.
Qed.
Lemma CP_heap s s' : s_heap s' = s_heap s -> CP s s'.
Proof. intros H. unfold CP, live, lookup. rewrite H. split; [lia|]. intros i L K. split; auto. intros o o' L1 L2 c E _ _. congruence. Qed.
Lemma CP_add s o : CP s (add s o).
Proof.
  split; [unfold add; simpl; rewrite app_length; lia|]. intros i L K. unfold live in *. rewrite lookup_add in *. destruct (Nat.eqb_spec i (length (s_heap s))); [lia|]. split; auto. intros o1 o' L1 L2 c E _ _. congruence.
Qed.
Lemma CP_put s i x o : lookup s i = Some x -> (forall c, o_clazz x = Some c -> live s c = true -> o_clazz o = Some c) -> CP s (put s i o).
Proof.
  intros L M. split; [unfold put; simpl; rewrite list_set_length; lia|]. intros j Lj K. rewrite (live_put _ _ L) in K. split; auto.
  intros o1 o' L1 L2 c E _ Lc. rewrite (live_put _ _ L) in Lc. rewrite (lookup_put _ _ L) in L2. destruct (Nat.eqb_spec i j); [subst j; injection L2 as <-; apply M; congruence|congruence].
Qed.
Ltac cp := first [apply CP_heap; reflexivity|apply CP_add|eapply CP_put; [eassumption|]; simpl; solve [auto]].
Lemma CP_newm s i o c m : lookup s i = Some o -> CP s (newm s i o c m).
Proof.
  intros L. unfold newm. eapply CP_trans; [apply CP_add|]. apply (@CP_put _ i o); [|simpl; auto]. rewrite lookup_add. pose proof (lookup_lt _ _ L). destruct (Nat.eqb_spec i (length (s_heap s))); [lia|auto].
Qed.
Lemma CP_newf s i o c m : lookup s i = Some o -> CP s (newf s i o c m).
Proof.
  intros L. unfold newf. eapply CP_trans; [apply CP_add|]. apply (@CP_put _ i o); [|simpl; auto]. rewrite lookup_add. pose proof (lookup_lt _ _ L). destruct (Nat.eqb_spec i (length (s_heap s))); [lia|auto].
Qed.
Lemma CP_collect s : CP s (collect s).
Proof.
  split; [apply collect_ident|]. intros i L K. apply live_lookup in K. destruct K as (o & K). split; [apply live_lookup; exists o; apply (collect_sub _ _ K)|].
  intros o1 o' L1 L2 c E _ _. apply collect_sub in L2. congruence.
Qed.
Lemma CP_fine t : fine G t (fun _ => True) CP.
Proof.
  constructor; intros; try cp; try (apply CP_newm; auto; fail); try (apply CP_newf; auto; fail); try apply CP_collect; try (eapply CP_trans; eauto; fail).
  - apply (@find_fine G CP); auto; intros; try cp. eapply CP_trans; eauto.
  - eapply CP_put; [eassumption|]. intros c E L. apply H2 in E. congruence.
Qed.
Theorem class_ptr_kept l s vs s' i k : good G s -> exec G l s = Some (vs, s') -> class_ptr s i = Some k -> live s' i = true -> class_ptr s' i = Some k.
Proof.
  intros Gs E C L. pose proof (good_wf Gs) as W. pose proof (fine_history CP_fine W E) as [_ P]. pose proof (class_ptr_cls W C) as Kc.
  unfold class_ptr in C. destruct (lookup s i) as [o|] eqn:Lo; [|discriminate]. destruct (o_clazz o) as [c|] eqn:Ec; [|discriminate]. destruct (live s c) eqn:Lc; [|discriminate]. injection C as ->.
  destruct (P i (lookup_lt _ _ Lo) L) as [_ Q]. apply live_lookup in L. destruct L as (o' & L').
  assert (live s' k = true) as Lk.
  { apply is_cls_named in Kc. destruct Kc as (n & Kn). apply (class_named_iff _ _ (g_inv Gs)) in Kn. apply is_cls_live, is_cls_named. exists n. apply (class_named_iff _ _ (g_inv (exec_good Gs E))).
    apply (exec_inv l (g_inv Gs) E). exact Kn. }
  unfold class_ptr. rewrite L', (Q o o' Lo L' k Ec (live_lt _ _ Lc) Lk), Lk. reflexivity.
Qed.
(** The class that C++ code gives an object: that of the static type of the first shared_ptr it passes. *)
Theorem UToJNI_step t Y i x s : good G s -> attached s t -> In i (s_ext s) -> contents s i = Some x -> isa G x Y = true ->
  exists s', step G t (UToJNI_ Y i) s = Some (OVal (RRef (Some i)), s') /\ good G s' /\
    class_ptr s' i = (match class_ptr s i with Some k => Some k | None => registered s Y end) /\
    frames s' t = add_local (frames s t) i /\ undisturbed t s s' /\ (forall j, live s' j = live s j).
Proof.
  intros Gs A Ie C Is. pose proof (good_wf Gs) as W. assert (exists o, lookup s i = Some o /\ o_pay o = x) as (o & L & P).
  { unfold contents in C. destruct (lookup s i) as [o|]; [|discriminate]. injection C as <-. eauto. }
  assert (live s i = true) as Lv by (apply live_lookup; eauto).
  exists (given s t Y i). assert (step G t (UToJNI_ Y i) s = Some (OVal (RRef (Some i)), given s t Y i)) as St.
  { apply step_tidy_ret; auto.
    - cbn [body]. unfold as_ref, UToJNI. unfold bind at 1 2, gets. unfold bind at 1, deref. rewrite L. assert (memb i (s_ext s) = true) as -> by (apply memb_In; exact Ie). rewrite P, Is. cbn [andb].
      rewrite given_eq by auto. reflexivity.
    - eapply tidy_weaken; [|apply (given_tidy Y i W A (g_tidy Gs))]. simpl. tauto. }
  split; [exact St|]. split; [eapply step_good; eauto|]. split; [apply given_class_ptr; auto|]. split; [apply given_frames; auto|]. split; [apply given_undisturbed; auto|]. intros j. apply given_live_eq.
Qed.
End Cfg.
