(** The GetMethodID and GetFieldID steps. *)
From Verif Require Import Base BaseProofs SigModel VmState VmModel VmStep VmSpec MemSpec VmBase VmFrame VmWf VmPrim VmInv VmReg
  VmFine VmRegInv VmExact VmQuiet VmClass VmMember VmMember2.
Set Implicit Arguments.
Unset Strict Implicit.
Local Open Scope vm_scope.
Local Open Scope char_scope.

Lemma tstep_same s s' : tstep s s' -> same_but_types s s'.
Proof. intros [[A B] _ _]. split; auto. Qed.
Lemma same_types_undisturbed t s s' : same_but_types s s' -> undisturbed t s s'.
Proof.
  intros [A B]. rewrite A in *. constructor; auto. intros i L. apply intact_heap; auto.
Qed.
Lemma upto_paren_spec s : match upto_paren s with
  | Some p => exists a b, s = a ++ ")" :: b /\ ~ In ")" a /\ p = a ++ [")"]
  | None => ~ In ")" s end.
Proof.
  induction s as [|x s IH]; simpl; [tauto|]. destruct (Ascii.eqb_spec x ")").
  - subst. exists [], s. simpl. auto.
  - destruct (upto_paren s) as [p|].
    + destruct IH as (a & b & -> & N & ->). exists (x :: a), b. simpl. split; auto. split; auto. intros [K|K]; auto.
    + intros [K|K]; auto.
Qed.
Lemma split_paren (a b a' b' : str) : a ++ ")" :: b = a' ++ ")" :: b' -> ~ In ")" a -> ~ In ")" a' -> a = a'.
Proof.
  revert a'. induction a as [|x a IH]; intros [|y a'] H N N'; simpl in *; auto.
  - inversion H; subst. tauto.
  - inversion H; subst. tauto.
  - inversion H; subst. f_equal. apply IH; auto.
Qed.
Lemma asks_eq s cl st nm sg st' sg' c : class_at s cl = Some c -> asks s cl st nm sg st' sg' ->
  if negb st && str_eqb nm (S_ "<init>") then st' = true /\ sg' = init_sig sg (c_prefix c) else st' = st /\ sg' = sg.
Proof.
  intros C A. pose proof (upto_paren_spec sg) as U. inversion A; subst.
  - assert (negb st' && str_eqb nm (S_ "<init>") = false) as ->; auto.
    destruct H as [->|H]; auto. destruct (str_eqb_spec nm (S_ "<init>")); [congruence|]. apply andb_false_r.
  - simpl. rewrite H1 in C. inversion C; subst. split; auto. unfold init_sig. destruct (upto_paren _) as [p|].
    + destruct U as (a' & b' & E & N & ->). simpl in E. apply split_paren in E; auto. subst. rewrite <- app_assoc. auto.
    + exfalso. apply U. rewrite !in_app_iff. simpl. auto.
  - simpl. rewrite H1 in C. inversion C; subst. split; auto. unfold init_sig. destruct (upto_paren _) as [p|]; auto.
    destruct U as (a' & b' & E & N & ->). exfalso. apply H2. rewrite E, in_app_iff. simpl. auto.
Qed.
Lemma asks_total s cl st nm sg c : class_at s cl = Some c -> exists st' sg', asks s cl st nm sg st' sg'.
Proof.
  intros C. destruct st; [do 2 eexists; apply asks_plain; auto|].
  destruct (str_eqb_spec nm (S_ "<init>")); [|do 2 eexists; apply asks_plain; auto]. pose proof (upto_paren_spec sg) as U.
  destruct (upto_paren sg) as [p|].
  - destruct U as (a & b & -> & N & ->). do 2 eexists. apply (@asks_ctor s cl false nm (a ++ ")" :: b) c a b); auto.
  - do 2 eexists. eapply asks_bad; eauto.
Qed.

Lemma fab_class_at s cl o c p : lookup s cl = Some o -> o_pay o = PClass c ->
  class_at (fab s cl o c p) cl = Some (with_member c p (length (s_heap s))).
Proof. intros L P. rewrite class_at_of. unfold cls_of. rewrite (@fab_cl _ cl o c p L). auto. Qed.
Lemma intact_class s s' i c : intact s s' i -> class_at s i = Some c -> exists c', class_at s' i = Some c' /\
  c_methods c' = c_methods c /\ c_fields c' = c_fields c /\
    c_name c' = c_name c /\ c_prefix c' = c_prefix c /\ c_natives c' = c_natives c /\ c_inst c' = c_inst c /\
    c_instarr c' = c_instarr c /\ c_bases c' = c_bases c.
Proof.
  intros (o & o' & L & L' & V & _) C. unfold class_at, contents in *. rewrite L in C. rewrite L'. simpl in *.
  destruct (o_pay o) eqn:P; inversion C; subst. destruct (o_pay o') eqn:P'; simpl in V; try discriminate.
  inversion V. eexists. split; eauto. repeat split; auto.
Qed.
Lemma intact_monitor s s' i : intact s s' i -> monitor s' i = monitor s i.
Proof. intros (o & o' & L & L' & _ & E & _). unfold monitor. rewrite L, L'. auto. Qed.
Lemma intact_contents s s' i p : intact s s' i -> contents s i = Some p -> exists p', contents s' i = Some p' /\ view p' = view p.
Proof. intros (o & o' & L & L' & V & _). unfold contents. rewrite L, L'. simpl. intros [= <-]. eauto. Qed.
Lemma intact_method s s' i m : intact s s' i -> method_at s i = Some m -> method_at s' i = Some m.
Proof.
  intros H. unfold method_at. destruct (contents s i) as [p|] eqn:E; [|discriminate].
  destruct (intact_contents H E) as (p' & -> & V). intros K. destruct p; inversion K; subst.
  destruct p'; simpl in V; try discriminate. congruence.
Qed.
Lemma intact_field s s' i m : intact s s' i -> field_at s i = Some m -> field_at s' i = Some m.
Proof.
  intros H. unfold field_at. destruct (contents s i) as [p|] eqn:E; [|discriminate].
  destruct (intact_contents H E) as (p' & -> & V). intros K. destruct p; inversion K; subst.
  destruct p'; simpl in V; try discriminate. congruence.
Qed.

Lemma live_length_ s : live s (length (s_heap s)) = false.
Proof. destruct (live s (length (s_heap s))) eqn:E; auto. apply live_lt in E. lia. Qed.

Section Cfg.
Variable G : cfg.

(** everything known about a fabricated member *)
Lemma fab_result t sg l s s1 o c cl p s' : inv G s -> tidy s -> attached s t -> tstep s s1 ->
  lookup s1 cl = Some o -> o_pay o = PClass c -> is_member p -> (debug G = true -> Declare_names sg = Ok l) ->
  declared G t sg (fab s1 cl o c p) s' ->
  inv G s' /\ tidy s' /\ lookup s' (length (s_heap s)) <> None /\
  contents s' (length (s_heap s)) = Some p /\
  (exists c', class_at s' cl = Some c' /\
    c_methods c' = c_methods (with_member c p (length (s_heap s))) /\ c_fields c' = c_fields (with_member c p (length (s_heap s))) /\
    c_name c' = c_name c /\ c_prefix c' = c_prefix c /\ c_natives c' = c_natives c /\ c_inst c' = c_inst c /\
    c_instarr c' = c_instarr c /\ c_bases c' = c_bases c) /\ class_at s cl = Some c /\ monitor s' cl = monitor s cl /\
  disturbs (eq cl) t s s' /\ brought G t l s s'.
Proof.
  intros I Ti A T L P M Dn D. pose proof (tstep_inv I T) as I1. pose proof (tmore_heap (ts_more T)) as Hh.
  assert (lookup s cl = Some o) as Ls by (rewrite <- L; symmetry; apply (tmore_lookup _ (ts_more T))).
  set (s2 := fab s1 cl o c p) in *. assert (inv G s2) as I2 by (apply (fab_inv I1 M L P)).
  assert (tidy s2) as T2 by (apply (fab_tidy M L P), (tstep_tidy (inv_wf I) T), Ti).
  pose proof (@fab_new _ cl o c p L) as N2. fold s2 in N2. rewrite Hh in N2.
  pose proof (fab_class_at p L P) as C2. fold s2 in C2. rewrite Hh in C2.
  assert (disturbs (eq cl) t s s2) as D2.
  { eapply disturbs_trans; [apply disturbs_un, same_types_undisturbed, tstep_same; eauto|apply fab_disturbs; auto]. }
  assert (monitor s2 cl = monitor s cl) as M2.
  { unfold monitor. unfold s2. rewrite (@fab_cl _ cl o c p L), Ls. auto. }
  assert (frames s2 t = frames s t) as F2.
  { unfold frames. change (get_env s2 t) with (get_env s1 t). rewrite (tmore_env _ (ts_more T)). auto. }
  assert (class_at s cl = Some c) as Cs by (rewrite class_at_of; unfold cls_of; rewrite Ls, P; auto).
  unfold declared, brought in *. destruct (debug G) eqn:Dg.
  - destruct D as (l' & El & K). rewrite (Dn eq_refl) in El. inversion El; subst l'.
    assert (live s2 (length (s_heap s)) = true) as Ln by (unfold live; rewrite N2; auto).
    assert (live s2 cl = true) as Lc by (eapply class_at_live; eauto).
    pose proof (u_obj (l_und K) Ln) as In_. pose proof (u_obj (l_und K) Lc) as Ic.
    split; [apply K|]. split; [apply K; auto|]. split; [apply intact_live in In_; unfold live in In_; destruct (lookup s' _); congruence|].
    split.
    { assert (contents s2 (length (s_heap s)) = Some p) as Hp by (unfold contents; rewrite N2; auto).
      destruct (intact_contents In_ Hp) as (p' & -> & V). f_equal. destruct p; simpl in M; try tauto; destruct p'; simpl in V; congruence. }
    split.
    { destruct (intact_class Ic C2) as (c' & C' & H1 & H2 & H3 & H4 & H5 & H6 & H7 & H8). exists c'. split; auto.
      rewrite H1, H2, H3, H4, H5, H6, H7, H8. destruct p; simpl in M; try tauto; simpl; repeat split; auto. }
    split; auto. split; [rewrite (intact_monitor Ic); auto|]. split; [eapply disturbs_trans; eauto; apply disturbs_un, K|].
    destruct (l_frames K) as (ks & Fk & Hk). exists ks. split; [|rewrite Fk, F2; reflexivity].
    pose proof (l_inv K) as Ik. clear -Hk Ik. induction Hk; constructor; auto. apply (class_named_iff _ _ Ik). auto.
  - subst s'. split; auto. split; auto. split; [congruence|]. split; [unfold contents; rewrite N2; auto|]. split.
    { eexists. split; eauto. destruct p; simpl in M; try tauto; simpl; repeat split; auto. }
    auto.
Qed.

Theorem GetMethodID_step t st nm sg st' sg' l h cl L s : good G s -> attached s t -> denotes_opt s h (Some cl) -> dfs G s cl L ->
  asks s cl st nm sg st' sg' -> (debug G = true -> Declare_names sg' = Ok l) ->
  exists r s', step G t (GetMethodID_ st h nm sg) s = Some (OVal (RRef r), s') /\ good G s' /\
    got_method G t st' nm sg' l cl s s' r.
Proof.
  intros [I Ti] A Dh D As Dn. pose proof (inv_wf I) as W.
  assert (exists c, class_at s cl = Some c) as (c & Ec).
  { inversion D; subst. destruct (class_at s cl); eauto. congruence. }
  assert (method_id G t (retnull G) st' nm sg' cl s (GetMethodID G t st h nm sg s)) as H.
  { unfold GetMethodID, bind at 1, gets. unfold depth. pose proof (asks_eq Ec As) as E.
    replace (length (s_heap s) + 2) with (S (S (length (s_heap s)))) by lia. assert (exists n, n = S (length (s_heap s))) as (n & En) by eauto. rewrite <- En.
    destruct (negb st && str_eqb nm (S_ "<init>")) eqn:B.
    - destruct E as [-> ->]. cbn [getMethodID]. unfold bind at 1. rewrite (jnicast_class G W Dh Ec). unfold bind at 1. rewrite (get_cls_eq Ec), B.
      eapply getMethodID_level; eauto. lia.
    - destruct E as [-> ->]. eapply getMethodID_level; eauto; [|lia].
      destruct st; auto. right. intros ->. discriminate B. }
  assert (step G t (GetMethodID_ st h nm sg) s = match GetMethodID G t st h nm sg s with
    | Ret r s' => Some (OVal (RRef r), finish s') | Thr e s' => Some (OExn e, finish s') | _ => None end) as St.
  { unfold step. rewrite run_attached by auto. cbn [body]. unfold as_ref, bind. destruct (GetMethodID G t st h nm sg s); auto. }
  inversion H; subst.
  - assert (tidy s') as T' by (apply (tstep_tidy W H2); auto). exists (Some i), s'. rewrite <- H0, (tidy_finish_id T') in St.
    split; auto. split; [constructor; auto; eapply tstep_inv; eauto|]. apply gm_found; auto. apply tstep_same; auto.
  - assert (tidy s') as T' by (apply (tstep_tidy W H3); auto). exists None, s'. rewrite <- H0, (tidy_finish_id T') in St.
    split; auto. split; [constructor; auto; eapply tstep_inv; eauto|]. apply gm_null; auto. apply tstep_same; auto.
  - destruct (fab_result (p := PMethod (mkMth nm sg' st' None None)) I Ti A H3 H4 H5 Logic.I Dn H7) as (I' & T' & _ & Cp & (c' & Cc & F) & Cs & Mo & Di & Br).
    exists (Some (length (s_heap s))), s'. rewrite <- H0, (tidy_finish_id T') in St.
    split; auto. split; [constructor; auto|]. apply gm_new; auto.
    + unfold method_at. rewrite Cp. auto.
    + exists c0, c'. simpl in F. rewrite app_nil_r. intuition.
  - exfalso. match goal with K : forall l, Declare_names _ <> Ok l |- _ => eapply K, Dn; auto end.
Qed.
Theorem GetMethodID_ret t st nm sg st' sg' h cl L s v s' : good G s -> attached s t -> denotes_opt s h (Some cl) -> dfs G s cl L ->
  asks s cl st nm sg st' sg' -> step G t (GetMethodID_ st h nm sg) s = Some (OVal v, s') ->
  exists r l, v = RRef r /\ (r = Some (length (s_heap s)) -> debug G = true -> Declare_names sg' = Ok l) /\
    got_method G t st' nm sg' l cl s s' r.
Proof.
  intros [I Ti] A Dh D As Sv. pose proof (inv_wf I) as W.
  assert (exists c, class_at s cl = Some c) as (c & Ec).
  { inversion D; subst. destruct (class_at s cl); eauto. congruence. }
  assert (method_id G t (retnull G) st' nm sg' cl s (GetMethodID G t st h nm sg s)) as H.
  { unfold GetMethodID, bind at 1, gets. unfold depth. pose proof (asks_eq Ec As) as E.
    replace (length (s_heap s) + 2) with (S (S (length (s_heap s)))) by lia. assert (exists n, n = S (length (s_heap s))) as (n & En) by eauto. rewrite <- En.
    destruct (negb st && str_eqb nm (S_ "<init>")) eqn:B.
    - destruct E as [-> ->]. cbn [getMethodID]. unfold bind at 1. rewrite (jnicast_class G W Dh Ec). unfold bind at 1. rewrite (get_cls_eq Ec), B.
      eapply getMethodID_level; eauto. lia.
    - destruct E as [-> ->]. eapply getMethodID_level; eauto; [|lia].
      destruct st; auto. right. intros ->. discriminate B. }
  assert (step G t (GetMethodID_ st h nm sg) s = match GetMethodID G t st h nm sg s with
    | Ret r s' => Some (OVal (RRef r), finish s') | Thr e s' => Some (OExn e, finish s') | _ => None end) as St.
  { unfold step. rewrite run_attached by auto. cbn [body]. unfold as_ref, bind. destruct (GetMethodID G t st h nm sg s); auto. }
  rewrite Sv in St. inversion H as [i0 s0 Hf Ts E0|s0 Hf Hr Ts E0|s1 o0 c0 s2 s0 Hf Hr Ts Lo Po E2 Hd E0|x Hf Hr Dg Nd Bad E0]; rewrite <- E0 in St.
  - assert (tidy s0) as T' by (apply (tstep_tidy W Ts); auto). rewrite (tidy_finish_id T') in St. injection St as Ev Es. subst v s'.
    exists (Some i0), []. split; auto. split; [|apply gm_found; auto; apply tstep_same; auto].
    intros Ei. injection Ei as ->. exfalso. destruct Hf as (L1 & D1 & F1). apply first_in_In in F1. destruct F1 as [_ (m & Hm & _)].
    pose proof (live_length_ s) as Ll. unfold method_at, contents in Hm. unfold live in Ll. destruct (lookup s (length (s_heap s))); [discriminate|]. simpl in Hm. discriminate.
  - assert (tidy s0) as T' by (apply (tstep_tidy W Ts); auto). rewrite (tidy_finish_id T') in St. injection St as Ev Es. subst v s'.
    exists None, []. split; auto. split; [discriminate|apply gm_null; auto; apply tstep_same; auto].
  - subst s2. assert (exists l, debug G = true -> Declare_names sg' = Ok l) as (l & Dn).
    { unfold declared in Hd. destruct (debug G); [destruct Hd as (l & ? & _); exists l; auto|exists []; discriminate]. }
    destruct (fab_result (p := PMethod (mkMth nm sg' st' None None)) I Ti A Ts Lo Po Logic.I Dn Hd) as (I' & T' & _ & Cp & (c' & Cc & F) & Cs & Mo & Di & Br).
    rewrite (tidy_finish_id T') in St. injection St as Ev Es. subst v s'.
    exists (Some (length (s_heap s))), l. split; auto. split; auto. apply gm_new; auto.
    + unfold method_at. rewrite Cp. auto.
    + exists c0, c'. simpl in F. rewrite app_nil_r. intuition.
  - exfalso. destruct x; try discriminate. eapply Bad; eauto.
Qed.
Theorem GetFieldID_step t st nm ty l h cl L s : good G s -> attached s t -> denotes_opt s h (Some cl) -> dfs G s cl L ->
  (debug G = true -> Declare_names ty = Ok l) ->
  exists r s', step G t (GetFieldID_ st h nm ty) s = Some (OVal (RRef r), s') /\ good G s' /\
    got_field G t st nm ty l cl s s' r.
Proof.
  intros [I Ti] A Dh D Dn. pose proof (inv_wf I) as W.
  assert (exists c, class_at s cl = Some c) as (c & Ec).
  { inversion D; subst. destruct (class_at s cl); eauto. congruence. }
  assert (field_id G t (retnull G) st nm ty cl s (GetFieldID G t st h nm ty s)) as H.
  { unfold GetFieldID, bind at 1, gets. eapply getFieldID_level; eauto. unfold depth. lia. }
  assert (step G t (GetFieldID_ st h nm ty) s = match GetFieldID G t st h nm ty s with
    | Ret r s' => Some (OVal (RRef r), finish s') | Thr e s' => Some (OExn e, finish s') | _ => None end) as St.
  { unfold step. rewrite run_attached by auto. cbn [body]. unfold as_ref, bind. destruct (GetFieldID G t st h nm ty s); auto. }
  inversion H; subst.
  - assert (tidy s') as T' by (apply (tstep_tidy W H2); auto). exists (Some i), s'. rewrite <- H0, (tidy_finish_id T') in St.
    split; auto. split; [constructor; auto; eapply tstep_inv; eauto|]. apply gf_found; auto. apply tstep_same; auto.
  - assert (tidy s') as T' by (apply (tstep_tidy W H3); auto). exists None, s'. rewrite <- H0, (tidy_finish_id T') in St.
    split; auto. split; [constructor; auto; eapply tstep_inv; eauto|]. apply gf_null; auto. apply tstep_same; auto.
  - destruct (fab_result (p := PField (mkFld nm ty st None None)) I Ti A H3 H4 H5 Logic.I Dn H7) as (I' & T' & _ & Cp & (c' & Cc & F) & Cs & Mo & Di & Br).
    exists (Some (length (s_heap s))), s'. rewrite <- H0, (tidy_finish_id T') in St.
    split; auto. split; [constructor; auto|]. apply gf_new; auto.
    + unfold field_at. rewrite Cp. auto.
    + exists c0, c'. simpl in F. rewrite app_nil_r. intuition.
  - exfalso. match goal with K : forall l, Declare_names _ <> Ok l |- _ => eapply K, Dn; auto end.
Qed.
Theorem GetFieldID_ret t st nm ty h cl L s v s' : good G s -> attached s t -> denotes_opt s h (Some cl) -> dfs G s cl L ->
  step G t (GetFieldID_ st h nm ty) s = Some (OVal v, s') ->
  exists r l, v = RRef r /\ (r = Some (length (s_heap s)) -> debug G = true -> Declare_names ty = Ok l) /\
    got_field G t st nm ty l cl s s' r.
Proof.
  intros [I Ti] A Dh D Sv. pose proof (inv_wf I) as W.
  assert (exists c, class_at s cl = Some c) as (c & Ec).
  { inversion D; subst. destruct (class_at s cl); eauto. congruence. }
  assert (field_id G t (retnull G) st nm ty cl s (GetFieldID G t st h nm ty s)) as H.
  { unfold GetFieldID, bind at 1, gets. eapply getFieldID_level; eauto. unfold depth. lia. }
  assert (step G t (GetFieldID_ st h nm ty) s = match GetFieldID G t st h nm ty s with
    | Ret r s' => Some (OVal (RRef r), finish s') | Thr e s' => Some (OExn e, finish s') | _ => None end) as St.
  { unfold step. rewrite run_attached by auto. cbn [body]. unfold as_ref, bind. destruct (GetFieldID G t st h nm ty s); auto. }
  rewrite Sv in St. inversion H as [i0 s0 Hf Ts E0|s0 Hf Hr Ts E0|s1 o0 c0 s2 s0 Hf Hr Ts Lo Po E2 Hd E0|x Hf Hr Dg Nd Bad E0]; rewrite <- E0 in St.
  - assert (tidy s0) as T' by (apply (tstep_tidy W Ts); auto). rewrite (tidy_finish_id T') in St. injection St as Ev Es. subst v s'.
    exists (Some i0), []. split; auto. split; [|apply gf_found; auto; apply tstep_same; auto].
    intros Ei. injection Ei as ->. exfalso. destruct Hf as (L1 & D1 & F1). apply first_in_In in F1. destruct F1 as [_ (m & Hm & _)].
    pose proof (live_length_ s) as Ll. unfold field_at, contents in Hm. unfold live in Ll. destruct (lookup s (length (s_heap s))); [discriminate|]. simpl in Hm. discriminate.
  - assert (tidy s0) as T' by (apply (tstep_tidy W Ts); auto). rewrite (tidy_finish_id T') in St. injection St as Ev Es. subst v s'.
    exists None, []. split; auto. split; [discriminate|apply gf_null; auto; apply tstep_same; auto].
  - subst s2. assert (exists l, debug G = true -> Declare_names ty = Ok l) as (l & Dn).
    { unfold declared in Hd. destruct (debug G); [destruct Hd as (l & ? & _); exists l; auto|exists []; discriminate]. }
    destruct (fab_result (p := PField (mkFld nm ty st None None)) I Ti A Ts Lo Po Logic.I Dn Hd) as (I' & T' & _ & Cp & (c' & Cc & F) & Cs & Mo & Di & Br).
    rewrite (tidy_finish_id T') in St. injection St as Ev Es. subst v s'.
    exists (Some (length (s_heap s))), l. split; auto. split; auto. apply gf_new; auto.
    + unfold field_at. rewrite Cp. auto.
    + exists c0, c'. simpl in F. rewrite app_nil_r. intuition.
  - exfalso. destruct x; try discriminate. eapply Bad; eauto.
Qed.
End Cfg.
