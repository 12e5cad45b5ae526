(** Careful clients never use dangling references. *)
From Verif Require Import Base BaseProofs SigModel VmState VmModel VmStep VmSpec MemSpec CallSpec RefSpec VmBase VmFrame VmWf VmPrim VmInv VmReg
  VmFine VmRegInv VmExact VmQuiet VmClass VmMember VmMember2 VmMember3 VmTables VmHook VmEnvInv VmMemHist VmCall VmCall2 VmThread VmDemo ClassProps VmRef VmRef2.
Set Implicit Arguments.
Unset Strict Implicit.

Section Cfg.
Variable G : cfg.
Notation add_locals := RefSpec.add_locals.

Lemma refs_in_app a b i : refs_in (a ++ b) i = refs_in a i + refs_in b i.
Proof. apply count_occ_app. Qed.
Lemma refs_in_cons x b i : refs_in (x :: b) i = (if Nat.eqb x i then 1 else 0) + refs_in b i.
Proof. unfold refs_in. simpl. destruct (Nat.eq_dec x i), (Nat.eqb_spec x i); try congruence; auto. Qed.
Lemma refs_in_In l i : In i l <-> refs_in l i > 0.
Proof. apply (count_occ_In Nat.eq_dec). Qed.
Lemma refs_in_not l i : ~ In i l -> refs_in l i = 0.
Proof. intros H. apply (proj1 (count_occ_not_In Nat.eq_dec l i) H). Qed.
Lemma sub_refl a : sublists a a.
Proof. induction a; constructor; auto. Qed.
Lemma sub_concat a b i : sublists a b -> In i (concat a) -> In i (concat b).
Proof.
  induction 1 as [|x y a b H Hs IH]; simpl; auto. rewrite !in_app_iff. intros [Hi|Hi]; auto. left.
  apply refs_in_In. apply refs_in_In in Hi. specialize (H i). lia.
Qed.
Lemma sub_add a b xs : sublists a b -> sublists a (add_locals b xs).
Proof. intros H. destruct H; simpl; constructor; auto. intros i. rewrite refs_in_app. specialize (H i). lia. Qed.
Lemma sub_add2 a b xs ys : (forall i, refs_in xs i <= refs_in ys i) -> sublists a b -> sublists (add_locals a xs) (add_locals b ys).
Proof. intros E H. destruct H; simpl; constructor; auto. intros i. rewrite !refs_in_app. specialize (H i). specialize (E i). lia. Qed.
Lemma sub_below a b : sublists a b -> sublists (below a) (below b).
Proof. intros H. destruct H as [|x y a b H Hs]; simpl; [apply sub_refl|]. destruct Hs; [apply sub_refl|constructor; auto]. Qed.
Lemma sub_del1 i a b a' : sublists a b -> deleted i a a' -> sublists a' b.
Proof.
  intros H D. revert b H. induction D; intros b0 H1; inversion H1; subst; constructor; auto.
  - intros j. specialize (H3 j). rewrite !refs_in_app, ?refs_in_cons in *. destruct (Nat.eqb_spec i j); lia.
  - apply IHD. auto.
Qed.
Lemma sub_deleted i a b a' b' : sublists a b -> deleted i a a' -> deleted i b b' -> sublists a' b'.
Proof.
  intros H. revert a' b'. induction H as [|x y a b H Hs IH]; intros a' b' D1 D2; [inversion D1; inversion D2; subst; constructor|].
  inversion D1; inversion D2; subst.
  - constructor; auto. intros j. specialize (H j). rewrite !refs_in_app, ?refs_in_cons in *. destruct (Nat.eqb_spec i j); lia.
  - exfalso. assert (In i y); [|tauto]. apply refs_in_In. specialize (H i). rewrite refs_in_app, refs_in_cons, Nat.eqb_refl in H. lia.
  - constructor; [|eapply sub_del1; eauto]. intros j. specialize (H j). rewrite !refs_in_app, ?refs_in_cons in *. destruct (Nat.eqb_spec i j); [subst|lia].
    rewrite (refs_in_not H2). lia.
  - constructor; auto. eapply IH; eauto.
Qed.

Lemma set_local_same L t x : b_local (set_local L t x) t = x.
Proof. simpl. rewrite Nat.eqb_refl. auto. Qed.
Lemma set_local_other L t x u : u <> t -> b_local (set_local L t x) u = b_local L u.
Proof. simpl. destruct (Nat.eqb_spec t u); congruence. Qed.

(** All handles in the book are valid. *)
Lemma mine_live L s t h i : solid G s -> booked_right L s -> mine L t h -> h = Some i -> live s i = true.
Proof.
  intros So B M E. pose proof (so_good So) as Gs. destruct (M i E) as [(fs & F & Hi)|[Hi|Hi]].
  - pose proof (br_local B t) as H. rewrite F in H. destruct H as ((e & Ee) & Sb). apply (@frames_live s t e i (good_wf Gs) Ee). rewrite <- (frames_env Ee). eapply sub_concat; eauto.
  - destruct (br_global B Hi) as (_ & j & Hj & _). eapply (@handle_live false). split; [apply (br_global B Hi)|exact Hj].
  - destruct (br_weak B Hi) as (_ & j & Hj). eapply (@handle_live true). split; [apply (br_weak B Hi)|exact Hj].
Qed.
Lemma mine_denotes L s t h : solid G s -> booked_right L s -> mine L t h -> exists r, denotes_opt s h r.
Proof.
  intros So B M. destruct h as [i|]; [|exists None; reflexivity]. destruct (denotes_total (good_wf (so_good So)) (mine_live So B M eq_refl)) as (r & D). exists r. exact D.
Qed.
Lemma local_mine L t h : mine_local L t h -> mine L t h.
Proof. intros M i E. left. eauto. Qed.
Lemma mine_attached L s t o : booked_right L s -> allowed L t o -> o <> Attach_ -> attached s t.
Proof. intros B [H _] N. specialize (H N). pose proof (br_local B t) as Q. destruct (b_local L t); [apply Q|congruence]. Qed.

(** A careful call is never undefined. *)
Theorem allowed_defined L s t o : solid G s -> booked_right L s -> allowed L t o -> (o = Detach_ -> running s t = []) -> exists v s', step G t o s = Some (v, s').
Proof.
  intros So B Al Rn. pose proof (so_good So) as Gs. pose proof Al as [H Ho].
  destruct o; try (destruct Ho; fail); try (assert (attached s t) as A by (eapply mine_attached; eauto; discriminate)).
  - destruct (FindClass_step name Gs A) as (r & s' & E & _). eauto.
  - destruct (PushLocalFrame_step cap So A) as (s' & E & _). eauto.
  - assert (mine L t h) as M by (intros i E; destruct (Ho i E); auto). destruct (mine_denotes So B M) as (r & D).
    destruct (PopLocalFrame_step Gs A D) as (s' & _ & E). destruct r; destruct E as [E _]; eauto.
  - destruct (mine_denotes So B Ho) as (r & D). pose proof (NewGlobalRef_step Gs A D) as E. destruct r; [destruct E as (g & s' & E & _)|]; eauto.
  - destruct h as [g|]; [|exact (ex_intro _ _ (ex_intro _ _ (del_global_null false Gs A)))]. destruct (br_global B (Ho g eq_refl)) as (_ & j & P & _).
    destruct (@del_global_step G false t g _ s Gs A P) as (s' & gl & E & _). eauto.
  - destruct (mine_denotes So B (local_mine Ho)) as (r & D). destruct (DeleteLocalRef_step Gs A D) as (s' & E & _). eauto.
  - destruct Ho as [Ma Mb]. destruct (mine_denotes So B Ma) as (ra & Da). destruct (mine_denotes So B Mb) as (rb & Db). destruct (IsSameObject_step Gs A Da Db) as (r & E & _). eauto.
  - destruct (mine_denotes So B Ho) as (r & D). destruct (NewLocalRef_step Gs A D) as (s' & E & _). eauto.
  - rewrite (EnsureLocalCapacity_step cap Gs A). eauto.
  - destruct (mine_denotes So B Ho) as (r & D). pose proof (NewWeakGlobalRef_step Gs A D) as E. destruct r; [destruct E as (g & s' & E & _)|]; eauto.
  - destruct h as [g|]; [|exact (ex_intro _ _ (ex_intro _ _ (del_global_null true Gs A)))]. destruct (br_weak B (Ho g eq_refl)) as (_ & j & P).
    destruct (@del_global_step G true t g _ s Gs A P) as (s' & gl & E & _). eauto.
  - destruct (@GetObjectRefType_step G t h s Gs A) as (r & E & _); [|eauto]. intros i E. eapply mine_live; eauto.
  - pose proof (@Attach_step G t s Gs) as E. destruct (get_env s t); [|destruct E as (k & s' & E & _)]; eauto.
  - destruct (@Detach_step G t s So (Rn eq_refl)) as (s' & E & _). eauto.
Qed.

(** Local references of threads after steps that do not touch frames *)
Definition grows (s s1 : st) : Prop := forall t fs, attached s t -> sublists fs (frames s t) -> attached s1 t /\ sublists fs (frames s1 t).
Lemma step_others L s t o v s1 : wf s -> step G t o s = Some (v, s1) -> forall u, u <> t ->
  match b_local L u with Some fs => attached s u /\ sublists fs (frames s u) | None => get_env s u = None end ->
  match b_local L u with Some fs => attached s1 u /\ sublists fs (frames s1 u) | None => get_env s1 u = None end.
Proof.
  intros W E u N. assert (get_env s1 u = get_env s u) as Q by (refine (others_step W _ E); auto). unfold attached, frames. rewrite Q. auto.
Qed.
Lemma removed_spec g l l' : NoDup l -> removed g l l' -> NoDup l' /\ forall x, In x l' <-> In x l /\ x <> g.
Proof.
  intros N H. destruct H as [a b Na|a Na].
  - pose proof (NoDup_remove a b g N) as [N1 N2]. split; auto. intros x. rewrite !in_app_iff in *. simpl. split; [intros H|intros [[H|[H|H]] Q]; auto; congruence].
    split; [tauto|]. intros ->. tauto.
  - split; auto. intros x. split; [|tauto]. intros H. split; auto. congruence.
Qed.
Lemma step_ident t o s v s1 : wf s -> step G t o s = Some (v, s1) -> ident s s1.
Proof. intros W E. apply (step_wf G t o W E). Qed.
Lemma globals_kept s t o v s1 (l : list oid) : good G s -> step G t o s = Some (v, s1) -> (forall g, In g l -> o <> DeleteGlobalRef_ (Some g)) ->
  (forall g, In g l -> In g (s_globals s) /\ exists j, is_global_handle s g j /\ denotes s j (Some j)) ->
  forall g, In g l -> In g (s_globals s1) /\ exists j, is_global_handle s1 g j /\ denotes s1 j (Some j).
Proof.
  intros Gs E N H g Hg. destruct (H g Hg) as (A & j & P & D). destruct (@handle_step G false t o s v s1 g j Gs (N g Hg) E (conj A P)) as [A' P']. split; auto. exists j. split; auto.
  apply (@ident_denotes s s1 _ (step_ident (good_wf Gs) E) D). eapply global_denotes; [eapply step_good; eauto|exact P'].
Qed.
Lemma weaks_kept s t o v s1 (l : list oid) : good G s -> step G t o s = Some (v, s1) -> (forall g, In g l -> o <> DeleteWeakGlobalRef_ (Some g)) ->
  (forall g, In g l -> In g (s_globals s) /\ exists j, is_weak_handle s g j) ->
  forall g, In g l -> In g (s_globals s1) /\ exists j, is_weak_handle s1 g j.
Proof.
  intros Gs E N H g Hg. destruct (H g Hg) as (A & j & P). destruct (@handle_step G true t o s v s1 g j Gs (N g Hg) E (conj A P)) as [A' P']. eauto.
Qed.
(** Handles that were their own object and are local references now, still are. *)
Lemma self_kept s t o v s1 u f i : good G s -> step G t o s = Some (v, s1) -> attached s1 u -> sublists f (frames s1 u) -> In i (concat f) -> denotes s i (Some i) -> denotes s1 i (Some i).
Proof.
  intros Gs E (e & Ee) Sb Hi D. apply (@ident_denotes s s1 _ (step_ident (good_wf Gs) E) D).
  apply (@frames_live s1 u e i (good_wf (step_good Gs E)) Ee). rewrite <- (frames_env Ee). eapply sub_concat; eauto.
Qed.
(** The book after a step, given the new local references of [t] *)
Lemma right_intro L s t o v s1 fs gl wl : solid G s -> booked_right L s -> step G t o s = Some (v, s1) ->
  match fs with Some f => attached s1 t /\ sublists f (frames s1 t) /\ forall i, In i (concat f) -> denotes s i (Some i) \/ denotes s1 i (Some i) | None => get_env s1 t = None end ->
  (forall g, In g gl -> In g (s_globals s1) /\ exists j, is_global_handle s1 g j /\ denotes s1 j (Some j)) ->
  (forall g, In g wl -> In g (s_globals s1) /\ exists j, is_weak_handle s1 g j) ->
  NoDup gl -> NoDup wl ->
  booked_right (mkLedger (b_local (set_local L t fs)) gl wl) s1.
Proof.
  intros So B E F H1 H2 N1 N2. pose proof (so_good So) as Gs. pose proof (good_wf Gs) as W.
  assert (forall u, u <> t -> match b_local L u with Some f => attached s1 u /\ sublists f (frames s1 u) | None => get_env s1 u = None end) as Ho.
  { intros u N. eapply step_others; eauto. apply (br_local B). }
  constructor; cbn [b_global b_weak b_local] in *; auto.
  - intros u. cbn [b_local]. destruct (Nat.eq_dec u t) as [->|N]; [rewrite set_local_same; destruct fs as [f|]; [split; apply F|exact F]|]. rewrite set_local_other by auto. exact (Ho u N).
  - intros u f i. destruct (Nat.eq_dec u t) as [->|N].
    + rewrite set_local_same. intros -> Hi. destruct F as (A & Sb & Ds). destruct (Ds i Hi) as [D|D]; [eapply self_kept; eauto|auto].
    + rewrite set_local_other by auto. intros Q Hi. pose proof (Ho u N) as Hu. rewrite Q in Hu. eapply self_kept; [exact Gs|exact E|apply Hu|apply Hu|exact Hi|eapply (br_self B); eauto].
Qed.
Lemma right_ext L L' s : (forall t, b_local L t = b_local L' t) -> b_global L = b_global L' -> b_weak L = b_weak L' -> booked_right L s -> booked_right L' s.
Proof.
  intros A B C [H1 H2 H3 H4 H5 H6]. rewrite B, C in *. constructor; auto.
  - intros t. rewrite <- A. apply H1.
  - intros t fs i. rewrite <- A. apply H2.
Qed.
(** ... if these do not change *)
Lemma right_same L s t o v s1 gl wl : solid G s -> booked_right L s -> frame_op o = false -> o <> Attach_ -> step G t o s = Some (v, s1) ->
  (forall g, In g gl -> In g (s_globals s1) /\ exists j, is_global_handle s1 g j /\ denotes s1 j (Some j)) ->
  (forall g, In g wl -> In g (s_globals s1) /\ exists j, is_weak_handle s1 g j) ->
  NoDup gl -> NoDup wl ->
  booked_right (mkLedger (b_local L) gl wl) s1.
Proof.
  intros So B F Na E H1 H2 N1 N2. pose proof (so_good So) as Gs. pose proof (good_wf Gs) as W.
  eapply (@right_ext (mkLedger (b_local (set_local L t (b_local L t))) gl wl)); auto.
  - intros u. simpl. destruct (Nat.eqb_spec t u); subst; auto.
  - eapply right_intro; eauto. pose proof (br_local B t) as Bl. destruct (b_local L t) as [fs|] eqn:Q.
    + destruct Bl as [A Sb]. destruct (plain_frames W A F E) as (A1 & xs & Qf). split; auto. rewrite Qf. split; [apply sub_add; auto|]. intros i Hi. left. eapply (br_self B); eauto.
    + assert (looks t (fun a b => a = None -> b = None) s s1) as K.
      { eapply (@fine_step G t (fun p => p <> PrAttach)); eauto.
        - apply looks_fine; intros; auto; try discriminate. congruence.
        - destruct o; try discriminate; try congruence; simpl; intros pr H; repeat (destruct H as [<-|H]; [discriminate|]); destruct H. }
      apply K. auto.
Qed.
Lemma plain_right L s t o v s1 : solid G s -> booked_right L s -> frame_op o = false -> gdel_op o = false -> o <> Attach_ ->
  step G t o s = Some (v, s1) -> booked_right L s1.
Proof.
  intros So B F D Na E. pose proof (so_good So) as Gs. eapply (@right_ext (mkLedger (b_local L) (b_global L) (b_weak L))); auto. eapply right_same; eauto; try apply B.
  - apply (globals_kept Gs E); [|apply (br_global B)]. intros g _ ->. discriminate.
  - apply (weaks_kept Gs E); [|apply (br_weak B)]. intros g _ ->. discriminate.
Qed.
(** Rebuilding the book after a change of the frames of [t] *)
Lemma local_right L s t o v s1 fs : solid G s -> booked_right L s -> gdel_op o = false -> step G t o s = Some (v, s1) ->
  match fs with Some f => attached s1 t /\ sublists f (frames s1 t) /\ forall i, In i (concat f) -> denotes s i (Some i) \/ denotes s1 i (Some i) | None => get_env s1 t = None end ->
  booked_right (set_local L t fs) s1.
Proof.
  intros So B D E F. pose proof (so_good So) as Gs. eapply (@right_ext (mkLedger (b_local (set_local L t fs)) (b_global L) (b_weak L))); auto. eapply right_intro; eauto; try apply B.
  - apply (globals_kept Gs E); [|apply (br_global B)]. intros g _ ->. discriminate.
  - apply (weaks_kept Gs E); [|apply (br_weak B)]. intros g _ ->. discriminate.
Qed.
Lemma local_known L s t fs : booked_right L s -> b_local L t = Some fs -> attached s t /\ sublists fs (frames s t).
Proof. intros B F. pose proof (br_local B t) as H. rewrite F in H. auto. Qed.
Lemma concat_add fs xs i : In i (concat (add_locals fs xs)) -> In i (concat fs) \/ In i xs.
Proof. destruct fs; simpl; auto. rewrite !in_app_iff. tauto. Qed.
Lemma concat_below fs i : In i (concat (below fs)) -> In i (concat fs).
Proof. destruct fs as [|f [|g r]]; simpl; auto; try tauto. rewrite !in_app_iff. tauto. Qed.
Lemma concat_deleted i j fs fs' : deleted j fs fs' -> In i (concat fs') -> In i (concat fs).
Proof. induction 1; simpl; auto; rewrite ?in_app_iff; simpl; tauto. Qed.
Lemma self_live s i : denotes s i (Some i) -> live s i = true.
Proof. apply VmExact.denotes_live. Qed.
Theorem booked_step L s t o v s1 L1 : solid G s -> booked_right L s -> allowed L t o -> step G t o s = Some (v, s1) -> booked L t o v L1 -> booked_right L1 s1.
Proof.
  intros So B Al E Bk. pose proof (so_good So) as Gs. pose proof (good_wf Gs) as W. destruct Bk.
  - destruct (local_known B H0) as [A Sb].
    assert (attached s1 t) as A1 by (destruct H as [(h & ->)|(n & ->)]; eapply plain_frames; eauto; reflexivity).
    assert (frames s1 t = add_local (frames s t) i /\ denotes s1 i (Some i)) as [Fr Di].
    { destruct H as [(h & ->)|(n & ->)].
      + destruct Al as [_ Al]. destruct (mine_denotes So B Al) as (r & D). destruct (NewLocalRef_step Gs A D) as (s2 & E2 & _ & R). rewrite E in E2. injection E2 as <- <-. destruct R as [R _]. split; [apply R|].
        destruct h as [h|]; [|discriminate]. simpl in D. apply denotes_self in D. eapply ident_denotes; [eapply step_ident; eauto|exact D|]. eapply intact_live. apply (gn_obj R). apply self_live. auto.
      + destruct (FindClass_step n Gs A) as (r & s2 & E2 & G2 & _ & _ & C & F & _). rewrite E in E2. injection E2 as <- <-. split; [exact F|].
        apply denotes_cls. eapply (wf_classes (good_wf G2)). apply (aget_In str_eqb str_eqb_spec). symmetry. exact C. }
    eapply local_right; eauto; [destruct H as [(h & ->)|(n & ->)]; reflexivity|]. split; auto. rewrite Fr. split; [rewrite !add_local_locals; apply sub_add2; auto|].
    intros k. rewrite add_local_locals. intros Hk. apply concat_add in Hk. destruct Hk as [Hk|[<-|[]]]; auto. left. eapply (br_self B); eauto.
  - assert (o <> Attach_ /\ frame_op o = false /\ gdel_op o = false) as (N & F & D) by (destruct H as [(h & ->)|[(n & ->)|[(h & ->)|(h & ->)]]]; repeat split; discriminate).
    eapply plain_right; eauto.
  - assert (booked_right L s1) as B1 by (eapply plain_right; eauto; try reflexivity; discriminate).
    assert (attached s t) as A by (eapply mine_attached; eauto; discriminate). destruct Al as [_ Al]. destruct (mine_denotes So B Al) as (r & D). pose proof (NewGlobalRef_step Gs A D) as Q.
    destruct r as [i|]; [|rewrite E in Q; discriminate]. destruct Q as (g' & s2 & E2 & _ & Fr & P & Gn & _). rewrite E in E2. injection E2 as <- <-.
    constructor; cbn [b_global b_weak b_local]; try apply B1.
    + intros x [<-|Hx]; [|apply (br_global B1 Hx)]. rewrite (gn_globals Gn). split; [apply in_or_app; simpl; auto|]. exists i. split; [exact P|].
      destruct h as [h|]; [|discriminate]. simpl in D. apply denotes_self in D. eapply ident_denotes; [eapply step_ident; eauto|exact D|]. eapply intact_live. apply (gn_obj Gn). apply self_live. auto.
    + constructor; [|apply B1]. intros Hg. destruct (br_global B Hg) as (Ig & j & Pj & _). apply (fun H => @handle_live false s g j (conj Ig H)) in Pj. apply live_lt in Pj. lia.
  - assert (booked_right L s1) as B1 by (eapply plain_right; eauto; try reflexivity; discriminate).
    assert (attached s t) as A by (eapply mine_attached; eauto; discriminate). destruct Al as [_ Al]. destruct (mine_denotes So B Al) as (r & D). pose proof (NewWeakGlobalRef_step Gs A D) as Q.
    destruct r as [i|]; [|rewrite E in Q; discriminate]. destruct Q as (g' & s2 & E2 & _ & Fr & P & Gn & _). rewrite E in E2. injection E2 as <- <-.
    constructor; cbn [b_global b_weak b_local]; try apply B1.
    + intros x [<-|Hx]; [|apply (br_weak B1 Hx)]. rewrite (gn_globals Gn). split; [apply in_or_app; simpl; auto|]. exists i. exact P.
    + constructor; [|apply B1]. intros Hg. destruct (br_weak B Hg) as (Ig & j & Pj). apply (fun H => @handle_live true s g j (conj Ig H)) in Pj. apply live_lt in Pj. lia.
  - destruct (local_known B H) as [A Sb]. destruct Al as [_ Al]. destruct (Al i eq_refl) as (fs0 & Q0 & Hi). assert (fs0 = fs) as -> by congruence.
    eapply local_right; eauto; [reflexivity|]. destruct (delete_frames Gs E) as (A1 & r & D & Q). split; auto. simpl in D.
    rewrite (denotes_fun D (br_self B H Hi)) in Q. split; [eapply sub_deleted; eauto|]. intros k Hk. left. eapply (br_self B); eauto. eapply concat_deleted; eauto.
  - destruct (removed_spec (br_gdup B) H) as [N Hin]. eapply right_same; eauto; try reflexivity; try discriminate; try apply B.
    + apply (globals_kept Gs E). { intros x Hx [= <-]. apply Hin in Hx. tauto. } intros x Hx. apply (br_global B). apply Hin. auto.
    + apply (weaks_kept Gs E); [discriminate|apply (br_weak B)].
  - destruct (removed_spec (br_wdup B) H) as [N Hin]. eapply right_same; eauto; try reflexivity; try discriminate; try apply B.
    + apply (globals_kept Gs E); [discriminate|apply (br_global B)].
    + apply (weaks_kept Gs E). { intros x Hx [= <-]. apply Hin in Hx. tauto. } intros x Hx. apply (br_weak B). apply Hin. auto.
  - destruct (local_known B H) as [A Sb]. eapply local_right; eauto; [reflexivity|]. destruct (push_frames So E) as (A1 & ->). split; auto. split; [constructor; auto|]. intros i Hi. left. eapply (br_self B); eauto.
  - destruct (local_known B H) as [A Sb]. eapply local_right; eauto; [reflexivity|]. destruct (pop_frames Gs E) as (A1 & r' & D & -> & Q). split; auto. injection Q as Q.
    destruct Al as [_ Al].
    assert (match r' with Some j => r = Some j /\ denotes s j (Some j) | None => r = None end) as Hr.
    { destruct r' as [j|]; [split; [auto|]|].
      - destruct h as [h|]; [|discriminate]. eapply denotes_self. exact D.
      - destruct h as [h|]; [|auto]. simpl in D. exfalso. destruct (Al h eq_refl) as [(fs0 & Q0 & Hi)|Hi].
        + pose proof (denotes_fun D (br_self B Q0 Hi)). discriminate.
        + destruct (br_global B Hi) as (_ & j & P & Dj). apply (proj2 (global_denotes Gs P)) in D. pose proof (denotes_fun D Dj). discriminate. }
    assert (r = r') as -> by (destruct r' as [j|]; tauto). split; [apply sub_add2; [auto|apply sub_below; auto]|].
    intros i Hi. left. apply concat_add in Hi. destruct Hi as [Hi|Hi]; [eapply (br_self B); eauto; apply concat_below; auto|].
    destruct r' as [j|]; [|destruct Hi]. destruct Hi as [<-|[]]. apply Hr.
  - eapply local_right; eauto; [reflexivity|]. pose proof (br_local B t) as Q. rewrite H in Q. pose proof (@Attach_step G t s Gs) as E2. rewrite Q in E2. destruct E2 as (k & s2 & E2 & _ & _ & Ge & _).
    rewrite E in E2. injection E2 as _ <-. split; [eexists; eauto|]. rewrite (frames_env Ge). simpl. split; [apply sub_refl|tauto].
  - eapply local_right; eauto; [reflexivity|]. destruct (running s t) eqn:R; [|rewrite (@Detach_running G t s) in E; [discriminate|congruence]].
    destruct (@Detach_step G t s So R) as (s2 & E2 & _ & Ge & _). rewrite E in E2. injection E2 as _ <-. exact Ge.
  - destruct H as [(c & ->)|[(a & b & ->)|[(h & ->)|[->|[->|[->|[-> N]]]]]]].
    + eapply plain_right; eauto; try reflexivity; discriminate.
    + eapply plain_right; eauto; try reflexivity; discriminate.
    + eapply plain_right; eauto; try reflexivity; discriminate.
    + destruct (delete_frames Gs E) as (_ & r & D & Q). simpl in D. subst r. subst. auto.
    + pose proof (del_global_null false Gs (step_attached E eq_refl)) as E2. cbn [del_op] in E2. rewrite E in E2. injection E2 as _ <-. auto.
    + pose proof (del_global_null true Gs (step_attached E eq_refl)) as E2. cbn [del_op] in E2. rewrite E in E2. injection E2 as _ <-. auto.
    + pose proof (br_local B t) as Q. destruct (b_local L t); [|congruence]. destruct Q as ((e & Ge) & _). pose proof (@Attach_step G t s Gs) as E2. rewrite Ge in E2. rewrite E in E2. injection E2 as _ <-. auto.
Qed.
Theorem client_right l L s L' s' : solid G s -> client G l L s L' s' -> booked_right L s -> solid G s' /\ booked_right L' s' /\ exists vs, exec G l s = Some (vs, s').
Proof.
  intros So C. revert So. induction C; intros So B.
  - split; auto. split; auto. exists []. auto.
  - pose proof (step_solid So H1) as So1. destruct (IHC So1 (booked_step So B H0 H1 H2)) as (S' & B' & vs & Ex). split; auto. split; auto. exists (v :: vs). simpl. rewrite H1, Ex. auto.
  - pose proof (step_solid So H0) as So1. destruct (IHC So1) as (S' & B' & vs & Ex); [|split; [exact S'|split; [exact B'|exists (v :: vs); simpl; rewrite H0, Ex; auto]]].
    apply (@plain_right L s t o v s1 So B); [| | |exact H0]; destruct o; (discriminate || reflexivity).
Qed.
(** A client may start in any state. *)
Definition fresh_ledger (s : st) : ledger := mkLedger (fun t => option_map (fun e => map (fun _ => []) (e_frames e)) (get_env s t)) [] [].
Lemma fresh_right s : booked_right (fresh_ledger s) s.
Proof.
  constructor; simpl; try tauto; try constructor.
  - intros t. destruct (get_env s t) as [e|] eqn:E; simpl; auto. split; [exists e; auto|]. rewrite (frames_env E). induction (e_frames e); constructor; auto. intros i. unfold refs_in. simpl. lia.
  - intros t fs i. destruct (get_env s t) as [e|]; simpl; [|discriminate]. intros [= <-]. induction (e_frames e); simpl; auto. tauto.
Qed.
End Cfg.
