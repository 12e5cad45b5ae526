(** References over histories: frames, local, global and weak references, environments, monitors. *)
From Verif Require Import Base BaseProofs SigModel VmState VmModel VmStep VmSpec MemSpec CallSpec RefSpec VmBase VmFrame VmWf VmPrim VmInv VmReg
  VmFine VmRegInv VmExact VmQuiet VmClass VmMember VmMember2 VmMember3 VmTables VmHook VmEnvInv VmMemHist VmCall VmCall2 VmThread VmRef.
Set Implicit Arguments.
Unset Strict Implicit.

Local Open Scope vm_scope.
Section Cfg.
Variable G : cfg.

(** ** Frames *)
Definition frame_op (o : op) : bool :=
  match o with PushLocalFrame_ _ | PopLocalFrame_ _ | DeleteLocalRef_ _ | Detach_ => true | _ => false end.
Lemma add_locals_nil fs : add_locals fs [] = fs.
Proof. destruct fs; simpl; auto. rewrite app_nil_r. auto. Qed.
Lemma add_locals_app fs xs ys : add_locals (add_locals fs xs) ys = add_locals fs (xs ++ ys).
Proof. destruct fs; simpl; auto. rewrite app_assoc. auto. Qed.
Lemma add_local_locals fs i : add_local fs i = add_locals fs [i].
Proof. destruct fs; reflexivity. Qed.
Lemma add_locals_length fs xs : length (add_locals fs xs) = length fs.
Proof. destruct fs; reflexivity. Qed.
Theorem plain_frames t o s v s' : wf s -> attached s t -> frame_op o = false -> step G t o s = Some (v, s') ->
  attached s' t /\ exists xs, frames s' t = add_locals (frames s t) xs.
Proof.
  intros W (e & E) N St.
  assert (looks t (fun a b => forall e, a = Some e -> exists e' xs, b = Some e' /\ e_frames e' = add_locals (e_frames e) xs) s s') as H.
  { eapply (@fine_step G t (fun p => p <> PrFramePush /\ p <> PrFramePop /\ p <> PrFrameDel /\ p <> PrDetach)); eauto.
    - apply looks_fine; intros; try tauto; try discriminate.
      + subst. exists e0, []. rewrite add_locals_nil. auto.
      + destruct (H _ H1) as (y & xs & -> & Y). destruct (H0 _ eq_refl) as (z & ys & -> & Z). exists z, (xs ++ ys). split; auto. rewrite Z, Y. apply add_locals_app.
      + injection H1 as <-. inversion H0; subst; simpl in *; try (exfalso; tauto); eexists; try (exists []; rewrite add_locals_nil; split; [reflexivity|auto]; fail).
        exists [i]. split; [reflexivity|]. simpl. rewrite H2. reflexivity.
    - destruct o; try discriminate; simpl; intros pr H; repeat (destruct H as [<-|H]; [repeat split; discriminate|]); destruct H. }
  destruct (H _ E) as (e' & xs & E' & Q). split; [exists e'; auto|]. exists xs. rewrite (frames_env E), (frames_env E'). auto.
Qed.
Lemma other_frames u t o s v s' : wf s -> u <> t -> step G u o s = Some (v, s') -> frames s' t = frames s t /\ (attached s t -> attached s' t).
Proof. intros W N St. assert (get_env s' t = get_env s t) as Q by (refine (others_step W _ St); auto). unfold frames, attached. rewrite Q. auto. Qed.
(** A function that ran with a reference as argument was given a valid one. *)
Lemma arg_denotes t o h s : wf s -> (forall i, h = Some i -> live s i = false -> body G t o s = Undef) -> attached s t -> step G t o s <> None ->
  exists r, denotes_opt s h r.
Proof.
  intros W B A N. destruct h as [i|]; [|exists None; reflexivity]. destruct (live s i) eqn:L.
  - destruct (denotes_total W L) as (r & D). exists r. auto.
  - exfalso. apply N. unfold step. rewrite run_attached by auto. rewrite (B i); auto.
Qed.
Lemma delete_denotes t h s v s' : wf s -> step G t (DeleteLocalRef_ h) s = Some (v, s') -> exists r, denotes_opt s h r.
Proof.
  intros W St. eapply (@arg_denotes t (DeleteLocalRef_ h)); eauto; [|eapply step_attached; eauto|congruence].
  intros i -> D. cbn [body]. unfold as_unit, DeleteLocalRef, bind. rewrite jnicast_dead by auto. reflexivity.
Qed.
Lemma pop_denotes t h s v s' : wf s -> step G t (PopLocalFrame_ h) s = Some (v, s') -> exists r, denotes_opt s h r.
Proof.
  intros W St. eapply (@arg_denotes t (PopLocalFrame_ h)); eauto; [|eapply step_attached; eauto|congruence].
  intros i -> D. cbn [body]. unfold as_ref, PopLocalFrame, bind. rewrite jnicast_dead by auto. reflexivity.
Qed.
Lemma released_attached t fs gl ex s s' : released t fs gl ex s s' -> attached s t -> attached s' t.
Proof. intros R (e & E). pose proof (cm_envid (rl_calm R)) as I. rewrite E in I. simpl in I. destruct (get_env s' t) eqn:E'; [exists e0; auto|discriminate]. Qed.
Lemma gained_attached t fs gl ex s s' : gained t fs gl ex s s' -> attached s t -> attached s' t.
Proof. intros R (e & E). pose proof (cm_envid (gn_calm R)) as I. rewrite E in I. simpl in I. destruct (get_env s' t) eqn:E'; [exists e0; auto|discriminate]. Qed.
Lemma push_frames t c s v s' : solid G s -> step G t (PushLocalFrame_ c) s = Some (v, s') -> attached s' t /\ frames s' t = [] :: frames s t.
Proof.
  intros So St. pose proof (step_attached St eq_refl) as A. destruct (PushLocalFrame_step c So A) as (s1 & E & _ & Gn & _). rewrite E in St. injection St as <- <-.
  split; [eapply gained_attached; eauto|apply Gn].
Qed.
Lemma pop_frames t h s v s' : good G s -> step G t (PopLocalFrame_ h) s = Some (v, s') ->
  attached s' t /\ exists r, denotes_opt s h r /\ frames s' t = add_locals (below (frames s t)) (match r with Some j => [j] | None => [] end) /\
    v = OVal (RRef (match r with Some j => Some j | None => h end)).
Proof.
  intros Gs St. pose proof (step_attached St eq_refl) as A. destruct (pop_denotes (good_wf Gs) St) as (r & D).
  destruct (PopLocalFrame_step Gs A D) as (s1 & _ & H). destruct r as [j|].
  - destruct H as (E & R & _). rewrite E in St. injection St as <- <-. split; [eapply released_attached; eauto|]. exists (Some j). split; auto. split; auto. rewrite <- add_local_locals. apply R.
  - destruct H as (E & R). rewrite E in St. injection St as <- <-. split; [eapply released_attached; eauto|]. exists None. split; auto. split; auto. rewrite add_locals_nil. apply R.
Qed.
Lemma delete_frames t h s v s' : good G s -> step G t (DeleteLocalRef_ h) s = Some (v, s') ->
  attached s' t /\ exists r, denotes_opt s h r /\ match r with Some i => deleted i (frames s t) (frames s' t) | None => s' = s end.
Proof.
  intros Gs St. pose proof (step_attached St eq_refl) as A. destruct (delete_denotes (good_wf Gs) St) as (r & D).
  destruct (DeleteLocalRef_step Gs A D) as (s1 & E & _ & H). rewrite E in St. injection St as <- <-. destruct r as [i|].
  - destruct H as (fs & Dl & R). split; [eapply released_attached; eauto|]. exists (Some i). split; auto. rewrite (rl_frames R). auto.
  - subst. split; auto. exists None. auto.
Qed.
Lemma denotes_opt_fun s h r r' : denotes_opt s h r -> denotes_opt s h r' -> r = r'.
Proof. destruct h; simpl; [apply denotes_fun|congruence]. Qed.

Lemma split_frames n fs : fs = above n fs ++ bottom n fs.
Proof. unfold above, bottom. symmetry. apply firstn_skipn. Qed.
Lemma above_length n fs : length (above n fs) = length fs - n.
Proof. unfold above. rewrite firstn_length. lia. Qed.
Lemma bottom_length n fs : n <= length fs -> length (bottom n fs) = n.
Proof. unfold bottom. rewrite skipn_length. lia. Qed.
Lemma bottom_app n a b : length b = n -> bottom n (a ++ b) = b.
Proof. intros <-. unfold bottom. rewrite app_length, Nat.add_sub. rewrite skipn_app, skipn_all, Nat.sub_diag. reflexivity. Qed.
Lemma deleted_length i a b : deleted i a b -> length a = length b.
Proof. induction 1; simpl; auto. Qed.
Lemma deleted_skip i a b b' : (forall f, In f a -> ~ In i f) -> deleted i b b' -> deleted i (a ++ b) (a ++ b').
Proof. intros H D. induction a as [|f a IH]; simpl; auto. constructor; [apply H; simpl; auto|]. apply IH. intros g Hg. apply H. simpl. auto. Qed.
Lemma deleted_head i a b f : In f a -> In i f -> exists a', length a' = length a /\ deleted i (a ++ b) (a' ++ b).
Proof.
  induction a as [|g a IH]; simpl; [tauto|]. intros Hf Hi. destruct (in_dec Nat.eq_dec i g) as [Y|N].
  - destruct (In_first_split Y) as (x & y & -> & Nx). exists ((x ++ y) :: a). split; auto. simpl. constructor. auto.
  - destruct Hf as [<-|Hf]; [tauto|]. destruct (IH Hf Hi) as (a' & L & D). exists (g :: a'). simpl. split; [lia|]. constructor; auto.
Qed.
Lemma bottom_add n fs xs : n < length fs -> bottom n (add_locals fs xs) = bottom n fs.
Proof.
  intros L. destruct fs as [|f r]; [auto|]. simpl in L. unfold bottom. cbn [length add_locals]. replace (S (length r) - n) with (S (length r - n)) by lia. reflexivity.
Qed.
Lemma bottom_below n fs : S n < length fs -> bottom n (below fs) = bottom n fs.
Proof.
  intros L. destruct fs as [|f [|g r]]; simpl in *; try lia. unfold bottom. cbn [length below]. replace (S (S (length r)) - n) with (S (S (length r) - n)) by lia. reflexivity.
Qed.
Lemma below_length fs : 1 < length fs -> S (length (below fs)) = length fs.
Proof. destruct fs as [|f [|g r]]; simpl; lia. Qed.

(** One step of any thread that is not a deletion *)
Lemma step_frames_cases t u o s v s1 : solid G s -> attached s t -> step G u o s = Some (v, s1) -> (u, o) <> (t, Detach_) ->
  attached s1 t /\
  (frames s1 t = frames s t \/
   (u = t /\ ((exists xs, frames s1 t = add_locals (frames s t) xs) \/ frames s1 t = [] :: frames s t \/
              (exists h xs, o = PopLocalFrame_ h /\ frames s1 t = add_locals (below (frames s t)) xs) \/
              (exists h r, o = DeleteLocalRef_ h /\ denotes_opt s h r /\ match r with Some i => deleted i (frames s t) (frames s1 t) | None => s1 = s end)))).
Proof.
  intros So A St N. pose proof (so_good So) as Gs. pose proof (good_wf Gs) as W. destruct (Nat.eq_dec u t) as [->|Nu].
  - destruct (frame_op o) eqn:F.
    + destruct o; try discriminate; [| | |congruence].
      * destruct (push_frames So St) as (A1 & E). split; auto. 
      * destruct (pop_frames Gs St) as (A1 & r & D & E & _). split; auto. right. split; auto. right. right. left. eexists _, _. split; [reflexivity|exact E].
      * destruct (delete_frames Gs St) as (A1 & r & D & E). split; auto. right. split; auto. right. right. right. eexists _, _. split; [reflexivity|]. split; [exact D|exact E].
    + destruct (plain_frames W A F St) as (A1 & xs & E). split; auto. right. split; auto. left. exists xs. auto.
  - destruct (other_frames W Nu St) as (E & A1). split; auto.
Qed.
Lemma deleted_all_app l1 l2 a b c : deleted_all l1 a b -> deleted_all l2 b c -> deleted_all (l1 ++ l2) a c.
Proof. intros H. revert c. induction H; simpl; intros; auto. econstructor; eauto. Qed.

Theorem nested_frames t n l s ds s' : solid G s -> nested G t n l s ds s' -> attached s t -> n < length (frames s t) ->
  attached s' t /\ n < length (frames s' t) /\ deleted_all ds (bottom n (frames s t)) (bottom n (frames s' t)) /\ exists vs, exec G l s = Some (vs, s').
Proof.
  intros So H. revert So. induction H; intros So A L.
  - split; auto. split; auto. split; [constructor|]. exists []. reflexivity.
  - assert (solid G s1) as So1 by (eapply step_solid; eauto).
    assert (attached s1 t /\ n < length (frames s1 t) /\ bottom n (frames s1 t) = bottom n (frames s t)) as (A1 & L1 & B1).
    { destruct (step_frames_cases So A H2 H1) as (A1 & [E|[-> [(xs & E)|[E|[(h & xs & -> & E)|(h & r & -> & D & E)]]]]]); rewrite ?E; (split; [auto|]).
      - auto.
      - rewrite add_locals_length. split; auto. apply bottom_add. auto.
      - simpl. split; [lia|]. unfold bottom. cbn [length]. replace (S (length (frames s t)) - n) with (S (length (frames s t) - n)) by lia. reflexivity.
      - specialize (H0 h eq_refl). rewrite add_locals_length. pose proof (@below_length (frames s t) ltac:(lia)). split; [lia|]. rewrite bottom_add by lia. apply bottom_below. auto.
      - exfalso. eapply H. reflexivity. }
    destruct (IHnested So1 A1 L1) as (A2 & L2 & D2 & vs & Ex). split; auto. split; auto. split; [rewrite B1 in D2; auto|]. exists (v :: vs). simpl. rewrite H2, Ex. auto.
  - assert (solid G s1) as So1 by (eapply step_solid; eauto). destruct (delete_frames (so_good So) H2) as (A1 & r & D & E).
    rewrite (denotes_opt_fun D H) in E. pose proof (deleted_length E) as Le.
    destruct (deleted_head (bottom n (frames s t)) H0 H1) as (a' & La & Da). rewrite <- split_frames in Da. pose proof (deleted_fun Da E) as Qa. rewrite <- Le in IHnested.
    destruct (IHnested So1 A1 L) as (A2 & L2 & D2 & vs & Ex). split; auto. split; auto. split; [|exists (v :: vs); simpl; rewrite H2, Ex; auto].
    rewrite <- Qa in D2. rewrite bottom_app in D2; auto. apply bottom_length. lia.
  - assert (solid G s1) as So1 by (eapply step_solid; eauto). destruct (delete_frames (so_good So) H0) as (A1 & r & D & E).
    rewrite (denotes_opt_fun D H) in E. subst. destruct (IHnested So1 A1 L) as (A2 & L2 & D2 & vs & Ex). split; auto. split; auto. split; auto. exists (v :: vs). simpl. rewrite H0, Ex. auto.
  - assert (solid G s1) as So1 by (eapply step_solid; eauto). destruct (delete_frames (so_good So) H1) as (A1 & r & D & E).
    rewrite (denotes_opt_fun D H) in E. pose proof (deleted_length E) as Le. rewrite <- Le in IHnested.
    destruct (IHnested So1 A1 L) as (A2 & L2 & D2 & vs & Ex). split; auto. split; auto. split; [|exists (v :: vs); simpl; rewrite H1, Ex; auto].
    pose proof (del_frames_deleted i (bottom n (frames s t))) as Db. pose proof (deleted_skip H0 Db) as Ds. rewrite <- split_frames in Ds. rewrite <- (deleted_fun Ds E) in D2.
    rewrite bottom_app in D2; [econstructor; eauto|]. rewrite <- (deleted_length Db). apply bottom_length. lia.
Qed.

(** The bracket PushLocalFrame .. PopLocalFrame *)
Theorem bracket_frames t c l h s v0 s1 ds s2 v3 s3 : solid G s -> step G t (PushLocalFrame_ c) s = Some (v0, s1) ->
  nested G t (length (frames s t)) l s1 ds s2 -> length (frames s2 t) = S (length (frames s t)) ->
  step G t (PopLocalFrame_ h) s2 = Some (v3, s3) ->
  exists fs r, deleted_all ds (frames s t) fs /\ denotes_opt s2 h r /\
    frames s3 t = add_locals fs (match r with Some j => [j] | None => [] end).
Proof.
  intros So E1 N L E3. pose proof (step_attached E1 eq_refl) as A. pose proof (step_solid So E1) as So1.
  destruct (push_frames So E1) as (A1 & F1). pose proof (good_wf (so_good So)) as W.
  destruct A as (e & E). assert (frames s t <> []) as Nn by (rewrite (frames_env E); apply (wf_env_ok W E)).
  destruct (nested_frames So1 N A1) as (A2 & L2 & D & vs & Ex); [rewrite F1; simpl; lia|].
  pose proof (exec_solid So1 Ex) as So2. destruct (pop_frames (so_good So2) E3) as (_ & r & Dh & F3 & _).
  exists (bottom (length (frames s t)) (frames s2 t)), r. split; [|split; [exact Dh|]].
  - rewrite F1 in D. replace (bottom (length (frames s t)) ([] :: frames s t)) with (frames s t) in D; [exact D|].
    symmetry. apply (bottom_app [[]]). reflexivity.
  - rewrite F3. f_equal. destruct (frames s2 t) as [|f r2]; simpl in L; [lia|]. assert (length r2 = length (frames s t)) as Lr by lia.
    replace (bottom (length (frames s t)) (f :: r2)) with r2 by (symmetry; apply (bottom_app [f]); auto).
    destruct r2; [destruct (frames s t); [congruence|discriminate]|reflexivity].
Qed.

(** ** Local references *)
Lemma count_app i a b : count_refs i (a ++ b) = count_refs i a + count_refs i b.
Proof. unfold count_refs. rewrite concat_app, count_occ_app. reflexivity. Qed.
Lemma count_cons i f r : count_refs i (f :: r) = count_occ Nat.eq_dec f i + count_refs i r.
Proof. unfold count_refs. simpl. rewrite count_occ_app. reflexivity. Qed.
Lemma deleted_count i j n fs fs' : deleted j fs fs' ->
  count_refs i (bottom n fs) <= count_refs i (bottom n fs') + (if Nat.eqb i j then 1 else 0).
Proof.
  intros D. pose proof (deleted_length D) as L. unfold bottom. rewrite <- L. generalize (length fs - n). clear L. induction D; intros k.
  - destruct k; simpl; [|lia]. rewrite !count_cons, !count_occ_app. simpl. destruct (Nat.eq_dec j i); destruct (Nat.eqb_spec i j); try lia; congruence.
  - destruct k; simpl; [|apply IHD]. rewrite !count_cons. specialize (IHD 0). cbn [skipn] in IHD. lia.
  - rewrite skipn_nil. apply Nat.le_add_r.
Qed.
Lemma bottom_add_count i n fs xs : count_refs i (bottom n fs) <= count_refs i (bottom n (add_locals fs xs)).
Proof.
  destruct fs as [|f r]; [simpl; lia|]. destruct (Nat.lt_ge_cases n (length (f :: r))) as [L|L]; [rewrite bottom_add by auto; lia|].
  unfold bottom. rewrite add_locals_length. replace (length (f :: r) - n) with 0 by lia. cbn [skipn add_locals]. rewrite !count_cons, count_occ_app. apply Nat.add_le_mono_r, Nat.le_add_r.
Qed.
Lemma bottom_below' n fs : n < length fs -> bottom n (below fs) = bottom n fs \/ n = 0.
Proof.
  intros L. destruct fs as [|f [|g r]]; simpl in *; try lia. left. unfold bottom. cbn [length]. replace (S (S (length r)) - n) with (S (S (length r) - n)) by lia. reflexivity.
Qed.
Theorem holding_count t n i l s k s' : solid G s -> holding G t n i l s k s' -> attached s t -> n <= length (frames s t) ->
  attached s' t /\ n <= length (frames s' t) /\ count_refs i (bottom n (frames s t)) <= count_refs i (bottom n (frames s' t)) + k /\
  exists vs, exec G l s = Some (vs, s').
Proof.
  intros So H. revert So. induction H; intros So A L.
  - split; auto. split; auto. split; [lia|]. exists []. auto.
  - assert (solid G s1) as So1 by (eapply step_solid; eauto).
    assert (attached s1 t /\ n <= length (frames s1 t) /\ count_refs i (bottom n (frames s t)) <= count_refs i (bottom n (frames s1 t))) as (A1 & L1 & B1).
    { destruct (step_frames_cases So A H2 H1) as (A1 & [E|[-> [(xs & E)|[E|[(h & xs & -> & E)|(h & r & -> & D & E)]]]]]); (split; [exact A1|]).
      - rewrite ?E. auto.
      - rewrite ?E. rewrite add_locals_length. split; auto. apply bottom_add_count.
      - rewrite ?E. simpl length. split; [lia|]. unfold bottom. cbn [length]. replace (S (length (frames s t)) - n) with (S (length (frames s t) - n)) by lia. simpl. lia.
      - rewrite ?E. specialize (H0 h eq_refl). rewrite add_locals_length. destruct (frames s t) as [|f fs] eqn:Ef; [simpl in H0; lia|].
        rewrite below_frames. destruct fs as [|g fs]; [simpl in *; assert (n = 0) as -> by lia; split; [lia|]; unfold bottom; simpl; unfold count_refs; simpl; lia|].
        split; [simpl in *; lia|]. eapply Nat.le_trans; [|apply bottom_add_count]. destruct (bottom_below' H0) as [Q|Q]; [rewrite <- Q; simpl; lia|]. subst. unfold bottom. rewrite !Nat.sub_0_r, !skipn_all. lia.
      - destruct r as [j|]; [|subst; auto]. pose proof (deleted_length E). split; [lia|]. pose proof (deleted_count i n E) as C.
        destruct (Nat.eqb_spec i j); [subst; exfalso; apply (H h eq_refl); auto|lia]. }
    destruct (IHholding So1 A1 L1) as (A2 & L2 & D2 & vs & Ex). split; auto. split; auto. split; [lia|]. exists (v :: vs). simpl. rewrite H2, Ex. auto.
  - assert (solid G s1) as So1 by (eapply step_solid; eauto). destruct (delete_frames (so_good So) H0) as (A1 & r & D & E).
    rewrite (denotes_opt_fun D H) in E. pose proof (deleted_length E) as Le. pose proof (deleted_count i n E) as C. rewrite Nat.eqb_refl in C.
    destruct (IHholding So1 A1 ltac:(lia)) as (A2 & L2 & D2 & vs & Ex). split; auto. split; auto. split; [lia|]. exists (v :: vs). simpl. rewrite H0, Ex. auto.
Qed.
Lemma ident_contents s s' i p : ident s s' -> contents s i = Some p -> live s' i = true -> exists p', contents s' i = Some p' /\ same_kind p p'.
Proof.
  intros I P L. apply contents_lookup in P. destruct P as (o & Lo & <-). apply live_lookup in L. destruct L as (o' & L').
  exists (o_pay o'). split; [apply contents_lookup; eauto|]. eapply ident_lookup; eauto.
Qed.
Lemma ident_denotes s s' i : ident s s' -> denotes s i (Some i) -> live s' i = true -> denotes s' i (Some i).
Proof.
  intros I D L. destruct (denotes_target D) as (o & Lo & A & B). apply live_lookup in L. destruct L as (o' & L'). pose proof (ident_lookup _ I Lo L') as K.
  eapply den_obj; [exact L'| |]; intros j Q; rewrite Q in K; destruct (o_pay o) eqn:P; simpl in K; try tauto; subst; [eapply A|eapply B]; reflexivity.
Qed.
Lemma exec_ident l s vs s' : wf s -> exec G l s = Some (vs, s') -> ident s s'.
Proof. intros W E. eapply exec_wf; eauto. Qed.
Theorem local_persists t n i l s k s' : solid G s -> attached s t -> n <= length (frames s t) -> holding G t n i l s k s' ->
  k < count_refs i (bottom n (frames s t)) ->
  local_ref s' t i /\ live s' i = true /\ strong s' i /\
  (denotes s i (Some i) -> denotes s' i (Some i)) /\ (forall p, contents s i = Some p -> exists p', contents s' i = Some p' /\ same_kind p p').
Proof.
  intros So A L H K. destruct (holding_count So H A L) as (A' & L' & C & vs & Ex). pose proof (exec_solid So Ex) as So'.
  assert (local_ref s' t i) as Lr.
  { assert (In i (concat (bottom n (frames s' t)))) as Hi by (apply (count_occ_In Nat.eq_dec); unfold count_refs in *; lia).
    apply in_concat in Hi. destruct Hi as (f & Hf & Hi). exists f. split; auto. rewrite (split_frames n). apply in_or_app. auto. }
  assert (strong s' i) as Sg by (apply sr_anchor; eapply an_local; eauto).
  assert (live s' i = true) as Lv by (eapply strong_live; [apply (so_good So')|auto]).
  pose proof (exec_ident (good_wf (so_good So)) Ex) as I. split; auto. split; auto. split; auto. split; [intros D; eapply ident_denotes; eauto|]. intros p P. eapply ident_contents; eauto.
Qed.

(** ** Global references and handles of weak ones *)
Definition gdel_op (o : op) : bool := match o with DeleteGlobalRef_ _ | DeleteWeakGlobalRef_ _ => true | _ => false end.
Lemma remove_first_In i j l : i <> j -> In i l -> In i (remove_first j l).
Proof. intros N. induction l as [|x l IH]; simpl; auto. destruct (Nat.eqb_spec x j); simpl; intros [Q|Q]; subst; auto; congruence. Qed.
Lemma globals_step t o s v s' g : wf s -> gdel_op o = false -> step G t o s = Some (v, s') -> In g (s_globals s) -> In g (s_globals s').
Proof.
  intros W N St. eapply (@fine_step G t (fun p => p <> PrGlobalDel) (fun s s' => In g (s_globals s) -> In g (s_globals s'))); eauto.
  - constructor; intros; auto; try (simpl in *; auto; fail); try congruence.
    + apply (@find_fine G (fun s s' => In g (s_globals s) -> In g (s_globals s'))); auto.
    + simpl. apply in_or_app. auto.
    + pose proof (collect_same s0) as Sa. unfold same_but_heap in Sa. assert (s_globals (collect s0) = s_globals s0) as -> by (symmetry; apply Sa). auto.
  - destruct o; try discriminate; simpl; intros pr H; repeat (destruct H as [<-|H]; [discriminate|]); destruct H.
Qed.

(** [g] is the handle of a global ([weak = false]) or weak global reference to [j], not deleted yet. *)
Definition handle_to (weak : bool) (s : st) (g j : oid) : Prop :=
  In g (s_globals s) /\ if weak then is_weak_handle s g j else is_global_handle s g j.
Lemma handle_live (weak : bool) s g j : handle_to weak s g j -> live s g = true.
Proof. intros [_ H]. apply live_lookup. destruct weak; apply contents_lookup in H; destruct H as (o & L & _); eauto. Qed.
Lemma handle_step (weak : bool) t o s v s' g j : good G s -> o <> del_op weak (Some g) -> step G t o s = Some (v, s') -> handle_to weak s g j -> handle_to weak s' g j.
Proof.
  intros Gs N St [H K]. pose proof (good_wf Gs) as W. pose proof (step_good Gs St) as G'.
  assert (In g (s_globals s')) as H'.
  { destruct (gdel_op o) eqn:D; [|eapply globals_step; eauto].
    assert (exists w h, o = del_op w h) as (w & h & ->) by (destruct o; try discriminate; [exists false|exists true]; eexists; reflexivity).
    assert (attached s t) as A by (eapply step_attached; [exact St|destruct w; reflexivity]).
    destruct h as [x|]; [|rewrite (del_global_null w Gs A) in St; injection St as <- <-; auto].
    destruct (live s x) eqn:Lx.
    - apply live_lookup in Lx. destruct Lx as (ox & Lx). assert (contents s x = Some (o_pay ox)) as P by (apply contents_lookup; eauto).
      pose proof (@del_global_step G w t x (o_pay ox) s Gs A P) as Q. destruct (del_kind w (o_pay ox)) eqn:Kd.
      + destruct Q as (s1 & gl & E & _ & Rm & Rl). rewrite E in St. injection St as <- <-. rewrite (rl_globals Rl).
        assert (g <> x) as Ne.
        { intros <-. destruct weak; unfold is_weak_handle, is_global_handle in K; rewrite P in K; injection K as K; rewrite K in Kd; destruct w; try discriminate; apply N; reflexivity. }
        inversion Rm; subst; auto. rewrite <- H0 in H. rewrite in_app_iff in *. simpl in H. intuition congruence.
      + destruct Q as (m & E). rewrite E in St. injection St as <- <-. auto.
    - exfalso. unfold step in St. rewrite run_attached in St by auto. unfold live in Lx. destruct (lookup s x) eqn:Lk; [discriminate|].
      destruct w; cbn [del_op body] in St; unfold as_unit, DeleteGlobalRef, DeleteWeakGlobalRef, jnicast_global, jnicast_weak, bind, deref in St; rewrite Lk in St; discriminate. }
  split; auto. assert (live s' g = true) as Lg.
  { eapply strong_live; [apply (g_inv G')|]. apply sr_anchor, an_global. auto. }
  pose proof (proj2 (step_wf G t o W St)) as I.
  destruct weak; unfold is_weak_handle, is_global_handle in *; destruct (ident_contents I K Lg) as (p' & P' & Sk); rewrite P'; destruct p'; simpl in Sk; try tauto; subst; auto.
Qed.
Theorem handle_persists (weak : bool) l s vs s' g j : good G s -> (forall t, ~ In (t, del_op weak (Some g)) l) -> exec G l s = Some (vs, s') ->
  handle_to weak s g j -> handle_to weak s' g j.
Proof.
  revert s vs. induction l as [|[t o] l IH]; intros s vs Gs N E H; simpl in E; [congruence|].
  destruct (step G t o s) as [[v s1]|] eqn:E1; [|discriminate]. destruct (exec G l s1) as [[w s2]|] eqn:E2; [|discriminate]. inversion E; subst.
  eapply IH; [eapply step_good; eauto| |exact E2|].
  - intros u Hu. apply (N u). simpl. auto.
  - eapply handle_step; eauto. intros ->. apply (N t). simpl. auto.
Qed.
Lemma global_denotes s g j : good G s -> is_global_handle s g j -> live s j = true /\ forall r, denotes s g r <-> denotes s j r.
Proof.
  intros Gs P. apply contents_lookup in P. destruct P as (o & L & P). split.
  - eapply (@wf_refs s g o j (good_wf Gs) L). rewrite P. simpl. auto.
  - intros r. split; intros D; [|eapply den_global; eauto].
    inversion D; subst; match goal with H : lookup s g = Some _ |- _ => rewrite L in H; injection H as <- end; try (exfalso; congruence). replace j with j0 by congruence. auto.
Qed.
Lemma weak_denotes s w j r : is_weak_handle s w j -> denotes s j (Some j) \/ live s j = false -> denotes s w r <-> (if live s j then r = Some j else r = None).
Proof.
  intros P Hj. apply contents_lookup in P. destruct P as (o & L & P). destruct (live s j) eqn:Lj.
  - destruct Hj as [Hj|Hj]; [|discriminate]. split.
    + intros D. inversion D; subst; match goal with H : lookup s w = Some _ |- _ => rewrite L in H; injection H as <- end; try congruence.
      assert (j0 = j) as -> by congruence. eapply denotes_fun; eauto.
    + intros ->. eapply den_weak; eauto.
  - split.
    + intros D. inversion D; subst; match goal with H : lookup s w = Some _ |- _ => rewrite L in H; injection H as <- end; try congruence.
    + intros ->. eapply den_dead; eauto.
Qed.

(** ** Environments *)
Definition envs_apart (s : st) : Prop := forall t u e e', get_env s t = Some e -> get_env s u = Some e' -> e_id e = e_id e' -> t = u.
Definition AP (s s' : st) : Prop := s_nextenv s <= s_nextenv s' /\ (envs_apart s -> envs_apart s').
Lemma AP_same s s' : s_envs s' = s_envs s -> s_nextenv s' = s_nextenv s -> AP s s'.
Proof. intros A B. unfold AP, envs_apart, get_env. rewrite A, B. auto. Qed.
Lemma AP_trans a b c : AP a b -> AP b c -> AP a c.
Proof. intros [A B] [C D]. split; [lia|auto]. Qed.
Lemma apart_fine t : fine G t (fun _ => True) AP.
Proof.
  constructor; intros; try (apply AP_same; reflexivity).
  - eapply AP_trans; eauto.
  - apply (@find_fine G AP); auto; intros; try (apply AP_same; reflexivity). eapply AP_trans; eauto.
  - split; [reflexivity|]. intros N u w x y. rewrite !get_env_penv. assert (e_id e' = e_id e) as I by (destruct H2; auto; destruct (e_free e); auto).
    destruct (Nat.eqb_spec t u), (Nat.eqb_spec t w); intros A B Q; subst; auto.
    + injection A as <-. apply (N u w e y); congruence.
    + injection B as <-. apply (N u w x e); congruence.
    + apply (N u w x y); auto.
  - split; [simpl; lia|]. intros N u w x y. unfold get_env. simpl. rewrite !(aget_aset Nat.eqb Nat.eqb_spec).
    destruct (Nat.eqb_spec t u), (Nat.eqb_spec t w); intros A B Q; subst; auto.
    + injection A as <-. simpl in Q. destruct (@wf_env_ok s w y H0 B) as (_ & _ & Lt). lia.
    + injection B as <-. simpl in Q. destruct (@wf_env_ok s u x H0 A) as (_ & _ & Lt). lia.
    + apply (N u w x y); auto.
  - split; [reflexivity|]. intros N u w x y. unfold get_env. simpl. rewrite !(aget_adel Nat.eqb Nat.eqb_spec).
    destruct (Nat.eqb_spec t u), (Nat.eqb_spec t w); intros A B Q; try discriminate. apply (N u w x y); auto.
  - pose proof (collect_same s) as Sa. unfold same_but_heap in Sa. apply AP_same; symmetry; apply Sa.
Qed.
Theorem reachable_apart t s : reachable G t s -> envs_apart s.
Proof.
  intros (l & vs & E). assert (envs_apart (init_vm G t)) as O.
  { apply (fine_init (apart_fine t)). intros u w e e' H. discriminate. }
  assert (AP (init_vm G t) s) as H; [|apply H; auto].
  eapply (fine_history apart_fine); eauto. apply (inv_wf (init_inv G t)).
Qed.
Lemma nextenv_exec l s vs s' : wf s -> exec G l s = Some (vs, s') -> s_nextenv s <= s_nextenv s'.
Proof.
  intros W E. assert (AP s s') as H; [|apply H].
  eapply (fine_history apart_fine); eauto.
Qed.

(** ** Monitors *)
Lemma monitor_put s i o m j : lookup s i = Some o -> monitor (put s i (mkObj (o_clazz o) m (o_pay o))) j = if Nat.eqb i j then m else monitor s j.
Proof. intros L. unfold monitor. rewrite (lookup_put _ _ L). destruct (Nat.eqb_spec i j); reflexivity. Qed.
Lemma set_mon_eq s i o m : lookup s i = Some o -> obj_ok s o = true -> set_mon i m s = Ret tt (put s i (mkObj (o_clazz o) m (o_pay o))).
Proof. intros L K. unfold set_mon, bind, deref. rewrite L. unfold put_obj, check, bind. change (obj_ok s (mkObj (o_clazz o) m (o_pay o))) with (obj_ok s o). rewrite K. reflexivity. Qed.
Definition relocked (t : tid) (i : oid) (m : option (tid * nat)) (s s' : st) : Prop :=
  monitor s' i = m /\ (forall j, live s' j = live s j) /\ disturbs (eq i) t s s' /\ frames s' t = frames s t /\
  contents s' i = contents s i /\ class_ptr s' i = class_ptr s i.
Lemma relock_step t o i m s : good G s -> attached s t -> live s i = true -> body G t o s = (set_mon i m ;;; ret (RInt 0)) s ->
  exists s', step G t o s = Some (OVal (RInt 0), s') /\ good G s' /\ relocked t i m s s'.
Proof.
  intros Gs A L B. pose proof (good_wf Gs) as W. apply live_lookup in L. destruct L as (x & L).
  set (s1 := put s i (mkObj (o_clazz x) m (o_pay x))).
  assert (tidy s1) as T1 by (apply (tidy_put L); [auto|apply Gs]).
  assert (step G t o s = Some (OVal (RInt 0), s1)) as St.
  { unfold step. rewrite run_attached, B by auto. unfold bind. rewrite (set_mon_eq m L); [|exact (wf_obj W _ L)]. fold s1. unfold ret. rewrite (tidy_finish_id T1). reflexivity. }
  exists s1. split; [exact St|]. split; [eapply step_good; eauto|]. split; [unfold s1; rewrite (monitor_put m i L), Nat.eqb_refl; auto|].
  assert (forall j, live s1 j = live s j) as Lv.
  { intros j. unfold live, s1. rewrite (lookup_put _ _ L). destruct (Nat.eqb_spec i j); auto. subst. rewrite L. auto. }
  split; [exact Lv|]. split; [apply (put_disturbs _ _ L)|]. split; [reflexivity|].
  unfold contents, class_ptr, s1. rewrite (lookup_put _ _ L), Nat.eqb_refl, L. simpl. split; auto. destruct (o_clazz x); auto. fold s1. rewrite Lv. auto.
Qed.
Theorem MonitorEnter_step t h i s : good G s -> attached s t -> denotes_opt s h (Some i) ->
  match lock_do (monitor s i) (Lock t) with
  | Some m => exists s', step G t (MonitorEnter_ h) s = Some (OVal (RInt 0), s') /\ good G s' /\ relocked t i m s s'
  | None => step G t (MonitorEnter_ h) s = None
  end.
Proof.
  intros Gs A D. pose proof (good_wf Gs) as W.
  assert (live s i = true) as L by (destruct h; [|discriminate]; simpl in D; eapply denotes_target_live; eauto).
  assert (body G t (MonitorEnter_ h) s = match lock_do (monitor s i) (Lock t) with Some m => (set_mon i m ;;; ret (RInt 0)) s | None => Block end) as B.
  { cbn [body]. unfold as_int, MonitorEnter. unfold bind at 1 2. rewrite (jnicast_obj G W D). unfold bind at 1. cbn [nonnull]. unfold ret at 1, bind at 1, deref.
    pose proof L as L'. apply live_lookup in L'. destruct L' as (x & Lx). unfold monitor. rewrite Lx. destruct (o_mon x) as [[u n]|]; simpl lock_do.
    - rewrite (Nat.eqb_sym t u). destruct (Nat.eqb_spec u t); [subst|reflexivity]. unfold bind. destruct (set_mon _ _ s); reflexivity.
    - unfold bind. destruct (set_mon _ _ s); reflexivity. }
  destruct (lock_do (monitor s i) (Lock t)); [apply relock_step; auto|]. unfold step. rewrite run_attached, B by auto. reflexivity.
Qed.
Theorem MonitorExit_step t h i s : good G s -> attached s t -> denotes_opt s h (Some i) ->
  match lock_do (monitor s i) (Unlock t) with
  | Some m => exists s', step G t (MonitorExit_ h) s = Some (OVal (RInt 0), s') /\ good G s' /\ relocked t i m s s'
  | None => step G t (MonitorExit_ h) s = None
  end.
Proof.
  intros Gs A D. pose proof (good_wf Gs) as W.
  assert (live s i = true) as L by (destruct h; [|discriminate]; simpl in D; eapply denotes_target_live; eauto).
  assert (body G t (MonitorExit_ h) s = match lock_do (monitor s i) (Unlock t) with Some m => (set_mon i m ;;; ret (RInt 0)) s | None => Undef end) as B.
  { cbn [body]. unfold as_int, MonitorExit. unfold bind at 1 2. rewrite (jnicast_obj G W D). unfold bind at 1. cbn [nonnull]. unfold ret at 1, bind at 1, deref.
    pose proof L as L'. apply live_lookup in L'. destruct L' as (x & Lx). unfold monitor. rewrite Lx. destruct (o_mon x) as [[u [|n]]|]; simpl lock_do; try reflexivity.
    rewrite (Nat.eqb_sym t u). destruct (Nat.eqb_spec u t); [subst|reflexivity]. unfold bind. destruct n; destruct (set_mon _ _ s); reflexivity. }
  destruct (lock_do (monitor s i) (Unlock t)); [apply relock_step; auto|]. unfold step. rewrite run_attached, B by auto. reflexivity.
Qed.
(** Nothing but MonitorEnter and MonitorExit changes monitors. *)
Definition MP (s s' : st) : Prop := length (s_heap s) <= length (s_heap s') /\
  forall i, i < length (s_heap s) -> live s' i = true -> live s i = true /\ monitor s' i = monitor s i.
Lemma MP_trans a b c : MP a b -> MP b c -> MP a c.
Proof. intros [A B] [C D]. split; [lia|]. intros i L K. destruct (D i ltac:(lia) K) as [E F]. destruct (B i L E) as [E' F']. split; auto. congruence. Qed.
Lemma MP_heap s s' : s_heap s' = s_heap s -> MP s s'.
Proof. intros H. unfold MP, live, monitor, lookup. rewrite H. auto. Qed.
Lemma MP_add s o : MP s (add s o).
Proof.
  split; [unfold add; simpl; rewrite app_length; lia|]. intros i L K. unfold live, monitor in *. rewrite lookup_add in *. destruct (Nat.eqb_spec i (length (s_heap s))); [lia|]. auto.
Qed.
Lemma MP_put s i x o : lookup s i = Some x -> o_mon o = o_mon x -> MP s (put s i o).
Proof.
  intros L M. split; [unfold put; simpl; rewrite list_set_length; lia|]. intros j Lj K. unfold live, monitor in *. rewrite (lookup_put _ _ L) in *. destruct (Nat.eqb_spec i j); [subst; rewrite L|]; auto.
Qed.
Lemma monitor_fine t : fine G t (fun p => p <> PrMon) MP.
Proof.
  constructor; intros; try (apply MP_heap; reflexivity); try (apply MP_add); try (eapply MP_put; [eassumption|reflexivity]); try congruence.
  - eapply MP_trans; eauto.
  - apply (@find_fine G MP); auto; intros; try (apply MP_heap; reflexivity); try (apply MP_add); try (eapply MP_put; [eassumption|reflexivity]). eapply MP_trans; eauto.
  - unfold newm. eapply MP_trans; [apply MP_add|]. apply (@MP_put _ i o); [|reflexivity]. rewrite lookup_add. pose proof (lookup_lt _ _ H1). destruct (Nat.eqb_spec i (length (s_heap s))); [lia|auto].
  - unfold newf. eapply MP_trans; [apply MP_add|]. apply (@MP_put _ i o); [|reflexivity]. rewrite lookup_add. pose proof (lookup_lt _ _ H1). destruct (Nat.eqb_spec i (length (s_heap s))); [lia|auto].
  - split; [apply collect_ident|]. intros i L K. unfold live, monitor in *. destruct (lookup (collect s) i) eqn:Q; [|discriminate]. rewrite (collect_sub _ _ Q). auto.
Qed.
Definition mon_op (o : op) : bool := match o with MonitorEnter_ _ | MonitorExit_ _ => true | _ => false end.
Lemma monitor_step t o s v s' : wf s -> mon_op o = false -> step G t o s = Some (v, s') -> MP s s'.
Proof.
  intros W N St. eapply (fine_step (monitor_fine t)); eauto.
  destruct o; try discriminate; simpl; intros pr H; repeat (destruct H as [<-|H]; [discriminate|]); destruct H.
Qed.
Lemma mon_denotes t o h s v s' : wf s -> o = MonitorEnter_ h \/ o = MonitorExit_ h -> step G t o s = Some (v, s') -> exists i, denotes_opt s h (Some i).
Proof.
  intros W Q St. assert (attached s t) as A by (destruct Q; subst; eapply step_attached; eauto).
  assert (exists r, denotes_opt s h r) as (r & D).
  { eapply (@arg_denotes t o); eauto; [|congruence]. intros i -> Dd. destruct Q; subst; cbn [body]; unfold as_int, MonitorEnter, MonitorExit, bind; rewrite jnicast_dead by auto; reflexivity. }
  destruct r as [i|]; eauto. exfalso. unfold step in St. rewrite run_attached in St by auto.
  destruct Q; subst; cbn [body] in St; unfold as_int, MonitorEnter, MonitorExit, bind in St; rewrite (jnicast_obj G W D) in St; discriminate.
Qed.
Theorem locking_monitor i l s r s' : good G s -> locking G i l s r s' -> live s i = true -> live s' i = true ->
  lock_run (monitor s i) r = Some (monitor s' i) /\ exists vs, exec G l s = Some (vs, s').
Proof.
  intros Gs H. revert Gs. induction H; intros Gs Li Li'; cbn [lock_run].
  - split; auto. exists []. auto.
  - assert (good G s1) as G1 by (eapply step_good; eauto). pose proof (@MonitorEnter_step t h i s Gs (step_attached H0 eq_refl) H) as Q.
    destruct (lock_do (monitor s i) (Lock t)) as [m|]; [|congruence]. destruct Q as (s2 & E & _ & M & Lv & _). rewrite E in H0. injection H0 as <- <-.
    destruct (IHlocking G1) as (R & vs & Ex); auto; [rewrite Lv; auto|]. rewrite M in R. split; auto. exists (OVal (RInt 0) :: vs). simpl. rewrite E, Ex. auto.
  - assert (good G s1) as G1 by (eapply step_good; eauto). pose proof (@MonitorExit_step t h i s Gs (step_attached H0 eq_refl) H) as Q.
    destruct (lock_do (monitor s i) (Unlock t)) as [m|]; [|congruence]. destruct Q as (s2 & E & _ & M & Lv & _). rewrite E in H0. injection H0 as <- <-.
    destruct (IHlocking G1) as (R & vs & Ex); auto; [rewrite Lv; auto|]. rewrite M in R. split; auto. exists (OVal (RInt 0) :: vs). simpl. rewrite E, Ex. auto.
  - assert (good G s1) as G1 by (eapply step_good; eauto). pose proof (good_wf Gs) as W. pose proof (live_lt _ _ Li) as Lt.
    assert (length (s_heap s) <= length (s_heap s1)) as Le1 by (apply (proj2 (step_wf G t o W H0))).
    assert (exists vs, exec G l s1 = Some (vs, s')) as (vs & Ex).
    { clear -H1. induction H1; [exists []; reflexivity| | |]; destruct IHlocking as (vs & E); exists (v :: vs); simpl; match goal with H : step _ _ _ _ = Some _ |- _ => rewrite H end; rewrite E; auto. }
    assert (live s1 i = true) as Li1.
    { destruct (exec_ident (good_wf G1) Ex) as [_ I]. specialize (I i ltac:(lia)). unfold live in *. destruct (lookup s1 i); auto. destruct (lookup s' i); [tauto|discriminate]. }
    assert (monitor s1 i = monitor s i) as Q.
    { destruct (mon_op o) eqn:Mo.
      - assert (exists h, o = MonitorEnter_ h \/ o = MonitorExit_ h) as (h & Qo) by (destruct o; try discriminate; eauto).
        destruct (mon_denotes W Qo H0) as (j & D). assert (i <> j) as Ne by (intros <-; apply (H h); auto).
        assert (exists m, relocked t j m s s1) as (m & M).
        { destruct Qo; subst; pose proof (step_attached H0 eq_refl) as A; [pose proof (@MonitorEnter_step t h j s Gs A D) as Q|pose proof (@MonitorExit_step t h j s Gs A D) as Q];
          (destruct (lock_do _ _) as [m|]; [|congruence]; destruct Q as (s2 & E & _ & M); rewrite E in H0; injection H0 as <- <-; eauto). }
        apply intact_monitor. destruct M as (_ & _ & M & _). apply (d_obj M); auto.
      - destruct (monitor_step W Mo H0) as [_ M]. apply M; auto. }
    destruct (IHlocking G1 Li1 Li') as (R & _). split; [congruence|]. exists (v :: vs). simpl. rewrite H0, Ex. auto.
Qed.
(** Recursive locks: the owner's count is its balance. *)
Lemma lock_run_balance m l m' t : lock_run m l = Some m' -> (forall u, m <> Some (u, 0)) -> (forall u, m' <> Some (u, 0)) /\ Z.of_nat (holds m' t) = (Z.of_nat (holds m t) + balance t l)%Z.
Proof.
  revert m. induction l as [|[u|u] l IH]; intros m H N; cbn [lock_run balance] in *.
  - injection H as <-. split; auto. lia.
  - destruct m as [[w n]|]; simpl in H.
    + destruct (Nat.eqb_spec u w); [subst|discriminate]. apply IH in H; [|intros; congruence]. destruct H as [A B]. split; auto. rewrite B. simpl. destruct (Nat.eqb t w); lia.
    + apply IH in H; [|intros; congruence]. destruct H as [A B]. split; auto. rewrite B. simpl. destruct (Nat.eqb t u); lia.
  - destruct m as [[w [|n]]|]; simpl in H; try discriminate. destruct (Nat.eqb_spec u w); [subst|discriminate].
    apply IH in H; [|destruct n; intros; congruence]. destruct H as [A B]. split; auto. rewrite B. destruct n; simpl; destruct (Nat.eqb t w); lia.
Qed.
End Cfg.
