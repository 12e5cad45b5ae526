(** C66: typed references and the parameters of hooks. *)
From Verif Require Import Base BaseProofs VmState VmModel VmStep VmSpec RefSpec CallSpec ArrSpec HookSpec VmBase VmFrame VmWf VmPrim VmInv VmExact VmQuiet VmClass VmObj VmRef VmRef2 VmArr VmHook VmCall VmCall2 VmField VmHier VmTables MemberProps
  WrapModel CastModel CastSpec VmDemo ArrProps.
Set Implicit Arguments.
Unset Strict Implicit.

Lemma isa_has_type G s j o T : numbered G -> lookup s j = Some o -> (isa G (o_pay o) T = true <-> has_type G s j T).
Proof.
  intros N L. assert (contents s j = Some (o_pay o)) as C by (unfold contents; rewrite L; reflexivity).
  assert (live s j = true) as Lv by (apply live_lookup; eauto). split.
  - destruct T as [| | | | | | | | | |q|[n|]|n], (o_pay o) as [|m l| | | | | | | | |p l|m l] eqn:P; simpl; intros H; try discriminate; try (econstructor; eauto; fail).
    + destruct p, q; try discriminate; econstructor; eauto.
    + destruct m as [m|]; try discriminate. econstructor; eauto. eapply uderives_derives; eauto.
    + econstructor; eauto. eapply uderives_derives; eauto.
  - intros H. inversion H; subst; try (rewrite H0 in C; injection C as <-); try (destruct (o_pay o); reflexivity).
    + simpl. apply derives_uderives; auto.
    + simpl. destruct p; reflexivity.
    + simpl. apply derives_uderives; auto.
Qed.

Section Cfg.
Variable G : cfg.
Variable t : tid.

Definition held_in (s : st) (i : oid) : st := with_ext s (i :: s_ext s).
Lemma tidy_held s i : tidy s -> tidy (held_in s i).
Proof.
  intros [T K]. split; [exact T|]. intros j Lj. destruct (K j Lj) as [H|H]; [|tauto]. left.
  apply In_held in H. apply In_held. destruct H as [H|H]; [left|right; exact H]. rewrite In_roots in *. simpl. tauto.
Qed.
(** Every way in which a reference is used as a [Y] *)
Lemma UHold_cases Y h r s : numbered G -> good G s -> attached s t -> resolves s Y h r ->
  match r with
  | None => step G t (UHold_ Y h) s = Some (OVal (RRef None), s)
  | Some j => live s j = true /\
      ((has_type G s j Y /\ step G t (UHold_ Y h) s = Some (OVal (RRef (Some j)), held_in s j) /\ good G (held_in s j)) \/
       (~ has_type G s j Y /\ step G t (UHold_ Y h) s = Some (OExn (type_error Y), s)))
  end.
Proof.
  intros N Gs A D. pose proof (good_wf Gs) as W.
  assert (forall j, r = Some j -> live s j = true) as Lr.
  { intros j ->. destruct Y; simpl in D; try (destruct h as [h|]; [eapply denotes_target_live; eauto|discriminate]); destruct D as [D1 D2]; eauto. }
  assert (match Y with TWeak => jnicast_weak h | TGlobal => jnicast_global h | _ => jnicast G Y h end s =
    match r with None => Ret None s | Some j => if is_a G s j Y then Ret (Some j) s else Thr (type_error Y) s end) as Ec.
  { assert (denotes_opt s h r -> jnicast G Y h s = match r with None => Ret None s | Some j => if is_a G s j Y then Ret (Some j) s else Thr (Err bad_ref) s end) as K.
    { intros D'. destruct h as [h|]; simpl in D'; [apply jnicast_spec; auto|]. subst. reflexivity. }
    destruct Y; try (apply K; exact D); destruct D as [-> D]; (destruct h as [h|]; [|reflexivity]); specialize (D h eq_refl); apply live_lookup in D; destruct D as (o & L);
      unfold jnicast_weak, jnicast_global, is_a, bind, deref; rewrite L; destruct (o_pay o); reflexivity. }
  destruct r as [j|].
  - specialize (Lr j eq_refl). split; auto. pose proof Lr as Lr'. apply live_lookup in Lr'. destruct Lr' as (o & L).
    pose proof (isa_has_type Y N L) as Hi. unfold is_a in Ec. rewrite L in Ec. destruct (isa G (o_pay o) Y).
    + left. split; [apply Hi; reflexivity|]. assert (tidy (held_in s j)) as T1 by (apply tidy_held; apply Gs).
      assert (step G t (UHold_ Y h) s = Some (OVal (RRef (Some j)), held_in s j)) as St.
      { apply step_tidy_ret; auto. cbn [body]. unfold as_ref, UHold. unfold bind at 1 2. rewrite Ec. unfold bind, add_ext, live_all, check, bind. cbn [forallb]. rewrite Lr. reflexivity. }
      split; auto. eapply step_good; eauto.
    + right. split; [intros H; apply Hi in H; discriminate|]. apply step_thr; auto. cbn [body]. unfold as_ref, UHold. unfold bind at 1 2. rewrite Ec. reflexivity.
  - apply step_tidy_ret; auto; [|apply Gs]. cbn [body]. unfold as_ref, UHold. unfold bind at 1 2. rewrite Ec. reflexivity.
Qed.

Lemma ty_of_instance s j c Y : ty_of c = Some Y -> (has_type G s j Y <-> instance G s j c).
Proof.
  intros E. destruct c as [| | | |n|p| |[| | | |n|p| |c]]; try discriminate; injection E as <-; split; intros H; inversion H; subst; econstructor; eauto.
Qed.
Lemma ty_of_none s j c : ty_of c = None -> ~ instance G s j c.
Proof. intros E H. destruct H; discriminate. Qed.
Lemma valid_denotes s h : wf s -> valid s h -> exists r, denotes_opt s h r.
Proof. intros W V. destruct h as [h|]; simpl; [|eauto]. apply denotes_total; auto. Qed.
Lemma ty_of_resolves s c Y h r : ty_of c = Some Y -> denotes_opt s h r -> resolves s Y h r.
Proof. destruct c as [| | | |n|p| |[| | | |n|p| |c]]; try discriminate; intros [= <-] H; exact H. Qed.
Lemma ty_of_error c Y : ty_of c = Some Y -> type_error Y = Err bad_ref.
Proof. destruct c as [| | | |n|p| |[| | | |n|p| |c]]; try discriminate; intros [= <-]; reflexivity. Qed.
Lemma unpack_cases c h r s : numbered G -> good G s -> attached s t -> denotes_opt s h r ->
  match r with
  | None => unpack G t c h s = Some (inl None, s)
  | Some j => live s j = true /\ ((instance G s j c /\ unpack G t c h s = Some (inl (Some j), held_in s j) /\ good G (held_in s j)) \/
                (~ instance G s j c /\ unpack G t c h s = Some (inr (Err bad_ref), s)))
  end.
Proof.
  intros N Gs A D. unfold unpack. destruct (ty_of c) as [Y|] eqn:E.
  - pose proof (UHold_cases N Gs A (ty_of_resolves E D)) as K. destruct r as [j|].
    + destruct K as [L K]. split; auto. rewrite (ty_of_error E) in K. rewrite (ty_of_instance s j E) in K.
      destruct K as [(I & -> & K)|(I & ->)]; auto.
    + rewrite K. reflexivity.
  - pose proof (@UHold_cases TObject h r s N Gs A D) as K. destruct r as [j|].
    + destruct K as [L K]. split; auto. right. split; [apply ty_of_none; auto|]. destruct K as [(I & -> & K)|(I & _)]; auto. exfalso. apply I. constructor. auto.
    + rewrite K. reflexivity.
Qed.

(** Dropping a C++ variable that was only added *)
Lemma drop_eq i s e : tidy (with_ext s e) -> drop G t (Some i) (with_ext s (i :: e)) = Some (with_ext s e).
Proof.
  intros T. unfold drop, step, run. cbn [needs_env body]. unfold as_unit, UDrop, del_ext, bind, ret. cbn [s_ext with_ext remove_first]. rewrite Nat.eqb_refl.
  change (with_ext (with_ext s (i :: e)) e) with (with_ext s e). rewrite (tidy_finish_id T). reflexivity.
Qed.
Lemma ext_same s : with_ext s (s_ext s) = s.
Proof. destruct s; reflexivity. Qed.
Lemma drop_held i s : tidy s -> drop G t (Some i) (held_in s i) = Some s.
Proof. intros T. unfold held_in. rewrite <- (ext_same s) at 3. apply drop_eq. rewrite ext_same. exact T. Qed.

(** Local references that conversions make *)
Lemma ensured_ext s e Y i : ensured (with_ext s e) Y i = with_ext (ensured s Y i) e.
Proof.
  unfold ensured. change (lookup (with_ext s e) i) with (lookup s i). destruct (lookup s i) as [o|]; auto. destruct (o_clazz o) as [c|]; auto.
  change (live (with_ext s e) c) with (live s c). destruct (live s c); auto.
Qed.
Lemma pushed_ext s e i : pushed (with_ext s e) t i = with_ext (pushed s t i) e.
Proof.
  unfold pushed. change (get_env (with_ext s e) t) with (get_env s t). destruct (get_env s t) as [x|]; auto. destruct (e_frames x); auto.
Qed.
Lemma given_ext s e Y i : given (with_ext s e) t Y i = with_ext (given s t Y i) e.
Proof. unfold given. rewrite ensured_ext, pushed_ext. reflexivity. Qed.
Definition gives (s : st) (l : list (ty * oid)) : st := fold_left (fun s p => given s t (fst p) (snd p)) l s.
Lemma gives_ext s e l : gives (with_ext s e) l = with_ext (gives s l) e.
Proof. revert s. induction l as [|[Y i] l IH]; intros s; simpl; auto. rewrite given_ext, IH. reflexivity. Qed.
Lemma given_good s Y i : good G s -> attached s t -> live s i = true -> good G (given s t Y i).
Proof.
  intros Gs A L. constructor; [apply given_inv; auto; apply Gs|]. eapply tidy_weaken; [|apply given_tidy; [exact (good_wf Gs)|exact A|apply Gs]]. simpl. tauto.
Qed.
Lemma gives_good l : forall s, good G s -> attached s t -> Forall (fun p => live s (snd p) = true) l -> good G (gives s l).
Proof.
  induction l as [|[Y i] l IH]; intros s Gs A F; simpl; auto. inversion F; subst. apply IH.
  - apply given_good; auto.
  - apply given_attached; auto.
  - eapply Forall_impl; [|exact H2]. intros [Z k] L. simpl in *. rewrite given_live_eq. exact L.
Qed.
Lemma gives_contents l : forall s j, contents (gives s l) j = contents s j.
Proof. induction l as [|[Y i] l IH]; intros s j; simpl; auto. rewrite IH. apply given_contents. Qed.
Lemma gives_live l : forall s j, live (gives s l) j = live s j.
Proof. induction l as [|[Y i] l IH]; intros s j; simpl; auto. rewrite IH. apply given_live_eq. Qed.
Lemma gives_attached l : forall s, attached s t -> attached (gives s l) t.
Proof. induction l as [|[Y i] l IH]; intros s A; simpl; auto. apply IH. apply given_attached. auto. Qed.
Lemma add_local_cons fs i l : add_locals (add_local fs i) l = add_locals fs (i :: l).
Proof. destruct fs; simpl; auto. rewrite <- app_assoc. reflexivity. Qed.
Lemma gives_frames l : forall s, frames (gives s l) t = add_locals (frames s t) (map snd l).
Proof.
  induction l as [|[Y i] l IH]; intros s; simpl.
  - destruct (frames s t); simpl; auto. rewrite app_nil_r. reflexivity.
  - rewrite IH, given_frames. apply add_local_cons.
Qed.
Lemma gives_undisturbed l : forall s, undisturbed t s (gives s l).
Proof. induction l as [|[Y i] l IH]; intros s; simpl; [apply undisturbed_refl|]. eapply undisturbed_trans; [apply given_undisturbed|apply IH]. Qed.
Lemma gives_s_ext l s : s_ext (gives s l) = s_ext s.
Proof. exact (u_ext (gives_undisturbed l s)). Qed.
Lemma gives_gained l s e : gained t (add_locals (frames s t) (map snd l)) (s_globals s) e s (with_ext (gives s l) e).
Proof.
  pose proof (gives_undisturbed l s) as U. constructor.
  - exact (gives_frames l s).
  - exact (u_globals U).
  - reflexivity.
  - destruct (und_calm U). constructor; auto.
  - intros i L. exact (u_obj U L).
Qed.

(** The state after a parameter was converted *)
Definition ptr_ty (T : cty) : ty :=
  match T with Cptr c => match ty_of c with Some Y => Y | None => TObject end | Cjclass => TClass | _ => TThrowable end.
Definition from_ty (p : cty * source) : ty := match p with (Cjclass, TheClass _) => TObject | (T, _) => ptr_ty T end.
Definition pts (p : cty * source) (x : cval) : list (ty * oid) := map (fun i => (from_ty p, i)) (local_of p x).
Fixpoint all_pts (l : list (cty * source)) (xs : list cval) : list (ty * oid) :=
  match l, xs with p :: l', x :: xs' => pts p x ++ all_pts l' xs' | _, _ => [] end.
Definition act (p : cty * source) (x : cval) (s : st) : st := with_ext (gives s (pts p x)) (kept x ++ s_ext s).

Lemma act_nil p x s : pts p x = [] -> kept x = [] -> act p x s = s.
Proof. unfold act. intros -> ->. simpl. apply ext_same. Qed.
Lemma by_pointer_ty T c Y v : by_pointer T c -> ty_of c = Some Y -> (forall k, v <> TheClass k) -> from_ty (T, v) = Y.
Proof. intros [d| |] H K; unfold from_ty; destruct v as [a|h|k]; try (destruct (K k); reflexivity); simpl in *; try (rewrite H; reflexivity); congruence. Qed.
Lemma held_given s j Y : good G s -> attached s t -> has_type G s j Y -> numbered G -> live s j = true -> good G (held_in s j) ->
  step G t (UToJNI_ Y j) (held_in s j) = Some (OVal (RRef (Some j)), given (held_in s j) t Y j) /\ drop G t (Some j) (given (held_in s j) t Y j) = Some (given s t Y j).
Proof.
  intros Gs A Ht N L Gh. pose proof L as L'. apply live_lookup in L'. destruct L' as (o & Lo). apply (isa_has_type Y N Lo) in Ht. split.
  - apply step_tidy_ret; [exact A| |].
    + cbn [body]. unfold as_ref, UToJNI. unfold bind at 1 2, gets. unfold bind at 1, deref. change (lookup (held_in s j) j) with (lookup s j). rewrite Lo.
      cbn [s_ext held_in with_ext memb existsb]. rewrite Nat.eqb_refl, Ht. cbn [orb andb]. rewrite given_eq; auto. exact (good_wf Gh).
    + eapply tidy_weaken; [|apply given_tidy; [exact (good_wf Gh)|exact A|apply Gh]]. simpl. tauto.
  - unfold held_in. rewrite given_ext. assert (s_ext (given s t Y j) = s_ext s) as Ee by exact (u_ext (given_undisturbed s t Y j)).
    rewrite drop_eq; rewrite <- Ee, ext_same; [reflexivity|]. apply (given_good Y Gs A L).
Qed.
Lemma cast_ptr_cases c h r s : numbered G -> good G s -> attached s t -> denotes_opt s h r ->
  match r with
  | None => cast_ptr G t c h s = Some (inl (KPtr None), s)
  | Some j => (instance G s j c /\ (exists Y, ty_of c = Some Y /\ cast_ptr G t c h s = Some (inl (KPtr (Some j)), given s t Y j)) /\ live s j = true) \/
                (~ instance G s j c /\ cast_ptr G t c h s = Some (inr (Err bad_ref), s))
  end.
Proof.
  intros N Gs A D. pose proof (unpack_cases c N Gs A D) as K. unfold cast_ptr. destruct r as [j|]; [|rewrite K; reflexivity].
  destruct K as [L [(I & -> & Gh)|(I & ->)]]; [left|right; auto]. split; auto. split; auto.
  destruct (ty_of c) as [Y|] eqn:E; [|exfalso; eapply ty_of_none; eauto]. exists Y. split; auto.
  assert (has_type G s j Y) as Ht by (apply (ty_of_instance s j E); exact I).
  destruct (held_given Gs A Ht N L Gh) as [-> ->]. reflexivity.
Qed.
Lemma cast_ref_cases mk c h r s : numbered G -> good G s -> attached s t -> denotes_opt s h r ->
  match r with
  | None => cast_ref G t mk c h s = Some (inr null_value, s)
  | Some j => (instance G s j c /\ cast_ref G t mk c h s = Some (inl (mk j), s)) \/
                (~ instance G s j c /\ cast_ref G t mk c h s = Some (inr (Err bad_ref), s))
  end.
Proof.
  intros N Gs A D. pose proof (unpack_cases c N Gs A D) as K. unfold cast_ref. destruct r as [j|]; [|rewrite K; reflexivity].
  destruct K as [L [(I & -> & Gh)|(I & ->)]]; [left|right; auto]. split; auto. rewrite drop_held by apply Gs. reflexivity.
Qed.

Definition done (p : cty * source) (s : st) (o : option ((cval + exn) * st)) : Prop :=
  (exists x, passes G s (fst p) (snd p) x /\ o = Some (inl x, act p x s) /\ Forall (fun q => live s (snd q) = true) (pts p x) /\ good G (act p x s)) \/
  (exists e, refuses G s (fst p) (snd p) e /\ o = Some (inr e, s)).
Lemma done_plain T v x s : good G s -> passes G s T v x -> local_of (T, v) x = [] -> kept x = [] -> done (T, v) s (Some (inl x, s)).
Proof. intros Gs P L K. left. exists x. split; auto. rewrite act_nil; auto; [|unfold pts; rewrite L; reflexivity]. split; auto. split; auto. unfold pts. rewrite L. constructor. Qed.
Lemma done_cast T v a h c s : numbered G -> good G s -> attached s t -> refers T c -> (forall c, v <> TheClass c) -> handle_of v h -> a = ArgL h -> valid s h ->
  done (T, v) s (cast G t T a s).
Proof.
  intros N Gs A Rf Nc Hv -> V. destruct (valid_denotes (good_wf Gs) V) as (r & D). destruct Rf as [->|[P|(mk & P)]].
  - unfold cast. pose proof (unpack_cases c N Gs A D) as K. destruct r as [j|].
    + destruct K as [L [(I & -> & Gh)|(I & ->)]].
      * left. exists (KShared (Some j)). split; [econstructor; eauto; intros ? [= <-]; auto|]. split; [reflexivity|]. split; [constructor|]. exact Gh.
      * right. eexists. split; [|reflexivity]. eapply rf_type; eauto. left. reflexivity.
    + rewrite K. apply done_plain; auto. econstructor; eauto. discriminate.
  - assert (cast G t T (ArgL h) s = cast_ptr G t c h s) as -> by (destruct P; reflexivity).
    pose proof (cast_ptr_cases c N Gs A D) as K. destruct r as [j|].
    + destruct K as [(I & (Y & E & ->) & L)|(I & ->)].
      * left. exists (KPtr (Some j)). split; [econstructor; eauto; intros ? [= <-]; auto|].
        assert (local_of (T, v) (KPtr (Some j)) = [j]) as Lo.
        { simpl. destruct v as [a'|h'|c']; try (destruct T; auto; destruct c0; auto; fail). exfalso. eapply Nc. reflexivity. }
        unfold act, pts. rewrite Lo. cbn [map fst gives fold_left snd kept app]. rewrite (by_pointer_ty P E Nc). rewrite <- (u_ext (given_undisturbed s t Y j)), ext_same. split; [reflexivity|]. split; [repeat constructor; auto|]. apply given_good; auto.
      * right. eexists. split; [|reflexivity]. eapply rf_type; eauto. right. left. exact P.
    + rewrite K. apply done_plain; auto; [eapply ps_ptr; eauto; discriminate|]. destruct P as [[]| |], v; reflexivity.
  - assert (cast G t T (ArgL h) s = cast_ref G t mk c h s) as -> by (destruct P; reflexivity).
    pose proof (cast_ref_cases mk c N Gs A D) as K. destruct r as [j|].
    + destruct K as [(I & ->)|(I & ->)].
      * apply done_plain; auto; [econstructor; eauto| |destruct P; reflexivity]. destruct P; reflexivity.
      * right. eexists. split; [|reflexivity]. eapply rf_type; eauto. right. right. eauto.
    + rewrite K. right. eexists. split; [|reflexivity]. eapply rf_null; eauto.
Qed.
Lemma provide_done T v s : numbered G -> good G s -> attached s t -> fits s T v -> done (T, v) s (provide G t T v s).
Proof.
  intros N Gs A F. destruct F as [p z|z|T v E Nv|h v Nc Hv|T c h v Nc Rf Hv V|T c k E C].
  - apply done_plain; auto; constructor.
  - simpl. destruct (Z.eqb_spec z 0); [subst|]; apply done_plain; auto; constructor; auto.
  - assert (provide G t T v s = Some (inl KEnv, s)) as -> by (destruct v as [a|h|c]; [exfalso; eapply Nv; reflexivity| |]; destruct E; subst; reflexivity).
    apply done_plain; auto; [constructor; auto|]. destruct E; subst; reflexivity.
  - assert (provide G t Cjobject v s = Some (inl (KHandle h), s)) as -> by (destruct Hv; [| |exfalso; eapply Nc]; reflexivity).
    apply done_plain; auto. constructor; auto.
  - assert (provide G t T v s = cast G t T (ArgL h) s) as ->.
    { destruct Hv; [reflexivity| |exfalso; eapply Nc; reflexivity]. simpl. destruct Rf as [->|[P|(mk & P)]]; [reflexivity| |]; destruct P; reflexivity. }
    eapply done_cast; eauto.
  - destruct E; subst.
    + simpl provide. unfold the_class. destruct (lookup s c) as [o|] eqn:L; [|unfold contents in C; rewrite L in C; discriminate].
      assert (denotes_opt s (Some c) (Some c)) as D.
      { unfold contents in C. rewrite L in C. injection C as C. simpl. eapply den_obj; [exact L| |]; rewrite C; discriminate. }
      assert (instance G s c ClClass) as I by (econstructor; eauto).
      destruct (unpack_cases ClClass N Gs A D) as [Lv [(_ & -> & Gh)|(I' & _)]]; [|contradiction].
      assert (has_type G s c TObject) as Ht.
      { apply (isa_has_type TObject N L). unfold contents in C. rewrite L in C. injection C as C. rewrite C. reflexivity. }
      destruct (held_given Gs A Ht N Lv Gh) as [-> ->]. left. exists (KPtr (Some c)).
      split; [apply (@ps_ptr G s Cjclass ClClass (TheClass c) (Some c) (Some c)); [constructor|constructor|exact D|intros j [= <-]; exact I]|].
      unfold act, pts. cbn [local_of from_ty map fst gives fold_left snd kept app]. rewrite <- (u_ext (given_undisturbed s t TObject c)), ext_same.
      split; [reflexivity|]. split; [repeat constructor; auto|]. apply given_good; auto.
    + simpl provide. apply done_plain; auto. apply (@ps_ptr G s (Cptr ClClass) ClClass (TheClass c) (Some c) (Some c)); [constructor|constructor| |].
      * unfold contents in C. destruct (lookup s c) as [o|] eqn:L; [|discriminate]. injection C as C. simpl. eapply den_obj; [exact L| |]; rewrite C; discriminate.
      * intros j [= <-]. econstructor; eauto.
Qed.

(** Conversions do not change what later parameters are. *)
Definition alike (s s' : st) : Prop := forall j, contents s' j = contents s j.
Lemma alike_live s s' j : alike s s' -> live s' j = live s j.
Proof. intros H. specialize (H j). unfold contents, live in *. destruct (lookup s' j), (lookup s j); simpl in H; try discriminate; reflexivity. Qed.
Lemma alike_sym s s' : alike s s' -> alike s' s.
Proof. intros H j. symmetry. apply H. Qed.
Lemma alike_look s s' i o : alike s s' -> lookup s i = Some o -> exists o', lookup s' i = Some o' /\ o_pay o' = o_pay o.
Proof. intros H L. specialize (H i). unfold contents in H. rewrite L in H. destruct (lookup s' i) as [o'|]; [|discriminate]. injection H as H. eauto. Qed.
Lemma alike_denotes s s' h r : alike s s' -> denotes s h r -> denotes s' h r.
Proof.
  intros H D. induction D as [i o L N1 N2|i o j r L P D IH|i o j r L P Lj D IH|i o j L P Lj]; destruct (alike_look H L) as (o' & L' & P').
  - eapply den_obj; eauto; rewrite P'; auto.
  - eapply den_global; eauto; congruence.
  - eapply den_weak; eauto; [congruence|]. rewrite (alike_live j H). auto.
  - apply (@den_dead s' i o' j L'); [congruence|]. rewrite (alike_live j H). auto.
Qed.
Lemma alike_denotes_opt s s' h r : alike s s' -> denotes_opt s h r -> denotes_opt s' h r.
Proof. intros H. destruct h; simpl; auto. apply alike_denotes; auto. Qed.
Lemma alike_instance s s' j c : alike s s' -> instance G s j c -> instance G s' j c.
Proof. intros H I. inversion I; subst; try (rewrite <- (H j) in H0; econstructor; eauto; fail). constructor. rewrite (alike_live j H). auto. Qed.
Lemma alike_passes s s' T v x : alike s s' -> passes G s T v x -> passes G s' T v x.
Proof. intros H P. inversion P; subst; econstructor; eauto using alike_denotes_opt, alike_instance. Qed.
Lemma alike_refuses s s' T v e : alike s s' -> refuses G s T v e -> refuses G s' T v e.
Proof.
  intros H P. inversion P; subst; [eapply rf_type|eapply rf_null]; eauto using alike_denotes_opt. intros I. apply alike_instance with (s' := s) in I; auto using alike_sym.
Qed.
Lemma alike_fits s s' T v : alike s s' -> fits s T v -> fits s' T v.
Proof.
  intros H F. inversion F; subst; try (econstructor; eauto; fail).
  - eapply ft_ref; eauto. intros i E. rewrite (alike_live i H). auto.
  - eapply ft_class; eauto. rewrite (H c). eauto.
Qed.
Lemma act_alike p x s : alike s (act p x s).
Proof. intros j. unfold act. change (contents (with_ext (gives s (pts p x)) (kept x ++ s_ext s)) j) with (contents (gives s (pts p x)) j). apply gives_contents. Qed.
Lemma act_attached p x s : attached s t -> attached (act p x s) t.
Proof. intros A. exact (gives_attached (pts p x) A). Qed.
Lemma tidy_more s l : tidy s -> tidy (with_ext s (l ++ s_ext s)).
Proof.
  intros [T K]. split; [exact T|]. intros j Lj. destruct (K j Lj) as [H|H]; [|tauto]. left.
  apply In_held in H. apply In_held. destruct H as [H|H]; [left|right; exact H]. rewrite In_roots in *. cbn [s_ext with_ext s_globals s_classes s_ns s_types s_envs s_tmp]. rewrite in_app_iff. tauto.
Qed.

Lemma all_pass_alike s s' l xs : alike s s' -> all_pass G s l xs -> all_pass G s' l xs.
Proof. intros H P. induction P; constructor; auto. eapply alike_passes; eauto. Qed.
Lemma kept_cons x xs : all_kept (x :: xs) = all_kept xs ++ rev (kept x).
Proof. unfold all_kept. simpl. rewrite rev_app_distr. reflexivity. Qed.
Lemma rev_kept x : rev (kept x) = kept x.
Proof. destruct x as [| | |[]| | |]; reflexivity. Qed.
Lemma gives_app s l m : gives s (l ++ m) = gives (gives s l) m.
Proof. apply fold_left_app. Qed.
Lemma drop_shared x s e : tidy (with_ext s e) -> drop G t (shared x) (with_ext s (kept x ++ e)) = Some (with_ext s e).
Proof. intros T. destruct x as [| | |[i|]| | |]; try reflexivity. apply drop_eq. exact T. Qed.
Lemma convert_cases l : forall s, numbered G -> good G s -> attached s t -> Forall (fun p => fits s (fst p) (snd p)) l ->
  (exists xs, all_pass G s l xs /\ convert G t l s = Some (inl xs, with_ext (gives s (all_pts l xs)) (all_kept xs ++ s_ext s)) /\ good G (with_ext (gives s (all_pts l xs)) (all_kept xs ++ s_ext s))) \/
  (exists xs e, first_refused G s l xs e /\ convert G t l s = Some (inr e, gives s (all_pts l xs)) /\ good G (gives s (all_pts l xs))).
Proof.
  induction l as [|[T v] l IH]; intros s N Gs A F.
  - left. exists []. split; [constructor|]. simpl. rewrite ext_same. auto.
  - inversion F as [|q r F1 F2]; subst. cbn [fst snd] in F1. simpl convert.
    destruct (provide_done N Gs A F1) as [(x & P & -> & Lp & Ga)|(e & P & ->)].
    + pose proof (act_alike (T, v) x s) as Al. set (s1 := act (T, v) x s) in *.
      assert (forall xs, gives s1 (all_pts l xs) = with_ext (gives s (all_pts ((T, v) :: l) (x :: xs))) (kept x ++ s_ext s)) as Eg.
      { intros xs. unfold s1, act. rewrite gives_ext. simpl all_pts. rewrite gives_app. reflexivity. }
      assert (s_ext s1 = kept x ++ s_ext s) as Ee by reflexivity.
      destruct (IH s1 N Ga (act_attached (T, v) x A)) as [(xs & Ps & -> & Gx)|(xs & e & Ps & -> & Gx)].
      { eapply Forall_impl; [|exact F2]. intros p. apply alike_fits. exact Al. }
      * left. exists (x :: xs). split; [constructor; [exact P|]; eapply all_pass_alike; [apply alike_sym; exact Al|exact Ps]|].
        assert (with_ext (gives s1 (all_pts l xs)) (all_kept xs ++ s_ext s1) = with_ext (gives s (all_pts ((T, v) :: l) (x :: xs))) (all_kept (x :: xs) ++ s_ext s)) as Es.
        { rewrite Eg, Ee, kept_cons, rev_kept, <- app_assoc. reflexivity. }
        rewrite <- Es. auto.
      * right. exists (x :: xs), e. split.
        { destruct Ps as (l1 & T' & v' & l2 & -> & Ps & Rf). exists ((T, v) :: l1), T', v', l2. split; [reflexivity|]. split.
          - constructor; [exact P|]. eapply all_pass_alike; [apply alike_sym; exact Al|exact Ps].
          - eapply alike_refuses; [apply alike_sym; exact Al|exact Rf]. }
        assert (Forall (fun p => live s (snd p) = true) (all_pts ((T, v) :: l) (x :: xs))) as Lv.
        { simpl. apply Forall_app. split; auto. destruct Ps as (l1 & T' & v' & l2 & -> & Ps & Rf). clear - Ps Al.
          assert (forall l1 l2 xs, all_pass G s1 l1 xs -> length l1 = length xs -> all_pts (l1 ++ l2) xs = all_pts l1 xs) as Ea.
          { clear. intros m1. induction m1 as [|p m1 IH]; intros m2 [|y ys] P L; simpl in *; try discriminate; auto; [destruct m2; reflexivity|]. f_equal. inversion P; subst. apply IH; auto. }
          assert (length l1 = length xs) as Le by (clear - Ps; induction Ps; simpl; auto).
          rewrite (Ea l1 _ xs Ps Le). clear Le Ea. induction Ps as [|p y l1 xs Py Ps IHp]; [constructor|]. simpl. apply Forall_app. split; auto.
          unfold pts. apply Forall_map. apply Forall_forall. intros i Hi. simpl. rewrite <- (alike_live i Al).
          assert (y = KPtr (Some i)) as -> by (unfold local_of in Hi; destruct p as [T0 v0], T0, v0, y as [| | | |[k|]| |]; simpl in Hi; repeat match goal with H : context [match ?c with ClObject => _ | _ => _ end] |- _ => destruct c end; simpl in Hi; try tauto; destruct Hi as [<-|[]]; reflexivity).
          inversion Py; subst; [|match goal with H : by_value _ _ _ |- _ => destruct H; discriminate end]. destruct h as [h|]; [|discriminate]. eapply denotes_target_live; eauto. }
        assert (good G (gives s (all_pts ((T, v) :: l) (x :: xs)))) as Gf by (apply gives_good; auto).
        split; auto. rewrite Eg. rewrite drop_shared; [|rewrite <- (gives_s_ext (all_pts ((T, v) :: l) (x :: xs)) s), ext_same; apply Gf].
        cbn [option_map]. rewrite <- (gives_s_ext (all_pts ((T, v) :: l) (x :: xs)) s) at 1. rewrite ext_same. reflexivity.
    + right. exists [], e. split; [exists [], T, v, l; split; [reflexivity|split; [constructor|exact P]]|]. simpl. auto.
Qed.

(** Conversions consist of operations. *)
Definition ran (s s' : st) : Prop := exists l vs, exec G l s = Some (vs, s').
Lemma ran_refl s : ran s s.
Proof. exists [], []. reflexivity. Qed.
Lemma ran_trans a b c : ran a b -> ran b c -> ran a c.
Proof. intros (l & vs & E) (m & ws & F). exists (l ++ m), (vs ++ ws). apply exec_app. exists vs, b, ws. auto. Qed.
Lemma ran_step u o s v s' : step G u o s = Some (v, s') -> ran s s'.
Proof. intros E. exists [(u, o)], [v]. apply step_exec. exact E. Qed.
Lemma ran_unpack c h s r s' : unpack G t c h s = Some (r, s') -> ran s s'.
Proof.
  unfold unpack. destruct (ty_of c) as [Y|].
  - destruct (step G t (UHold_ Y h) s) as [[[[]|] s1]|] eqn:E; try discriminate; intros [= <- <-]; eapply ran_step; eauto.
  - destruct (step G t (UHold_ TObject h) s) as [[[[]|] s1]|] eqn:E; try discriminate. destruct h0; intros [= <- <-]; [apply ran_refl|eapply ran_step; eauto].
Qed.
Lemma ran_drop o s s' : drop G t o s = Some s' -> ran s s'.
Proof.
  unfold drop. destruct o as [i|]; [|intros [= <-]; apply ran_refl]. destruct (step G t (UDrop_ i) s) as [[[] s1]|] eqn:E; try discriminate. intros [= <-]. eapply ran_step; eauto.
Qed.
Lemma ran_cast_ptr c h s r s' : cast_ptr G t c h s = Some (r, s') -> ran s s'.
Proof.
  unfold cast_ptr. destruct (unpack G t c h s) as [[[[i|]|e] s1]|] eqn:E; try discriminate; apply ran_unpack in E; try (intros [= <- <-]; exact E).
  destruct (ty_of c) as [Y|]; [|discriminate]. destruct (step G t (UToJNI_ Y i) s1) as [[[] s2]|] eqn:E2; try discriminate. apply ran_step in E2.
  destruct (drop G t (Some i) s2) as [s3|] eqn:E3; [|discriminate]. apply ran_drop in E3. intros [= <- <-]. eauto using ran_trans.
Qed.
Lemma ran_the_class c s r s' : the_class G t c s = Some (r, s') -> ran s s'.
Proof.
  unfold the_class. destruct (unpack G t ClClass (Some c) s) as [[[[i|]|e] s1]|] eqn:E; try discriminate. apply ran_unpack in E.
  destruct (step G t (UToJNI_ TObject i) s1) as [[[] s2]|] eqn:E2; try discriminate. apply ran_step in E2.
  destruct (drop G t (Some i) s2) as [s3|] eqn:E3; [|discriminate]. apply ran_drop in E3. intros [= <- <-]. eauto using ran_trans.
Qed.
Lemma ran_cast_ref mk c h s r s' : cast_ref G t mk c h s = Some (r, s') -> ran s s'.
Proof.
  unfold cast_ref. destruct (unpack G t c h s) as [[[[i|]|e] s1]|] eqn:E; try discriminate; apply ran_unpack in E; try (intros [= <- <-]; exact E).
  destruct (drop G t (Some i) s1) as [s3|] eqn:E3; [|discriminate]. apply ran_drop in E3. intros [= <- <-]. eauto using ran_trans.
Qed.
Lemma ran_cast T a s r s' : cast G t T a s = Some (r, s') -> ran s s'.
Proof.
  destruct T, a; simpl; try discriminate; try (intros [= <- <-]; apply ran_refl); try apply ran_cast_ptr; try apply ran_cast_ref.
  destruct (unpack G t c h s) as [[[o|e] s1]|] eqn:E; try discriminate; apply ran_unpack in E; intros [= <- <-]; exact E.
Qed.
Lemma ran_provide T v s r s' : provide G t T v s = Some (r, s') -> ran s s'.
Proof.
  destruct v as [a|h|c]; simpl; [apply ran_cast| |].
  - destruct T; try (apply (@ran_cast _ (ArgL h))); intros [= <- <-]; apply ran_refl.
  - destruct T as [| | | | | | | | | |[]| | | |]; try discriminate; try (intros [= <- <-]; apply ran_refl). apply ran_the_class.
Qed.
Lemma ran_convert l : forall s r s', convert G t l s = Some (r, s') -> ran s s'.
Proof.
  induction l as [|[T v] l IH]; intros s r s'; simpl; [intros [= <- <-]; apply ran_refl|].
  destruct (provide G t T v s) as [[[x|e] s1]|] eqn:E; try discriminate; apply ran_provide in E; [|intros [= <- <-]; exact E].
  destruct (convert G t l s1) as [[[xs|e] s2]|] eqn:E2; try discriminate; apply IH in E2; [intros [= <- <-]; eauto using ran_trans|].
  destruct (drop G t (shared x) s2) as [s3|] eqn:E3; [|discriminate]. apply ran_drop in E3. intros [= <- <-]. eauto using ran_trans.
Qed.
Lemma pts_locals l : forall xs, map snd (all_pts l xs) = locals_of l xs.
Proof. induction l as [|p l IH]; intros [|x xs]; simpl; auto. rewrite map_app, IH. f_equal. unfold pts. rewrite map_map. simpl. apply map_id. Qed.
Lemma ran_reachable t0 s s' : reachable G t0 s -> ran s s' -> reachable G t0 s'.
Proof. intros R (l & vs & E). eapply reach_exec; eauto. Qed.
End Cfg.

(** ** C66 Typed references *)
(** A null reference and a weak reference to a destroyed object become a null pointer, whatever type is asked for. *)
Theorem C66_null G t0 t Y h s : reachable G t0 s -> numbered G -> attached s t -> resolves s Y h None ->
  step G t (UHold_ Y h) s = Some (OVal (RRef None), s).
Proof. intros R N A D. exact (@UHold_cases G t Y h None s N (reachable_good R) A D). Qed.
(** Otherwise C++ code gets the very object, if it has the type, and keeps it; all else stays as it is. *)
Theorem C66_accepted G t0 t Y h j s : reachable G t0 s -> numbered G -> attached s t -> resolves s Y h (Some j) -> has_type G s j Y ->
  exists s', step G t (UHold_ Y h) s = Some (OVal (RRef (Some j)), s') /\ gained t (frames s t) (s_globals s) (j :: s_ext s) s s' /\
    forall i, live s' i = live s i.
Proof.
  intros R N A D H. destruct (@UHold_cases G t Y h (Some j) s N (reachable_good R) A D) as (L & [(_ & E & _)|(H' & _)]); [|tauto].
  exists (held_in s j). split; auto. split; [|reflexivity].
  constructor; try reflexivity; [constructor; reflexivity|]. intros i Li. apply live_lookup in Li. destruct Li as (o & Lo). exists o, o. repeat split; auto.
Qed.
(** An object of another type is reported, and nothing happens. *)
Theorem C66_rejected G t0 t Y h j s : reachable G t0 s -> numbered G -> attached s t -> resolves s Y h (Some j) -> ~ has_type G s j Y ->
  step G t (UHold_ Y h) s = Some (OExn (type_error Y), s).
Proof.
  intros R N A D H. destruct (@UHold_cases G t Y h (Some j) s N (reachable_good R) A D) as (L & [(H' & _)|(_ & E)]); [tauto|auto].
Qed.

(** ** Parameters *)
(** Every parameter is converted to what its C++ type says, or the first that cannot be converted is reported.  All that happens to the VM is that
    pointers come with a local reference and shared pointers keep their object; a failed conversion keeps nothing. *)
Theorem C66_parameters G t0 t l s : reachable G t0 s -> numbered G -> attached s t -> Forall (fun p => fits s (fst p) (snd p)) l ->
  (exists xs s', convert G t l s = Some (inl xs, s') /\ all_pass G s l xs /\ reachable G t0 s' /\
     gained t (add_locals (frames s t) (locals_of l xs)) (s_globals s) (all_kept xs ++ s_ext s) s s' /\ forall i, live s' i = live s i) \/
  (exists xs e s', convert G t l s = Some (inr e, s') /\ first_refused G s l xs e /\ reachable G t0 s' /\
     gained t (add_locals (frames s t) (locals_of l xs)) (s_globals s) (s_ext s) s s' /\ forall i, live s' i = live s i).
Proof.
  intros R N A F. destruct (@convert_cases G t l s N (reachable_good R) A F) as [(xs & P & E & Gx)|(xs & e & P & E & Gx)]; [left; exists xs; eexists|right; exists xs, e; eexists].
  - split; [exact E|]. split; auto. split; [eapply ran_reachable; eauto; eapply ran_convert; eauto|]. rewrite <- pts_locals. split; [apply gives_gained|]. intros i. apply (gives_live t (all_pts l xs) s i).
  - split; [exact E|]. split; auto. split; [eapply ran_reachable; eauto; eapply ran_convert; eauto|]. rewrite <- pts_locals. split; [|intros i; apply gives_live].
    pose proof (gives_gained t (all_pts l xs) s (s_ext s)) as K. rewrite <- (gives_s_ext t (all_pts l xs) s) in K at 2. rewrite ext_same in K. exact K.
Qed.
(** The two cases exclude each other: whether a parameter is accepted, and as what, depends on the object alone. *)
Theorem C66_exclusive G s T v x e : passes G s T v x -> refuses G s T v e -> False.
Proof.
  assert (forall h h', handle_of v h -> handle_of v h' -> h = h') as Hh by (intros h h' A B; inversion A; subst; inversion B; auto).
  assert (forall h r r', denotes_opt s h r -> denotes_opt s h r' -> r = r') as Hd by (intros [h|] r r'; simpl; [apply denotes_fun|congruence]).
  intros P R.
  destruct R as [T c v h j [->|[B|(mk & B)]] Hv D I|T c mk v h B Hv D]; try (destruct B); inversion P; subst;
    try (match goal with H : is_environment _ |- _ => destruct H; discriminate end);
    try (match goal with H : by_pointer _ _ |- _ => inversion H; subst end);
    try (match goal with H : by_value _ _ _ |- _ => inversion H; subst end);
    match goal with H : handle_of v ?a, K : denotes_opt s ?a _, L : denotes_opt s h _ |- _ =>
      first [constr_eq K L; fail 1|rewrite (Hh _ _ H Hv) in K; pose proof (Hd _ _ _ K D) as Q] end;
    try discriminate Q; try (injection Q as ->); subst; auto.
Qed.

(** ** The call *)
(** All that has to be converted: a member function also needs its receiver. *)
Definition whole (f : callable) (implicit : source) (l : list (cty * source)) : list (cty * source) :=
  match f with MemFn C _ _ => (Cshared C, implicit) :: l | _ => l end.
Definition values (f : callable) (this : option oid) (xs : list cval) : list cval :=
  match f with MemFn _ _ _ => KShared this :: xs | _ => xs end.
Definition has_receiver (s : st) (f : callable) (implicit : source) : Prop :=
  match f with Fn _ _ => True | MemFn _ _ _ => exists h j, implicit = Receiver h /\ denotes_opt s h (Some j) | _ => False end.
Lemma begin_fn G t T ps k imp args l s : pairs (Fn T ps) k imp args = Some l ->
  begin G t (Fn T ps) k imp args s = option_map (fun p => (match fst p with inl xs => inl (None, xs) | inr e => inr e end, snd p)) (convert G t l s).
Proof. intros E. unfold begin. rewrite E. destruct (convert G t l s) as [[[xs|e] s1]|]; reflexivity. Qed.
Lemma denotes_opt_fun s h a b : denotes_opt s h a -> denotes_opt s h b -> a = b.
Proof. destruct h as [h|]; simpl; [apply denotes_fun|congruence]. Qed.
Lemma begin_mem G t C T ps k h args l s j : numbered G -> good G s -> attached s t -> pairs (MemFn C T ps) k (Receiver h) args = Some l -> denotes_opt s h (Some j) ->
  begin G t (MemFn C T ps) k (Receiver h) args s =
  option_map (fun p => (match fst p with inl (KShared this :: xs) => inl (this, xs) | inl _ => inl (None, []) | inr e => inr e end, snd p)) (convert G t ((Cshared C, Receiver h) :: l) s).
Proof.
  intros N Gd A P D. unfold begin. rewrite P. cbn [convert provide cast].
  destruct (@unpack_cases G t C h (Some j) s N Gd A D) as (_ & [(_ & -> & _)|(_ & ->)]); [|reflexivity].
  destruct (convert G t l (held_in s j)) as [[[zs|e] s3]|]; try reflexivity.
Qed.
Lemma pairs_assigned f n imp args l : pairs f n imp args = Some l <-> assigned imp n (params f) args l.
Proof.
  unfold pairs. set (P := params f). clearbody P. revert n args l. induction P as [|T P IH]; intros n args l.
  - rewrite skipn_nil, firstn_nil. simpl. split; [intros [= <-]; constructor|inversion 1; reflexivity].
  - destruct n as [|n].
    + specialize (IH 0). cbn [skipn firstn map app] in *. destruct args as [|a args]; [split; [discriminate|inversion 1]|]. cbn [length Nat.leb map combine].
      specialize (IH args). destruct (Nat.leb (length P) (length args)).
      * split; [intros [= <-]; constructor; apply IH; reflexivity|]. inversion 1; subst. f_equal. f_equal. match goal with K : assigned _ _ _ _ _ |- _ => apply IH in K; injection K as <-; reflexivity end.
      * split; [discriminate|]. inversion 1; subst. match goal with K : assigned _ _ _ _ _ |- _ => apply IH in K; discriminate K end.
    + specialize (IH n args). cbn [skipn firstn map app]. destruct (Nat.leb (length (skipn n P)) (length args)).
      * split; [intros [= <-]; constructor; apply IH; reflexivity|]. inversion 1; subst. f_equal. f_equal. match goal with K : assigned _ _ _ _ _ |- _ => apply IH in K; injection K as <-; reflexivity end.
      * split; [discriminate|]. inversion 1; subst. match goal with K : assigned _ _ _ _ _ |- _ => apply IH in K; discriminate K end.
Qed.
(** Values that the caller does not pass are read behind the end of the array. *)
Theorem C66_missing G t f n imp args s : (exists l, assigned imp n (params f) args l) \/ (begin G t f n imp args s = None /\ receive G t f n imp args s = None).
Proof.
  unfold receive, begin. destruct (pairs f n imp args) as [l|] eqn:E; [left|right]; auto. exists l. apply pairs_assigned. auto.
Qed.
(** A hook was entered with a receiver that is not null.  Its function runs with the parameters it should have, or none of it runs: then the call
    ends at once with the error of the first parameter that does not fit, pending or thrown to the caller like an exception of the function. *)
Theorem C66_call G t0 t f n imp args l k rest s : reachable G t0 s -> numbered G -> running s t = k :: rest ->
  assigned imp n (params f) args l -> has_receiver s f imp -> Forall (fun p => fits s (fst p) (snd p)) (whole f imp l) ->
  (exists this xs s', receive G t f n imp args s = Some (inl (this, xs), s') /\ all_pass G s (whole f imp l) (values f this xs) /\
     gained t (add_locals (frames s t) (locals_of (whole f imp l) (values f this xs))) (s_globals s) (all_kept (values f this xs) ++ s_ext s) s s' /\
     forall i, live s' i = live s i) \/
  (exists xs e s1 v s', first_refused G s (whole f imp l) xs e /\ gained t (add_locals (frames s t) (locals_of (whole f imp l) xs)) (s_globals s) (s_ext s) s s1 /\
     receive G t f n imp args s = Some (inr v, s') /\ running s' t = rest /\ frames s' t = frames s1 t /\
     if k_catch k then (exists w, v = OVal (RVal w) /\ zero_of (k_ret k) w) /\ now_pending t e s1 s' else v = OExn e /\ hook_done t rest s1 s').
Proof.
  intros R N K P H F. apply pairs_assigned in P. assert (attached s t) as A by (destruct (running_env K) as (e & E & _); exists e; auto).
  assert (exists mk : list cval -> option oid * list cval, (forall xs, all_pass G s (whole f imp l) xs -> xs = values f (fst (mk xs)) (snd (mk xs))) /\
    begin G t f n imp args s = option_map (fun p => (match fst p with inl xs => inl (mk xs) | inr e => inr e end, snd p)) (convert G t (whole f imp l) s)) as (mk & Mk & B).
  { destruct f as [T ps|C T ps| |]; try destruct H.
    - exists (fun xs => (None, xs)). split; [reflexivity|]. apply begin_fn. exact P.
    - rename x into h. destruct H as (j & -> & D). exists (fun xs => match xs with KShared this :: ys => (this, ys) | _ => (None, []) end). split.
      + intros xs Ps. inversion Ps as [|? x ? ys Pa Pr]; subst. simpl in Pa. inversion Pa; subst; try (match goal with K : is_environment _ |- _ => destruct K; discriminate end);
        try (match goal with K : by_pointer _ _ |- _ => inversion K; fail | K : by_value _ _ _ |- _ => inversion K; fail end). reflexivity.
      + rewrite (@begin_mem G t C T ps n h args l s j N (reachable_good R) A P D).
        cbn [whole]. destruct (convert G t ((Cshared C, Receiver h) :: l) s) as [[[[|[] ys]|e] s1]|]; reflexivity. }
  unfold receive. rewrite B. destruct (@C66_parameters G t0 t (whole f imp l) s R N A F) as [(xs & s' & E & Ps & R' & Gn & Lv)|(xs & e & s1 & E & Ps & R' & Gn & Lv)]; rewrite E; simpl.
  - left. exists (fst (mk xs)), (snd (mk xs)), s'. rewrite <- (Mk xs Ps). rewrite <- surjective_pairing. auto.
  - right. assert (running s1 t = k :: rest) as K1 by (rewrite (cm_running (gn_calm Gn)); exact K).
    destruct (HookThrow_step e (reachable_solid R') K1) as (v & s' & E' & _ & Ru & Fr & H'). exists xs, e, s1, v, s'. rewrite E'. auto 10.
Qed.
(** The receiver of a member function must not be null, though nothing checks it. *)
Theorem C66_refuted_receiver G t t0 s C T ps n h args : reachable G t0 s -> numbered G -> attached s t -> denotes_opt s h None ->
  begin G t (MemFn C T ps) n (Receiver h) args s = None.
Proof.
  intros R N A D. unfold begin. destruct (pairs _ _ _ _); [|reflexivity].
  rewrite (@unpack_cases G t C h None s N (reachable_good R) A D). reflexivity.
Qed.

(** ** How long parameters live *)
(** Objects behind shared pointers and pointers are referenced: by the C++ variable, or by a local reference of the thread (the class of a static
    method by its registration). *)
Theorem C66_kept G t0 t l s xs s' : reachable G t0 s -> numbered G -> attached s t -> Forall (fun p => fits s (fst p) (snd p)) l -> convert G t l s = Some (inl xs, s') ->
  (forall i, In (KShared (Some i)) xs -> In i (s_ext s')) /\
  (forall i, In (KPtr (Some i)) xs -> (exists f, In f (frames s' t) /\ In i f) \/ In (Cptr ClClass, TheClass i) l).
Proof.
  intros R N A F E. destruct (C66_parameters R N A F) as [(ys & s1 & E1 & Ps & _ & Gn & _)|(ys & e & s1 & E1 & _)]; rewrite E1 in E; [|discriminate].
  injection E as <- <-. split; intros i Hi.
  - rewrite (gn_ext Gn). apply in_or_app. left. unfold all_kept. rewrite <- in_rev. apply in_flat_map. exists (KShared (Some i)). split; simpl; auto.
  - rewrite (gn_frames Gn). assert (In i (locals_of l ys) \/ In (Cptr ClClass, TheClass i) l) as [H|H]; [|left|right; exact H].
    { clear - Ps Hi F. induction Ps as [|[T v] x l ys Pa _ IH]; [destruct Hi|]. inversion F as [|? ? Fa Fr]; subst. cbn [locals_of]. rewrite in_app_iff. simpl. destruct Hi as [->|Hi]; [|destruct (IH Fr Hi); auto].
      simpl in Pa, Fa. destruct v as [a|h|c]; destruct T as [| | | | | | | | | |[]| | | |]; simpl; auto.
      right. left. inversion Fa; subst; try (match goal with H : is_environment _ |- _ => destruct H; discriminate | H : forall c', TheClass ?c <> TheClass c' |- _ => destruct (H c); reflexivity end).
      inversion Pa; subst; [|match goal with H : by_value _ _ _ |- _ => inversion H end]. match goal with H : handle_of _ _ |- _ => inversion H; subst end. match goal with H : denotes_opt s _ _, C : contents s c = _ |- _ => apply contents_lookup in C; destruct C as (o & Lo & Po); simpl in H; inversion H; subst; congruence end. }
    pose proof (good_wf (reachable_good R)) as W. destruct A as (e & Ea). assert (frames s t <> []) as Nn by (rewrite (frames_env Ea); apply (wf_env_ok W Ea)).
    destruct (frames s t) as [|f r] eqn:Ef; [congruence|]. exists (f ++ locals_of l ys). split; [left; reflexivity|]. apply in_or_app. auto.
Qed.

(** ** Classes of parameters *)
Fixpoint first_reg (s : st) (i : oid) (l : list (ty * oid)) : option oid :=
  match l with
  | [] => None
  | (Y, k) :: r => if Nat.eqb k i then match registered s Y with Some c => Some c | None => first_reg s i r end else first_reg s i r
  end.
Lemma given_other_class s t Y i j : j <> i -> class_ptr (given s t Y i) j = class_ptr s j.
Proof.
  intros Nj. unfold class_ptr. assert (lookup (given s t Y i) j = lookup s j) as ->.
  { unfold given. rewrite pushed_lookup. unfold ensured. destruct (lookup s i) as [o|] eqn:L; auto.
    assert (lookup (put s i (mkObj (type_class s Y) (o_mon o) (o_pay o))) j = lookup s j) as K by (rewrite (lookup_put _ _ L); destruct (Nat.eqb_spec i j); [congruence|auto]).
    destruct (o_clazz o); auto. destruct (live s o0); auto. }
  destruct (lookup s j) as [o|]; auto. destruct (o_clazz o); auto. rewrite given_live_eq. reflexivity.
Qed.
Lemma first_reg_ext s s' i l : (forall T, registered s' T = registered s T) -> first_reg s' i l = first_reg s i l.
Proof. intros H. induction l as [|[Y k] l IH]; simpl; auto. rewrite H, IH. reflexivity. Qed.
Lemma gives_class_ptr G t i l : forall s, good G s -> attached s t -> Forall (fun p => live s (snd p) = true) l ->
  class_ptr (gives t s l) i = match class_ptr s i with Some c => Some c | None => first_reg s i l end.
Proof.
  induction l as [|[Y k] l IH]; intros s Gs A F; simpl; [destruct (class_ptr s i); reflexivity|]. inversion F as [|? ? Lk F']; subst. simpl in Lk.
  change (gives t s ((Y, k) :: l)) with (gives t (given s t Y k) l).
  rewrite IH; [|apply given_good; auto|apply given_attached; auto|eapply Forall_impl; [|exact F']; intros [Z m] Lm; simpl in *; rewrite given_live_eq; exact Lm].
  rewrite (@first_reg_ext s); [|intros T; exact (u_types (given_undisturbed s t Y k) T)].
  destruct (Nat.eqb_spec k i) as [->|Nk].
  - rewrite given_class_ptr by (auto; exact (good_wf Gs)). destruct (class_ptr s i); auto.
  - rewrite given_other_class by auto. reflexivity.
Qed.
(** An object that has a class keeps it; one that is not passed as a pointer gets none; the others get the class registered for the C++ type under which they are passed first. *)
Theorem C66_class G t0 t l s xs s' i : reachable G t0 s -> numbered G -> attached s t -> Forall (fun p => fits s (fst p) (snd p)) l -> convert G t l s = Some (inl xs, s') ->
  (forall c, class_ptr s i = Some c -> class_ptr s' i = Some c) /\ (~ In i (locals_of l xs) -> class_ptr s' i = class_ptr s i) /\ (forall l1 T v l2 x1 x2 Y k, l = l1 ++ (T, v) :: l2 -> xs = x1 ++ KPtr (Some i) :: x2 -> length l1 = length x1 -> ~ In i (locals_of l1 x1) ->
     In i (local_of (T, v) (KPtr (Some i))) -> static_type T v Y -> registered s Y = Some k -> class_ptr s i = None -> class_ptr s' i = Some k).
Proof.
  intros R N A F E. pose proof (reachable_good R) as Gs.
  destruct (@convert_cases G t l s N Gs A F) as [(ys & Ps & E1 & Gd1)|(ys & e & _ & E1 & _)]; rewrite E1 in E; [|discriminate]. injection E as <- <-.
  assert (Forall (fun p => live s (snd p) = true) (all_pts l ys)) as Lv.
  { apply Forall_forall. intros [Y k] Hk. simpl. rewrite <- (gives_live t (all_pts l ys) s k).
    change (live (gives t s (all_pts l ys)) k) with (live (with_ext (gives t s (all_pts l ys)) (all_kept ys ++ s_ext s)) k).
    pose proof (good_wf Gd1) as W. destruct A as (e0 & Ea).
    assert (exists e, get_env (with_ext (gives t s (all_pts l ys)) (all_kept ys ++ s_ext s)) t = Some e) as (e & Ee) by (apply (gives_attached (all_pts l ys)); exists e0; exact Ea).
    assert (frames s t <> []) as Nn by (rewrite (frames_env Ea); apply (wf_env_ok (good_wf Gs) Ea)).
    assert (In k (concat (frames (with_ext (gives t s (all_pts l ys)) (all_kept ys ++ s_ext s)) t))) as Hf.
    { change (frames (with_ext (gives t s (all_pts l ys)) (all_kept ys ++ s_ext s)) t) with (frames (gives t s (all_pts l ys)) t). rewrite gives_frames.
      destruct (frames s t) as [|fr r]; [congruence|]. simpl. apply in_or_app. left. apply in_or_app. right. apply in_map_iff. exists (Y, k). auto. }
    rewrite (frames_env Ee) in Hf. exact (frames_live W Ee Hf). }
  assert (class_ptr (with_ext (gives t s (all_pts l ys)) (all_kept ys ++ s_ext s)) i = match class_ptr s i with Some c => Some c | None => first_reg s i (all_pts l ys) end) as K.
  { change (class_ptr (with_ext (gives t s (all_pts l ys)) (all_kept ys ++ s_ext s)) i) with (class_ptr (gives t s (all_pts l ys)) i). eapply gives_class_ptr; eauto. }
  assert (forall q, ~ In i (map snd q) -> forall r, first_reg s i (q ++ r) = first_reg s i r) as Fr.
  { induction q as [|[Y k] q IH]; intros Hn r; simpl; auto. simpl in Hn. destruct (Nat.eqb_spec k i) as [->|]; [tauto|]. apply IH. tauto. }
  rewrite K. split; [intros c ->; reflexivity|]. split.
  - intros Hn. rewrite <- pts_locals in Hn. rewrite <- (app_nil_r (all_pts l ys)), (Fr _ Hn). simpl. destruct (class_ptr s i); reflexivity.
  - intros l1 T v l2 x1 x2 Y k -> -> Ll Hn Hl St Rg ->.
    assert (forall l1 x1 l2 x2, length l1 = length x1 -> all_pts (l1 ++ l2) (x1 ++ x2) = all_pts l1 x1 ++ all_pts l2 x2) as Ea.
    { induction l0 as [|p l0 IH]; intros [|x x0] l3 x3 Le; simpl in *; try discriminate; auto. rewrite IH by lia. rewrite app_assoc. reflexivity. }
    rewrite Ea by exact Ll. rewrite <- pts_locals in Hn. rewrite (Fr _ Hn). cbn [all_pts]. unfold pts.
    assert (local_of (T, v) (KPtr (Some i)) = [i]) as ->.
    { simpl in *. destruct T as [| | | | | | | | | |[]| | | |]; auto; destruct v; auto; destruct Hl. }
    assert (from_ty (T, v) = Y) as -> by (destruct St as [c Y v Ec|v Hv|v|c]; unfold from_ty; try reflexivity; destruct v as [a|h|c']; simpl; try rewrite Ec; auto; destruct (Hv c'); reflexivity).
    simpl. rewrite Nat.eqb_refl, Rg. reflexivity.
Qed.
(** So a class that has not been handed out before is taken for an object of java/lang/Object once it was passed to a static function. *)
Definition C66_class_claim : Prop := forall G t0 t s c k s', reachable G t0 s -> numbered G -> attached s t -> contents s c = Some (PClass k) ->
  convert G t [(Cjclass, TheClass c)] s = Some (inl [KPtr (Some c)], s') -> class_ptr s c = None -> class_ptr s' c = registered s TClass.
Definition ex_super : list event := [(main, UBind_ 0 true (S_ "A")); (main, UBind_ 1 true (S_ "B")); (main, FindClass_ (S_ "B")); (main, GetSuperclass_ (Some 10))].
Theorem C66_refuted_class : ~ C66_class_claim.
Proof.
  intros C. assert (exists k s', contents (after Gd ex_super) 9 = Some (PClass k) /\ convert Gd main [(Cjclass, TheClass 9)] (after Gd ex_super) = Some (inl [KPtr (Some 9)], s') /\ class_ptr (after Gd ex_super) 9 = None /\ class_ptr s' 9 = registered (after Gd ex_super) TObject /\ registered (after Gd ex_super) TObject <> registered (after Gd ex_super) TClass) as (k & s' & H1 & H2 & H3 & H4 & H5).
  { do 2 eexists. split; [vm_compute; reflexivity|]. split; [vm_compute; reflexivity|]. split; [vm_compute; reflexivity|]. split; [vm_compute; reflexivity|]. vm_compute. discriminate. }
  apply H5. rewrite <- H4. apply (C Gd main main (after Gd ex_super) 9 k s'); auto; [apply after_reachable; vm_compute; reflexivity|exact Gd_numbered|]. eexists. vm_compute. reflexivity.
Qed.
Example C66_case_super : option_map fst (step Gd main (GetSuperclass_ (Some 10)) (after Gd [(main, UBind_ 0 true (S_ "A")); (main, UBind_ 1 true (S_ "B")); (main, FindClass_ (S_ "B"))])) = Some (OVal (RRef (Some 9))).
Proof. vm_compute. reflexivity. Qed.

(** A parameter taken by reference is not kept: a hook that deletes the only reference to it holds a reference to nothing. *)
Definition C66_reference_claim : Prop := forall G t0 t s c h i s1 o v s2, reachable G t0 s -> numbered G -> attached s t ->
  convert G t [(Cref c, Value (ArgL h))] s = Some (inl [KRef i], s1) -> step G t o s1 = Some (v, s2) -> live s2 i = true.
Definition ex_only : list event := [(main, UNew_ 2 0); (main, UToJNI_ (TUser 2) 9); (main, NewGlobalRef_ (Some 9)); (main, DeleteLocalRef_ (Some 9)); (main, UDrop_ 9)].
Theorem C66_refuted_reference : ~ C66_reference_claim.
Proof.
  intros C. pose proof (C Gd main main (after Gd ex_only) (ClUser 1) (Some 10) 9) as H.
  assert (exists s1 v s2, convert Gd main [(Cref (ClUser 1), Value (ArgL (Some 10)))] (after Gd ex_only) = Some (inl [KRef 9], s1) /\
    step Gd main (DeleteGlobalRef_ (Some 10)) s1 = Some (v, s2) /\ live s2 9 = false) as (s1 & v & s2 & E1 & E2 & L).
  { do 3 eexists. split; [vm_compute; reflexivity|]. split; vm_compute; reflexivity. }
  rewrite (H s1 (DeleteGlobalRef_ (Some 10)) v s2 (@after_reachable Gd ex_only ltac:(vm_compute; reflexivity)) Gd_numbered) in L; [discriminate| |exact E1|exact E2]. eexists. vm_compute. reflexivity.
Qed.

(** ** Cases *)
(** A hook of class 0 and its call: an instance of class 1, which derives from class 0, is the receiver; a string is no instance. *)
Definition ex_cast : list event :=
  [(main, UNew_ 1 0); (main, UToJNI_ (TUser 1) 9); (main, NewGlobalRef_ (Some 9)); (main, NewStringUTF_ (Some (S_ "x"))); (main, NewWeakGlobalRef_ (Some 9))].
Definition ex_params : list (cty * source) :=
  [(CENV, Receiver (Some 12)); (Cshared (ClUser 0), Receiver (Some 12)); (Cptr (ClUser 1), Value (ArgL (Some 10))); (Cbool, Value (ArgZ 5)); (Cref ClString, Value (ArgL (Some 11))); (Cptr ClString, Value (ArgL None))].
Example C66_case_params : exists s', convert Gd main ex_params (after Gd ex_cast) = Some (inl [KEnv; KShared (Some 9); KPtr (Some 9); KNum 1; KRef 11; KPtr None], s') /\
  frames s' main = [[9; 11; 9]] /\ s_ext s' = [9; 9].
Proof. eexists. split; [vm_compute; reflexivity|]. split; vm_compute; reflexivity. Qed.
Example C66_case_fits : Forall (fun p => fits (after Gd ex_cast) (fst p) (snd p)) ex_params.
Proof.
  unfold ex_params. repeat (apply Forall_cons; cbn [fst snd]); [| | |apply ft_bool| | |apply Forall_nil].
  - apply ft_env; [right; reflexivity|discriminate].
  - eapply ft_ref; [discriminate|left; reflexivity|constructor|]. intros i [= <-]. vm_compute. reflexivity.
  - eapply ft_ref; [discriminate|right; left; constructor|constructor|]. intros i [= <-]. vm_compute. reflexivity.
  - eapply ft_ref; [discriminate|right; right; eexists; constructor|constructor|]. intros i [= <-]. vm_compute. reflexivity.
  - eapply ft_ref; [discriminate|right; left; constructor|constructor|]. discriminate.
Qed.
(** The string is no instance of class 0, and null is no value. *)
Example C66_case_refused : exists s', convert Gd main [(Cshared (ClUser 0), Value (ArgL (Some 10))); (Cptr (ClUser 0), Value (ArgL (Some 11))); (Cbool, Value (ArgZ 1))] (after Gd ex_cast) =
    Some (inr (Err (S_ "Invalid Reference, Unexpected Type")), s') /\ s_ext s' = s_ext (after Gd ex_cast).
Proof. eexists. split; vm_compute; reflexivity. Qed.
Example C66_case_null : exists s', convert Gd main [(Cval ClString, Value (ArgL None))] (after Gd ex_cast) = Some (inr (Err (S_ "Cannot assign null to value type!")), s').
Proof. eexists. vm_compute. reflexivity. Qed.
Example C66_case_typed : has_type Gd (after Gd ex_cast) 9 (TUser 0) /\ ~ has_type Gd (after Gd ex_cast) 11 (TUser 0) /\ resolves (after Gd ex_cast) (TUser 0) (Some 12) (Some 9) /\
  resolves (after Gd ex_cast) TWeak (Some 12) (Some 12) /\ ~ has_type Gd (after Gd ex_cast) 12 TGlobal.
Proof.
  split; [eapply ht_user; [vm_compute; reflexivity|eapply dv_base; [vm_compute; reflexivity|left; reflexivity|apply dv_self]]|].
  split; [intros H; inversion H as [|n m l C| | | | | | | | | | | | |]; vm_compute in C; discriminate|].
  split; [unfold resolves, denotes_opt; eapply den_weak; [vm_compute; reflexivity|vm_compute; reflexivity|vm_compute; reflexivity|den_tac]|].
  split; [split; [reflexivity|intros i [= <-]; vm_compute; reflexivity]|].
  intros H; inversion H as [| | | | | | | | |k C| | | | |]; vm_compute in C; discriminate.
Qed.
(** A member function of class 0 is hooked, called, and gets its parameters; the same call with a string ends with an exception. *)
Definition ex_called (arg : oid) : list event := ex_cast ++
  [(main, UBind_ 0 true (S_ "A")); (main, UHookMethod_ 13 false (S_ "f") (S_ "(LA;)V") (mkHandle 7 KInst RVoid true)); (main, UToJNI_ (TUser 0) 9); (main, CallMethodA_ RVoid (Some 12) (Some 14) [ArgL (Some arg)])].
Definition ex_member : callable := MemFn (ClUser 0) Cvoid [Cptr (ClUser 0)].
Example C66_case_call : runs Gd (ex_called 10) = true /\ running (after Gd (ex_called 10)) main = [mkCall RVoid true 7 [13]] /\
  (exists s', receive Gd main ex_member 0 (Receiver (Some 12)) [ArgL (Some 10)] (after Gd (ex_called 10)) = Some (inl (Some 9, [KPtr (Some 9)]), s')) /\
  (exists s', receive Gd main ex_member 0 (Receiver (Some 12)) [ArgL (Some 11)] (after Gd (ex_called 11)) = Some (inr (OVal (RVal VUnit)), s') /\ running s' main = []).
Proof. split; [vm_compute; reflexivity|]. split; [vm_compute; reflexivity|]. split; eexists; [vm_compute; reflexivity|]. split; vm_compute; reflexivity. Qed.

Print Assumptions C66_null.
Print Assumptions C66_accepted.
Print Assumptions C66_rejected.
Print Assumptions C66_parameters.
Print Assumptions C66_exclusive.
Print Assumptions C66_call. Print Assumptions C66_missing.
Print Assumptions C66_kept.
Print Assumptions C66_class.
Print Assumptions C66_refuted_class.
Print Assumptions C66_refuted_receiver.
Print Assumptions C66_refuted_reference.
