(** FakeJni descriptors: C84, C85. *)
From Verif Require Import Base BaseProofs SigModel UtfModel VmState VmModel VmStep VmSpec MemSpec HookSpec CallSpec RefSpec ArrSpec HierSpec VmBase VmFrame VmWf VmPrim VmInv VmReg
  VmFine VmRegInv VmExact VmQuiet VmClass VmEnvInv VmMember VmMember2 VmMember3 VmTables VmHook VmMemHist VmCall VmCall2 VmThread VmDemo VmRef VmRef2 VmRef3 VmObj VmHier
  ClassProps MemberProps CallProps RefProps ArrProps HierProps BootProps SigSpec WrapModel WrapSpec WrapProps DescModel.
Set Implicit Arguments.
Unset Strict Implicit.
Local Open Scope vm_scope.
Local Opaque after.

(** ** The member tables of a class *)
Definition mtable (s : st) (cl : oid) : list mth := flat_map (fun i => match method_at s i with Some m => [m] | None => [] end) (methods_of s cl).
Definition ftable (s : st) (cl : oid) : list fld := flat_map (fun i => match field_at s i with Some f => [f] | None => [] end) (fields_of s cl).
Definition has_key (st : bool) (nm sg : str) (m : mth) : bool := Bool.eqb (m_static m) st && str_eqb (m_name m) nm && str_eqb (m_sig m) sg.
Definition has_fkey (st : bool) (nm ty : str) (f : fld) : bool := Bool.eqb (VmState.f_static f) st && str_eqb (f_name f) nm && str_eqb (VmState.f_type f) ty.
(** An implementation for a method: the first member with that name, signature and static flag gets it, else there is a new member. *)
Fixpoint bind_method (st : bool) (nm sg : str) (hd : handle) (l : list mth) : list mth :=
  match l with
  | [] => [mkMth nm sg st None (Some hd)]
  | m :: r => if has_key st nm sg m then mkMth nm sg st (m_native m) (Some hd) :: r else m :: bind_method st nm sg hd r
  end.
Fixpoint bind_field (st getter : bool) (nm ty : str) (hd : handle) (l : list fld) : list fld :=
  match l with
  | [] => [with_hook (mkFld nm ty st None None) getter hd]
  | f :: r => if has_fkey st nm ty f then with_hook f getter hd :: r else f :: bind_field st getter nm ty hd r
  end.
(** The same for a list of hooks with their names *)
Definition bind_m (x : str * hook) (l : list mth) : list mth :=
  match k_what (snd x) with WMethod => bind_method (k_static (snd x)) (fst x) (k_sig (snd x)) (k_handle (snd x)) l | _ => l end.
Definition bind_f (x : str * hook) (l : list fld) : list fld :=
  match k_what (snd x) with
  | WMethod => l
  | WGet => bind_field (k_static (snd x)) true (fst x) (k_sig (snd x)) (k_handle (snd x)) l
  | WSet => bind_field (k_static (snd x)) false (fst x) (k_sig (snd x)) (k_handle (snd x)) l
  end.
Definition bind_ms (L : list (str * hook)) (l : list mth) : list mth := fold_left (fun l x => bind_m x l) L l.
Definition bind_fs (L : list (str * hook)) (l : list fld) : list fld := fold_left (fun l x => bind_f x l) L l.

Lemma has_key_iff st nm sg m : has_key st nm sg m = true <-> m_static m = st /\ m_name m = nm /\ m_sig m = sg.
Proof.
  unfold has_key. rewrite !andb_true_iff, Bool.eqb_true_iff. destruct (str_eqb_spec (m_name m) nm), (str_eqb_spec (m_sig m) sg); intuition congruence.
Qed.
Lemma has_fkey_iff st nm ty f : has_fkey st nm ty f = true <-> VmState.f_static f = st /\ f_name f = nm /\ VmState.f_type f = ty.
Proof.
  unfold has_fkey. rewrite !andb_true_iff, Bool.eqb_true_iff. destruct (str_eqb_spec (f_name f) nm), (str_eqb_spec (VmState.f_type f) ty); intuition congruence.
Qed.
(** Hooks on class [cl], in this order, are all that has happened. *)
Record hooks_on (t : tid) (cl : oid) (L : list (str * hook)) (s s' : st) : Prop := {
  hd_methods : mtable s' cl = bind_ms L (mtable s cl);
  hd_fields : ftable s' cl = bind_fs L (ftable s cl);
  hd_other : forall c, c <> cl -> is_cls s c = true -> mtable s' c = mtable s c /\ ftable s' c = ftable s c;
  hd_name : forall c k, class_at s c = Some k -> exists k', class_at s' c = Some k' /\ c_prefix k' = c_prefix k /\ c_natives k' = c_natives k;
  hd_obj : forall j p, contents s j = Some p -> (forall k, p <> PClass k) -> (forall m, p <> PMethod m) -> (forall f, p <> PField f) -> intact s s' j;
  hd_live : forall j, live s j = true -> live s' j = true;
  hd_globals : s_globals s' = s_globals s;
  hd_ext : s_ext s' = s_ext s;
  hd_pending : pending s' t = pending s t;
  hd_running : running s' t = running s t;
  hd_env : option_map e_id (get_env s' t) = option_map e_id (get_env s t);
  hd_others : forall u, u <> t -> get_env s' u = get_env s u
}.
Record hooks_done (t : tid) (cl : oid) (L : list (str * hook)) (s s' : st) : Prop := { hd_on :> hooks_on t cl L s s'; hd_frames : frames s' t = frames s t }.
Lemma hooks_refl t cl s : hooks_done t cl [] s s.
Proof.
  split; [|reflexivity]. constructor; auto; intros; try (eexists; eauto; fail). apply intact_refl. unfold contents in H. unfold live. destruct (lookup s j); [auto|discriminate].
Qed.
Lemma class_cls s c k : class_at s c = Some k -> is_cls s c = true.
Proof. intros H. apply is_cls_class_at. eauto. Qed.
Lemma on_trans t cl L M a b c : hooks_on t cl L a b -> hooks_on t cl M b c -> hooks_on t cl (L ++ M) a c.
Proof.
  intros A B. constructor.
  - unfold bind_ms. rewrite fold_left_app. rewrite (hd_methods B), (hd_methods A). reflexivity.
  - unfold bind_fs. rewrite fold_left_app. rewrite (hd_fields B), (hd_fields A). reflexivity.
  - intros x N C. destruct (hd_other A N C) as [A1 A2]. apply is_cls_class_at in C. destruct C as (k & C). destruct (hd_name A C) as (k' & C' & _).
    destruct (hd_other B N (class_cls C')) as [B1 B2]. split; congruence.
  - intros x k C. destruct (hd_name A C) as (k1 & C1 & A1 & A2). destruct (hd_name B C1) as (k2 & C2 & B1 & B2). exists k2. split; [auto|]. split; congruence.
  - intros j p C N1 N2 N3. pose proof (hd_obj A C N1 N2 N3) as I. eapply intact_trans; [exact I|]. destruct (intact_contents I C) as (p' & C' & V).
    apply (hd_obj B C'); intros x ->; simpl in V; destruct p; simpl in V; try discriminate; [eapply N1|eapply N2|eapply N3]; eauto.
  - intros j H. apply (hd_live B), (hd_live A), H.
  - rewrite (hd_globals B). apply A.
  - rewrite (hd_ext B). apply A.
  - rewrite (hd_pending B). apply A.
  - rewrite (hd_running B). apply A.
  - rewrite (hd_env B). apply A.
  - intros u N. rewrite (hd_others B N). apply A. auto.
Qed.
Lemma hooks_trans t cl L M a b c : hooks_done t cl L a b -> hooks_done t cl M b c -> hooks_done t cl (L ++ M) a c.
Proof. intros A B. split; [exact (on_trans A B)|]. rewrite (hd_frames B). apply A. Qed.

Lemma mtable_map s s' l : (forall j, In j l -> method_at s' j = method_at s j) ->
  flat_map (fun i => match method_at s' i with Some m => [m] | None => [] end) l = flat_map (fun i => match method_at s i with Some m => [m] | None => [] end) l.
Proof. induction l as [|x l IH]; intros H; simpl; auto. rewrite (H x) by (simpl; auto). rewrite IH; auto. intros j Hj. apply H. simpl; auto. Qed.
Lemma ftable_map s s' l : (forall j, In j l -> field_at s' j = field_at s j) ->
  flat_map (fun i => match field_at s' i with Some m => [m] | None => [] end) l = flat_map (fun i => match field_at s i with Some m => [m] | None => [] end) l.
Proof. induction l as [|x l IH]; intros H; simpl; auto. rewrite (H x) by (simpl; auto). rewrite IH; auto. intros j Hj. apply H. simpl; auto. Qed.
Lemma method_wf s cl j : wf s -> In j (methods_of s cl) -> exists m, method_at s j = Some m.
Proof.
  intros W H. pose proof (methods_wf W H) as M. unfold is_mth in M. unfold method_at, contents. destruct (lookup s j) as [o|]; [|discriminate]. simpl. destruct (o_pay o); try discriminate. eauto.
Qed.
Lemma field_wf s cl j : wf s -> In j (fields_of s cl) -> exists m, field_at s j = Some m.
Proof.
  intros W H. pose proof (fields_wf W H) as M. unfold is_fld in M. unfold field_at, contents. destruct (lookup s j) as [o|]; [|discriminate]. simpl. destruct (o_pay o); try discriminate. eauto.
Qed.
Lemma method_live s j m : method_at s j = Some m -> live s j = true.
Proof. unfold method_at, contents, live. destruct (lookup s j); [auto|discriminate]. Qed.
Lemma field_live s j m : field_at s j = Some m -> live s j = true.
Proof. unfold field_at, contents, live. destruct (lookup s j); [auto|discriminate]. Qed.
Lemma method_not_field s j m f : method_at s j = Some m -> field_at s j = Some f -> False.
Proof. unfold method_at, field_at. destruct (contents s j) as [[]|]; discriminate. Qed.
Lemma method_not_class s j m f : method_at s j = Some m -> class_at s j = Some f -> False.
Proof. unfold method_at, class_at. destruct (contents s j) as [[]|]; discriminate. Qed.
Lemma field_not_class s j m f : field_at s j = Some m -> class_at s j = Some f -> False.
Proof. unfold field_at, class_at. destruct (contents s j) as [[]|]; discriminate. Qed.
Lemma key_same s st nm sg j m : method_at s j = Some m -> (same_key s st nm sg j <-> has_key st nm sg m = true).
Proof. intros M. rewrite has_key_iff. split; [intros (x & X & A & B & C); assert (x = m) by congruence; subst; auto|intros (A & B & C); exists m; auto]. Qed.
Lemma fkey_same s st nm sg j m : field_at s j = Some m -> (is_field s st nm sg j <-> has_fkey st nm sg m = true).
Proof. intros M. rewrite has_fkey_iff. split; [intros (x & X & A & B & C); assert (x = m) by congruence; subst; auto|intros (A & B & C); exists m; auto]. Qed.

(** Class tables are unchanged if the classes and members are intact. *)
Lemma tables_same s s' c : wf s -> is_cls s c = true -> intact s s' c -> (forall j, In j (methods_of s c) \/ In j (fields_of s c) -> intact s s' j) ->
  mtable s' c = mtable s c /\ ftable s' c = ftable s c.
Proof.
  intros W C I H. apply is_cls_class_at in C. destruct C as (k & C). destruct (intact_class I C) as (k' & C' & Em & Ef & _).
  assert (methods_of s' c = methods_of s c) as Mm by (unfold methods_of; rewrite C, C'; auto). assert (fields_of s' c = fields_of s c) as Mf by (unfold fields_of; rewrite C, C'; auto).
  unfold mtable, ftable. rewrite Mm, Mf. split; [apply mtable_map|apply ftable_map]; intros j Hj.
  - destruct (method_wf W Hj) as (m & M). rewrite M. apply (intact_method (H j (or_introl Hj)) M).
  - destruct (field_wf W Hj) as (m & M). rewrite M. apply (intact_field (H j (or_intror Hj)) M).
Qed.
Lemma intact_name s s' c k : intact s s' c -> class_at s c = Some k -> exists k', class_at s' c = Some k' /\ c_prefix k' = c_prefix k /\ c_natives k' = c_natives k.
Proof. intros I C. destruct (intact_class I C) as (k' & C' & _ & _ & _ & P & N & _). eauto. Qed.
Lemma bind_method_at s s' st nm sg hd i m l : NoDup l -> (forall j, In j l -> exists x, method_at s j = Some x) -> first_in (same_key s st nm sg) l i -> method_at s i = Some m ->
  method_at s' i = Some (mkMth nm sg st (m_native m) (Some hd)) -> (forall j, In j l -> j <> i -> method_at s' j = method_at s j) ->
  flat_map (fun i => match method_at s' i with Some m => [m] | None => [] end) l = bind_method st nm sg hd (flat_map (fun i => match method_at s i with Some m => [m] | None => [] end) l).
Proof.
  intros N K F M M' Oth. induction F as [x l Px|x y l Nx F IH].
  - simpl. rewrite M, M'. simpl. pose proof (proj1 (key_same _ _ _ M) Px) as ->. f_equal. apply mtable_map. intros j Hj. apply Oth; [simpl; auto|]. intros ->. inversion N; auto.
  - inversion N as [|x' l' Nl Nd]; subst. assert (x <> y) as Ne by (intros ->; apply Nl; apply first_in_In in F; apply F).
    destruct (K x (or_introl eq_refl)) as (mx & X). simpl. rewrite (Oth x (or_introl eq_refl) Ne), X. simpl.
    destruct (has_key st nm sg mx) eqn:E; [exfalso; apply Nx, (key_same _ _ _ X); auto|]. f_equal. apply IH; auto; intros j Hj; [apply K|apply Oth]; simpl; auto.
Qed.
Lemma bind_method_none s st nm sg hd l : (forall j, In j l -> ~ same_key s st nm sg j) ->
  bind_method st nm sg hd (flat_map (fun i => match method_at s i with Some m => [m] | None => [] end) l) = flat_map (fun i => match method_at s i with Some m => [m] | None => [] end) l ++ [mkMth nm sg st None (Some hd)].
Proof.
  induction l as [|x l IH]; intros H; simpl; auto. destruct (method_at s x) as [m|] eqn:E; simpl; [|apply IH; intros j Hj; apply H; simpl; auto].
  destruct (has_key st nm sg m) eqn:K; [exfalso; apply (H x (or_introl eq_refl)), (key_same _ _ _ E); auto|]. f_equal. apply IH. intros j Hj. apply H. simpl; auto.
Qed.
Lemma bind_field_at s s' st g nm sg hd i m l : NoDup l -> (forall j, In j l -> exists x, field_at s j = Some x) -> first_in (is_field s st nm sg) l i -> field_at s i = Some m ->
  field_at s' i = Some (with_hook m g hd) -> (forall j, In j l -> j <> i -> field_at s' j = field_at s j) ->
  flat_map (fun i => match field_at s' i with Some m => [m] | None => [] end) l = bind_field st g nm sg hd (flat_map (fun i => match field_at s i with Some m => [m] | None => [] end) l).
Proof.
  intros N K F M M' Oth. induction F as [x l Px|x y l Nx F IH].
  - simpl. rewrite M, M'. simpl. pose proof (proj1 (fkey_same _ _ _ M) Px) as ->. f_equal. apply ftable_map. intros j Hj. apply Oth; [simpl; auto|]. intros ->. inversion N; auto.
  - inversion N as [|x' l' Nl Nd]; subst. assert (x <> y) as Ne by (intros ->; apply Nl; apply first_in_In in F; apply F).
    destruct (K x (or_introl eq_refl)) as (mx & X). simpl. rewrite (Oth x (or_introl eq_refl) Ne), X. simpl.
    destruct (has_fkey st nm sg mx) eqn:E; [exfalso; apply Nx, (fkey_same _ _ _ X); auto|]. f_equal. apply IH; auto; intros j Hj; [apply K|apply Oth]; simpl; auto.
Qed.
Lemma bind_field_none s st g nm sg hd l : (forall j, In j l -> ~ is_field s st nm sg j) ->
  bind_field st g nm sg hd (flat_map (fun i => match field_at s i with Some m => [m] | None => [] end) l) = flat_map (fun i => match field_at s i with Some m => [m] | None => [] end) l ++ [with_hook (mkFld nm sg st None None) g hd].
Proof.
  induction l as [|x l IH]; intros H; simpl; auto. destruct (field_at s x) as [m|] eqn:E; simpl; [|apply IH; intros j Hj; apply H; simpl; auto].
  destruct (has_fkey st nm sg m) eqn:K; [exfalso; apply (H x (or_introl eq_refl)), (fkey_same _ _ _ E); auto|]. f_equal. apply IH. intros j Hj. apply H. simpl; auto.
Qed.
Lemma not_member_intact X t s s' j p : disturbs X t s s' -> contents s j = Some p -> ~ X j -> intact s s' j.
Proof. intros D C N. apply (d_obj D); auto. unfold contents in C. unfold live. destruct (lookup s j); [auto|discriminate]. Qed.
Lemma flat_map_app1 A B (f : A -> list B) l x : flat_map f (l ++ [x]) = flat_map f l ++ f x.
Proof. rewrite flat_map_app. simpl. rewrite app_nil_r. reflexivity. Qed.

Lemma done_method t cl st nm sg hd s s' i : wf s -> owned s -> is_cls s cl = true -> hooked_method t cl st nm sg hd s s' i ->
  forall h, k_what h = WMethod -> k_static h = st -> k_sig h = sg -> k_handle h = hd -> hooks_done t cl [(nm, h)] s s'.
Proof.
  intros W O C K h H1 H2 H3 H4. assert (bind_ms [(nm, h)] (mtable s cl) = bind_method st nm sg hd (mtable s cl)) as Eb by (unfold bind_ms, bind_m; simpl; rewrite H1, H2, H3, H4; reflexivity).
  assert (bind_fs [(nm, h)] (ftable s cl) = ftable s cl) as Ef by (unfold bind_fs, bind_f; simpl; rewrite H1; reflexivity). clear H1 H2 H3 H4.
  pose proof C as C0. apply is_cls_class_at in C0. destruct C0 as (k & Ck).
  inversion K as [i' m F M M' Mo Di Fr Lv|i' N Ei M' Gr Di Fr Lv]; subst i'.
  - assert (i <> cl) as Ni by (intros ->; eapply method_not_class; eauto).
    assert (forall c x, class_at s c = Some x -> intact s s' c) as Ic by (intros c x Cx; apply (d_obj Di); [eapply class_at_live; eauto|intros ->; eapply method_not_class; eauto]).
    assert (forall c j, In j (fields_of s c) -> intact s s' j) as If.
    { intros c j Hj. destruct (field_wf W Hj) as (f & Hf). apply (d_obj Di); [eapply field_live; eauto|]. intros ->. eapply method_not_field; eauto. }
    assert (forall c j, In j (methods_of s c) -> j <> i -> intact s s' j) as Im.
    { intros c j Hj Ne. destruct (method_wf W Hj) as (f & Hf). apply (d_obj Di); [eapply method_live; eauto|auto]. }
    destruct (intact_class (Ic _ _ Ck) Ck) as (k' & Ck' & Em & Efl & _).
    assert (methods_of s' cl = methods_of s cl) as Mm by (unfold methods_of; rewrite Ck, Ck'; auto). assert (fields_of s' cl = fields_of s cl) as Mf by (unfold fields_of; rewrite Ck, Ck'; auto).
    split; [|exact Fr]. constructor; try (apply Di); auto.
    + rewrite Eb. unfold mtable. rewrite Mm. eapply bind_method_at; eauto; [apply O|intros j; apply method_wf; auto|]. intros j Hj Ne. destruct (method_wf W Hj) as (x & X). rewrite X. eapply intact_method; eauto.
    + rewrite Ef. unfold ftable. rewrite Mf. apply ftable_map. intros j Hj. destruct (field_wf W Hj) as (x & X). rewrite X. eapply intact_field; eauto.
    + intros c Nc Cc. pose proof Cc as C2. apply is_cls_class_at in C2. destruct C2 as (x & Cx). apply tables_same; eauto. intros j [Hj|Hj]; [|eauto]. eapply Im; eauto. intros ->.
      apply Nc. eapply (ow_mx O); [exact Hj|]. apply first_in_In in F. apply F.
    + intros c x Cx. eapply intact_name; eauto.
    + intros j p Hp N1 N2 N3. eapply not_member_intact; eauto. intros <-. unfold method_at in M. rewrite Hp in M. destruct p; try discriminate. eapply N2; eauto.
    + intros j Hj. rewrite Lv. auto.
  - destruct Gr as (c0 & c' & C0 & C' & Em & Efl & _ & Pn & Nn & _). rewrite Ck in C0. injection C0 as <-.
    assert (methods_of s' cl = methods_of s cl ++ [i]) as Mm by (unfold methods_of; rewrite Ck, C'; auto). assert (fields_of s' cl = fields_of s cl) as Mf by (unfold fields_of; rewrite Ck, C', Efl, app_nil_r; auto).
    assert (forall c j, In j (methods_of s c) -> intact s s' j) as Im.
    { intros c j Hj. destruct (method_wf W Hj) as (f & Hf). apply (d_obj Di); [eapply method_live; eauto|]. intros <-. eapply method_not_class; eauto. }
    assert (forall c j, In j (fields_of s c) -> intact s s' j) as If.
    { intros c j Hj. destruct (field_wf W Hj) as (f & Hf). apply (d_obj Di); [eapply field_live; eauto|]. intros <-. eapply field_not_class; eauto. }
    split; [|exact Fr]. constructor; try (apply Di); auto.
    + rewrite Eb. unfold mtable. rewrite (bind_method_none hd N), Mm, flat_map_app1, M'. f_equal. apply mtable_map. intros j Hj. destruct (method_wf W Hj) as (x & X). rewrite X. eapply intact_method; eauto.
    + rewrite Ef. unfold ftable. rewrite Mf. apply ftable_map. intros j Hj. destruct (field_wf W Hj) as (x & X). rewrite X. eapply intact_field; eauto.
    + intros c Nc Cc. apply tables_same; auto; [apply (d_obj Di); [apply is_cls_live; auto|auto]|]. intros j [Hj|Hj]; eauto.
    + intros c x Cx. destruct (Nat.eq_dec cl c) as [<-|Ne].
      * rewrite Ck in Cx. injection Cx as <-. exists c'. auto.
      * eapply intact_name; eauto. apply (d_obj Di); [eapply class_at_live; eauto|auto].
    + intros j p Hp N1 N2 N3. eapply not_member_intact; eauto. intros <-. unfold class_at in Ck. rewrite Hp in Ck. destruct p; try discriminate. eapply N1; eauto.
    + intros j Hj. apply Lv. auto.
Qed.
Lemma done_field t cl st g nm sg hd s s' i : wf s -> owned s -> is_cls s cl = true -> hooked_field t cl st g nm sg hd s s' i ->
  forall h, k_what h = (if g then WGet else WSet) -> k_static h = st -> k_sig h = sg -> k_handle h = hd -> hooks_done t cl [(nm, h)] s s'.
Proof.
  intros W O C K h H1 H2 H3 H4. assert (bind_fs [(nm, h)] (ftable s cl) = bind_field st g nm sg hd (ftable s cl)) as Eb by (unfold bind_fs, bind_f; simpl; rewrite H1, H2, H3, H4; destruct g; reflexivity).
  assert (bind_ms [(nm, h)] (mtable s cl) = mtable s cl) as Ef by (unfold bind_ms, bind_m; simpl; rewrite H1; destruct g; reflexivity). clear H1 H2 H3 H4.
  pose proof C as C0. apply is_cls_class_at in C0. destruct C0 as (k & Ck).
  inversion K as [i' m F M M' Mo Di Fr Lv|i' N Ei M' Gr Di Fr Lv]; subst i'.
  - assert (i <> cl) as Ni by (intros ->; eapply field_not_class; eauto).
    assert (forall c x, class_at s c = Some x -> intact s s' c) as Ic by (intros c x Cx; apply (d_obj Di); [eapply class_at_live; eauto|intros ->; eapply field_not_class; eauto]).
    assert (forall c j, In j (methods_of s c) -> intact s s' j) as Im.
    { intros c j Hj. destruct (method_wf W Hj) as (f & Hf). apply (d_obj Di); [eapply method_live; eauto|]. intros ->. eapply method_not_field; eauto. }
    assert (forall c j, In j (fields_of s c) -> j <> i -> intact s s' j) as If.
    { intros c j Hj Ne. destruct (field_wf W Hj) as (f & Hf). apply (d_obj Di); [eapply field_live; eauto|auto]. }
    destruct (intact_class (Ic _ _ Ck) Ck) as (k' & Ck' & Em & Efl & _).
    assert (methods_of s' cl = methods_of s cl) as Mm by (unfold methods_of; rewrite Ck, Ck'; auto). assert (fields_of s' cl = fields_of s cl) as Mf by (unfold fields_of; rewrite Ck, Ck'; auto).
    split; [|exact Fr]. constructor; try (apply Di); auto.
    + rewrite Ef. unfold mtable. rewrite Mm. apply mtable_map. intros j Hj. destruct (method_wf W Hj) as (x & X). rewrite X. eapply intact_method; eauto.
    + rewrite Eb. unfold ftable. rewrite Mf. eapply bind_field_at; eauto; [apply O|intros j; apply field_wf; auto|]. intros j Hj Ne. destruct (field_wf W Hj) as (x & X). rewrite X. eapply intact_field; eauto.
    + intros c Nc Cc. pose proof Cc as C2. apply is_cls_class_at in C2. destruct C2 as (x & Cx). apply tables_same; eauto. intros j [Hj|Hj]; [eauto|]. eapply If; eauto. intros ->.
      apply Nc. eapply (ow_fx O); [exact Hj|]. apply first_in_In in F. apply F.
    + intros c x Cx. eapply intact_name; eauto.
    + intros j p Hp N1 N2 N3. eapply not_member_intact; eauto. intros <-. unfold field_at in M. rewrite Hp in M. destruct p; try discriminate. eapply N3; eauto.
    + intros j Hj. rewrite Lv. auto.
  - destruct Gr as (c0 & c' & C0 & C' & Em & Efl & _ & Pn & Nn & _). rewrite Ck in C0. injection C0 as <-.
    assert (methods_of s' cl = methods_of s cl) as Mm by (unfold methods_of; rewrite Ck, C', Em, app_nil_r; auto). assert (fields_of s' cl = fields_of s cl ++ [i]) as Mf by (unfold fields_of; rewrite Ck, C'; auto).
    assert (forall c j, In j (methods_of s c) -> intact s s' j) as Im.
    { intros c j Hj. destruct (method_wf W Hj) as (f & Hf). apply (d_obj Di); [eapply method_live; eauto|]. intros <-. eapply method_not_class; eauto. }
    assert (forall c j, In j (fields_of s c) -> intact s s' j) as If.
    { intros c j Hj. destruct (field_wf W Hj) as (f & Hf). apply (d_obj Di); [eapply field_live; eauto|]. intros <-. eapply field_not_class; eauto. }
    split; [|exact Fr]. constructor; try (apply Di); auto.
    + rewrite Ef. unfold mtable. rewrite Mm. apply mtable_map. intros j Hj. destruct (method_wf W Hj) as (x & X). rewrite X. eapply intact_method; eauto.
    + rewrite Eb. unfold ftable. rewrite (bind_field_none g hd N), Mf, flat_map_app1, M'. f_equal. apply ftable_map. intros j Hj. destruct (field_wf W Hj) as (x & X). rewrite X. eapply intact_field; eauto.
    + intros c Nc Cc. apply tables_same; auto; [apply (d_obj Di); [apply is_cls_live; auto|auto]|]. intros j [Hj|Hj]; eauto.
    + intros c x Cx. destruct (Nat.eq_dec cl c) as [<-|Ne].
      * rewrite Ck in Cx. injection Cx as <-. exists c'. auto.
      * eapply intact_name; eauto. apply (d_obj Di); [eapply class_at_live; eauto|auto].
    + intros j p Hp N1 N2 N3. eapply not_member_intact; eauto. intros <-. unfold class_at in Ck. rewrite Hp in Ck. destruct p; try discriminate. eapply N1; eauto.
    + intros j Hj. apply Lv. auto.
Qed.
(** Naming an array in a signature changes no table. *)
Lemma done_array G t0 t cl n s v s' : reachable G t0 s -> is_cls s cl = true -> step G t (UDeclareArray_ n) s = Some (v, s') -> hooks_done t cl [] s s'.
Proof.
  intros R Kc E. pose proof (reachable_good R) as Gs. pose proof (good_wf Gs) as W. pose proof (step_attached E eq_refl) as A.
  assert (exists c k, registered s (TUser n) = Some c /\ contents s c = Some (PClass k)) as (c & k & Rg & Ck).
  { unfold step in E. rewrite run_attached in E by auto. cbn [body] in E. unfold as_unit, declare_array, bind, gets in E. change (type_class s (TUser n)) with (registered s (TUser n)) in E.
    destruct (registered s (TUser n)) as [c|] eqn:Rg; [|discriminate]. exists c. unfold get_cls, bind, deref in E. unfold contents. destruct (lookup s c) as [o|]; [|discriminate]. simpl.
    destruct (o_pay o); try discriminate. eauto. }
  destruct (@C43_declare G t0 t n c k s R A Rg Ck) as (ci & p & s1 & ck & E1 & Cn & _ & Cc & _ & Di & Fr & Nw & Old). rewrite E in E1. injection E1 as -> <-.
  assert (forall j, live s j = true -> j <> ci -> intact s s' j) as I by (intros j Lj Nj; apply (d_obj Di); auto).
  assert (is_cls s' ci = true) as Ki by (destruct Cn as (o & x & L & P & _); unfold is_cls; rewrite L, P; reflexivity).
  assert (forall j m, method_at s j = Some m -> j <> ci) as Nm.
  { intros j m M ->. destruct (Old (method_live M)) as (c0 & C0 & _). unfold method_at in M. rewrite C0 in M. discriminate. }
  assert (forall j m, field_at s j = Some m -> j <> ci) as Nf.
  { intros j m M ->. destruct (Old (field_live M)) as (c0 & C0 & _). unfold field_at in M. rewrite C0 in M. discriminate. }
  assert (forall x y, class_at s x = Some y -> exists y', class_at s' x = Some y' /\ c_methods y' = c_methods y /\ c_fields y' = c_fields y /\ c_prefix y' = c_prefix y /\ c_natives y' = c_natives y) as Ic.
  { intros x y Cx. destruct (Nat.eq_dec x ci) as [->|Ne].
    - destruct (Old (class_at_live Cx)) as (c0 & C0 & _ & P & F & M & N & _). exists ck. unfold class_at in *. rewrite Cc. rewrite C0 in Cx. injection Cx as <-. auto.
    - destruct (intact_class (I x (class_at_live Cx) Ne) Cx) as (y' & C' & M & F & _ & P & N & _). exists y'. auto. }
  assert (forall x, is_cls s x = true -> mtable s' x = mtable s x /\ ftable s' x = ftable s x) as T.
  { intros x Cx. apply is_cls_class_at in Cx. destruct Cx as (y & Cx). destruct (Ic x y Cx) as (y' & C' & M & F & _).
    assert (methods_of s' x = methods_of s x) as Mm by (unfold methods_of; rewrite Cx, C'; auto). assert (fields_of s' x = fields_of s x) as Mf by (unfold fields_of; rewrite Cx, C'; auto).
    unfold mtable, ftable. rewrite Mm, Mf. split; [apply mtable_map|apply ftable_map]; intros j Hj.
    + destruct (method_wf W Hj) as (z & Z). rewrite Z. eapply intact_method; [apply I; [eapply method_live|eapply Nm]; eauto|exact Z].
    + destruct (field_wf W Hj) as (z & Z). rewrite Z. eapply intact_field; [apply I; [eapply field_live|eapply Nf]; eauto|exact Z]. }
  split; [|exact Fr]. constructor; try (apply Di); auto.
  - apply (T cl Kc).
  - apply (T cl Kc).
  - intros x y Cx. destruct (Ic x y Cx) as (y' & C' & _ & _ & P & N). eauto.
  - intros j q Hq N1 _ _. apply I; [unfold contents in Hq; unfold live; destruct (lookup s j); [auto|discriminate]|]. intros ->.
    assert (live s ci = true) as Lc by (unfold contents in Hq; unfold live; destruct (lookup s ci); [auto|discriminate]). destruct (Old Lc) as (c0 & C0 & _). rewrite Hq in C0. injection C0 as ->. eapply N1; eauto.
  - intros j Lj. destruct (Nat.eq_dec j ci) as [->|Ne]; [apply is_cls_live; auto|]. apply (intact_live (I j Lj Ne)).
Qed.

(** ** Running the operations *)
Lemma run_exec G t l : forall s s', run_ops G t l s = Some s' -> exists vs, exec G (map (pair t) l) s = Some (vs, s').
Proof.
  induction l as [|o l IH]; intros s s' E; simpl in E; [injection E as <-; exists []; reflexivity|]. destruct (step G t o s) as [[[v|e] s1]|] eqn:St; try discriminate.
  destruct (IH _ _ E) as (vs & Ex). exists (OVal v :: vs). cbn [map exec]. rewrite St, Ex. reflexivity.
Qed.
Lemma run_app G t l m : forall s s', run_ops G t (l ++ m) s = Some s' -> exists s1, run_ops G t l s = Some s1 /\ run_ops G t m s1 = Some s'.
Proof.
  induction l as [|o l IH]; intros s s' E; simpl in *; [eauto|]. destruct (step G t o s) as [[[v|e] s1]|]; try discriminate. apply IH. exact E.
Qed.
Lemma run_reachable G t0 t l s s' : reachable G t0 s -> run_ops G t l s = Some s' -> reachable G t0 s'.
Proof. intros R E. destruct (run_exec E) as (vs & Ex). exact (@reachable_exec G t0 s _ vs s' R Ex). Qed.
Definition harmless (o : op) : Prop := forall k inst n, o <> UBind_ k inst n.
Lemma run_types G t0 t l T : Forall harmless l -> forall s s', reachable G t0 s -> run_ops G t l s = Some s' -> registered s' T = registered s T.
Proof.
  induction 1 as [|o l H Hl IH]; intros s s' R E; simpl in E; [injection E as <-; reflexivity|]. destruct (step G t o s) as [[[v|e] s1]|] eqn:St; try discriminate.
  rewrite (IH _ _ (reach_step R St) E). exact (C81_step T R St H).
Qed.
Lemma arrays_ops l : forall ops, all_arrays l = Some ops -> Forall (fun o => exists n, o = UDeclareArray_ n) ops.
Proof.
  induction l as [|T l IH]; intros ops E; simpl in E; [injection E as <-; constructor|]. destruct (arrays T) as [a|] eqn:Ea; [|discriminate]. destruct (all_arrays l) as [b|]; [|discriminate]. injection E as <-.
  apply Forall_app. split; [|auto]. destruct T; simpl in Ea; try (injection Ea as <-; constructor); destruct c; try discriminate; try (injection Ea as <-; constructor);
    destruct c; try discriminate; injection Ea as <-; repeat constructor; eauto.
Qed.
Lemma run_arrays G t0 t cl ops : Forall (fun o => exists n, o = UDeclareArray_ n) ops -> forall s s', reachable G t0 s -> is_cls s cl = true -> run_ops G t ops s = Some s' -> hooks_done t cl [] s s'.
Proof.
  induction 1 as [|o l (n & ->) Hl IH]; intros s s' R C E; simpl in E; [injection E as <-; apply hooks_refl|]. destruct (step G t _ s) as [[[v|e] s1]|] eqn:St; try discriminate.
  pose proof (done_array R C St) as D. apply (@hooks_trans t cl [] [] s s1 s'); [exact D|]. apply (IH _ _ (reach_step R St)); [|exact E]. apply is_cls_class_at in C. destruct C as (k & C). destruct (hd_name D C) as (k' & C' & _). eapply class_cls; eauto.
Qed.
Lemma done_cls t cl L s s' c : hooks_done t cl L s s' -> is_cls s c = true -> is_cls s' c = true.
Proof. intros D C. apply is_cls_class_at in C. destruct C as (k & C). destruct (hd_name D C) as (k' & C' & _). eapply class_cls; eauto. Qed.
Lemma run_hook G t0 t cl nm f h ops s s' : reachable G t0 s -> is_cls s cl = true -> hook_ops cl nm f h = Some ops -> run_ops G t ops s = Some s' -> hooks_done t cl [(nm, h)] s s'.
Proof.
  intros R C H E. unfold hook_ops in H. destruct (all_arrays (sig_types f h)) as [l|] eqn:Ea; [|discriminate]. injection H as <-.
  destruct (run_app E) as (s1 & E1 & E2). pose proof (run_arrays (arrays_ops Ea) R C E1) as D. pose proof (run_reachable R E1) as R1. pose proof (done_cls D C) as C1.
  apply (@hooks_trans t cl [] [(nm, h)] s s1 s'); [exact D|]. simpl in E2. destruct (step G t (hook_op cl nm h) s1) as [[[v|e] s2]|] eqn:St; try discriminate. injection E2 as ->.
  pose proof (reachable_solid R1) as So. pose proof (good_wf (so_good So)) as W. unfold hook_op in St. destruct (k_what h) eqn:Kw.
  - destruct (hook_method_step (k_static h) nm (k_sig h) (k_handle h) (so_good So) (step_attached St eq_refl) C1) as (i & s3 & E3 & _ & K). rewrite St in E3. injection E3 as _ <-.
    eapply done_method; eauto. apply So.
  - destruct (hook_field_step (k_static h) true nm (k_sig h) (k_handle h) (so_good So) (step_attached St eq_refl) C1) as (i & s3 & E3 & _ & K). rewrite St in E3. injection E3 as _ <-.
    eapply done_field; eauto. apply So.
  - destruct (hook_field_step (k_static h) false nm (k_sig h) (k_handle h) (so_good So) (step_attached St eq_refl) C1) as (i & s3 & E3 & _ & K). rewrite St in E3. injection E3 as _ <-.
    eapply done_field; eauto. apply So.
Qed.
Lemma run_hooks G t0 t cl nm f hs : forall ops s s', reachable G t0 s -> is_cls s cl = true -> all_ops cl nm f hs = Some ops -> run_ops G t ops s = Some s' ->
  hooks_done t cl (map (pair nm) hs) s s'.
Proof.
  induction hs as [|h hs IH]; intros ops s s' R C H E; simpl in H; [injection H as <-; injection E as <-; apply hooks_refl|].
  destruct (hook_ops cl nm f h) as [a|] eqn:Ea; [|discriminate]. destruct (all_ops cl nm f hs) as [b|]; [|discriminate]. injection H as <-.
  destruct (run_app E) as (s1 & E1 & E2). pose proof (run_hook R C Ea E1) as D. cbn [map]. change ((nm, h) :: map (pair nm) hs) with ([(nm, h)] ++ map (pair nm) hs).
  eapply hooks_trans; [exact D|]. eapply IH; eauto; [exact (run_reachable R E1)|exact (done_cls D C)].
Qed.
Lemma ops_harmless cl nm f hs : forall ops, all_ops cl nm f hs = Some ops -> Forall harmless ops.
Proof.
  induction hs as [|h hs IH]; intros ops H; simpl in H; [injection H as <-; constructor|].
  destruct (hook_ops cl nm f h) as [a|] eqn:Ea; [|discriminate]. destruct (all_ops cl nm f hs) as [b|]; [|discriminate]. injection H as <-. apply Forall_app. split; [|auto].
  unfold hook_ops in Ea. destruct (all_arrays (sig_types f h)) as [l|] eqn:El; [|discriminate]. injection Ea as <-. apply Forall_app. split.
  - eapply Forall_impl; [|apply (arrays_ops El)]. intros o (n & ->) k i m. discriminate.
  - constructor; [|constructor]. intros k i m. unfold hook_op. destruct (k_what h); discriminate.
Qed.

(** ** What a descriptor hooks depends on the registered types only *)
Lemma registered_entry s c : reg_name s c = match type_of c with Some T => match registered s T with Some i => option_map c_prefix (class_at s i) | None => None end | None => None end.
Proof.
  unfold reg_name, entry. destruct (type_of c) as [T|]; [|reflexivity]. unfold registered. destruct (get_type s T) as [[i|]|]; try reflexivity.
  unfold class_at, contents. destruct (lookup s i) as [o|]; [|reflexivity]. simpl. destruct (o_pay o); reflexivity.
Qed.
Lemma mine_entry s cl c : mine_in s cl c = match type_of c with Some T => match registered s T with Some i => Nat.eqb i cl | None => false end | None => false end.
Proof. unfold mine_in, entry. destruct (type_of c) as [T|]; [|reflexivity]. unfold registered. destruct (get_type s T) as [[i|]|]; reflexivity. Qed.
Lemma registered_class s T i : wf s -> registered s T = Some i -> exists k, class_at s i = Some k.
Proof.
  intros W H. unfold registered, get_type in H. destruct (aget ty_eqb (s_types s) T) as [r|] eqn:E; [|discriminate]. subst r. apply (aget_In ty_eqb ty_eqb_spec) in E. apply (wf_types W) in E. apply is_cls_class_at. exact E.
Qed.
Lemma names_same s s' : wf s -> (forall T, registered s' T = registered s T) -> (forall c k, class_at s c = Some k -> exists k', class_at s' c = Some k' /\ c_prefix k' = c_prefix k /\ c_natives k' = c_natives k) ->
  (forall c, reg_name s' c = reg_name s c) /\ forall cl c, mine_in s' cl c = mine_in s cl c.
Proof.
  intros W Rg Cl. split.
  - intros c. rewrite !registered_entry. destruct (type_of c) as [T|]; [|reflexivity]. rewrite Rg. destruct (registered s T) as [i|] eqn:E; [|reflexivity]. destruct (registered_class W E) as (k & C). destruct (Cl _ _ C) as (k' & C' & P & _).
    rewrite C, C'. simpl. congruence.
  - intros cl c. rewrite !mine_entry. destruct (type_of c) as [T|]; [|reflexivity]. rewrite Rg. reflexivity.
Qed.
Lemma obind_ext A B (m m' : out A) (f g : A -> out B) : m = m' -> (forall a, f a = g a) -> obind m f = obind m' g.
Proof. intros <- H. unfold obind. destruct (snd m); try reflexivity. rewrite H. reflexivity. Qed.
Section Ext.
Variables (N N' : names) (mine mine' : ccls -> bool).
Hypothesis (HN : forall c, n_reg N' c = n_reg N c) (HO : forall c, n_own N' c = n_own N c) (HM : forall c, mine' c = mine c).
Lemma object_ext c : object_sig N' c = object_sig N c.
Proof. unfold object_sig. rewrite HN, HO. reflexivity. Qed.
Lemma value_ext c : value_sig N' c = value_sig N c.
Proof. induction c; try reflexivity; cbn [value_sig]; try (rewrite object_ext; reflexivity). rewrite IHc. reflexivity. Qed.
Lemma type_ext T : GetJNISignature N' T = GetJNISignature N T.
Proof. destruct T; cbn [GetJNISignature]; try reflexivity; try (rewrite object_ext; reflexivity); apply value_ext. Qed.
Lemma unfold_ext l : UnfoldJNISignature N' l = UnfoldJNISignature N l.
Proof. induction l as [|T l IH]; [reflexivity|]. cbn [UnfoldJNISignature]. rewrite type_ext, IH. reflexivity. Qed.
Lemma invoke_ext P R : invoke_sig N' P R = invoke_sig N P R.
Proof. unfold invoke_sig. rewrite unfold_ext, type_ext. reflexivity. Qed.
Lemma manager_ext id b f k : HookManager N' id b f k = HookManager N id b f k.
Proof.
  assert (forall i, install_method N' id i f k = install_method N id i f k) as M.
  { intros i. unfold install_method. destruct f; try reflexivity; destruct (tag _); try reflexivity; destruct (_ && _); try reflexivity; rewrite invoke_ext; reflexivity. }
  assert (forall i, install_getter N' id i f k = install_getter N id i f k) as Gt by (intros i; unfold install_getter; rewrite type_ext; reflexivity).
  assert (forall i, install_setter N' id i f k = install_setter N id i f k) as St.
  { intros i. unfold install_setter. destruct f; repeat (rewrite type_ext); reflexivity. }
  unfold HookManager. rewrite M, Gt, St. reflexivity.
Qed.
Lemma helper_ext id b f : HookManagerHelper2 N' mine' id b f = HookManagerHelper2 N mine id b f.
Proof.
  assert (forall k, HookManagerHelper N' mine' id b f k = HookManagerHelper N mine id b f k) as H.
  { intros k. unfold HookManagerHelper. destruct f; try reflexivity. rewrite manager_ext. destruct (receiver _ _); [|reflexivity]. destruct (negb (receivable _ _)); [reflexivity|].
    destruct (HookManager _ _ _ _ _); [|reflexivity]. replace (accepts mine' (b_inst b) (ParameterAt (Fn R P) k)) with (accepts mine (b_inst b) (ParameterAt (Fn R P) k)); [reflexivity|].
    unfold accepts. destruct (b_inst b); [|reflexivity]. destruct (ParameterAt _ _); try reflexivity; rewrite ?HM; try reflexivity. }
  unfold HookManagerHelper2. rewrite manager_ext, H. reflexivity.
Qed.
End Ext.
Lemma hooks_same own s s' cl r : wf s -> (forall T, registered s' T = registered s T) -> (forall c k, class_at s c = Some k -> exists k', class_at s' c = Some k' /\ c_prefix k' = c_prefix k /\ c_natives k' = c_natives k) ->
  hooks own s' cl r = hooks own s cl r.
Proof.
  intros W Rg Cl. destruct (names_same W Rg Cl) as [HN HM]. unfold hooks, Hook, HookInstance. destruct (r_act r); apply helper_ext; auto.
Qed.

(** The hooks of all descriptors with their names, in order *)
Inductive all_hooks (own : ccls -> option str) (s : st) (cl : oid) : list reg -> list (str * hook) -> Prop :=
| ah_nil : all_hooks own s cl [] []
| ah_cons r rs o hs L : hooks own s cl r = Some o -> snd o = Ok hs -> all_hooks own s cl rs L -> all_hooks own s cl (r :: rs) (map (pair (r_name r)) hs ++ L).
Lemma all_hooks_same own s s' cl rs L : wf s -> (forall T, registered s' T = registered s T) -> (forall c k, class_at s c = Some k -> exists k', class_at s' c = Some k' /\ c_prefix k' = c_prefix k /\ c_natives k' = c_natives k) ->
  (all_hooks own s cl rs L <-> all_hooks own s' cl rs L).
Proof.
  intros W Rg Cl. split; induction 1; try constructor; econstructor; eauto; rewrite <- H; [|symmetry]; apply hooks_same; auto.
Qed.
Lemma registre_done G own t0 t cl r s x s' : reachable G t0 s -> is_cls s cl = true -> registre G own t cl r s = Some (x, s') ->
  reachable G t0 s' /\ (forall T, registered s' T = registered s T) /\
  match x with
  | Ok _ => exists o hs, hooks own s cl r = Some o /\ snd o = Ok hs /\ hooks_done t cl (map (pair (r_name r)) hs) s s'
  | Thrown e => s' = s /\ exists o, hooks own s cl r = Some o /\ snd o = Thrown e
  | _ => False
  end.
Proof.
  intros R C E. unfold registre in E. destruct (hooks own s cl r) as [o|] eqn:Eh; [|discriminate]. destruct (snd o) as [hs|e| | |] eqn:Eo; try discriminate.
  - destruct (existsb _ _); [discriminate|]. destruct (all_ops cl (r_name r) (r_fun r) hs) as [l|] eqn:El; [|discriminate]. destruct (run_ops G t l s) as [s1|] eqn:Er; [|discriminate]. injection E as <- <-.
    split; [exact (run_reachable R Er)|]. split; [intros T; exact (@run_types G t0 t l T (ops_harmless El) s s1 R Er)|]. exists o, hs. split; [reflexivity|]. split; [exact Eo|]. exact (run_hooks R C El Er).
  - destruct (existsb _ _); [discriminate|]. injection E as <- <-. split; [exact R|]. split; [reflexivity|]. split; [reflexivity|]. exists o. auto.
Qed.
Lemma registre_all_done G own t0 t cl rs : forall s x s', reachable G t0 s -> is_cls s cl = true -> registre_all G own t cl rs s = Some (x, s') ->
  reachable G t0 s' /\ (forall T, registered s' T = registered s T) /\
  exists L rs1 rs2, rs = rs1 ++ rs2 /\ all_hooks own s cl rs1 L /\ hooks_done t cl L s s' /\
  match x with
  | Ok _ => rs2 = []
  | Thrown e => exists r rs3 o, rs2 = r :: rs3 /\ hooks own s cl r = Some o /\ snd o = Thrown e
  | _ => False
  end.
Proof.
  induction rs as [|r rs IH]; intros s x s' R C E; simpl in E.
  - injection E as <- <-. split; [exact R|]. split; [reflexivity|]. exists [], [], []. split; [reflexivity|]. split; [constructor|]. split; [apply hooks_refl|reflexivity].
  - destruct (registre G own t cl r s) as [[y s1]|] eqn:E1; [|discriminate]. destruct (registre_done R C E1) as (R1 & T1 & Y). destruct y as [u|e| | |]; try contradiction Y.
    + destruct Y as (o & hs & Ho & Hs & D). pose proof (done_cls D C) as C1. destruct (IH _ _ _ R1 C1 E) as (R2 & T2 & L & rs1 & rs2 & -> & Ah & D2 & X).
      pose proof (good_wf (reachable_good R)) as W. split; [exact R2|]. split; [intros T; rewrite T2; apply T1|]. exists (map (pair (r_name r)) hs ++ L), (r :: rs1), rs2. split; [reflexivity|]. split; [|split].
      * econstructor; eauto. apply (all_hooks_same own cl rs1 L W T1 (fun c k H => hd_name D H)). exact Ah.
      * eapply hooks_trans; eauto.
      * destruct x; auto. destruct X as (r1 & rs3 & o1 & -> & H1 & H2). exists r1, rs3, o1. split; [reflexivity|]. split; [|exact H2]. rewrite <- H1. symmetry. apply hooks_same; auto. intros c k H. apply (hd_name D H).
    + injection E as <- <-. destruct Y as (-> & o & Ho & Hs). split; [exact R|]. split; [reflexivity|]. exists [], [], (r :: rs). split; [reflexivity|]. split; [constructor|]. split; [apply hooks_refl|]. exists r, rs, o. auto.
Qed.

(** ** Frames *)
Lemma pop_empty G t s r : solid G s -> attached s t -> frames s t = [] :: r -> r <> [] ->
  exists s', step G t (PopLocalFrame_ None) s = Some (OVal (RRef None), s') /\ good G s' /\ gained t r (s_globals s) (s_ext s) s s' /\ forall i, live s' i = live s i.
Proof.
  intros So (e & E) Fr Nr. pose proof (so_good So) as Gs. pose proof (good_wf Gs) as W. rewrite (frames_env E) in Fr.
  assert (forall i, In i (env_roots e) -> In i (env_roots (unframed e r))) as Ro.
  { intros i. unfold env_roots, unframed. rewrite Fr. simpl. rewrite !in_app_iff. destruct r; [congruence|]. simpl. rewrite ?in_app_iff. tauto. }
  assert (tidy (penv s t (unframed e r))) as Ti by (apply (tidy_env W E Ro); apply Gs).
  assert (collect (penv s t (unframed e r)) = penv s t (unframed e r)) as Co.
  { pose proof (tidy_finish_id Ti) as F. unfold finish in F. rewrite with_tmp_same in F by apply Ti. exact F. }
  assert (s_tmp s = []) as Tm by apply Gs.
  assert (body G t (PopLocalFrame_ None) s = Ret (RRef None) (penv s t (unframed e r))) as B.
  { cbn [body]. unfold as_ref, bind at 1, PopLocalFrame, bind at 1. unfold jnicast. unfold ret at 1. unfold bind at 1, set_tmp, bind at 1, live_all, check. cbn [opt_list forallb].
    rewrite (with_tmp_same Tm). unfold bind at 1. rewrite (frame_pop_eq W E Fr), Co. reflexivity. }
  destruct (@step_frames G t (PopLocalFrame_ None) s e (unframed e r) (Ret (RRef None)) Gs E B eq_refl eq_refl eq_refl Ro (or_introl (ex_intro _ _ eq_refl))) as (w & s' & St & V & G' & Gn & Lv).
  exists s'. assert (w = OVal (RRef None)) as -> by (destruct w; inversion V; reflexivity). split; [exact St|]. split; [exact G'|]. split; [|exact Lv].
  replace (e_frames (unframed e r)) with r in Gn; [exact Gn|]. unfold unframed. simpl. destruct r; [congruence|reflexivity].
Qed.
Lemma gained_on t fs gl ex s s' cl : wf s -> (is_cls s cl = true \/ class_at s' cl = None) -> gained t fs gl ex s s' -> gl = s_globals s -> ex = s_ext s -> hooks_on t cl [] s s'.
Proof.
  intros W C Gn -> ->. assert (forall c, is_cls s c = true -> mtable s' c = mtable s c /\ ftable s' c = ftable s c) as T.
  { intros c Cc. apply tables_same; auto; [apply (gn_obj Gn), is_cls_live; auto|]. intros j [Hj|Hj].
    - destruct (method_wf W Hj) as (m & M). apply (gn_obj Gn). eapply method_live; eauto.
    - destruct (field_wf W Hj) as (m & M). apply (gn_obj Gn). eapply field_live; eauto. }
  assert (mtable s' cl = mtable s cl /\ ftable s' cl = ftable s cl) as Tc.
  { destruct (class_at s cl) as [k|] eqn:Ck; [apply T; eapply class_cls; eauto|]. destruct C as [C|C]; [apply is_cls_class_at in C; destruct C; congruence|].
    unfold mtable, ftable, methods_of, fields_of. rewrite C, Ck. auto. }
  constructor; try (apply Gn); auto; try (apply Tc).
  - intros c k Ck. eapply intact_name; [|exact Ck]. apply (gn_obj Gn). eapply class_at_live; eauto.
  - intros j p Hp _ _ _. apply (gn_obj Gn). unfold contents in Hp. unfold live. destruct (lookup s j); [auto|discriminate].
  - intros j Lj. apply (intact_live (gn_obj Gn Lj)).
Qed.
Lemma bind_on G t0 t k inst n s v s' : reachable G t0 s -> step G t (UBind_ k inst n) s = Some (v, s') ->
  exists cl, v = OVal (RRef (Some cl)) /\ hooks_done t cl [] s s' /\ class_named s' n cl /\ is_cls s' cl = true /\ (forall T, registered s' T = if ty_eqb (TUser k) T then Some cl else registered s T) /\
    (live s cl = true -> is_cls s cl = true) /\ exists c, class_at s' cl = Some c /\ c_bases c = Some (TUser k) /\ c_inst c = if inst then Some (TUser k) else None.
Proof.
  intros R E. pose proof (good_wf (reachable_good R)) as W. destruct (C81_bind k inst n R (step_attached E eq_refl)) as (i & c & s1 & E1 & Cn & Cc & Bs & In_ & Rg & I & Gl & Ex & En & _ & Old & New).
  rewrite E in E1. injection E1 as -> <-. assert (class_at s' i = Some c) as Ci by (unfold class_at; rewrite Cc; reflexivity).
  exists i. split; [reflexivity|]. split; [|split; [exact Cn|split; [eapply class_cls; eauto|split; [exact Rg|split; [|exists c; auto]]]]].
  2: { intros L. destruct (Old L) as (c0 & C0 & _). eapply class_cls. unfold class_at. rewrite C0. reflexivity. }
  assert (forall j m, method_at s j = Some m -> j <> i) as Nm.
  { intros j m M ->. destruct (Old (method_live M)) as (c0 & C0 & _). unfold method_at in M. rewrite C0 in M. discriminate. }
  assert (forall j m, field_at s j = Some m -> j <> i) as Nf.
  { intros j m M ->. destruct (Old (field_live M)) as (c0 & C0 & _). unfold field_at in M. rewrite C0 in M. discriminate. }
  assert (methods_of s' i = methods_of s i /\ fields_of s' i = fields_of s i) as [Mm Mf].
  { unfold methods_of, fields_of. rewrite Ci. destruct (live s i) eqn:Li.
    - destruct (Old eq_refl) as (c0 & C0 & _ & _ & F & M & _). unfold class_at. rewrite C0. auto.
    - destruct (New eq_refl) as (F & M & _). assert (class_at s i = None) as -> by (unfold class_at, contents; unfold live in Li; destruct (lookup s i); [discriminate|reflexivity]). auto. }
  split; [|unfold frames; rewrite En; reflexivity]. constructor; auto.
  - unfold mtable. rewrite Mm. apply mtable_map. intros j Hj. destruct (method_wf W Hj) as (m & M). rewrite M. eapply intact_method; [apply I; [eapply method_live; eauto|eapply Nm; eauto]|exact M].
  - unfold ftable. rewrite Mf. apply ftable_map. intros j Hj. destruct (field_wf W Hj) as (m & M). rewrite M. eapply intact_field; [apply I; [eapply field_live; eauto|eapply Nf; eauto]|exact M].
  - intros x Nx Cx. apply tables_same; auto; [apply I; [apply is_cls_live|]; auto|]. intros j [Hj|Hj].
    + destruct (method_wf W Hj) as (m & M). apply I; [eapply method_live; eauto|eapply Nm; eauto].
    + destruct (field_wf W Hj) as (m & M). apply I; [eapply field_live; eauto|eapply Nf; eauto].
  - intros x y Cx. destruct (Nat.eq_dec x i) as [->|Ne].
    + exists c. split; [exact Ci|]. destruct (Old (class_at_live Cx)) as (c0 & C0 & _ & P & _ & _ & N & _). unfold class_at in Cx. rewrite C0 in Cx. injection Cx as <-. auto.
    + eapply intact_name; [|exact Cx]. apply I; [eapply class_at_live; eauto|exact Ne].
  - intros j p Hp N1 _ _. assert (live s j = true) as Lj by (unfold contents in Hp; unfold live; destruct (lookup s j); [auto|discriminate]). apply I; [exact Lj|]. intros ->. destruct (Old Lj) as (c0 & C0 & _). rewrite Hp in C0. injection C0 as ->. eapply N1; eauto.
  - intros j Lj. destruct (Nat.eq_dec j i) as [->|Ne]; [eapply class_at_live; eauto|]. apply (intact_live (I j Lj Ne)).
  - unfold pending. rewrite En. reflexivity.
  - unfold running. rewrite En. reflexivity.
  - rewrite En. reflexivity.
Qed.
Lemma done_attached t cl L s s' : hooks_on t cl L s s' -> attached s t -> attached s' t.
Proof. intros D (e & E). pose proof (hd_env D) as H. rewrite E in H. simpl in H. destruct (get_env s' t) as [e'|] eqn:E'; [exists e'; auto|discriminate]. Qed.

(** ** C84 *)
(** registerClass() on an attached thread: *)
Theorem C84_register G compat own t0 t k inst name ds s x s' : reachable G t0 s -> attached s t -> registerClass G compat own t k inst name ds s = Some (x, s') ->
  match Descriptors compat ds with
  | Thrown e => x = Thrown e /\ s' = s
  | Ok rs => reachable G t0 s' /\ frames s' t = frames s t /\
      exists cl L rs1 rs2, rs = rs1 ++ rs2 /\ all_hooks own s' cl rs1 L /\ hooks_on t cl L s s' /\ class_named s' name cl /\
        (forall T, registered s' T = if ty_eqb (TUser k) T then Some cl else registered s T) /\
        match x with
        | Ok c => c = cl /\ rs2 = []
        | Thrown e => exists r rs3 o, rs2 = r :: rs3 /\ hooks own s' cl r = Some o /\ snd o = Thrown e
        | _ => False
        end
  | _ => False
  end.
Proof.
  intros R A E. unfold registerClass in E. destruct (Descriptors compat ds) as [rs|e| | |]; try discriminate; [|injection E as <- <-; auto].
  destruct (step G t (PushLocalFrame_ 0) s) as [[[v0|e] s0]|] eqn:E0; try discriminate.
  destruct (step G t (UBind_ k inst name) s0) as [[[v1|e] s1]|] eqn:E1; try discriminate.
  pose proof (reach_step R E0) as R0. pose proof (reach_step R0 E1) as R1. destruct (bind_on R0 E1) as (cl & Ev & D1 & Cn & K1 & Rg & Old & _). injection Ev as ->.
  destruct (registre_all G own t cl rs s1) as [[y s2]|] eqn:E2; [|discriminate]. destruct (registre_all_done R1 K1 E2) as (R2 & T2 & L & rs1 & rs2 & -> & Ah & D2 & X).
  destruct (step G t (PopLocalFrame_ None) s2) as [[[v3|e] s3]|] eqn:E3; try discriminate. injection E as <- <-.
  pose proof (reach_step R2 E3) as R3. destruct (PushLocalFrame_step 0 (reachable_solid R) A) as (sa & Ea & _ & Gn & Lv). rewrite E0 in Ea. injection Ea as _ <-.
  assert (attached s0 t) as A0 by (eapply gained_attached; eauto). pose proof (done_attached D1 A0) as A1. pose proof (done_attached D2 A1) as A2.
  assert (frames s2 t = [] :: frames s t) as F2 by (rewrite (hd_frames D2), (hd_frames D1); apply (gn_frames Gn)).
  assert (frames s t <> []) as Nf by (eapply C26_innermost_exists; eauto).
  destruct (pop_empty (reachable_solid R2) A2 F2 Nf) as (sb & Eb & _ & Gn3 & Lv3). rewrite E3 in Eb. injection Eb as _ <-.
  pose proof (good_wf (reachable_good R)) as W. pose proof (good_wf (reachable_good R1)) as W1. pose proof (good_wf (reachable_good R2)) as W2.
  pose proof (done_cls D2 K1) as K2.
  assert (hooks_on t cl [] s s0) as D0.
  { eapply gained_on; eauto. destruct (class_at s0 cl) as [c|] eqn:C0; [|auto]. left. assert (live s cl = true) as Ls by (rewrite <- Lv; eapply class_at_live; eauto).
    destruct (gn_obj Gn Ls) as (o & o' & L1 & L2 & V & _). unfold class_at, contents in C0. rewrite L2 in C0. simpl in C0. unfold is_cls. rewrite L1. destruct (o_pay o'); try discriminate. destruct (o_pay o); simpl in V; try discriminate. reflexivity. }
  assert (hooks_on t cl [] s2 s3) as D3 by (eapply gained_on; eauto).
  assert (hooks_on t cl [] s1 s1) as Dr by (apply hooks_refl).
  assert (forall T, registered s3 T = registered s1 T) as T3 by (intros T; rewrite (cm_types (gn_calm Gn3)); apply T2).
  assert (forall c k, class_at s1 c = Some k -> exists k', class_at s3 c = Some k' /\ c_prefix k' = c_prefix k /\ c_natives k' = c_natives k) as N3.
  { intros c y0 Cy. destruct (hd_name D2 Cy) as (y1 & C1 & P1 & Q1). destruct (hd_name D3 C1) as (y2 & C2 & P2 & Q2). exists y2. split; [exact C2|]. split; congruence. }
  split; [exact R3|]. split; [apply (gn_frames Gn3)|]. exists cl, L, rs1, rs2. split; [reflexivity|]. split; [|split; [|split; [|split]]].
  - apply (all_hooks_same own cl rs1 L W1 T3 N3). exact Ah.
  - pose proof (on_trans D0 (on_trans D1 (on_trans D2 D3))) as D. simpl in D. rewrite app_nil_r in D. exact D.
  - destruct Cn as (o & c & Lo & Po & Pn). assert (class_at s1 cl = Some c) as Cc by (unfold class_at, contents; rewrite Lo; simpl; rewrite Po; reflexivity).
    destruct (N3 _ _ Cc) as (c' & C' & P' & _). unfold class_at, contents in C'. destruct (lookup s3 cl) as [o3|] eqn:L3; [|discriminate]. simpl in C'. destruct (o_pay o3) eqn:P3; try discriminate. injection C' as ->. exists o3, c'. split; [exact L3|]. split; [exact P3|congruence].
  - intros T. rewrite T3, Rg. destruct (ty_eqb (TUser k) T); [reflexivity|]. apply (cm_types (gn_calm Gn)).
  - destruct y; try contradiction X; auto. destruct X as (r & rs3 & o & -> & H1 & H2). exists r, rs3, o. split; [reflexivity|]. split; [|exact H2]. rewrite <- H1. apply hooks_same; auto.
Qed.

(** *** What is found afterwards *)
Lemma table_first s cl st nm sg m : wf s -> find (has_key st nm sg) (mtable s cl) = Some m -> exists i, first_in (same_key s st nm sg) (methods_of s cl) i /\ method_at s i = Some m.
Proof.
  intros W. assert (forall j, In j (methods_of s cl) -> exists x, method_at s j = Some x) as Hw by (intros j; apply method_wf; auto). unfold mtable. induction (methods_of s cl) as [|j l IH]; [discriminate|].
  destruct (Hw j (or_introl eq_refl)) as (x & X). cbn [flat_map]. rewrite X. cbn [app find]. destruct (has_key st nm sg x) eqn:K.
  - intros [= <-]. exists j. split; [|exact X]. apply fi_here. apply has_key_iff in K. exists x. intuition.
  - intros F. destruct (IH (fun j Hj => Hw j (or_intror Hj)) F) as (i & Fi & M). exists i. split; [|exact M]. apply fi_later; [|exact Fi]. intros (y & Y & Y1 & Y2 & Y3). assert (y = x) by congruence. subst y. assert (has_key st nm sg x = true) by (apply has_key_iff; auto). congruence.
Qed.
Lemma ftable_first s cl st nm sg m : wf s -> find (has_fkey st nm sg) (ftable s cl) = Some m -> exists i, first_in (is_field s st nm sg) (fields_of s cl) i /\ field_at s i = Some m.
Proof.
  intros W. assert (forall j, In j (fields_of s cl) -> exists x, field_at s j = Some x) as Hw by (intros j; apply field_wf; auto). unfold ftable. induction (fields_of s cl) as [|j l IH]; [discriminate|].
  destruct (Hw j (or_introl eq_refl)) as (x & X). cbn [flat_map]. rewrite X. cbn [app find]. destruct (has_fkey st nm sg x) eqn:K.
  - intros [= <-]. exists j. split; [|exact X]. apply fi_here. apply has_fkey_iff in K. exists x. intuition.
  - intros F. destruct (IH (fun j Hj => Hw j (or_intror Hj)) F) as (i & Fi & M). exists i. split; [|exact M]. apply fi_later; [|exact Fi]. intros (y & Y & Y1 & Y2 & Y3). assert (y = x) by congruence. subst y. assert (has_fkey st nm sg x = true) by (apply has_fkey_iff; auto). congruence.
Qed.
(** [x] and [y] are for the same method, or both getters (both setters) of the same field. *)
Definition same_target (x y : str * hook) : Prop := k_what (snd x) = k_what (snd y) /\ k_static (snd x) = k_static (snd y) /\ fst x = fst y /\ k_sig (snd x) = k_sig (snd y).
Lemma find_bound st nm sg hd l : exists m, find (has_key st nm sg) (bind_method st nm sg hd l) = Some m /\ m_handle m = Some hd.
Proof.
  assert (forall x, has_key st nm sg (mkMth nm sg st x (Some hd)) = true) as Hk by (intros x; apply has_key_iff; auto).
  induction l as [|x l (m & F & H)]; cbn [bind_method].
  - exists (mkMth nm sg st None (Some hd)). cbn [find]. rewrite Hk. auto.
  - destruct (has_key st nm sg x) eqn:K; cbn [find]; [|rewrite K; eauto]. exists (mkMth nm sg st (m_native x) (Some hd)). rewrite Hk. auto.
Qed.
Lemma find_other st nm sg st' nm' sg' hd l m : (st', nm', sg') <> (st, nm, sg) -> find (has_key st nm sg) l = Some m -> find (has_key st nm sg) (bind_method st' nm' sg' hd l) = Some m.
Proof.
  intros N. induction l as [|x l IH]; cbn [find bind_method]; [discriminate|]. destruct (has_key st' nm' sg' x) eqn:K'; cbn [find]; destruct (has_key st nm sg x) eqn:K; auto.
  - apply has_key_iff in K. apply has_key_iff in K'. destruct K as (A1 & A2 & A3), K' as (B1 & B2 & B3). intros _. exfalso. apply N. congruence.
  - intros F. replace (has_key st nm sg _) with false; [exact F|]. symmetry. apply not_true_iff_false. intros Q. apply has_key_iff in Q. cbn in Q. destruct Q as (A1 & A2 & A3). apply N. congruence.
Qed.
Lemma find_last L nm h l : k_what h = WMethod -> (forall x, In x L -> ~ same_target (nm, h) x) ->
  exists m, find (has_key (k_static h) nm (k_sig h)) (bind_ms L (bind_method (k_static h) nm (k_sig h) (k_handle h) l)) = Some m /\ m_handle m = Some (k_handle h).
Proof.
  intros Wh N. destruct (find_bound (k_static h) nm (k_sig h) (k_handle h) l) as (m & F & H). exists m. split; [|exact H]. revert F. generalize (bind_method (k_static h) nm (k_sig h) (k_handle h) l) as l'.
  induction L as [|x L IH]; intros l' F; [exact F|]. unfold bind_ms in *. cbn [fold_left]. apply IH; [intros y Hy; apply N; right; auto|]. unfold bind_m. destruct (k_what (snd x)) eqn:Wx; auto.
  apply find_other; auto. intros Q. injection Q as Q1 Q2 Q3. apply (N x (or_introl eq_refl)). unfold same_target. cbn [fst snd]. split; [congruence|]. split; [congruence|]. split; congruence.
Qed.
Definition getter_of (h : hook) : bool := match k_what h with WGet => true | _ => false end.
Definition accessor (g : bool) (f : fld) : option handle := if g then f_get f else f_set f.
Lemma find_fbound st g nm sg hd l : exists m, find (has_fkey st nm sg) (bind_field st g nm sg hd l) = Some m /\ accessor g m = Some hd.
Proof.
  assert (forall f g hd, has_fkey st nm sg (with_hook f g hd) = has_fkey st nm sg f) as Hk by (intros f g0 hd0; destruct g0; reflexivity).
  induction l as [|x l (m & F & H)]; cbn [bind_field].
  - exists (with_hook (mkFld nm sg st None None) g hd). split; [|destruct g; reflexivity]. cbn [find]. rewrite Hk. replace (has_fkey st nm sg _) with true; [reflexivity|]. symmetry. apply has_fkey_iff. auto.
  - destruct (has_fkey st nm sg x) eqn:K; cbn [find]; [|rewrite K; eauto]. exists (with_hook x g hd). rewrite Hk, K. split; [reflexivity|destruct g; reflexivity].
Qed.
Lemma find_fother st nm sg st' g g' nm' sg' hd hd' l m : (st', g', nm', sg') <> (st, g, nm, sg) -> find (has_fkey st nm sg) l = Some m -> accessor g m = Some hd ->
  exists m', find (has_fkey st nm sg) (bind_field st' g' nm' sg' hd' l) = Some m' /\ accessor g m' = Some hd.
Proof.
  intros N. assert (forall f g hd, has_fkey st nm sg (with_hook f g hd) = has_fkey st nm sg f) as Hk by (intros f g0 hd0; destruct g0; reflexivity).
  induction l as [|x l IH]; cbn [find bind_field]; [discriminate|]. destruct (has_fkey st' nm' sg' x) eqn:K'; cbn [find]; [rewrite Hk|]; destruct (has_fkey st nm sg x) eqn:K; eauto.
  apply has_fkey_iff in K. apply has_fkey_iff in K'. destruct K as (A1 & A2 & A3), K' as (B1 & B2 & B3). intros [= <-] H. eexists. split; [reflexivity|]. destruct g, g'; cbn in *; auto; exfalso; apply N; congruence.
Qed.
Lemma find_flast L nm h l : k_what h <> WMethod -> (forall x, In x L -> ~ same_target (nm, h) x) ->
  exists m, find (has_fkey (k_static h) nm (k_sig h)) (bind_fs L (bind_field (k_static h) (getter_of h) nm (k_sig h) (k_handle h) l)) = Some m /\ accessor (getter_of h) m = Some (k_handle h).
Proof.
  intros Wh N. destruct (find_fbound (k_static h) (getter_of h) nm (k_sig h) (k_handle h) l) as (m & F & H). revert m F H. generalize (bind_field (k_static h) (getter_of h) nm (k_sig h) (k_handle h) l) as l'.
  induction L as [|x L IH]; intros l' m F H; [eauto|]. unfold bind_fs in *. cbn [fold_left].
  assert (forall g : bool, k_what (snd x) = (if g then WGet else WSet) -> exists m', find (has_fkey (k_static h) nm (k_sig h)) (bind_field (k_static (snd x)) g (fst x) (k_sig (snd x)) (k_handle (snd x)) l') = Some m' /\ accessor (getter_of h) m' = Some (k_handle h)) as Q.
  { intros g Wx. eapply find_fother; eauto. intros Q. injection Q as Q1 Q2 Q3 Q4. apply (N x (or_introl eq_refl)). unfold same_target. cbn [fst snd]. unfold getter_of in Q2. split; [|split; [congruence|split; congruence]]. destruct (k_what h); subst g; congruence. }
  assert (forall y, In y L -> ~ same_target (nm, h) y) as N' by (intros y Hy; apply N; right; auto).
  unfold bind_f. destruct (k_what (snd x)) eqn:Wx; [eapply IH; eauto|destruct (Q true eq_refl) as (m' & F' & H'); eapply IH; eauto|destruct (Q false eq_refl) as (m' & F' & H'); eapply IH; eauto].
Qed.
Lemma plain_bound st nm sg hd st' nm' sg' l : Forall (fun m => has_key st nm sg m = true -> m_native m = None) l -> Forall (fun m => has_key st nm sg m = true -> m_native m = None) (bind_method st' nm' sg' hd l).
Proof.
  induction 1 as [|x l Hx H IH]; cbn [bind_method]; [constructor; auto|]. destruct (has_key st' nm' sg' x) eqn:K; constructor; auto. cbn [m_native]. intros Q. apply Hx. apply has_key_iff in Q. apply has_key_iff in K. apply has_key_iff. cbn in Q. intuition congruence.
Qed.
Lemma plain_hooks st nm sg L l : Forall (fun m => has_key st nm sg m = true -> m_native m = None) l -> Forall (fun m => has_key st nm sg m = true -> m_native m = None) (bind_ms L l).
Proof. revert l. induction L as [|x L IH]; intros l H; [exact H|]. unfold bind_ms in *. cbn [fold_left]. apply IH. unfold bind_m. destruct (k_what (snd x)); auto. apply plain_bound; auto. Qed.
(** Of several hooks for a method the last one counts; nothing of this name and signature may have been registered as native in the class before, if it is an instance method. *)
Theorem C84_method G t0 t cl L1 nm h L2 s s' : reachable G t0 s' -> hooks_on t cl (L1 ++ (nm, h) :: L2) s s' -> k_what h = WMethod -> (forall x, In x L2 -> ~ same_target (nm, h) x) ->
  (k_static h = false -> forall m, In m (mtable s cl) -> m_name m = nm -> m_sig m = k_sig h -> m_static m = false -> m_native m = None) ->
  exists i, first_in (is_method s' (k_static h) false nm (k_sig h)) (methods_of s' cl) i /\ handle_at s' i = Some (k_handle h).
Proof.
  intros R D Wh N P. pose proof (reachable_solid R) as So. pose proof (good_wf (so_good So)) as W.
  assert (mtable s' cl = bind_ms L2 (bind_method (k_static h) nm (k_sig h) (k_handle h) (bind_ms L1 (mtable s cl)))) as M.
  { rewrite (hd_methods D). unfold bind_ms. rewrite fold_left_app. cbn [fold_left]. unfold bind_m at 2. cbn [fst snd]. rewrite Wh. reflexivity. }
  destruct (find_last (bind_ms L1 (mtable s cl)) Wh N) as (m & F & H). rewrite <- M in F. destruct (table_first W F) as (i & Fi & Hi). exists i. split; [|unfold handle_at; rewrite Hi; exact H].
  eapply first_in_iff; [|exact Fi]. intros y Hy. symmetry. apply (@same_key_plain s' (k_static h) nm (k_sig h) cl); auto; [intros _; apply So|]. intros Sh j Hj (x & X & X1 & X2 & X3) (z & Z & Nz). assert (z = x) by congruence. subst z. apply Nz.
  assert (Forall (fun m => has_key (k_static h) nm (k_sig h) m = true -> m_native m = None) (mtable s' cl)) as Q.
  { rewrite (hd_methods D). apply plain_hooks. apply Forall_forall. intros q Hq K. apply has_key_iff in K. destruct K as (K1 & K2 & K3). apply (P Sh q Hq); auto. congruence. }
  assert (In x (mtable s' cl)) as Ix by (unfold mtable; apply in_flat_map; exists j; split; [exact Hj|rewrite X; left; reflexivity]).
  apply (proj1 (Forall_forall _ _) Q x Ix). apply has_key_iff. auto.
Qed.
(** The same for the getter and the setter of a field *)
Theorem C84_field G t0 t cl L1 nm h L2 s s' : reachable G t0 s' -> hooks_on t cl (L1 ++ (nm, h) :: L2) s s' -> k_what h <> WMethod -> (forall x, In x L2 -> ~ same_target (nm, h) x) ->
  exists i f, first_in (is_field s' (k_static h) nm (k_sig h)) (fields_of s' cl) i /\ field_at s' i = Some f /\ accessor (getter_of h) f = Some (k_handle h).
Proof.
  intros R D Wh N. pose proof (good_wf (reachable_good R)) as W.
  assert (ftable s' cl = bind_fs L2 (bind_field (k_static h) (getter_of h) nm (k_sig h) (k_handle h) (bind_fs L1 (ftable s cl)))) as M.
  { rewrite (hd_fields D). unfold bind_fs. rewrite fold_left_app. cbn [fold_left]. unfold bind_f at 2, getter_of. cbn [fst snd]. destruct (k_what h); [congruence|reflexivity|reflexivity]. }
  destruct (find_flast (bind_fs L1 (ftable s cl)) Wh N) as (m & F & H). rewrite <- M in F. destruct (ftable_first W F) as (i & Fi & Hi). exists i, m. auto.
Qed.
(** ... so GetStaticMethodID finds a static method and calls enter the function given last *)
Theorem C84_static G t0 t cl L1 nm h L2 s s' u c T args : reachable G t0 s' -> hooks_on t cl (L1 ++ (nm, h) :: L2) s s' -> k_what h = WMethod -> k_static h = true -> (forall x, In x L2 -> ~ same_target (nm, h) x) ->
  attached s' u -> denotes_opt s' c (Some cl) ->
  exists i v s2, step G u (GetMethodID_ true c nm (k_sig h)) s' = Some (OVal (RRef (Some i)), s') /\ step G u (CallStaticMethodA_ T c (Some i) args) s' = Some (v, s2) /\
    entered u true (k_handle h) KStatic false T (Some cl) [cl] args s' s2 v.
Proof.
  intros R D Wh Sh N A Dc. pose proof (reachable_good R) as Gs. destruct (C84_method R D Wh N) as (i & F & H); [congruence|]. rewrite Sh in F.
  assert (is_cls s' cl = true) as C by (apply first_in_In in F; eapply methods_of_cls; apply F).
  destruct (@CallStaticMethodA_step G u T c (Some cl) i (k_handle h) args s' Gs A Dc) as (v & s2 & E & _ & En); [intros j [= <-]; exact C|exact H|].
  exists i, v, s2. split; [|auto]. eapply GetMethodID_own; eauto. apply asks_plain. auto.
Qed.
(** ... and GetMethodID and virtual calls on objects of the class *)
Theorem C84_instance G t0 t cl L1 nm h L2 s s' u c T obj r args : reachable G t0 s' -> hooks_on t cl (L1 ++ (nm, h) :: L2) s s' -> k_what h = WMethod -> k_static h = false -> (forall x, In x L2 -> ~ same_target (nm, h) x) ->
  (forall m, In m (mtable s cl) -> m_name m = nm -> m_sig m = k_sig h -> m_static m = false -> m_native m = None) -> nm <> S_ "<init>" ->
  attached s' u -> denotes_opt s' c (Some cl) -> denotes s' obj (Some r) -> class_ptr s' r = Some cl ->
  exists i v s2 s3, step G u (GetMethodID_ false c nm (k_sig h)) s' = Some (OVal (RRef (Some i)), s') /\ step G u (CallMethodA_ T (Some obj) (Some i) args) s' = Some (v, s3) /\ class_passed u (Some cl) s' s2 /\
    entered u true (k_handle h) KInst false T (Some obj) [cl] args s2 s3 v.
Proof.
  intros R D Wh Sh N P NI A Dc Do Cp. pose proof (reachable_good R) as Gs. destruct (C84_method R D Wh N) as (i & F & H); [auto|]. rewrite Sh in F.
  destruct (handle_at_eq H) as (m & Hm & Hmh). pose proof (proj2 (first_in_In F)) as (m' & Hm' & Q1 & Q2 & Q3 & _). assert (m' = m) by congruence. subst m'.
  destruct (@CallMethodA_step G u T obj r i m (k_handle h) args s' Gs A Do Hm Hmh) as (s2 & j & hj & w & s3 & Pp & Dj & Hj & E3 & _ & En).
  assert (Forall (fun m => has_key false nm (k_sig h) m = true -> m_native m = None) (mtable s' cl)) as Q.
  { rewrite (hd_methods D). apply plain_hooks. apply Forall_forall. intros q Hq K. apply has_key_iff in K. destruct K as (K1 & K2 & K3). apply (P q Hq); auto. }
  assert (forall y x, In y (methods_of s' cl) -> method_at s' y = Some x -> m_name x = nm -> m_sig x = k_sig h -> m_static x = false -> m_native x = None) as Pl.
  { intros y x Hy X X1 X2 X3. apply (proj1 (Forall_forall _ _) Q x); [|apply has_key_iff; auto]. unfold mtable. apply in_flat_map. exists y. split; [exact Hy|]. rewrite X. left. reflexivity. }
  assert (j = i) as ->.
  { eapply dispatched_fun; [exact Dj|]. rewrite Cp. eapply dp_own; eauto. rewrite Q1, Q2. clear - F Hm Hmh Q1 Q2 Q3 Pl.
    induction F as [x l Px|x y l N F IH].
    - apply fi_here. exists m, (k_handle h). auto 10.
    - apply fi_later; [|apply IH; auto; intros z w Hz; apply Pl; right; exact Hz]. intros (a & b & X & X1 & X2 & X3 & _). apply N. exists a. pose proof (Pl x a (or_introl eq_refl) X X1 X2 X3) as Na. rewrite Na. split; [auto|]. split; [auto|]. split; [auto|]. split; [auto|]. split; [intros K; congruence|discriminate]. }
  assert (hj = k_handle h) as -> by congruence. rewrite Cp in Pp, En. exists i, w, s2, s3. split; [|auto]. eapply GetMethodID_own; eauto. apply asks_plain. auto.
Qed.
(** *** Which kind of member a descriptor makes *)
(** Static or not; [None]: contradictory.  Bit 3 is STATIC. *)
Definition flagged (compat : bool) (f : callable) (fl : option Z) : bool := match fl with Some z => Z.testbit z 3 | None => match f with Fn _ _ | Var _ => compat | _ => false end end.
Definition wants_static (compat : bool) (d : desc) : option bool :=
  match d with
  | DCtor _ _ _ => Some true
  | DMember f _ _ fl => match f with Fn _ _ | Var _ => Some (flagged compat f fl) | _ => if flagged compat f fl then None else Some false end
  end.
Definition named_of (d : desc) : str := match d with DMember _ _ n _ => n | DCtor _ _ _ => S_ "<init>" end.
Definition id_of (d : desc) : nat := match d with DMember _ i _ _ | DCtor _ _ i => i end.
Definition fun_of (d : desc) : callable := match d with DMember f _ _ _ => f | DCtor U P _ => Fn (Cshared U) P end.
Lemma static_bit z : negb (Z.eqb (Z.land z STATIC) 0) = Z.testbit z 3.
Proof.
  unfold STATIC. destruct (Z.testbit z 3) eqn:B.
  - apply negb_true_iff. apply Z.eqb_neq. intros H. assert (Z.testbit (Z.land z 8) 3 = false) as Q by (rewrite H; reflexivity). rewrite Z.land_spec, B in Q. discriminate.
  - apply negb_false_iff. apply Z.eqb_eq. apply Z.bits_inj'. intros n Hn. rewrite Z.land_spec, Z.bits_0. destruct (Z.eq_dec n 3) as [->|Ne]; [rewrite B; reflexivity|]. change 8%Z with (2 ^ 3)%Z. rewrite Z.pow2_bits_false by congruence. apply andb_false_r.
Qed.
Theorem C84_descriptor compat own s cl d :
  match wants_static compat d with
  | None => Descriptor compat d = Thrown (Err (S_ "Fatal: Tried to link instance function as static"))
  | Some st => exists r, Descriptor compat d = Ok r /\ r_name r = named_of d /\ r_fun r = fun_of d /\ r_id r = id_of d /\
      installs (match fun_of d with Fn _ _ | MemFn _ _ _ => [WMethod] | _ => [WGet; WSet] end) st (hooks own s cl r)
  end.
Proof.
  assert (forall a f id nm, installs (match f with Fn _ _ | MemFn _ _ _ => [WMethod] | _ => [WGet; WSet] end) (match a with AHook => match f with Fn _ _ | Var _ => true | _ => false end | AHookInstance => false end) (hooks own s cl (mkReg a f id nm))) as I.
  { intros a f id nm. unfold hooks. cbn [r_act r_fun r_id]. destruct a; [apply (C59_functions (names_in own s) (mine_in s cl) id f)|apply (C59_functions (names_in own s) (mine_in s cl) id f)]. }
  destruct d as [f id nm fl|U P id]; cbn [wants_static named_of id_of fun_of Descriptor].
  2: { eexists. split; [reflexivity|]. split; [reflexivity|]. split; [reflexivity|]. split; [reflexivity|]. exact (I AHook (Fn (Cshared U) P) id (S_ "<init>")). }
  assert (forall z, Get f id nm z = if Z.testbit z 3 then if b_inst (type f) then Thrown (Err (S_ "Fatal: Tried to link instance function as static")) else Ok (mkReg AHook f id nm) else Ok (mkReg AHookInstance f id nm)) as E by (intros z; unfold Get; rewrite static_bit; reflexivity).
  assert (match fl with Some z => Get f id nm z | None => Get f id nm (GetFlags compat f) end = if flagged compat f fl then if b_inst (type f) then Thrown (Err (S_ "Fatal: Tried to link instance function as static")) else Ok (mkReg AHook f id nm) else Ok (mkReg AHookInstance f id nm)) as ->.
  { unfold flagged. destruct fl as [z|]; rewrite E; [reflexivity|]. destruct f, compat; reflexivity. }
  destruct (flagged compat f fl).
  - pose proof (I AHook f id nm) as Q. destruct f; cbn [type b_inst]; try reflexivity; (eexists; split; [reflexivity|]; split; [reflexivity|]; split; [reflexivity|]; split; [reflexivity|exact Q]).
  - pose proof (I AHookInstance f id nm) as Q. destruct f; cbn [type b_inst]; (eexists; split; [reflexivity|]; split; [reflexivity|]; split; [reflexivity|]; split; [reflexivity|exact Q]).
Qed.
(** The list: one contradictory descriptor prevents all of them *)
Theorem C84_vector compat ds :
  (Forall (fun d => wants_static compat d <> None) ds -> exists rs, Descriptors compat ds = Ok rs /\ Forall2 (fun d r => Descriptor compat d = Ok r) ds rs) /\
  (Exists (fun d => wants_static compat d = None) ds -> Descriptors compat ds = Thrown (Err (S_ "Fatal: Tried to link instance function as static"))).
Proof.
  pose proof (fun d => C84_descriptor compat (fun _ => None) (start Gd) 0 d) as K. split.
  - induction 1 as [|d l Hd H (rs & E & F)]; [exists []; split; [reflexivity|constructor]|]. specialize (K d). destruct (wants_static compat d); [|congruence]. destruct K as (r & Er & _). exists (r :: rs). cbn [Descriptors]. rewrite Er, E. split; [reflexivity|constructor; auto].
  - intros H. induction ds as [|d l IH]; [inversion H|]. cbn [Descriptors]. specialize (K d). destruct (wants_static compat d) eqn:Wd.
    + destruct K as (r & -> & _). rewrite IH; [reflexivity|]. inversion H; subst; [congruence|auto].
    + rewrite K. reflexivity.
Qed.
(** *** Types and flags *)
(** The type of a class of C++ and no other; only it decides which registered class stands for it. *)
Inductive is_type : ccls -> ty -> Prop :=
| it_object : is_type ClObject TObject | it_string : is_type ClString TString | it_class : is_type ClClass TClass | it_throwable : is_type ClThrowable TThrowable
| it_user n : is_type (ClUser n) (TUser n) | it_prims p : is_type (ClPrims p) (TPArr p)
| it_objects : is_type (ClArr ClObject) (TArr None) | it_users n : is_type (ClArr (ClUser n)) (TArr (Some n)).
Theorem C84_types own s cl c T : is_type c T ->
  n_reg (names_in own s) c = match registered s T with Some i => option_map c_prefix (class_at s i) | None => None end /\
  (mine_in s cl c = true <-> registered s T = Some cl).
Proof.
  intros H. assert (type_of c = Some T) as E by (destruct H; reflexivity). cbn [n_reg names_in]. rewrite registered_entry, mine_entry, E. split; [reflexivity|].
  destruct (registered s T) as [i|]; [|split; discriminate]. rewrite Nat.eqb_eq. split; congruence.
Qed.
(** Arrays of other classes have no registered class. *)
Theorem C84_untyped own s cl c : (forall T, ~ is_type c T) -> n_reg (names_in own s) c = None /\ mine_in s cl c = false.
Proof.
  intros H. assert (type_of c = None) as E.
  { destruct (type_of c) as [T|] eqn:E; [|reflexivity]. destruct (H T). destruct c as [| | | |n|p| |e]; try discriminate E; try (injection E as <-; constructor). destruct e; try discriminate E; injection E as <-; constructor. }
  cbn [n_reg names_in]. rewrite registered_entry, mine_entry, E. auto.
Qed.
(** The flags of a descriptor that gives none: PUBLIC is 1, STATIC 8. *)
Theorem C84_flags compat f : GetFlags compat f = match f with Fn _ _ | Var _ => if compat then 9%Z else 1%Z | MemFn _ _ _ | MemVar _ _ => 1%Z end.
Proof. destruct f, compat; reflexivity. Qed.
(** *** Constructors *)
Lemma reg_named s k cl name : registered s (TUser k) = Some cl -> class_named s name cl -> reg_name s (ClUser k) = Some name.
Proof.
  intros Rg (o & c & L & P & N). unfold reg_name, entry, type_of. unfold registered in Rg. destruct (get_type s (TUser k)) as [x|]; [|discriminate]. subst x. rewrite L, P, N. reflexivity.
Qed.
(** The signature of a constructor returns the class itself ... *)
Theorem C84_constructor own s k cl name P id o hs h : registered s (TUser k) = Some cl -> class_named s name cl -> direct_fn (Fn (Cshared (ClUser k)) P) = true ->
  hooks own s cl (mkReg AHook (Fn (Cshared (ClUser k)) P) id (S_ "<init>")) = Some o -> snd o = Ok hs -> In h hs ->
  exists js, k_sig h = msig js (Some (JObj name)) /\ Forall2 (java (names_in own s)) (skipn (k_implicit h) P) js /\ k_what h = WMethod /\ k_static h = true /\ k_handle h = mkHandle id KStatic RObj false.
Proof.
  intros Rg Cn D H Ho Hin. unfold hooks in H. cbn [r_act r_id r_fun] in H. unfold Hook in H. destruct (C59_hooks D H Ho) as [F _]. pose proof (proj1 (Forall_forall _ _) F h Hin) as Hh.
  destruct (C59_functions (names_in own s) (mine_in s cl) id (Fn (Cshared (ClUser k)) P)) as (_ & _ & _ & _ & _ & _ & Iw & _). pose proof (proj1 (Forall_forall _ _) (Iw o hs H Ho) h Hin) as [[Hw|[]] Hs].
  inversion Hh as [inst k' js r Fj Fr Eh|inst k' j Fj Fr Eh|inst k' T j Fj Fr Eh|inst k' j Fj Fr Eh]; subst h; cbn in *; try discriminate.
  destruct inst; [discriminate|]. inversion Fr as [Ev|T j Hj Ej]; subst. inversion Hj as [ | | | | | | | | | |c0 j0 Ct| ]; subst. inversion Ct as [c1 n1 Na Cl| | |]; subst.
  assert (n1 = name) as -> by (destruct Cl as [Cl|[Cl _]]; cbn [names_in n_reg] in Cl; rewrite (reg_named Rg Cn) in Cl; [congruence|discriminate]).
  exists js. auto 10.
Qed.
(** ... so GetMethodID with "<init>" and result void finds the one given last. *)
Theorem C84_init G t0 t cl L1 h L2 s s' u c name js : reachable G t0 s' -> hooks_on t cl (L1 ++ (S_ "<init>", h) :: L2) s s' -> class_named s' name cl -> k_what h = WMethod -> k_static h = true ->
  k_sig h = msig js (Some (JObj name)) -> ~ In ")"%char (flat_map descr js) -> (forall x, In x L2 -> ~ same_target (S_ "<init>", h) x) -> attached s' u -> denotes_opt s' c (Some cl) ->
  exists i, step G u (GetMethodID_ false c (S_ "<init>") (msig js None)) s' = Some (OVal (RRef (Some i)), s') /\ handle_at s' i = Some (k_handle h).
Proof.
  intros R D (o & k & Lo & Po & Pn) Wh Sh Sg Np N A Dc. pose proof (reachable_good R) as Gs. destruct (C84_method R D Wh N) as (i & F & H); [congruence|]. rewrite Sh, Sg in F.
  exists i. split; [|exact H]. assert (class_at s' cl = Some k) as Ck by (unfold class_at, contents; rewrite Lo; simpl; rewrite Po; reflexivity).
  assert (msig js (Some (JObj name)) = ("("%char :: flat_map descr js) ++ S_ ")L" ++ c_prefix k ++ S_ ";") as E1 by (unfold msig; rewrite Pn; reflexivity).
  rewrite E1 in F. eapply GetMethodID_own; [exact Gs|exact A|exact Dc| |exact F]. apply asks_ctor with (b := S_ "V"); auto. intros [Q|Q]; [discriminate|exact (Np Q)].
Qed.

(** ** C85 *)
(** getDescriptor() only looks the class up: whatever the descriptors, it adds no members. *)
Theorem C85_lookup G compat own t0 t k inst name ds s : reachable G t0 s -> attached s t ->
  exists cl s', getDescriptor G compat own t k inst name ds s = Some (Ok cl, s') /\ reachable G t0 s' /\ class_named s' name cl /\
    (forall T, registered s' T = if ty_eqb (TUser k) T then Some cl else registered s T) /\ hooks_done t cl [] s s'.
Proof.
  intros R A. destruct (C81_bind k inst name R A) as (i & c & s1 & E1 & _). pose proof (bind_on R E1) as (cl & Ev & D & Cn & Ic & Rg & _ & c1 & C1 & B1 & _). injection Ev as <-.
  exists i, s1. split; [|split; [exact (reach_step R E1)|auto]]. unfold getDescriptor. rewrite E1. unfold class_at, contents in C1. destruct (lookup s1 i) as [o|]; [|discriminate]. simpl in C1. destruct (o_pay o) eqn:Po; try discriminate. injection C1 as ->.
  rewrite B1. cbn [negb]. rewrite !andb_false_r. reflexivity.
Qed.
Definition ds_ex : list desc := [DMember (Fn (Cprim PtI) [Cprim PtI]) 7 (S_ "twice") (Some 9%Z); DMember (Var (Cprim PtJ)) 8 (S_ "count") (Some 9%Z); DCtor (ClUser 0) [Cprim PtI] 9;
  DMember (MemFn (ClUser 0) Cvoid []) 10 (S_ "run") None].

Definition reg_ex := registerClass Gd false (fun _ => None) main 0 true (S_ "A") ds_ex (start Gd).
Example C84_ex : match reg_ex with
  | Some (Ok c, s) => c = 9 /\ frames s main = frames (start Gd) main /\
      mtable s c = [mkMth (S_ "twice") (S_ "(I)I") true None (Some (mkHandle 7 KStatic (RPrim PtI) false)); mkMth (S_ "<init>") (S_ "(I)LA;") true None (Some (mkHandle 9 KStatic RObj false));
                    mkMth (S_ "run") (S_ "()V") false None (Some (mkHandle 10 KInst RVoid true))] /\
      ftable s c = [mkFld (S_ "count") (S_ "J") true (Some (mkHandle 8 KStaticGet (RPrim PtJ) false)) (Some (mkHandle 8 KStaticSet (RPrim PtJ) false))]
  | _ => False
  end.
Proof. vm_compute. auto. Qed.
(** The constructor is found by its arguments, the static method by name and signature. *)
Definition found_ex (st : bool) (nm sg : str) : option handle :=
  match reg_ex with
  | Some (Ok c, s) => match step Gd main (GetMethodID_ st (Some c) nm sg) s with Some (OVal (RRef (Some i)), s1) => handle_at s1 i | _ => None end
  | _ => None
  end.
Example C84_ex_init : found_ex false (S_ "<init>") (S_ "(I)V") = Some (mkHandle 9 KStatic RObj false) /\ found_ex true (S_ "twice") (S_ "(I)I") = Some (mkHandle 7 KStatic (RPrim PtI) false) /\
  found_ex false (S_ "run") (S_ "()V") = Some (mkHandle 10 KInst RVoid true) /\ found_ex true (S_ "run") (S_ "()V") = None.
Proof. vm_compute. auto. Qed.
(** A contradictory descriptor prevents all; without flags free functions become instance members unless in compatibility mode. *)
Example C84_ex_thrown : Descriptors false (ds_ex ++ [DMember (MemFn (ClUser 0) Cvoid []) 11 (S_ "stop") (Some 9%Z)]) = Thrown (Err (S_ "Fatal: Tried to link instance function as static")) /\
  wants_static false (DMember (Fn Cvoid []) 1 (S_ "f") None) = Some false /\ wants_static true (DMember (Fn Cvoid []) 1 (S_ "f") None) = Some true.
Proof. vm_compute. auto. Qed.
(** A class nobody has registered stops the list halfway: the member before it stays. *)
Example C84_ex_unknown : match registerClass Gd false (fun _ => None) main 0 true (S_ "A") [DMember (Fn Cvoid []) 1 (S_ "f") (Some 9%Z); DMember (Fn Cvoid [Cshared (ClUser 5)]) 2 (S_ "g") (Some 9%Z)] (start Gd) with
  | Some (Thrown e, s) => e = Err (S_ "Unknown class") /\ map m_name (mtable s 9) = [S_ "f"] /\ frames s main = frames (start Gd) main
  | _ => False
  end.
Proof. vm_compute. auto. Qed.
(** The claim: the first getDescriptor() of a class registers its members. *)
Definition C85_claim : Prop := forall G compat own t0 t k inst name ds s cl s', reachable G t0 s -> attached s t -> registered s (TUser k) = None -> get_class s name = None ->
  Forall (fun d => wants_static compat d <> None) ds -> ds <> [] -> getDescriptor G compat own t k inst name ds s = Some (Ok cl, s') -> mtable s' cl <> [] \/ ftable s' cl <> [].
Lemma new_tables G t0 t cl name s s' : reachable G t0 s -> hooks_on t cl [] s s' -> class_named s' name cl -> get_class s name = None -> mtable s' cl = [] /\ ftable s' cl = [].
Proof.
  intros R D Cn Nn. assert (class_at s cl = None) as N.
  { destruct (class_at s cl) as [c|] eqn:C; [|reflexivity]. exfalso. destruct (hd_name D C) as (c' & C' & P & _). destruct Cn as (o & c2 & Lo & Po & Pn). unfold class_at, contents in C'. rewrite Lo in C'. simpl in C'. rewrite Po in C'. injection C' as <-.
    assert (get_class s name = Some cl) as K; [|congruence]. apply (class_named_iff _ _ (g_inv (reachable_good R))). apply class_at_named in C. destruct C as (o1 & L1 & P1). exists o1, c. split; [exact L1|]. split; [exact P1|congruence]. }
  rewrite (hd_methods D), (hd_fields D). unfold bind_ms, bind_fs, mtable, ftable, methods_of, fields_of. rewrite N. auto.
Qed.
Theorem C85_refuted : ~ C85_claim.
Proof.
  intros H. assert (exists s, reachable Gd main s /\ attached s main /\ registered s (TUser 0) = None /\ get_class s (S_ "A") = None) as (s & R & A & Rn & Nn).
  { exists (after Gd []). split; [apply after_reachable; vm_compute; reflexivity|]. split; [eexists; vm_compute; reflexivity|]. split; vm_compute; reflexivity. }
  destruct (C85_lookup false (fun _ => None) 0 true (S_ "A") ds_ex R A) as (cl & s' & E & R' & Cn & Rg & D). destruct (new_tables R D Cn Nn) as [Q1 Q2].
  destruct (H Gd false (fun _ => None) main main 0 true (S_ "A") ds_ex s cl s' R A Rn Nn) as [Q|Q]; auto; [|discriminate].
  repeat (constructor; [vm_compute; discriminate|]). constructor.
Qed.
Print Assumptions C84_register. Print Assumptions C84_method. Print Assumptions C84_field. Print Assumptions C84_static. Print Assumptions C84_instance. Print Assumptions C84_descriptor. Print Assumptions C84_vector.
Print Assumptions C84_types. Print Assumptions C84_untyped. Print Assumptions C84_flags. Print Assumptions C84_constructor. Print Assumptions C84_init. Print Assumptions C85_lookup. Print Assumptions C85_refuted.
