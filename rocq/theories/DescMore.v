(** FakeJni descriptors: when registerClass() succeeds, and the array classes of its signatures (C84). *)
From Verif Require Import Base BaseProofs SigModel UtfModel VmState VmModel VmStep VmSpec MemSpec HookSpec CallSpec RefSpec ArrSpec HierSpec VmBase VmFrame VmWf VmPrim VmInv VmReg
  VmFine VmRegInv VmExact VmQuiet VmClass VmEnvInv VmMember VmMember2 VmMember3 VmTables VmHook VmMemHist VmCall VmCall2 VmThread VmDemo VmRef VmRef2 VmRef3 VmObj VmHier
  ClassProps MemberProps CallProps RefProps ArrProps HierProps BootProps SigSpec WrapModel WrapSpec WrapProps DescModel DescProps.
Set Implicit Arguments.
Unset Strict Implicit.
Local Open Scope vm_scope.
Local Opaque after.

(** ** Specification *)
(** The types that a member's signature is made of *)
Definition in_signature (f : callable) (h : hook) (T : cty) : Prop :=
  match k_what h, f with
  | WMethod, _ => In T (skipn (k_implicit h) (params f)) \/ T = Return f
  | WGet, _ | WSet, (Var _ | MemVar _ _) => T = Return f
  | WSet, (Fn _ _ | MemFn _ _ _) => T = nth (k_implicit h) (params f) Cvoid
  end.
Definition array_of (T : cty) (e : ccls) : Prop := T = Cval (ClArr e) \/ T = Cshared (ClArr e).
Definition no_array (c : ccls) : Prop := (forall e, c <> ClArr e) /\ (forall p, c <> ClPrims p) /\ c <> ClBools.
(** The class that a type names *)
Inductive mentions : cty -> ccls -> Prop :=
| me_object : mentions Cjobject ClObject
| me_string : mentions Cjstring ClString
| me_class : mentions Cjclass ClClass
| me_throwable : mentions Cjthrowable ClThrowable
| me_val c : no_array c -> mentions (Cval c) c
| me_shared c : no_array c -> mentions (Cshared c) c
| me_array T n : array_of T (ClUser n) -> mentions T (ClUser n)
| me_ptr c : mentions (Cptr c) c | me_ref c : mentions (Cref c) c | me_cref c : mentions (Ccref c) c | me_cshared c : mentions (Ccshared c) c.
(** Everything the signatures name is registered: the hooks compile and throw nothing, every class is registered, arrays are arrays of user classes *)
Definition usable (own : ccls -> option str) (s : st) (cl : oid) (r : reg) : Prop :=
  exists o hs, hooks own s cl r = Some o /\ snd o = Ok hs /\
    forall h T, In h hs -> in_signature (r_fun r) h T -> (forall e, array_of T e -> exists n, e = ClUser n) /\ forall c X, mentions T c -> type_of c = Some X -> registered s X <> None.

Lemma sig_types_iff f h T : In T (sig_types f h) <-> in_signature f h T.
Proof.
  unfold sig_types, in_signature. destruct (k_what h); [rewrite in_app_iff; simpl; intuition auto| |]; destruct f; simpl; intuition auto.
Qed.
Lemma class_of_iff T c : (forall e, array_of T e -> exists n, e = ClUser n) -> (class_of T = Some c <-> mentions T c).
Proof.
  intros Ar. split.
  - destruct T; simpl; intros H; try discriminate; try (injection H as <-; constructor).
    + destruct c0; simpl in H; try discriminate; try (injection H as <-; apply me_val; repeat split; intros; discriminate).
      destruct (Ar _ (or_introl eq_refl)) as (n & ->). injection H as <-. apply me_array. left. reflexivity.
    + destruct c0; simpl in H; try discriminate; try (injection H as <-; apply me_shared; repeat split; intros; discriminate).
      destruct (Ar _ (or_intror eq_refl)) as (n & ->). injection H as <-. apply me_array. right. reflexivity.
  - intros H. destruct H as [| | | |c (N1 & N2 & N3)|c (N1 & N2 & N3)|T n [->| ->]| | | |]; try reflexivity; destruct c; try reflexivity; exfalso; try (eapply N1; reflexivity); try (eapply N2; reflexivity); apply N3; reflexivity.
Qed.
(** ** The operations *)
Lemma all_arrays_some l : (forall T e, In T l -> array_of T e -> exists n, e = ClUser n) -> exists ops, all_arrays l = Some ops /\ forall o, In o ops <-> exists T n, In T l /\ array_of T (ClUser n) /\ o = UDeclareArray_ n.
Proof.
  induction l as [|T l IH]; intros H; simpl.
  - exists []. split; [reflexivity|]. intros o. split; [intros []|intros (T & n & [] & _)].
  - destruct IH as (b & -> & Hb); [intros X e HX; apply H; right; exact HX|].
    assert ((exists n, array_of T (ClUser n) /\ arrays T = Some [UDeclareArray_ n]) \/ (arrays T = Some [] /\ forall e, ~ array_of T e)) as [(n & An & ->)|(-> & An)].
    { destruct T as [|p| | | | | | | |c|c|c|c|c|c]; try (right; split; [reflexivity|intros e [Q|Q]; discriminate]).
      - destruct c as [| | | | | | |e]; try (right; split; [reflexivity|intros e0 [Q|Q]; discriminate]). destruct (H _ e (or_introl eq_refl) (or_introl eq_refl)) as (n & ->). left. exists n. split; [left; reflexivity|reflexivity].
      - destruct c as [| | | | | | |e]; try (right; split; [reflexivity|intros e0 [Q|Q]; discriminate]). destruct (H _ e (or_introl eq_refl) (or_intror eq_refl)) as (n & ->). left. exists n. split; [right; reflexivity|reflexivity]. }
    + exists (UDeclareArray_ n :: b). split; [reflexivity|]. intros o. simpl. rewrite Hb. split.
      * intros [<-|(X & m & I1 & I2 & ->)]; [exists T, n; auto|exists X, m; auto].
      * intros (X & m & [<-|I1] & I2 & ->); [|right; exists X, m; auto]. left. destruct An as [->| ->], I2 as [Q|Q]; try discriminate; injection Q as ->; reflexivity.
    + exists b. split; [reflexivity|]. intros o. rewrite Hb. split; intros (X & m & I1 & I2 & ->); exists X, m; auto. destruct I1 as [<-|I1]; [exfalso; eapply An; eauto|auto].
Qed.
(** Operations that can be carried out: declaring arrays of registered classes and hooking members of [cl] *)
Definition doable (s : st) (cl : oid) (o : op) : Prop :=
  match o with
  | UDeclareArray_ n => registered s (TUser n) <> None
  | UHookMethod_ c _ _ _ _ | UHookField_ c _ _ _ _ _ => c = cl
  | _ => False
  end.
Lemma doable_step G t0 t cl o s : reachable G t0 s -> attached s t -> is_cls s cl = true -> doable s cl o ->
  exists v s', step G t o s = Some (OVal v, s') /\ is_cls s' cl = true /\ attached s' t /\ (forall T, registered s' T = registered s T) /\
    (forall c k, class_at s c = Some k -> exists k', class_at s' c = Some k' /\ c_prefix k' = c_prefix k).
Proof.
  intros R A C D. pose proof (reachable_solid R) as So. pose proof (good_wf (so_good So)) as W.
  assert (forall v s', step G t o s = Some (OVal v, s') -> (forall k i n, o <> UBind_ k i n) -> forall L, hooks_done t cl L s s' -> exists v s', step G t o s = Some (OVal v, s') /\ is_cls s' cl = true /\ attached s' t /\ (forall T, registered s' T = registered s T) /\
    (forall c k, class_at s c = Some k -> exists k', class_at s' c = Some k' /\ c_prefix k' = c_prefix k)) as K.
  { intros v s' E H L Hd. exists v, s'. split; [exact E|]. split; [exact (done_cls Hd C)|]. split; [exact (done_attached Hd A)|]. split; [intros T; exact (C81_step T R E H)|].
    intros c k Ck. destruct (hd_name Hd Ck) as (k' & C' & P & _). eauto. }
  destruct o; try contradiction; simpl in D; subst.
  - destruct (registered s (TUser n)) as [c|] eqn:Rg; [|congruence]. destruct (registered_class W Rg) as (k & Ck).
    assert (contents s c = Some (PClass k)) as Cc by (unfold class_at in Ck; destruct (contents s c) as [[]|]; try discriminate; congruence).
    destruct (C43_declare R A Rg Cc) as (ci & p & s1 & ck & E & _). apply (K _ _ E (fun a b c => ltac:(discriminate)) [] (done_array R C E)).
  - destruct (hook_method_step isStatic name sig hd (so_good So) A C) as (i & s' & E & _ & Hk). refine (K _ _ E _ [(name, mkHook WMethod isStatic sig hd 0)] _); [discriminate|]. eapply done_method; eauto. apply So.
  - destruct (hook_field_step isStatic getter name ty hd (so_good So) A C) as (i & s' & E & _ & Hk). refine (K _ _ E _ [(name, mkHook (if getter then WGet else WSet) isStatic ty hd 0)] _); [discriminate|]. eapply done_field; eauto. apply So.
Qed.
Lemma doable_run G t0 t cl ops : forall s, reachable G t0 s -> attached s t -> is_cls s cl = true -> Forall (doable s cl) ops ->
  exists s', run_ops G t ops s = Some s' /\ is_cls s' cl = true /\ attached s' t /\ (forall T, registered s' T = registered s T) /\ (forall c k, class_at s c = Some k -> exists k', class_at s' c = Some k' /\ c_prefix k' = c_prefix k).
Proof.
  induction ops as [|o ops IH]; intros s R A C F; simpl.
  - exists s. split; [reflexivity|]. split; [exact C|]. split; [exact A|]. split; [reflexivity|]. eauto.
  - inversion F as [|o1 l1 Fo Fl]; subst. destruct (doable_step R A C Fo) as (v & s1 & E & C1 & A1 & T1 & K1). rewrite E.
    assert (Forall (doable s1 cl) ops) as F1 by (eapply Forall_impl; [|exact Fl]; intros x; destruct x; simpl; auto; rewrite T1; auto).
    destruct (IH s1 (reach_step R E) A1 C1 F1) as (s2 & E2 & C2 & A2 & T2 & K2). exists s2. split; [exact E2|]. split; [exact C2|]. split; [exact A2|]. split; [intros T; rewrite T2; apply T1|].
    intros c k Ck. destruct (K1 _ _ Ck) as (k1 & Ck1 & P1). destruct (K2 _ _ Ck1) as (k2 & Ck2 & P2). exists k2. split; [exact Ck2|congruence].
Qed.

(** ** Registration succeeds *)
Lemma all_ops_some s cl nm f hs : (forall h T, In h hs -> in_signature f h T -> (forall e, array_of T e -> exists n, e = ClUser n) /\ forall c X, mentions T c -> type_of c = Some X -> registered s X <> None) ->
  exists ops, all_ops cl nm f hs = Some ops /\ Forall (doable s cl) ops /\ forall h T n, In h hs -> in_signature f h T -> array_of T (ClUser n) -> In (UDeclareArray_ n) ops.
Proof.
  induction hs as [|h hs IH]; intros H; simpl.
  - exists []. split; [reflexivity|]. split; [constructor|]. intros h T n [].
  - destruct IH as (b & -> & Fb & Ib); [intros h0 T Hh; apply H; right; exact Hh|]. unfold hook_ops.
    destruct (@all_arrays_some (sig_types f h)) as (a & -> & Ha). { intros T e HT. apply sig_types_iff in HT. apply (H h T (or_introl eq_refl) HT). }
    exists ((a ++ [hook_op cl nm h]) ++ b). split; [reflexivity|]. split.
    + apply Forall_app. split; [|exact Fb]. apply Forall_app. split.
      * apply Forall_forall. intros o Ho. apply Ha in Ho. destruct Ho as (T & n & HT & An & ->). apply sig_types_iff in HT. destruct (H h T (or_introl eq_refl) HT) as (_ & Hm). simpl. apply (Hm (ClUser n) (TUser n)); [apply me_array; exact An|reflexivity].
      * constructor; [|constructor]. unfold hook_op. destruct (k_what h); reflexivity.
    + intros h0 T n [<-|Hh] HT An; apply in_or_app; [left; apply in_or_app; left; apply Ha; exists T, n; split; [apply sig_types_iff; exact HT|auto]|right; eauto].
Qed.
Lemma no_null s T : (forall e, array_of T e -> exists n, e = ClUser n) -> (forall c X, mentions T c -> type_of c = Some X -> registered s X <> None) -> null_entry s T = false.
Proof.
  intros Ar Hm. unfold null_entry. destruct (class_of T) as [c|] eqn:Ec; [|reflexivity]. apply (class_of_iff c Ar) in Ec. unfold entry. destruct (type_of c) as [X|] eqn:Et; [|reflexivity].
  specialize (Hm c X Ec Et). unfold registered in Hm. destruct (get_type s X) as [[i|]|]; try reflexivity. congruence.
Qed.
Definition kept_state (s s' : st) (cl : oid) (t : tid) : Prop :=
  is_cls s' cl = true /\ attached s' t /\ (forall T, registered s' T = registered s T) /\ (forall c k, class_at s c = Some k -> exists k', class_at s' c = Some k' /\ c_prefix k' = c_prefix k).
Lemma registre_total G own t0 t cl r s : reachable G t0 s -> attached s t -> is_cls s cl = true -> usable own s cl r ->
  exists s', registre G own t cl r s = Some (Ok tt, s').
Proof.
  intros R A C (o & hs & Ho & Hs & Hu). unfold registre. rewrite Ho, Hs.
  assert (existsb (null_entry s) (flat_map (sig_types (r_fun r)) hs) = false) as ->.
  { apply not_true_is_false. intros E. apply existsb_exists in E. destruct E as (T & HT & Hn). apply in_flat_map in HT. destruct HT as (h & Hh & HT). apply sig_types_iff in HT. destruct (Hu h T Hh HT) as (U1 & U2). rewrite (no_null U1 U2) in Hn. discriminate. }
  destruct (all_ops_some cl (r_name r) Hu) as (ops & -> & F & _). destruct (doable_run R A C F) as (s' & -> & _). eauto.
Qed.
Lemma usable_same own s s' cl r : wf s -> (forall T, registered s' T = registered s T) -> (forall c k, class_at s c = Some k -> exists k', class_at s' c = Some k' /\ c_prefix k' = c_prefix k /\ c_natives k' = c_natives k) -> usable own s cl r -> usable own s' cl r.
Proof.
  intros W Rg Cl (o & hs & Ho & Hs & Hu). exists o, hs. rewrite (hooks_same own cl r W Rg Cl). split; [exact Ho|]. split; [exact Hs|]. intros h T Hh HT. destruct (Hu h T Hh HT) as (U1 & U2). split; [exact U1|]. intros c X Hm Ht. rewrite Rg. eauto.
Qed.
Lemma registre_all_total G own t0 t cl rs : forall s, reachable G t0 s -> attached s t -> is_cls s cl = true -> Forall (usable own s cl) rs -> exists s', registre_all G own t cl rs s = Some (Ok tt, s').
Proof.
  induction rs as [|r rs IH]; intros s R A C F; simpl; [eauto|]. inversion F as [|r1 l1 Fr Fl]; subst. destruct (registre_total R A C Fr) as (s1 & E). rewrite E.
  destruct (registre_done R C E) as (R1 & T1 & o & hs & _ & _ & D). apply IH; [exact R1|exact (done_attached D A)|exact (done_cls D C)|].
  eapply Forall_impl; [|exact Fl]. intros x. apply usable_same; [exact (good_wf (reachable_good R))|exact T1|]. intros c k Ck. apply (hd_name D Ck).
Qed.
(** registerClass() of consistent descriptors succeeds if everything that the signatures name is registered, where the class itself counts as registered. *)
Theorem C84_total G compat own t0 t k inst name ds rs s : reachable G t0 s -> attached s t -> Descriptors compat ds = Ok rs ->
  (forall s1 cl, class_named s1 name cl -> (forall T, registered s1 T = if ty_eqb (TUser k) T then Some cl else registered s T) ->
     (forall c x, class_at s c = Some x -> exists y, class_at s1 c = Some y /\ c_prefix y = c_prefix x) -> Forall (usable own s1 cl) rs) ->
  exists cl s', registerClass G compat own t k inst name ds s = Some (Ok cl, s').
Proof.
  intros R A Ed Hu. unfold registerClass. rewrite Ed.
  destruct (PushLocalFrame_step 0 (reachable_solid R) A) as (s0 & E0 & So0 & Gn & Lv). change (if (0 <? 0)%Z then OExn (Err (S_ "vector::reserve")) else OVal (RInt 0)) with (OVal (RInt 0)) in E0. rewrite E0. pose proof (reach_step R E0) as R0.
  assert (attached s0 t) as A0 by (eapply gained_attached; eauto).
  destruct (C81_bind k inst name R0 A0) as (cl & ck0 & s1 & E1 & _). rewrite E1. pose proof (reach_step R0 E1) as R1.
  destruct (bind_on R0 E1) as (cl1 & Ev & D1 & Cn & K1 & Rg & Old & _). injection Ev as <-.
  assert (Forall (usable own s1 cl) rs) as F.
  { apply Hu; [exact Cn| |].
    - intros T. rewrite Rg. destruct (ty_eqb (TUser k) T); [reflexivity|]. apply (cm_types (gn_calm Gn)).
    - intros c x Cx. assert (exists y, class_at s0 c = Some y /\ c_prefix y = c_prefix x) as (y & Cy & Py).
      { destruct (gn_obj Gn (class_at_live Cx)) as (o & o' & L1 & L2 & V & _). unfold class_at, contents in *. rewrite L1 in Cx. rewrite L2. simpl in *. destruct (o_pay o); try discriminate. injection Cx as ->. destruct (o_pay o'); simpl in V; try discriminate. injection V as V. eexists. split; [reflexivity|]. congruence. }
      destruct (hd_name D1 Cy) as (z & Cz & Pz & _). exists z. split; [exact Cz|congruence]. }
  pose proof (done_attached D1 A0) as A1. destruct (registre_all_total R1 A1 K1 F) as (s2 & E2). rewrite E2.
  destruct (registre_all_done R1 K1 E2) as (R2 & _ & L & rs1 & rs2 & _ & _ & D2 & _).
  assert (frames s2 t = [] :: frames s t) as F2 by (rewrite (hd_frames D2), (hd_frames D1); apply (gn_frames Gn)).
  assert (frames s t <> []) as Nf by (eapply C26_innermost_exists; eauto).
  destruct (pop_empty (reachable_solid R2) (done_attached D2 A1) F2 Nf) as (s3 & E3 & _). rewrite E3. eauto.
Qed.

(** ** The array classes *)
Definition array_class (s : st) (n : nat) : Prop := exists i k ci, registered s (TUser n) = Some i /\ class_at s i = Some k /\ class_named s (S_ "[L" ++ c_prefix k ++ S_ ";") ci.
Lemma named_kept s s' nm c : (forall c k, class_at s c = Some k -> exists k', class_at s' c = Some k' /\ c_prefix k' = c_prefix k /\ c_natives k' = c_natives k) -> class_named s nm c -> class_named s' nm c.
Proof.
  intros N (o & k & L & P & E). assert (class_at s c = Some k) as Ck by (unfold class_at, contents; rewrite L; simpl; rewrite P; reflexivity). destruct (N _ _ Ck) as (k' & Ck' & P' & _).
  unfold class_at, contents in Ck'. destruct (lookup s' c) as [o'|] eqn:L'; [|discriminate]. simpl in Ck'. destruct (o_pay o') eqn:Po; try discriminate. injection Ck' as ->. exists o', k'. split; [exact L'|]. split; [exact Po|congruence].
Qed.
Lemma array_kept s s' n : (forall T, registered s' T = registered s T) -> (forall c k, class_at s c = Some k -> exists k', class_at s' c = Some k' /\ c_prefix k' = c_prefix k /\ c_natives k' = c_natives k) -> array_class s n -> array_class s' n.
Proof.
  intros Rg N (i & k & ci & Hi & Ck & Cn). destruct (N _ _ Ck) as (k' & Ck' & P & _). exists i, k', ci. rewrite Rg, P. split; [exact Hi|]. split; [exact Ck'|]. exact (named_kept N Cn).
Qed.
Lemma declared G t0 t n s v s' : reachable G t0 s -> step G t (UDeclareArray_ n) s = Some (OVal v, s') -> array_class s' n.
Proof.
  intros R E. pose proof (step_attached E eq_refl) as A. pose proof (good_wf (reachable_good R)) as W.
  assert (exists c k, registered s (TUser n) = Some c /\ contents s c = Some (PClass k)) as (c & k & Rg & Ck).
  { unfold step in E. rewrite run_attached in E by auto. cbn [body] in E. unfold as_unit, declare_array, bind, gets in E. change (type_class s (TUser n)) with (registered s (TUser n)) in E.
    destruct (registered s (TUser n)) as [c|] eqn:Rg; [|discriminate]. exists c. unfold get_cls, bind, deref in E. unfold contents. destruct (lookup s c) as [o|]; [|discriminate]. simpl.
    destruct (o_pay o); try discriminate. eauto. }
  assert (class_at s c = Some k) as Cc by (unfold class_at; rewrite Ck; reflexivity). pose proof (done_array R (class_cls Cc) E) as D. destruct (hd_name D Cc) as (k' & Ck' & P & _).
  destruct (C43_declare R A Rg Ck) as (ci & p & s1 & ck & E1 & Cn & _). rewrite E in E1. injection E1 as -> <-. exists c, k', ci. rewrite P. split; [|auto]. rewrite (C81_step (TUser n) R E) by discriminate. exact Rg.
Qed.
Lemma arrays_in l T n : forall ops, all_arrays l = Some ops -> In T l -> array_of T (ClUser n) -> In (UDeclareArray_ n) ops.
Proof.
  induction l as [|X l IH]; intros ops E HT An; [destruct HT|]. simpl in E. destruct (arrays X) as [a|] eqn:Ea; [|discriminate]. destruct (all_arrays l) as [b|]; [|discriminate]. injection E as <-.
  apply in_or_app. destruct HT as [->|HT]; [left; destruct An as [->| ->]; injection Ea as <-; left; reflexivity|right; auto].
Qed.
Lemma ops_in cl nm f hs h T n : forall ops, all_ops cl nm f hs = Some ops -> In h hs -> in_signature f h T -> array_of T (ClUser n) -> In (UDeclareArray_ n) ops.
Proof.
  induction hs as [|x hs IH]; intros ops E Hh HT An; [destruct Hh|]. simpl in E. destruct (hook_ops cl nm f x) as [a|] eqn:Ea; [|discriminate]. destruct (all_ops cl nm f hs) as [b|]; [|discriminate]. injection E as <-.
  apply in_or_app. destruct Hh as [->|Hh]; [left|right; eauto]. unfold hook_ops in Ea. destruct (all_arrays (sig_types f h)) as [l|] eqn:El; [|discriminate]. injection Ea as <-. apply in_or_app. left.
  eapply arrays_in; eauto. apply sig_types_iff. exact HT.
Qed.
Lemma run_declared G t0 t cl n ops : forall s s', reachable G t0 s -> is_cls s cl = true -> run_ops G t ops s = Some s' -> Forall (fun o => harmless o /\ forall s v s', reachable G t0 s -> is_cls s cl = true -> step G t o s = Some (v, s') -> exists L, hooks_done t cl L s s') ops -> In (UDeclareArray_ n) ops -> array_class s' n.
Proof.
  induction ops as [|o ops IH]; intros s s' R C E F Hn; [destruct Hn|]. simpl in E. destruct (step G t o s) as [[[v|e] s1]|] eqn:St; try discriminate. inversion F as [|o1 l1 (Fh & Fo) Fl]; subst.
  destruct (Fo _ _ _ R C St) as (L & D). pose proof (reach_step R St) as R1. pose proof (done_cls D C) as C1. destruct Hn as [->|Hn]; [|eapply IH; eauto].
  pose proof (declared R St) as Ar. clear IH St D R C s F Fh Fo.
  revert s1 s' R1 C1 E Ar. induction ops as [|o ops IH]; intros s1 s' R1 C1 E Ar; simpl in E; [injection E as <-; exact Ar|]. destruct (step G t o s1) as [[[w|e] s2]|] eqn:St; try discriminate. inversion Fl as [|o1 l1 (Fh & Fo) Fl1]; subst.
  destruct (Fo _ _ _ R1 C1 St) as (L1 & D). apply (IH Fl1 s2 s' (reach_step R1 St) (done_cls D C1) E). eapply array_kept; [|intros c k Ck; apply (hd_name D Ck)|exact Ar]. intros T. exact (C81_step T R1 St Fh).
Qed.
Lemma op_done G t0 t cl nm f hs : forall ops, all_ops cl nm f hs = Some ops -> Forall (fun o => harmless o /\ forall s v s', reachable G t0 s -> is_cls s cl = true -> step G t o s = Some (v, s') -> exists L, hooks_done t cl L s s') ops.
Proof.
  intros ops E. pose proof (ops_harmless E) as Fh. revert ops E Fh. induction hs as [|h hs IH]; intros ops E Fh; simpl in E; [injection E as <-; constructor|].
  destruct (hook_ops cl nm f h) as [a|] eqn:Ea; [|discriminate]. destruct (all_ops cl nm f hs) as [b|] eqn:Eb; [|discriminate]. injection E as <-. apply Forall_app in Fh. destruct Fh as (Fa & Fb).
  apply Forall_app. split; [|apply IH; auto]. unfold hook_ops in Ea. destruct (all_arrays (sig_types f h)) as [l|] eqn:El; [|discriminate]. injection Ea as <-. apply Forall_app in Fa. destruct Fa as (Fl & Fo). apply Forall_app. split.
  - pose proof (arrays_ops El) as Al. rewrite Forall_forall in *. intros o Ho. split; [auto|]. intros s v s' R C St. destruct (Al o Ho) as (n & ->). exists []. eapply done_array; eauto.
  - constructor; [|constructor]. inversion Fo; subst. split; [assumption|]. intros s v s' R C St. exists [(nm, h)]. pose proof (reachable_solid R) as So.
    assert (exists i, v = OVal (RRef (Some i))) as (i & ->).
    { unfold hook_op in St. destruct (k_what h).
      - destruct (hook_method_step (k_static h) nm (k_sig h) (k_handle h) (so_good So) (step_attached St eq_refl) C) as (i & s3 & E3 & _). exists i. congruence.
      - destruct (hook_field_step (k_static h) true nm (k_sig h) (k_handle h) (so_good So) (step_attached St eq_refl) C) as (i & s3 & E3 & _). exists i. congruence.
      - destruct (hook_field_step (k_static h) false nm (k_sig h) (k_handle h) (so_good So) (step_attached St eq_refl) C) as (i & s3 & E3 & _). exists i. congruence. }
    unfold hook_op in St. pose proof (good_wf (so_good So)) as W. destruct (k_what h) eqn:Kw.
    + destruct (hook_method_step (k_static h) nm (k_sig h) (k_handle h) (so_good So) (step_attached St eq_refl) C) as (j & s3 & E3 & _ & K). rewrite St in E3. injection E3 as _ <-. eapply done_method; eauto. apply So.
    + destruct (hook_field_step (k_static h) true nm (k_sig h) (k_handle h) (so_good So) (step_attached St eq_refl) C) as (j & s3 & E3 & _ & K). rewrite St in E3. injection E3 as _ <-. eapply done_field; eauto. apply So.
    + destruct (hook_field_step (k_static h) false nm (k_sig h) (k_handle h) (so_good So) (step_attached St eq_refl) C) as (j & s3 & E3 & _ & K). rewrite St in E3. injection E3 as _ <-. eapply done_field; eauto. apply So.
Qed.
Lemma registre_arrays G own t0 t cl rs : forall s s', reachable G t0 s -> is_cls s cl = true -> registre_all G own t cl rs s = Some (Ok tt, s') ->
  forall r o hs h T n, In r rs -> hooks own s cl r = Some o -> snd o = Ok hs -> In h hs -> in_signature (r_fun r) h T -> array_of T (ClUser n) -> array_class s' n.
Proof.
  induction rs as [|x rs IH]; intros s s' R C E r o hs h T n Hr Ho Hs Hh HT An; [destruct Hr|]. simpl in E. destruct (registre G own t cl x s) as [[[u|e| | |] s1]|] eqn:E1; try discriminate.
  destruct (registre_done R C E1) as (R1 & T1 & o1 & hs1 & Ho1 & Hs1 & D). pose proof (done_cls D C) as C1. destruct Hr as [->|Hr].
  - assert (array_class s1 n) as Ar.
    { unfold registre in E1. rewrite Ho, Hs in E1. destruct (existsb _ _); [discriminate|]. destruct (all_ops cl (r_name r) (r_fun r) hs) as [ops|] eqn:Eo; [|discriminate]. destruct (run_ops G t ops s) as [s2|] eqn:Er; [|discriminate]. injection E1 as _ <-.
      eapply (run_declared R C Er); [eapply op_done; exact Eo|]. eapply ops_in; eauto. }
    destruct (registre_all_done R1 C1 E) as (R2 & T2 & L & _ & _ & _ & _ & D2 & _). eapply array_kept; [exact T2|intros c k Ck; apply (hd_name D2 Ck)|exact Ar].
  - eapply (IH s1 s' R1 C1 E r o hs h T n Hr); eauto. rewrite <- Ho. apply hooks_same; [exact (good_wf (reachable_good R))|exact T1|]. intros c k Ck. apply (hd_name D Ck).
Qed.
(** After registerClass() the array classes that its signatures name exist. *)
Theorem C84_arrays G compat own t0 t k inst name ds rs s cl s' r o hs h T n : reachable G t0 s -> attached s t -> Descriptors compat ds = Ok rs -> registerClass G compat own t k inst name ds s = Some (Ok cl, s') ->
  In r rs -> hooks own s' cl r = Some o -> snd o = Ok hs -> In h hs -> in_signature (r_fun r) h T -> array_of T (ClUser n) -> array_class s' n.
Proof.
  intros R A Ed E Hr Ho Hs Hh HT An. unfold registerClass in E. rewrite Ed in E.
  destruct (step G t (PushLocalFrame_ 0) s) as [[[v0|e] s0]|] eqn:E0; try discriminate.
  destruct (step G t (UBind_ k inst name) s0) as [[[v1|e] s1]|] eqn:E1; try discriminate.
  pose proof (reach_step R E0) as R0. pose proof (reach_step R0 E1) as R1. destruct (bind_on R0 E1) as (c1 & Ev & D1 & Cn & K1 & Rg & Old & _). injection Ev as ->.
  destruct (registre_all G own t c1 rs s1) as [[y s2]|] eqn:E2; [|discriminate]. destruct (registre_all_done R1 K1 E2) as (R2 & T2 & L & rs1 & rs2 & -> & Ah & D2 & X).
  destruct (step G t (PopLocalFrame_ None) s2) as [[[v3|e] s3]|] eqn:E3; try discriminate. destruct y as [[]|e| | |]; try discriminate. injection E as <- <-.
  pose proof (reach_step R2 E3) as R3. destruct (PushLocalFrame_step 0 (reachable_solid R) A) as (sa & Ea & _ & Gn & Lv). rewrite E0 in Ea. injection Ea as _ <-.
  assert (attached s0 t) as A0 by (eapply gained_attached; eauto). pose proof (done_attached D1 A0) as A1. pose proof (done_attached D2 A1) as A2.
  assert (frames s2 t = [] :: frames s t) as F2 by (rewrite (hd_frames D2), (hd_frames D1); apply (gn_frames Gn)).
  assert (frames s t <> []) as Nf by (eapply C26_innermost_exists; eauto).
  destruct (pop_empty (reachable_solid R2) A2 F2 Nf) as (sb & Eb & _ & Gn3 & Lv3). rewrite E3 in Eb. injection Eb as _ <-.
  pose proof (good_wf (reachable_good R1)) as W1. pose proof (good_wf (reachable_good R2)) as W2. pose proof (done_cls D2 K1) as K2.
  assert (hooks_on t c1 [] s2 s3) as D3 by (eapply gained_on; eauto).
  assert (forall T, registered s3 T = registered s2 T) as T3 by (intros X0; apply (cm_types (gn_calm Gn3))).
  eapply array_kept; [exact T3|intros c x Cx; apply (hd_name D3 Cx)|]. eapply (registre_arrays R1 K1 E2); eauto. rewrite <- Ho. symmetry. apply hooks_same; [exact W1| |].
  - intros X0. rewrite T3. apply T2.
  - intros c x Cx. destruct (hd_name D2 Cx) as (y1 & C1 & P1 & Q1). destruct (hd_name D3 C1) as (y2 & C2 & P2 & Q2). exists y2. split; [exact C2|]. split; congruence.
Qed.
(** A signature may not name a class that was only looked up as a base class of a registered class: its entry is a null pointer, which is dereferenced. *)
Theorem C84_null_base G own t cl r s o T c X : hooks own s cl r = Some o -> (forall hs, snd o = Ok hs -> exists h, In h hs /\ in_signature (r_fun r) h T) -> In T (params (r_fun r)) \/ T = Return (r_fun r) -> (forall e, array_of T e -> exists n, e = ClUser n) ->
  mentions T c -> type_of c = Some X -> get_type s X = Some None -> registre G own t cl r s = None.
Proof.
  intros Ho Hs Hp Ar Hm Ht Hg. assert (null_entry s T = true) as Hn. { unfold null_entry. apply (class_of_iff c Ar) in Hm. rewrite Hm. unfold entry. rewrite Ht, Hg. reflexivity. }
  unfold registre. rewrite Ho. destruct (snd o) as [hs|e| | |] eqn:E; try reflexivity.
  - destruct (Hs hs eq_refl) as (h & Hh & HT). assert (existsb (null_entry s) (flat_map (sig_types (r_fun r)) hs) = true) as ->; [|reflexivity]. apply existsb_exists. exists T. split; [|exact Hn].
    apply in_flat_map. exists h. split; [exact Hh|]. apply sig_types_iff. exact HT.
  - assert (existsb (null_entry s) (Return (r_fun r) :: params (r_fun r)) = true) as ->; [|reflexivity]. apply existsb_exists. exists T. split; [|exact Hn]. destruct Hp as [Hp| ->]; [right; exact Hp|left; reflexivity].
Qed.
(** Example: a function taking an array of the class itself *)
Definition ds_array : list desc := [DMember (Fn Cvoid [Cshared (ClArr (ClUser 0))]) 1 (S_ "all") (Some 9%Z); DMember (Var (Cshared (ClUser 0))) 2 (S_ "first") (Some 9%Z)].
Example C84_ex_array : match registerClass Gd false (fun _ => None) main 0 true (S_ "A") ds_array (start Gd) with
  | Some (Ok c, s) => map m_sig (mtable s c) = [S_ "([LA;)V"] /\ map VmState.f_type (ftable s c) = [S_ "LA;"] /\ get_class s (S_ "[LA;") <> None /\ get_class (start Gd) (S_ "[LA;") = None
  | _ => False
  end.
Proof. vm_compute. repeat split; discriminate. Qed.
(** Its hypothesis: everything named is registered once the class itself is. *)
Example C84_ex_usable own s1 cl r : registered s1 (TUser 0) = Some cl -> class_named s1 (S_ "A") cl -> In r [mkReg AHook (Fn Cvoid [Cshared (ClArr (ClUser 0))]) 1 (S_ "all"); mkReg AHook (Var (Cshared (ClUser 0))) 2 (S_ "first")] -> usable own s1 cl r.
Proof.
  intros Rg Cn Hr. pose proof (reg_named Rg Cn) as Nm. destruct Hr as [<-|[<-|[]]].
  - eexists _, _. split; [cbv -[reg_name mine_in]; rewrite !Nm; reflexivity|]. split; [reflexivity|]. intros h T [<-|[]] HT. cbn in HT. destruct HT as [[<-|[]]| ->].
    + split; [intros e [Q|Q]; [discriminate|]; injection Q as <-; eauto|]. intros c X Hm Ht. inversion Hm as [| | | | |c0 (Na & _)|T0 n [Q|Q]| | | |]; subst; try discriminate; [exfalso; eapply Na; reflexivity|]. injection Q as <-. injection Ht as <-. congruence.
    + split; [intros e [Q|Q]; discriminate|]. intros c X Hm. inversion Hm as [| | | | | |T0 n [Q|Q]| | | |]; discriminate.
  - eexists _, _. split; [cbv -[reg_name mine_in]; rewrite !Nm; reflexivity|]. split; [reflexivity|]. intros h T Hh HT. assert (T = Cshared (ClUser 0)) as -> by (destruct Hh as [<-|[<-|[]]]; exact HT).
    split; [intros e [Q|Q]; discriminate|]. intros c X Hm Ht. inversion Hm as [| | | | |c0 (Na & _)|T0 n [Q|Q]| | | |]; subst; try discriminate. injection Ht as <-. congruence.
Qed.
Definition ev_null : list event := [(main, UBind_ 2 true (S_ "C")); (main, GetMethodID_ false (Some 9) (S_ "f") (S_ "()V"))].
(** A method of C, whose base class 1 is not registered, was looked up; then a function with a parameter of class 1 cannot be hooked. *)
Example C84_ex_null : get_type (after Gd ev_null) (TUser 1) = Some None /\ registre Gd (fun _ => None) main 9 (mkReg AHook (Fn Cvoid [Cshared (ClUser 1)]) 1 (S_ "g")) (after Gd ev_null) = None /\ runs Gd ev_null = true.
Proof. vm_compute. auto. Qed.
Print Assumptions C84_total. Print Assumptions C84_arrays. Print Assumptions C84_null_base.
