(** The tree the code generator walks through, and its classes in order. *)
From Coq Require Import Permutation.
From Verif Require Import Base BaseProofs SigModel SigSpec SigProofs2 SigProps VmState VmModel VmStep VmBase VmFrame VmWf VmPrim VmInv VmReg VmFine VmRegInv VmTree VmSpec VmClass GenModel GenSpec.
Set Implicit Arguments.
Unset Strict Implicit.
Local Open Scope char_scope.

Definition gn_name (n : gns) : str := match n with GNs x _ _ => x end.
Definition g_inner (c : gcls) : list gcls := match c with GClass _ _ l _ _ => l end.

Section Ind.
Variable P : gcls -> Prop.
Hypothesis H : forall n p ks fs ms, Forall P ks -> P (GClass n p ks fs ms).
Fixpoint gcls_ind2 (c : gcls) : P c :=
  match c with
  | GClass n p ks fs ms => H n p fs ms ((fix go l : Forall P l := match l with [] => Forall_nil P | x :: r => Forall_cons x (gcls_ind2 x) (go r) end) ks)
  end.
End Ind.
Section Ind2.
Variable P : gns -> Prop.
Hypothesis H : forall n cs ns, Forall P ns -> P (GNs n cs ns).
Fixpoint gns_ind2 (c : gns) : P c :=
  match c with
  | GNs n cs ns => H n cs ((fix go l : Forall P l := match l with [] => Forall_nil P | x :: r => Forall_cons x (gns_ind2 x) (go r) end) ns)
  end.
End Ind2.

(** ** The tree of a state *)
Section Tree.
Variable s : st.

Inductive Rc : oid -> list str -> list str -> gcls -> Prop :=
| Rc_intro i a b c ks fs ms : cls_of s i = Some c -> c_prefix c = nm a (b ++ [c_name c]) -> comps a (b ++ [c_name c]) -> bracket (c_prefix c) = false ->
    NoDup (map g_name ks) -> Forall2 (fun j k => Rc j a (b ++ [c_name c]) k) (c_inner c) ks ->
    Forall2 (field_at s) (c_fields c) fs -> Forall2 (method_at s) (c_methods c) ms ->
    Rc i a b (GClass (c_name c) (c_prefix c) ks fs ms).
Inductive Rn : nat -> list str -> gns -> Prop :=
| Rn_intro k a x cs ns : nth_error (s_ns s) k = Some x -> wns s 0 a = Some k -> Forall (free ["/"]) a -> NoDup (map g_name cs) -> NoDup (map gn_name ns) ->
    Forall2 (fun i c => Rc i a [] c) (n_classes x) cs -> Forall2 (fun j n => Rn j (a ++ [gn_name n]) n) (n_subs x) ns ->
    Rn k a (GNs (n_name x) cs ns).

Lemma read_all_ok {A B} (f : A -> option B) (R : A -> B -> Prop) l : (forall x, In x l -> exists y, f x = Some y /\ R x y) ->
  exists r, read_all f l = Some r /\ Forall2 R l r.
Proof.
  induction l as [|x l IH]; intros H.
  - exists []. split; [reflexivity|constructor].
  - destruct (H x (or_introl eq_refl)) as (y & E & Hy). destruct IH as (r & Er & Hr); [intros z Hz; apply H; right; exact Hz|].
    exists (y :: r). cbn [read_all]. rewrite E, Er. split; [reflexivity|constructor; auto].
Qed.
Lemma Forall2_map_eq {A B C} (f : A -> C) (g : B -> C) l r : Forall2 (fun x y => f x = g y) l r -> map f l = map g r.
Proof. induction 1; simpl; congruence. Qed.
Lemma Forall2_weak {A B} (P Q : A -> B -> Prop) l r : (forall x y, In x l -> P x y -> Q x y) -> Forall2 P l r -> Forall2 Q l r.
Proof. intros H F. induction F; constructor; auto; [apply H; [left; reflexivity|assumption]|apply IHF; intros; apply H; [right|]; assumption]. Qed.
Lemma NoDup_map_Some A (l : list A) : NoDup (map Some l) -> NoDup l.
Proof. apply NoDup_map_inv. Qed.

Hypothesis W : wf s.
Hypothesis Sh : shape s.
Variable pth : nat -> list str.
Hypothesis T : tree_ok s pth.

Lemma class_members c i : cls_of s i = Some c ->
  (exists fs, read_all (read_field s) (c_fields c) = Some fs /\ Forall2 (field_at s) (c_fields c) fs) /\
  (exists ms, read_all (read_method s) (c_methods c) = Some ms /\ Forall2 (method_at s) (c_methods c) ms).
Proof.
  intros Hc. unfold cls_of in Hc. destruct (lookup s i) as [o|] eqn:L; [|discriminate]. destruct (o_pay o) eqn:E; try discriminate. injection Hc as ->.
  pose proof (wf_obj W _ L) as O. unfold obj_ok in O. rewrite E in O. cbn [pay_ok] in O. rewrite !andb_true_iff in O. destruct O as [[[O1 O2] O3] _].
  rewrite forallb_forall in O2, O3. split; apply read_all_ok.
  - intros x Hx. specialize (O2 _ Hx). unfold is_fld in O2. unfold read_field, field_at. destruct (lookup s x) as [ox|] eqn:Lx; [|discriminate].
    destruct (o_pay ox) eqn:Ex; try discriminate. eexists. split; [reflexivity|]. exists ox. auto.
  - intros x Hx. specialize (O3 _ Hx). unfold is_mth in O3. unfold read_method, method_at. destruct (lookup s x) as [ox|] eqn:Lx; [|discriminate].
    destruct (o_pay ox) eqn:Ex; try discriminate. eexists. split; [reflexivity|]. exists ox. auto.
Qed.

Lemma read_class_ok fuel : forall i c a b, cls_of s i = Some c -> c_prefix c = nm a (b ++ [c_name c]) -> comps a (b ++ [c_name c]) -> bracket (c_prefix c) = false ->
  length (s_heap s) <= i + fuel -> exists g, read_class fuel s i = Some g /\ Rc i a b g.
Proof.
  induction fuel as [|fuel IH]; intros i c a b Hc Hp Co Br L.
  - pose proof (cls_of_lt _ _ Hc). lia.
  - cbn [read_class]. rewrite Hc. destruct (class_members Hc) as ((fs & -> & F) & (ms & -> & Fm)).
    destruct (@read_all_ok _ _ (read_class fuel s) (fun j k => Rc j a (b ++ [c_name c]) k) (c_inner c)) as (ks & -> & Fk).
    { intros j Hj. destruct (@wf_inner s _ _ W Hc _ Hj) as (d & Hd). destruct (sh_inner1 Sh _ _ Hc Hj Hd) as (Lt & a' & b' & Nb & Co' & P1 & P2 & Br').
      assert (comps a' b') as Co2 by (eapply comps_prefix; eauto). rewrite Hp in P1. destruct (nm_inj Co Co2 P1) as (<- & <-).
      apply (IH j d); auto. lia. }
    eexists. split; [reflexivity|]. constructor; auto.
    apply NoDup_map_Some. rewrite map_map. replace (map (fun x => Some (g_name x)) ks) with (map (cl_name s) (c_inner c)); [apply (sh_inner Sh _ Hc)|].
    apply Forall2_map_eq. eapply Forall2_weak; [|exact Fk]. intros j k _ R. inversion R; subst. unfold cl_name. rewrite H. reflexivity.
Qed.

Lemma read_ns_ok fuel : forall k a, wns s 0 a = Some k -> Forall (free ["/"]) a -> length (s_ns s) <= k + fuel -> exists g, read_ns fuel s k = Some g /\ Rn k a g.
Proof.
  induction fuel as [|fuel IH]; intros k a Hk Fr L; pose proof (wns_lt _ W Hk) as Lk; [lia|].
  cbn [read_ns]. destruct (nth_error (s_ns s) k) as [x|] eqn:Ex; [|apply nth_error_None in Ex; lia].
  destruct (@read_all_ok _ _ (read_class (length (s_heap s)) s) (fun i c => Rc i a [] c) (n_classes x)) as (cs & -> & Fc).
  { intros i Hi. pose proof (@wf_nsc s W _ _ (nth_error_In _ _ Ex) Hi) as Ci. apply is_cls_of in Ci. destruct Ci as (c & Hc).
    destruct (sh_cls1 Sh _ _ Ex Hi Hc) as (a' & Ha & Co & P & Br). assert (reg_path : a' = a).
    { rewrite (wns_path _ T Ha), (wns_path _ T Hk). reflexivity. }
    subst a'. apply (@read_class_ok (length (s_heap s)) i c a []); auto. lia. }
  destruct (@read_all_ok _ _ (read_ns fuel s) (fun j n => Rn j (a ++ [gn_name n]) n) (n_subs x)) as (ns & -> & Fn).
  { intros j Hj. destruct (sh_subs Sh _ Ex) as (Nd & Lt). pose proof (@wf_subs s W _ _ (nth_error_In _ _ Ex) Hj) as Lj.
    destruct (nth_error (s_ns s) j) as [y|] eqn:Ey; [|apply nth_error_None in Ey; lia]. specialize (Lt _ Hj).
    destruct (IH j (a ++ [n_name y])) as (g & Hg & Rg).
    - rewrite wns_app, Hk. cbn [wns]. rewrite Ex. assert (find_sub s (n_subs x) (n_name y) = Some j) as ->; [|reflexivity].
      clear -Nd Hj Ey. unfold find_sub. induction (n_subs x) as [|z l IH]; [destruct Hj|]. cbn [map] in Nd. inversion Nd; subst. cbn [find].
      destruct Hj as [->|Hj]; [rewrite Ey, str_eqb_refl; reflexivity|].
      destruct (nth_error (s_ns s) z) as [yz|] eqn:Ez; [|auto]. destruct (str_eqb_spec (n_name yz) (n_name y)) as [E|E]; [|auto].
      exfalso. apply H1. apply in_map_iff. exists j. split; [|exact Hj]. unfold ns_name. rewrite Ez, Ey. simpl. congruence.
    - apply Forall_app. split; [exact Fr|]. constructor; [|constructor]. apply (sh_free Sh (j := j)); [lia|exact Ey].
    - lia.
    - exists g. split; [exact Hg|]. replace (gn_name g) with (n_name y); [exact Rg|]. inversion Rg; subst. simpl. congruence. }
  eexists. split; [reflexivity|]. constructor; auto.
  - apply NoDup_map_Some. rewrite map_map. replace (map (fun x => Some (g_name x)) cs) with (map (cl_name s) (n_classes x)); [apply (sh_cls Sh _ Ex)|].
    apply Forall2_map_eq. eapply Forall2_weak; [|exact Fc]. intros j k0 _ R. inversion R; subst. unfold cl_name. rewrite H. reflexivity.
  - apply NoDup_map_Some. rewrite map_map. replace (map (fun x => Some (gn_name x)) ns) with (map (ns_name s) (n_subs x)); [apply (sh_subs Sh _ Ex)|].
    apply Forall2_map_eq. eapply Forall2_weak; [|exact Fn]. intros j k0 _ R. inversion R; subst. unfold ns_name. rewrite H. reflexivity.
Qed.
End Tree.

(** ** Visible classes, outer before inner and inner before outer *)
Fixpoint pre_c (c : gcls) : list gcls :=
  match c with GClass _ p ks _ _ => if skipped p then [] else c :: flat_map pre_c ks end.
Fixpoint post_c (c : gcls) : list gcls :=
  match c with GClass _ p ks _ _ => if skipped p then [] else flat_map post_c ks ++ [c] end.
Fixpoint pre_n (n : gns) : list gcls := match n with GNs _ cs ns => flat_map pre_c cs ++ flat_map pre_n ns end.
Fixpoint post_n (n : gns) : list gcls := match n with GNs _ cs ns => flat_map post_c cs ++ flat_map post_n ns end.

Lemma perm_flat {A B} (f g : A -> list B) l : Forall (fun x => Permutation (f x) (g x)) l -> Permutation (flat_map f l) (flat_map g l).
Proof. induction 1; simpl; auto using Permutation_app. Qed.
Lemma perm_c c : Permutation (pre_c c) (post_c c).
Proof.
  induction c as [n p ks fs ms IH] using gcls_ind2. cbn [pre_c post_c]. destruct (skipped p); auto.
  apply Permutation_cons_app. rewrite app_nil_r. apply perm_flat, IH.
Qed.
Lemma perm_n n : Permutation (pre_n n) (post_n n).
Proof.
  induction n as [x cs ns IH] using gns_ind2. cbn [pre_n post_n]. apply Permutation_app; apply perm_flat; auto.
  apply Forall_forall. intros; apply perm_c.
Qed.

Lemma nodup_app {A} (l r : list A) : NoDup l -> NoDup r -> (forall x, In x l -> In x r -> False) -> NoDup (l ++ r).
Proof.
  induction l as [|x l IH]; simpl; intros L R D; auto. inversion L; subst. constructor; [rewrite in_app_iff; intros [?|?]; eauto|]. apply IH; auto. intros y; eauto.
Qed.
Lemma nodup_flat {A B K L} (f : A -> list B) (g : B -> L) (kx : A -> K) l : NoDup (map kx l) -> (forall x, In x l -> NoDup (map g (f x))) ->
  (forall x x' y y', In x l -> In x' l -> In y (f x) -> In y' (f x') -> g y = g y' -> kx x = kx x') -> NoDup (map g (flat_map f l)).
Proof.
  induction l as [|x l IH]; simpl; intros N F D; [constructor|]. inversion N; subst. rewrite map_app. apply nodup_app.
  - auto.
  - apply IH; auto. intros u v y z Hu Hv. apply D; auto.
  - intros z H1' H2'. apply in_map_iff in H1', H2'. destruct H1' as (y & Ey & Hy), H2' as (y' & Ey' & Hy'). apply in_flat_map in Hy'. destruct Hy' as (x' & Hx' & Hy').
    apply H1. apply in_map_iff. exists x'. split; [|exact Hx']. apply (D x' x y' y); auto; congruence.
Qed.
Lemma Forall2_in_r {A B} (R : A -> B -> Prop) l r y : Forall2 R l r -> In y r -> exists x, In x l /\ R x y.
Proof. induction 1; simpl; [tauto|]. intros [->|H1]; [eauto|]. destruct (IHForall2 H1) as (z & ? & ?). eauto. Qed.
Lemma Forall2_in_l {A B} (R : A -> B -> Prop) l r x : Forall2 R l r -> In x l -> exists y, In y r /\ R x y.
Proof. induction 1; simpl; [tauto|]. intros [->|H1]; [eauto|]. destruct (IHForall2 H1) as (z & ? & ?). eauto. Qed.

Section Listing.
Variable s : st.
Notation Rc := (Rc s).
Notation Rn := (Rn s).

Lemma Rc_prefix i a b g : Rc i a b g -> g_prefix g = nm a (b ++ [g_name g]) /\ comps a (b ++ [g_name g]) /\ bracket (g_prefix g) = false /\
  exists c, cls_of s i = Some c /\ c_prefix c = g_prefix g /\ c_name c = g_name g.
Proof. intros H. inversion H; subst. simpl. eauto 10. Qed.

Lemma Rc_inv i a b n p ks fs ms : Rc i a b (GClass n p ks fs ms) -> NoDup (map g_name ks) /\
  exists c, cls_of s i = Some c /\ c_name c = n /\ c_prefix c = p /\ Forall2 (fun j k => Rc j a (b ++ [n]) k) (c_inner c) ks /\
  Forall2 (field_at s) (c_fields c) fs /\ Forall2 (method_at s) (c_methods c) ms.
Proof. intros H. inversion H; subst. split; [assumption|]. exists c. auto 10. Qed.
Lemma Rn_inv k a n cs ns : Rn k a (GNs n cs ns) -> NoDup (map g_name cs) /\ NoDup (map gn_name ns) /\ wns s 0 a = Some k /\ Forall (free ["/"]) a /\
  exists x, nth_error (s_ns s) k = Some x /\ n_name x = n /\ Forall2 (fun i c => Rc i a [] c) (n_classes x) cs /\ Forall2 (fun j m => Rn j (a ++ [gn_name m]) m) (n_subs x) ns.
Proof. intros H. inversion H; subst. repeat (split; [assumption|]). exists x. auto. Qed.

Lemma pre_c_in g : forall i a b, Rc i a b g -> forall h, In h (pre_c g) ->
  exists j q r, Rc j a (b ++ q) h /\ q ++ [g_name h] = g_name g :: r /\
    forall p r, p <> [] -> q ++ [g_name h] = p ++ r -> skipped (nm a (b ++ p)) = false.
Proof.
  induction g as [n p ks fs ms IH] using gcls_ind2. intros i a b R h Hh. cbn [pre_c] in Hh. destruct (skipped p) eqn:Sk; [destruct Hh|].
  pose proof (Rc_prefix R) as (P & Co & _). cbn [g_prefix g_name] in P, Co |- *. destruct Hh as [<-|Hh].
  - exists i, [], []. rewrite app_nil_r. split; [exact R|]. split; [reflexivity|]. intros p' r Np E. destruct p' as [|x p']; [congruence|]. injection E as -> E.
    destruct p'; [|discriminate]. rewrite <- P. exact Sk.
  - apply in_flat_map in Hh. destruct Hh as (k & Hk & Hh). rewrite Forall_forall in IH. destruct (Rc_inv R) as (ND & c & Hc & Nc & Pc & FI & _).
    destruct (Forall2_in_r FI Hk) as (j & Hj & Rj). destruct (IH k Hk j a _ Rj h Hh) as (j' & q & r & Rq & E & Sq).
    exists j', (n :: q), (g_name k :: r). rewrite <- app_assoc in Rq. split; [exact Rq|]. split; [simpl; rewrite E; reflexivity|].
    intros p' r' Np E'. destruct p' as [|x p']; [congruence|]. injection E' as <- E'. destruct p' as [|y p']; [rewrite <- P; exact Sk|].
    specialize (Sq (y :: p') r' ltac:(discriminate) E'). rewrite <- app_assoc in Sq. exact Sq.
Qed.
Lemma pre_c_all g : forall i a b, Rc i a b g -> forall q j, winner s i q = Some j ->
  (forall p r, p <> [] -> g_name g :: q = p ++ r -> skipped (nm a (b ++ p)) = false) -> exists h, In h (pre_c g) /\ g_prefix h = nm a (b ++ g_name g :: q).
Proof.
  induction g as [n p ks fs ms IH] using gcls_ind2. intros i a b R q j Hw Sk. pose proof (Rc_prefix R) as (P & Co & _). cbn [g_prefix g_name] in *.
  pose proof (Sk [n] q ltac:(discriminate) eq_refl) as S0. rewrite <- P in S0. cbn [pre_c]. rewrite S0. destruct q as [|x q].
  - exists (GClass n p ks fs ms). split; [left; reflexivity|exact P].
  - destruct (Rc_inv R) as (ND & c & Hc & Nc & Pc & FI & _). cbn [winner] in Hw. rewrite Hc in Hw. destruct (find_cls s (c_inner c) x) as [k|] eqn:F; [|discriminate].
    apply find_some in F. destruct F as (Hk & Nk). destruct (Forall2_in_l FI Hk) as (gk & Hg & Rk). pose proof (Rc_prefix Rk) as (_ & _ & _ & d & Hd & _ & Nd).
    rewrite Hd in Nk. apply str_eqb_eq in Nk. assert (g_name gk = x) as Ex by congruence. rewrite Forall_forall in IH.
    destruct (IH gk Hg k a _ Rk q j Hw) as (h & Hh & Ph).
    { intros p' r Np E. rewrite <- app_assoc. apply (Sk (n :: p') r); [discriminate|]. simpl. rewrite <- E, Ex. reflexivity. }
    exists h. split; [right; apply in_flat_map; eauto|]. rewrite Ph, <- app_assoc, Ex. reflexivity.
Qed.
Lemma pre_c_prefix g i a b h : Rc i a b g -> In h (pre_c g) -> exists r, g_prefix h = nm a (b ++ g_name g :: r) /\ comps a (b ++ g_name g :: r).
Proof.
  intros R H. destruct (pre_c_in R H) as (j & q & r & Rq & E & _). exists r. destruct (Rc_prefix Rq) as (-> & C & _). rewrite <- app_assoc, E in C. rewrite <- app_assoc, E. auto.
Qed.
Lemma pre_c_nodup g : forall i a b, Rc i a b g -> NoDup (map g_prefix (pre_c g)).
Proof.
  induction g as [n p ks fs ms IH] using gcls_ind2. intros i a b R. pose proof (Rc_prefix R) as (P & Co & _). cbn [g_prefix g_name] in *. cbn [pre_c].
  destruct (skipped p); [constructor|]. cbn [map g_prefix]. destruct (Rc_inv R) as (ND & c & Hc & Nc & Pc & FI & _). rewrite Forall_forall in IH.
  assert (forall k y, In k ks -> In y (pre_c k) -> exists r, g_prefix y = nm a ((b ++ [n]) ++ g_name k :: r) /\ comps a ((b ++ [n]) ++ g_name k :: r)) as K.
  { intros k y Hk Hy. destruct (Forall2_in_r FI Hk) as (j & _ & Rj). apply (pre_c_prefix Rj Hy). }
  constructor.
  - intros Hin. apply in_map_iff in Hin. destruct Hin as (y & Ey & Hy). apply in_flat_map in Hy. destruct Hy as (k & Hk & Hy).
    destruct (K k y Hk Hy) as (r & E & C). rewrite Ey, P in E. destruct (nm_inj Co C E) as (_ & E'). apply (f_equal (@length str)) in E'. rewrite !app_length in E'. simpl in E'. lia.
  - eapply (nodup_flat (kx := g_name)); [assumption| |].
    + intros k Hk. destruct (Forall2_in_r FI Hk) as (j & _ & Rj). apply (IH k Hk _ _ _ Rj).
    + intros k k' y y' Hk Hk' Hy Hy' E. destruct (K k y Hk Hy) as (r & E1 & C1), (K k' y' Hk' Hy') as (r' & E2 & C2). rewrite E1, E2 in E.
      destruct (nm_inj C1 C2 E) as (_ & E'). apply app_inv_head in E'. congruence.
Qed.

Lemma pre_n_in n : forall k a, Rn k a n -> forall h, In h (pre_n n) ->
  exists j p q, Rc j (a ++ p) q h /\ forall p' r, p' <> [] -> q ++ [g_name h] = p' ++ r -> skipped (nm (a ++ p) p') = false.
Proof.
  induction n as [x cs ns IH] using gns_ind2. intros k a R h Hh. destruct (Rn_inv R) as (N1 & N2 & Hk & Fa & x0 & Hx0 & Nx & FC & FN). cbn [pre_n] in Hh. apply in_app_iff in Hh. destruct Hh as [Hh|Hh]; apply in_flat_map in Hh.
  - destruct Hh as (c & Hc & Hh). destruct (Forall2_in_r FC Hc) as (i & _ & Ri). destruct (pre_c_in Ri Hh) as (j & q & r & Rq & _ & Sk). exists j, [], q. rewrite app_nil_r. auto.
  - destruct Hh as (m & Hm & Hh). destruct (Forall2_in_r FN Hm) as (i & _ & Ri). rewrite Forall_forall in IH. destruct (IH m Hm _ _ Ri h Hh) as (j & p & q & Rq & Sk).
    exists j, (gn_name m :: p), q. rewrite <- app_assoc in Rq, Sk. auto.
Qed.
Lemma pre_n_all n : forall k a, Rn k a n -> forall p k' x y i q j, wns s k p = Some k' -> nth_error (s_ns s) k' = Some x -> find_cls s (n_classes x) y = Some i -> winner s i q = Some j ->
  (forall p' r, p' <> [] -> y :: q = p' ++ r -> skipped (nm (a ++ p) p') = false) -> exists h, In h (pre_n n) /\ g_prefix h = nm (a ++ p) (y :: q).
Proof.
  induction n as [nx cs ns IH] using gns_ind2. intros k a R p k' x y i q j Hw Hx Hy Hq Sk. destruct (Rn_inv R) as (N1 & N2 & Hk & Fa & x0 & Hx0 & Nx & FC & FN). cbn [pre_n]. destruct p as [|z p].
  - injection Hw as <-. rewrite Hx0 in Hx. injection Hx as ->. apply find_some in Hy. destruct Hy as (Hi & Ny). destruct (Forall2_in_l FC Hi) as (g & Hg & Rg).
    pose proof (Rc_prefix Rg) as (_ & _ & _ & d & Hd & _ & Nd). rewrite Hd in Ny. apply str_eqb_eq in Ny. assert (g_name g = y) as Ey by congruence. rewrite app_nil_r in *.
    destruct (pre_c_all Rg Hq) as (h & Hh & Ph); [intros p' r Np E; apply (Sk p' r Np); rewrite <- E, Ey; reflexivity|].
    exists h. split; [apply in_app_iff; left; apply in_flat_map; eauto|]. rewrite Ph, Ey. reflexivity.
  - cbn [wns] in Hw. rewrite Hx0 in Hw. destruct (find_sub s (n_subs x0) z) as [k2|] eqn:F; [|discriminate]. apply find_some in F. destruct F as (Hi & Nz).
    destruct (Forall2_in_l FN Hi) as (g & Hg & Rg). assert (gn_name g = z) as Ez. { inversion Rg; subst. rewrite H in Nz. apply str_eqb_eq in Nz. exact Nz. }
    rewrite Ez in Rg. rewrite Forall_forall in IH. destruct (IH g Hg _ _ Rg p k' x y i q j Hw Hx Hy Hq) as (h & Hh & Ph).
    { intros p' r. rewrite <- app_assoc. apply Sk. }
    exists h. split; [apply in_app_iff; right; apply in_flat_map; eauto|]. rewrite Ph, <- app_assoc. reflexivity.
Qed.
Lemma pre_n_prefix n k a h : Rn k a n -> In h (pre_n n) -> exists p q, g_prefix h = nm (a ++ p) q /\ comps (a ++ p) q.
Proof. intros R H. destruct (pre_n_in R H) as (j & p & q & Rq & _). destruct (Rc_prefix Rq) as (-> & C & _). eauto. Qed.
Lemma pre_n_nodup n : forall k a, Rn k a n -> NoDup (map g_prefix (pre_n n)).
Proof.
  induction n as [nx cs ns IH] using gns_ind2. intros k a R. destruct (Rn_inv R) as (N1 & N2 & Hk & Fa & x0 & Hx0 & Nx & FC & FN). cbn [pre_n]. rewrite map_app. rewrite Forall_forall in IH.
  assert (forall c y, In c cs -> In y (pre_c c) -> exists r, g_prefix y = nm a (g_name c :: r) /\ comps a (g_name c :: r)) as K1.
  { intros c y Hc Hy. destruct (Forall2_in_r FC Hc) as (j & _ & Rj). apply (pre_c_prefix Rj Hy). }
  assert (forall m y, In m ns -> In y (pre_n m) -> exists p q, g_prefix y = nm (a ++ gn_name m :: p) q /\ comps (a ++ gn_name m :: p) q) as K2.
  { intros m y Hm Hy. destruct (Forall2_in_r FN Hm) as (j & _ & Rj). destruct (pre_n_prefix Rj Hy) as (p & q & E & C). rewrite <- app_assoc in E, C. eauto. }
  apply nodup_app.
  - eapply (nodup_flat (kx := g_name)); [assumption| |].
    + intros c Hc. destruct (Forall2_in_r FC Hc) as (j & _ & Rj). apply (pre_c_nodup Rj).
    + intros c c' y y' Hc Hc' Hy Hy' E. destruct (K1 c y Hc Hy) as (r & E1 & C1), (K1 c' y' Hc' Hy') as (r' & E2 & C2). rewrite E1, E2 in E. destruct (nm_inj C1 C2 E) as (_ & E'). congruence.
  - eapply (nodup_flat (kx := gn_name)); [assumption| |].
    + intros m Hm. destruct (Forall2_in_r FN Hm) as (j & _ & Rj). apply (IH m Hm _ _ Rj).
    + intros c c' y y' Hc Hc' Hy Hy' E. destruct (K2 c y Hc Hy) as (p & r & E1 & C1), (K2 c' y' Hc' Hy') as (p' & r' & E2 & C2). rewrite E1, E2 in E.
      destruct (nm_inj C1 C2 E) as (E' & _). apply app_inv_head in E'. congruence.
  - intros z Z1 Z2. apply in_map_iff in Z1, Z2. destruct Z1 as (y & Ey & Hy), Z2 as (y' & Ey' & Hy'). apply in_flat_map in Hy, Hy'. destruct Hy as (c & Hc & Hy), Hy' as (m & Hm & Hy').
    destruct (K1 c y Hc Hy) as (r & E1 & C1), (K2 m y' Hm Hy') as (p & q & E2 & C2). assert (nm a (g_name c :: r) = nm (a ++ gn_name m :: p) q) as E by congruence.
    destruct (nm_inj C1 C2 E) as (E' & _). apply (f_equal (@length str)) in E'. rewrite app_length in E'. simpl in E'. lia.
Qed.
End Listing.
