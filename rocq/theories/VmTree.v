(** The tree of namespaces and nested classes (debug build): its shape, over all histories. *)
From Verif Require Import Base BaseProofs VmState VmModel VmStep VmBase VmFrame VmWf VmPrim VmInv VmReg VmFine VmRegInv.
Set Implicit Arguments.
Local Open Scope vm_scope.
Local Open Scope char_scope.

Definition ns_name (s : st) (j : nat) : option str := option_map n_name (nth_error (s_ns s) j).
Definition cl_name (s : st) (i : oid) : option str := option_map c_name (cls_of s i).

Record shape (s : st) : Prop := {
  sh_root : ns_name s 0 = Some (S_ "jnivm");
  sh_subs : forall k x, nth_error (s_ns s) k = Some x ->
    NoDup (map (ns_name s) (n_subs x)) /\ (forall j, In j (n_subs x) -> k < j);
  sh_free : forall j y, j <> 0 -> nth_error (s_ns s) j = Some y -> free ["/"] (n_name y);
  sh_cls : forall k x, nth_error (s_ns s) k = Some x -> NoDup (map (cl_name s) (n_classes x));
  sh_cls1 : forall k x i c, nth_error (s_ns s) k = Some x -> In i (n_classes x) -> cls_of s i = Some c ->
    exists a, wns s 0 a = Some k /\ comps a [c_name c] /\ c_prefix c = nm a [c_name c] /\ bracket (c_prefix c) = false;
  sh_inner : forall i c, cls_of s i = Some c -> NoDup (map (cl_name s) (c_inner c));
  sh_inner1 : forall i c j d, cls_of s i = Some c -> In j (c_inner c) -> cls_of s j = Some d ->
    i < j /\ exists a b, b <> [] /\ comps a (b ++ [c_name d]) /\ c_prefix c = nm a b /\ c_prefix d = nm a (b ++ [c_name d]) /\
    bracket (c_prefix d) = false
}.

Lemma shape_same s s' : same_reg s s' -> shape s -> shape s'.
Proof.
  intros (N & Cl & K) [R S1 S2 C1 C2 I1 I2].
  assert (forall j, ns_name s' j = ns_name s j) as En by (intros; unfold ns_name; rewrite N; reflexivity).
  assert (forall i, cl_name s' i = cl_name s i) as Ec.
  { intros i. unfold cl_name. specialize (K i). destruct (cls_of s i), (cls_of s' i); simpl in *; try discriminate; auto. unfold skel in K. congruence. }
  assert (forall i c, cls_of s' i = Some c -> exists d, cls_of s i = Some d /\ skel d = skel c) as Ek.
  { intros i c H. specialize (K i). rewrite H in K. destruct (cls_of s i) as [d|]; [|discriminate]. exists d. split; [auto|simpl in K; congruence]. }
  constructor.
  - rewrite En. exact R.
  - rewrite <- N. intros k x H. rewrite (map_ext _ _ En). eauto.
  - rewrite <- N. exact S2.
  - rewrite <- N. intros k x H. rewrite (map_ext _ _ Ec). eauto.
  - rewrite <- N. intros k x i c H Hi Hc. destruct (Ek _ _ Hc) as (d & Hd & Sd). unfold skel in Sd. injection Sd as E1 E2 E3.
    destruct (C2 _ _ _ _ H Hi Hd) as (a & A1 & A2 & A3 & A4). exists a. rewrite <- E1, <- E2. rewrite (wns_ext s' s); auto.
  - intros i c Hc. destruct (Ek _ _ Hc) as (d & Hd & Sd). unfold skel in Sd. injection Sd as E1 E2 E3. rewrite <- E3, (map_ext _ _ Ec). eauto.
  - intros i c j d Hc Hj Hd. destruct (Ek _ _ Hc) as (c' & Hc' & Sc), (Ek _ _ Hd) as (d' & Hd' & Sd). unfold skel in *.
    injection Sd as E1 E2 E3. injection Sc as F1 F2 F3. rewrite <- F3 in Hj. rewrite <- E1, <- E2, <- F2. eapply I2; eauto.
Qed.

Lemma NoDup_snoc A (l : list A) x : NoDup l -> ~ In x l -> NoDup (l ++ [x]).
Proof.
  intros N H. apply NoDup_rev in N. rewrite <- (rev_involutive (l ++ [x])). apply NoDup_rev. rewrite rev_app_distr. simpl. constructor; auto. rewrite <- in_rev. exact H.
Qed.
Lemma find_none_name {A} (f : A -> option str) l n : find (fun i => match f i with Some c => str_eqb c n | None => false end) l = None -> ~ In (Some n) (map f l).
Proof.
  intros F H. apply in_map_iff in H. destruct H as (i & E & Hi). pose proof (find_none _ _ F _ Hi) as X. simpl in X. rewrite E, str_eqb_refl in X. discriminate.
Qed.
Lemma find_sub_names s l n : find_sub s l n = None -> ~ In (Some n) (map (ns_name s) l).
Proof.
  intros F. apply find_none_name. rewrite <- F. apply find_ext. intros k _. unfold ns_name. destruct (nth_error (s_ns s) k); reflexivity.
Qed.
Lemma find_cls_names s l n : find_cls s l n = None -> ~ In (Some n) (map (cl_name s) l).
Proof.
  intros F. apply find_none_name. rewrite <- F. apply find_ext. intros k _. unfold cl_name. destruct (cls_of s k); reflexivity.
Qed.

Lemma shape_ns_new s k p n : wf s -> shape s -> nth_error (s_ns s) k = Some p -> find_sub s (n_subs p) n = None -> free ["/"] n ->
  shape (ns_new s k p n).
Proof.
  intros W Sh H N Fr. pose proof Sh as [R S1 S2 C1 C2 I1 I2].
  assert (k < length (s_ns s)) as Lk by (apply nth_error_Some; congruence).
  assert (0 < length (s_ns s)) as L0 by lia.
  assert (forall j, j < length (s_ns s) -> ns_name (ns_new s k p n) j = ns_name s j) as En.
  { intros j Lj. unfold ns_name. rewrite nth_ns_new by auto. destruct (Nat.eqb_spec j (length (s_ns s))); [lia|].
    destruct (Nat.eqb_spec j k); [subst; rewrite H; reflexivity|reflexivity]. }
  assert (ns_name (ns_new s k p n) (length (s_ns s)) = Some n) as Ek.
  { unfold ns_name. rewrite nth_ns_new by auto. rewrite Nat.eqb_refl. reflexivity. }
  assert (forall x j, In x (s_ns s) -> In j (n_subs x) -> j < length (s_ns s)) as Ls by (intros; eapply wf_subs; eauto).
  assert (forall x, In x (s_ns s) -> map (ns_name (ns_new s k p n)) (n_subs x) = map (ns_name s) (n_subs x)) as Em.
  { intros x Hx. apply map_ext_in. intros j Hj. apply En. eauto. }
  assert (forall i, cls_of (ns_new s k p n) i = cls_of s i) as Ec by reflexivity.
  constructor.
  - rewrite En by exact L0. exact R.
  - intros j x. rewrite nth_ns_new by auto. destruct (Nat.eqb_spec j (length (s_ns s))) as [->|Nj].
    + intros [= <-]. split; [constructor|intros ? []].
    + destruct (Nat.eqb_spec j k) as [->|Nk].
      * intros [= <-]. cbn [n_subs]. rewrite map_app, (Em _ (nth_error_In _ _ H)). cbn [map]. rewrite Ek. destruct (S1 _ _ H) as (A & B). split.
        -- apply NoDup_snoc; [exact A|]. apply find_sub_names. exact N.
        -- intros j. rewrite in_app_iff. intros [Hj|[<-|[]]]; [auto|exact Lk].
      * intros Hx. rewrite (Em _ (nth_error_In _ _ Hx)). eauto.
  - intros j y Nj. rewrite nth_ns_new by auto. destruct (Nat.eqb_spec j (length (s_ns s))); [intros [= <-]; exact Fr|].
    destruct (Nat.eqb_spec j k) as [->|]; [intros [= <-]; cbn [n_name]; eauto|eauto].
  - intros j x. rewrite nth_ns_new by auto. destruct (Nat.eqb_spec j (length (s_ns s))); [intros [= <-]; constructor|].
    destruct (Nat.eqb_spec j k) as [->|]; [intros [= <-]; cbn [n_classes]; exact (C1 _ _ H)|intros Hx; exact (C1 _ _ Hx)].
  - intros j x i c Hx Hi Hc. rewrite Ec in Hc. assert (exists y, nth_error (s_ns s) j = Some y /\ In i (n_classes y)) as (y & Hy & Hiy).
    { rewrite nth_ns_new in Hx by auto. destruct (Nat.eqb_spec j (length (s_ns s))); [injection Hx as <-; destruct Hi|].
      destruct (Nat.eqb_spec j k) as [->|]; [injection Hx as <-; eauto|eauto]. }
    destruct (C2 _ _ _ _ Hy Hiy Hc) as (a & A1 & A2). exists a. split; [|exact A2].
    destruct (@wns_new s k p n a 0 W H N L0) as [->|[E _]]; [exact A1|congruence].
  - exact I1.
  - exact I2.
Qed.

Lemma shape_cls_new s n p : wf s -> shape s -> shape (cls_new s n p).
Proof.
  intros W Sh. pose proof Sh as [R S1 S2 C1 C2 I1 I2].
  assert (forall i, i < length (s_heap s) -> cls_of (cls_new s n p) i = cls_of s i) as Ec.
  { intros i L. rewrite cls_of_new. destruct (Nat.eqb_spec i (length (s_heap s))); [lia|reflexivity]. }
  assert (forall l, (forall i, In i l -> i < length (s_heap s)) -> map (cl_name (cls_new s n p)) l = map (cl_name s) l) as Em.
  { intros l Hl. apply map_ext_in. intros i Hi. unfold cl_name. rewrite Ec by auto. reflexivity. }
  assert (forall i c, cls_of s i = Some c -> forall j, In j (c_inner c) -> j < length (s_heap s)) as Li.
  { intros i c Hc j Hj. destruct (@wf_inner s _ _ W Hc _ Hj) as (d & Hd). eapply cls_of_lt; eauto. }
  assert (forall i c, cls_of (cls_new s n p) i = Some c -> cls_of s i = Some c \/ c_inner c = []) as Eo.
  { intros i c. rewrite cls_of_new. destruct (Nat.eqb_spec i (length (s_heap s))); [intros [= <-]; right; reflexivity|auto]. }
  constructor.
  - exact R.
  - exact S1.
  - exact S2.
  - intros k x Hx. rewrite Em; [exact (C1 _ _ Hx)|]. intros i Hi. eapply ns_cls_lt; eauto.
  - intros k x i c Hx Hi Hc. rewrite Ec in Hc by (eapply ns_cls_lt; eauto). destruct (C2 _ _ _ _ Hx Hi Hc) as (a & A). exists a. rewrite (@wns_ext (cls_new s n p) s) by reflexivity. exact A.
  - intros i c Hc. destruct (Eo _ _ Hc) as [H|E]; [|rewrite E; constructor]. rewrite Em by (intros; eapply Li; eauto). eauto.
  - intros i c j d Hc Hj Hd. destruct (Eo _ _ Hc) as [H|E]; [|rewrite E in Hj; destruct Hj]. rewrite Ec in Hd by (eapply Li; eauto). eapply I2; eauto.
Qed.

Lemma shape_top_new s k x n a : wf s -> shape s -> wns s 0 a = Some k -> nth_error (s_ns s) k = Some x -> find_cls s (n_classes x) n = None ->
  comps a [n] -> bracket (nm a [n]) = false -> shape (top_new s k x n (nm a [n])).
Proof.
  intros W Sh Hk Hx N Co Br. pose proof (shape_cls_new n (nm a [n]) W Sh) as [R S1 S2 C1 C2 I1 I2].
  set (s1 := cls_new s n (nm a [n])) in *. assert (nth_error (s_ns s1) k = Some x) as Hx1 by exact Hx.
  unfold top_new. fold s1. set (i := length (s_heap s)) in *.
  assert (cls_of s1 i = Some (new_cls n (nm a [n]))) as Hi by (unfold s1, i; rewrite cls_of_new, Nat.eqb_refl; reflexivity).
  assert (forall j, ns_name (ns_cls s1 k x i) j = ns_name s1 j) as En.
  { intros j. unfold ns_name. rewrite nth_ns_cls by auto. destruct (Nat.eqb_spec k j); [subst j; rewrite Hx1; reflexivity|reflexivity]. }
  assert (forall j, cls_of (ns_cls s1 k x i) j = cls_of s1 j) as Ec by reflexivity.
  assert (forall j y, nth_error (s_ns (ns_cls s1 k x i)) j = Some y -> exists z, nth_error (s_ns s1) j = Some z /\ n_subs z = n_subs y /\ n_name z = n_name y) as Eb.
  { intros j y. rewrite nth_ns_cls by auto. destruct (Nat.eqb_spec k j); [subst j; intros [= <-]; exists x; auto|intros H; exists y; auto]. }
  constructor.
  - rewrite En. exact R.
  - intros j y Hy. destruct (Eb _ _ Hy) as (z & Hz & Es & _). rewrite (map_ext _ _ En), <- Es. eauto.
  - intros j y Nj Hy. destruct (Eb _ _ Hy) as (z & Hz & _ & E). rewrite <- E. eauto.
  - intros j y. rewrite nth_ns_cls by auto. destruct (Nat.eqb_spec k j); [subst j|intros H; exact (C1 _ _ H)].
    intros [= <-]. cbn [n_classes]. rewrite map_app. apply NoDup_snoc; [exact (C1 _ _ Hx1)|].
    replace (cl_name (ns_cls s1 k x i) i) with (Some n) by (unfold cl_name; rewrite Ec, Hi; reflexivity).
    intros Hin. apply (@find_cls_names s (n_classes x) n N). apply in_map_iff in Hin. destruct Hin as (j & Ej & Hj). apply in_map_iff. exists j. split; [|exact Hj].
    rewrite <- Ej. unfold cl_name. rewrite Ec. unfold s1. rewrite cls_of_new. pose proof (@ns_cls_lt s k x j W Hx Hj). destruct (Nat.eqb_spec j (length (s_heap s))); [lia|reflexivity].
  - intros j y i' c Hy Hi' Hc. rewrite Ec in Hc.
    cut (exists a', wns s1 0 a' = Some j /\ comps a' [c_name c] /\ c_prefix c = nm a' [c_name c] /\ bracket (c_prefix c) = false).
    { intros (a' & A). exists a'. rewrite wns_ns_cls by auto. exact A. }
    rewrite nth_ns_cls in Hy by auto. destruct (Nat.eqb_spec k j); [subst j|exact (C2 _ _ _ _ Hy Hi' Hc)].
    injection Hy as <-. cbn [n_classes] in Hi'. rewrite in_app_iff in Hi'. destruct Hi' as [Hi'|[<-|[]]]; [exact (C2 _ _ _ _ Hx1 Hi' Hc)|].
    rewrite Hi in Hc. injection Hc as <-. exists a. cbn [new_cls c_name c_prefix]. split; [|auto]. unfold s1. rewrite (@wns_ext (cls_new s n (nm a [n])) s) by reflexivity. exact Hk.
  - exact I1.
  - exact I2.
Qed.

Lemma shape_inner_new s c o k n a b : wf s -> shape s -> lookup s c = Some o -> o_pay o = PClass k -> b <> [] -> c_prefix k = nm a b ->
  find_cls s (c_inner k) n = None -> comps a (b ++ [n]) -> bracket (nm a (b ++ [n])) = false ->
  shape (inner_new s c o k n (nm a (b ++ [n]))).
Proof.
  intros W Sh Hl Hp Hb Pk N Co Br. set (p := nm a (b ++ [n])) in *. pose proof (shape_cls_new n p W Sh) as [R S1 S2 C1 C2 I1 I2].
  pose proof (lookup_lt _ _ Hl) as Lc. assert (cls_of s c = Some k) as Ck by (unfold cls_of; rewrite Hl, Hp; reflexivity).
  assert (cls_of (cls_new s n p) c = Some k) as Ck1 by (rewrite cls_of_new; destruct (Nat.eqb_spec c (length (s_heap s))); [lia|exact Ck]).
  assert (forall i, cls_of (inner_new s c o k n p) i = if Nat.eqb c i then Some (with_inner k (length (s_heap s))) else cls_of (cls_new s n p) i) as Ec.
  { intros i. rewrite cls_of_inner by auto. rewrite cls_of_new. reflexivity. }
  assert (forall i, cl_name (inner_new s c o k n p) i = cl_name (cls_new s n p) i) as Em.
  { intros i. unfold cl_name. rewrite Ec. destruct (Nat.eqb_spec c i); [subst i; rewrite Ck1; reflexivity|reflexivity]. }
  assert (forall i d, cls_of (inner_new s c o k n p) i = Some d -> exists e, cls_of (cls_new s n p) i = Some e /\ c_name e = c_name d /\ c_prefix e = c_prefix d) as Eb.
  { intros i d. rewrite Ec. destruct (Nat.eqb_spec c i); [subst i; intros [= <-]; exists k; auto|intros H; exists d; auto]. }
  constructor.
  - exact R.
  - exact S1.
  - exact S2.
  - intros j x Hx. rewrite (map_ext _ _ Em). exact (C1 _ _ Hx).
  - intros j x i d Hx Hi Hd. destruct (Eb _ _ Hd) as (e & He & E1 & E2). rewrite <- E1, <- E2.
    destruct (C2 _ _ _ _ Hx Hi He) as (a' & A). exists a'. rewrite (@wns_ext (inner_new s c o k n p) (cls_new s n p)) by reflexivity. exact A.
  - intros i d. rewrite Ec, (map_ext _ _ Em). destruct (Nat.eqb_spec c i); [subst i; intros [= <-]|eauto].
    cbn [with_inner c_inner]. rewrite map_app. apply NoDup_snoc; [exact (I1 _ _ Ck1)|].
    replace (cl_name (cls_new s n p) (length (s_heap s))) with (Some n) by (unfold cl_name; rewrite cls_of_new, Nat.eqb_refl; reflexivity).
    intros Hin. apply (@find_cls_names s (c_inner k) n N). apply in_map_iff in Hin. destruct Hin as (j & Ej & Hj). apply in_map_iff. exists j. split; [|exact Hj].
    rewrite <- Ej. unfold cl_name. rewrite cls_of_new. destruct (@wf_inner s _ _ W Ck _ Hj) as (d & Hd). pose proof (cls_of_lt _ _ Hd). destruct (Nat.eqb_spec j (length (s_heap s))); [lia|reflexivity].
  - intros i d j e Hd Hj He. destruct (Eb _ _ He) as (e' & He' & E1 & E2). rewrite <- E1, <- E2.
    rewrite Ec in Hd. destruct (Nat.eqb_spec c i); [subst i; injection Hd as <-|eapply I2; eauto].
    cbn [with_inner c_inner c_prefix] in *. rewrite in_app_iff in Hj. destruct Hj as [Hj|[<-|[]]]; [eapply I2; eauto|].
    rewrite cls_of_new, Nat.eqb_refl in He'. injection He' as <-. split; [exact Lc|]. exists a, b. cbn [new_cls c_name c_prefix]. auto.
Qed.

Section Walk.
Variable G : cfg.
Lemma walk_ns_shape s segs : inv G s -> shape s -> Forall (free ["/"]) segs -> forall c p k s', wns s 0 p = Some c ->
  walk_ns false c segs s = Ret (Some k) s' -> shape s'.
Proof.
  revert s. induction segs as [|n r IH]; intros s I Sh Fr c p k s' Hp; cbn [walk_ns].
  - intros [= <- <-]. exact Sh.
  - inversion Fr as [|? ? Fn Fr']; subst. unfold bind at 1, gets. pose proof I as [W R]. pose proof (wns_lt _ W Hp) as L.
    destruct (nth_error (s_ns s) c) as [x|] eqn:E; [|apply nth_error_None in E; lia].
    destruct (find_sub s (n_subs x) n) as [k1|] eqn:F.
    + apply IH with (p := p ++ [n]); auto. rewrite wns_app, Hp. simpl. rewrite E, F. auto.
    + unfold bind, new_ns. rewrite E. fold (ns_new s c x n).
      apply IH with (p := p ++ [n]); auto; [apply reg_ns_new; auto|apply shape_ns_new; auto|].
      rewrite wns_app. assert (wns (ns_new s c x n) 0 p = Some c) as ->.
      { destruct (@wns_new s c x n p 0 W E F) as [->|[? _]]; auto; [lia|congruence]. }
      cbn [wns]. rewrite nth_ns_new by auto. destruct (Nat.eqb_spec c (length (s_ns s))); [lia|].
      rewrite Nat.eqb_refl. cbn [n_subs]. unfold find_sub. rewrite find_app.
      fold (find_sub (ns_new s c x n) (n_subs x) n). rewrite ns_new_sub; auto.
      * rewrite F. cbn [find]. rewrite nth_ns_new by auto. rewrite Nat.eqb_refl. cbn [n_name]. rewrite str_eqb_refl. auto.
      * intros j Hj. eapply wf_subs; eauto. eapply nth_error_In; eauto.
Qed.

Lemma walk_inner_shape s segs a : debug G = true -> inv G s -> shape s -> forall b c i s',
  b <> [] -> comps a (b ++ segs) -> bracket (nm a (b ++ segs)) = false -> tget s a b = Some c ->
  walk_inner false c (nm a b ++ ["$"]) segs s = Ret (Some i) s' -> shape s'.
Proof.
  intros D. revert s. induction segs as [|n r IH]; intros s I Sh b c i s' Nb Co Br Ht.
  - intros [= <- <-]. exact Sh.
  - replace (b ++ n :: r) with ((b ++ [n]) ++ r) in * by (rewrite <- app_assoc; reflexivity).
    assert (comps a (b ++ [n])) as Co1 by (eapply comps_prefix; eauto; destruct b; discriminate).
    assert (bracket (nm a (b ++ [n])) = false) as Br1.
    { apply bracket_prefixes with (r := r); auto. destruct b; discriminate. }
    pose proof I as [W R].
    assert (nm a b ++ ["$"] ++ n = nm a (b ++ [n])) as Nm by (rewrite nm_snoc; auto).
    assert (get_class s (nm a b) = Some c) as Gc.
    { rewrite <- (r_same R D); auto. eapply comps_prefix; [|exact Nb]. exact Co1. eapply bracket_prefix; eauto. }
    destruct (r_name R _ Gc) as (k & Ck & Pk). pose proof Ck as Ck'. unfold cls_of in Ck'.
    destruct (lookup s c) as [o|] eqn:El; [|discriminate]. destruct (o_pay o) eqn:Ep; try discriminate.
    inversion Ck'; subst c0. clear Ck'.
    cbn [walk_inner]. unfold bind at 1, gets. unfold get_cls at 1, bind at 1 2, deref. rewrite El, Ep. cbn [ret].
    replace ((nm a b ++ ["$"]) ++ n ++ ["$"]) with (nm a (b ++ [n]) ++ ["$"]) by (rewrite <- Nm, <- !app_assoc; reflexivity).
    destruct (find_cls s (c_inner k) n) as [j|] eqn:F.
    + assert (tget s a (b ++ [n]) = Some j) as Hj by (rewrite tget_app, Ht by auto; simpl; rewrite Ck, F; auto).
      apply (IH s I Sh (b ++ [n]) j i s'); auto. destruct b; discriminate.
    + destruct (@reg_inner_new G s c o k n a b D I Nb Ht El Ep F Co1 Br1) as (X1 & X2 & X3).
      replace ((nm a b ++ ["$"]) ++ n) with (nm a (b ++ [n])) by (rewrite <- app_assoc; auto).
      unfold bind at 1. rewrite create_cls_eq. unfold bind at 1.
      rewrite (@add_inner_new s c o k n (nm a (b ++ [n])) W El Ep).
      apply (IH _ X2) with (b := b ++ [n]); auto; [|destruct b; discriminate].
      apply shape_inner_new; auto.
Qed.

Theorem find_class_shape n s o s' : inv G s -> shape s -> find_class G false n s = Ret o s' -> shape s'.
Proof.
  intros I Sh E. destruct (find_class_false n I) as (i & s2 & E2 & I2 & G2 & _). rewrite E in E2. injection E2 as -> ->.
  revert E. pose proof I as [W R]. unfold find_class. fold (bracket n).
  destruct (debug G) eqn:D, (bracket n) eqn:Br; cbn [andb negb].
  1,3,4: unfold bind, gets; destruct (get_class s n) as [j|] eqn:Eg;
    [intros [= _ <-]; exact Sh|rewrite create_cls_eq; intros [= _ <-]; apply shape_cls_new; auto].
  fold (ns_part n) (cls_part n). pose proof (parts_comps n) as Co. pose proof (parts_nm n) as Nm.
  set (a := ns_part n) in *. set (b := cls_part n) in *. clearbody a b.
  destruct (@walk_ns_false G s a I 0 [] eq_refl) as (k & s1 & H1 & I1 & H2 & H3).
  pose proof (@walk_ns_shape s a I Sh (co_ns Co) 0 [] k s1 eq_refl H1) as Sh1.
  unfold bind at 1. rewrite H1. simpl app in H2. pose proof (co_ne Co). destruct b as [|m r]; [congruence|].
  pose proof I1 as [W1 R1]. unfold walk_cls. unfold bind at 1, gets. pose proof (wns_lt _ W1 H2) as Lk.
  destruct (nth_error (s_ns s1) k) as [x|] eqn:Ex; [|apply nth_error_None in Ex; lia].
  replace (joined "/" a ++ m ++ ["$"]) with (nm a [m] ++ ["$"]) by (unfold nm; simpl; rewrite <- app_assoc; auto).
  replace (joined "/" a ++ m) with (nm a [m]) by reflexivity.
  assert (comps a [m]) as Co1 by (apply (@comps_prefix a [m] r); auto; discriminate).
  assert (bracket (nm a [m]) = false) as Br1.
  { rewrite <- Nm in Br. apply bracket_prefixes with (r := r); [discriminate|auto]. }
  destruct (find_cls s1 (n_classes x) m) as [c|] eqn:F.
  - assert (tget s1 a [m] = Some c) as Ht by (unfold tget; rewrite H2, Ex, F; auto).
    apply (@walk_inner_shape s1 r a D I1 Sh1 [m] c i s2); auto; try discriminate. rewrite <- Nm in Br. exact Br.
  - destruct (@reg_top_new G s1 k x m a D I1 H2 Ex F Co1 Br1) as (X1 & X2 & X3).
    unfold bind at 1. rewrite create_cls_eq. unfold bind at 1, ns_add_class, bind at 1, check.
    assert (is_cls (cls_new s1 m (nm a [m])) (length (s_heap s1)) = true) as ->.
    { apply is_cls_of. rewrite cls_of_new, Nat.eqb_refl. eauto. }
    change (s_ns (cls_new s1 m (nm a [m]))) with (s_ns s1) at 1. rewrite Ex.
    fold (ns_cls (cls_new s1 m (nm a [m])) k x (length (s_heap s1))). fold (top_new s1 k x m (nm a [m])).
    apply (@walk_inner_shape _ r a D X2 (@shape_top_new s1 k x m a W1 Sh1 H2 Ex F Co1 Br1) [m] (length (s_heap s1)) i s2); auto; try discriminate.
    rewrite <- Nm in Br. exact Br.
Qed.

Definition TP (s s' : st) : Prop := reg G s -> shape s -> reg G s' /\ shape s'.
Lemma TP_same s s' : same_reg s s' -> TP s s'.
Proof. intros H R Sh. split; [eapply same_reg_reg; eauto|eapply shape_same; eauto]. Qed.
Lemma TP_refl s : TP s s.
Proof. intros R Sh. auto. Qed.
Lemma TP_trans a b c : TP a b -> TP b c -> TP a c.
Proof. intros H1 H2 R Sh. destruct (H1 R Sh). auto. Qed.
Lemma TP_find z n s : wf s -> match find_class G z n s with Ret _ s' | Thr _ s' => TP s s' | _ => True end.
Proof.
  intros W. assert (forall o, find_class G z n s = o -> match o with Ret _ s' | Thr _ s' => TP s s' | _ => True end) as H; [|exact (H _ eq_refl)].
  intros o E. assert (forall (R : reg G s) (Sh : shape s), match o with Ret _ s' | Thr _ s' => reg G s' /\ shape s' | _ => True end) as H.
  { intros R Sh. assert (inv G s) as I by (constructor; auto). destruct z.
    - rewrite find_class_true in E by auto. subst. auto.
    - destruct (find_class_false n I) as (i & s' & E' & I' & Hn & C). pose proof E' as E2. rewrite E' in E. subst.
      split; [apply I'|]. exact (@find_class_shape n s (Some i) s' I Sh E2). }
  destruct o; auto; intros R Sh; apply H; auto.
Qed.
End Walk.

Ltac tput := apply TP_same; eapply same_reg_put; [eassumption| |]; simpl;
  [let c := fresh in let H := fresh in intros c H; first [congruence | eexists; split; [eassumption|reflexivity]]
  |let N := fresh in intros N; try (intros ? ?; congruence); try exact N].

Theorem tree_fine G t : fine G t (fun _ => True) (TP G).
Proof.
  constructor; intros; try (apply TP_same; apply same_reg_heap; reflexivity).
  - eapply TP_trans; eauto.
  - apply TP_find. auto.
  - apply TP_same, same_reg_add. auto.
  - tput.
  - apply TP_same. eapply same_reg_put; eauto; simpl.
    + intros c0 E. assert (c0 = c) by congruence. subst. eexists; split; [reflexivity|].
      inversion H2; subst; reflexivity.
    + intros N. exfalso. eapply N; eauto.
  - apply TP_same, same_reg_newm; auto.
  - apply TP_same, same_reg_newf; auto.
  - tput.
  - tput.
  - tput.
  - tput.
  - tput.
  - tput.
  - intros R Sh. pose proof (same_reg_collect R) as X. split; [apply (same_reg_reg X R)|eapply shape_same; eauto].
Qed.

Lemma empty_shape : shape empty_vm.
Proof.
  constructor.
  - reflexivity.
  - intros k x. simpl. destruct k as [|[|k]]; simpl; try discriminate. intros [= <-]. split; [constructor|intros ? []].
  - intros j y Nj. simpl. destruct j as [|[|j]]; simpl; try discriminate. congruence.
  - intros k x. simpl. destruct k as [|[|k]]; simpl; try discriminate. intros [= <-]. constructor.
  - intros k x i c. simpl. destruct k as [|[|k]]; simpl; try discriminate. intros [= <-] [].
  - intros i c. unfold cls_of, lookup. simpl. destruct i; discriminate.
  - intros i c j d. unfold cls_of, lookup. simpl. destruct i; discriminate.
Qed.

Section Init.
Variable G : cfg.
Let Q (s s' : st) : Prop := wf s -> wf s' /\ TP G s s'.
Lemma Qt_refl s : Q s s.
Proof. intros W. split; auto. apply TP_refl. Qed.
Lemma Qt_trans a b c : Q a b -> Q b c -> Q a c.
Proof. intros H1 H2 W. destruct (H1 W) as [W1 K1]. destruct (H2 W1) as [W2 K2]. split; auto. eapply TP_trans; eauto. Qed.
Lemma Qt_both A (m : M A) : keeps wfi m -> (forall s, wf s -> match m s with Ret _ s' | Thr _ s' => TP G s s' | _ => True end) -> keeps Q m.
Proof.
  intros H1 H2 s. specialize (H1 s). specialize (H2 s). destruct (m s); auto; intros W; destruct (H1 W); split; auto.
Qed.
Lemma Qt_GetClassT T i n : keeps Q (GetClassT G T i n).
Proof.
  apply Qt_both; [apply coarse_GetClassT, wfi_coarse|]. intros s W. unfold GetClassT.
  pose proof (TP_find G false n W) as F. unfold bind at 1. destruct (find_class G false n s) as [o s1|e s1| | | |]; auto.
  assert (keeps (TP G) (i0 <- nonnull o;; set_type T (Some i0);;; bind_cls i0 T i;;; ret i0)) as X.
  { apply keeps_bind; [apply TP_trans|apply keeps_nonnull, TP_refl|]. intros j.
    apply keeps_bind; [apply TP_trans| |].
    - apply I_set_type. intros. apply TP_same, same_reg_heap; reflexivity.
    - intros _. apply keeps_bind; [apply TP_trans| |intros; apply keeps_ret, TP_refl].
      apply I_upd_cls. intros s0 o0 c L E O. apply TP_same. eapply same_reg_put; eauto; simpl.
      + intros d Ed. assert (d = c) by congruence. subst. eexists. split; [reflexivity|]. reflexivity.
      + intros N. exfalso. eapply N; eauto. }
  specialize (X s1). match goal with |- match ?m with _ => _ end => destruct m end; auto; eapply TP_trans; eauto.
Qed.
Lemma Qt_initialize t : keeps Q (initialize G t).
Proof.
  unfold initialize. apply keeps_bind; [apply Qt_trans| |].
  - apply Qt_both; [apply I_Attach; [apply wfi_refl|intros; apply (c_attach wfi_coarse); auto]|].
    intros s _. pose proof (@I_Attach (TP G) (TP_refl (G:=G)) t) as H. apply H. intros. apply TP_same, same_reg_heap; reflexivity.
  - intros _. repeat (apply keeps_bind; [apply Qt_trans|apply Qt_GetClassT|intros _]). apply keeps_ret, Qt_refl.
Qed.
End Init.

Theorem init_shape G t : shape (init_vm G t).
Proof.
  unfold init_vm. destruct (initialize_ok G t) as (s & E). pose proof (Qt_initialize G t empty_vm) as K.
  rewrite E in *. destruct (K empty_wf) as [W K1]. destruct (K1 (empty_reg G) empty_shape) as [R Sh].
  unfold finish. assert (reg G (with_tmp s []) /\ shape (with_tmp s [])) as [R1 S1].
  { refine (@TP_same G s (with_tmp s []) _ R Sh). apply same_reg_heap; reflexivity. }
  eapply shape_same; [eapply same_reg_collect; eauto|exact S1].
Qed.

Theorem exec_shape G l s vs s' : inv G s -> shape s -> exec G l s = Some (vs, s') -> shape s'.
Proof.
  intros [W R] Sh E. assert (TP G s s') as K.
  { refine (@fine_exec G (fun _ _ => True) (fun _ _ => True) (TP G) _ _ l s vs s' W _ E); auto using tree_fine. apply Forall_forall. auto. }
  apply K; auto.
Qed.

Theorem reachable_shape G t s : reachable G t s -> shape s.
Proof. intros (l & vs & H). eapply exec_shape; [apply init_inv|apply init_shape|exact H]. Qed.
