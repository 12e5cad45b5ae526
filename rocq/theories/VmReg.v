(** The class registry: the namespace tree (debug build) and the map of classes agree. *)
From Verif Require Import Base BaseProofs VmState VmModel VmStep VmBase VmFrame VmWf VmPrim VmInv.
Set Implicit Arguments.
Local Open Scope vm_scope.
Local Open Scope char_scope.

(** ** Components of names *)

Fixpoint join (c : ascii) (l : list str) : str :=
  match l with
  | [] => []
  | [x] => x
  | x :: r => x ++ c :: join c r
  end.

Lemma join_cons c x r : r <> [] -> join c (x :: r) = x ++ c :: join c r.
Proof. destruct r; [congruence|reflexivity]. Qed.

Lemma split_ne c s : split_on c s <> [].
Proof. induction s; simpl; [discriminate|]. destruct (Ascii.eqb a c); [discriminate|]. destruct (split_on c s); discriminate. Qed.

Lemma join_split c s : join c (split_on c s) = s.
Proof.
  induction s as [|x s IH]; auto. cbn [split_on]. pose proof (split_ne c s).
  destruct (Ascii.eqb_spec x c).
  - subst. rewrite join_cons by auto. rewrite IH. reflexivity.
  - destruct (split_on c s) as [|h r]; [congruence|]. destruct r; simpl in *.
    + congruence.
    + congruence.
Qed.

Lemma split_free c s : Forall (fun x => ~ In c x) (split_on c s).
Proof.
  induction s as [|x s IH]; simpl.
  - constructor; auto.
  - destruct (Ascii.eqb_spec x c).
    + constructor; auto.
    + destruct (split_on c s) as [|h r].
      * constructor; auto. simpl. intuition congruence.
      * inversion IH; subst. constructor; auto. simpl. intuition congruence.
Qed.

Lemma split_single c x : ~ In c x -> split_on c x = [x].
Proof.
  induction x as [|a x IH]; simpl; auto. intros H. destruct (Ascii.eqb_spec a c); [intuition congruence|].
  rewrite IH by tauto. reflexivity.
Qed.

Lemma split_app c x s : ~ In c x -> split_on c (x ++ c :: s) = x :: split_on c s.
Proof.
  induction x as [|a x IH]; simpl; intros H.
  - rewrite Ascii.eqb_refl. reflexivity.
  - destruct (Ascii.eqb_spec a c); [intuition congruence|]. rewrite IH by tauto. reflexivity.
Qed.

Lemma split_join c l : l <> [] -> Forall (fun x => ~ In c x) l -> split_on c (join c l) = l.
Proof.
  induction l as [|x l IH]; [congruence|]. intros _ H. inversion H; subst. destruct l as [|y l].
  - simpl. apply split_single. auto.
  - rewrite join_cons by discriminate. rewrite split_app by auto. f_equal. apply IH; auto. discriminate.
Qed.

Lemma joined_join c l x : joined c l ++ x = join c (l ++ [x]).
Proof.
  induction l as [|y l IH]; simpl; auto. rewrite <- app_assoc. simpl. unfold joined in *. rewrite <- app_assoc. simpl. rewrite IH.
  destruct l; reflexivity.
Qed.

(** The name with namespaces [a] and nested class names [b]. *)
Definition nm (a b : list str) : str := joined "/" a ++ join "$" b.
Definition free (cs : list ascii) (x : str) : Prop := forall c, In c cs -> ~ In c x.
Record comps (a b : list str) : Prop := {
  co_ns : Forall (free ["/"]) a;
  co_cls : Forall (free ["/"; "$"]) b;
  co_ne : b <> []
}.
Definition bracket (n : str) : bool := match n with "[" :: _ => true | _ => false end.

Lemma join_free c d l : Forall (fun x => ~ In d x) l -> d <> c -> ~ In d (join c l).
Proof.
  intros F N. induction l as [|x l IH]; simpl; auto. inversion F; subst. destruct l; auto.
  rewrite in_app_iff. simpl. intros [?|[?|?]]; auto. apply IH; auto.
Qed.

Lemma nm_parts a b : comps a b ->
  removelast (split_on "/" (nm a b)) = a /\ split_on "$" (last (split_on "/" (nm a b)) []) = b.
Proof.
  intros [A B N]. unfold nm. rewrite joined_join.
  assert (~ In "/" (join "$" b)) as J.
  { apply join_free; [|discriminate]. eapply Forall_impl; [|exact B]. intros x F. apply F. simpl. auto. }
  rewrite split_join.
  - rewrite removelast_last, last_last. split; auto. apply split_join; auto.
    eapply Forall_impl; [|exact B]. intros x F. apply F. simpl. auto.
  - destruct a; discriminate.
  - apply Forall_app. split; auto. eapply Forall_impl; [|exact A]. intros x F. apply F. simpl. auto.
Qed.

Lemma nm_inj a b a' b' : comps a b -> comps a' b' -> nm a b = nm a' b' -> a = a' /\ b = b'.
Proof.
  intros H H' E. destruct (nm_parts H) as [P1 P2]. destruct (nm_parts H') as [P1' P2'].
  rewrite E in P1, P2. split; congruence.
Qed.

Definition ns_part (n : str) : list str := removelast (split_on "/" n).
Definition cls_part (n : str) : list str := split_on "$" (last (split_on "/" n) []).

Lemma last_In A (l : list A) d : l <> [] -> In (last l d) l.
Proof. intros H. destruct (exists_last H) as (l' & x & ->). rewrite last_last, in_app_iff. simpl. auto. Qed.

Lemma parts_comps n : comps (ns_part n) (cls_part n).
Proof.
  pose proof (split_free "/" n) as F. pose proof (split_ne "/" n) as N. unfold ns_part, cls_part.
  rewrite Forall_forall in F. constructor.
  - rewrite Forall_forall. intros x H c [<-|[]]. apply F. destruct (exists_last N) as (l & y & E).
    rewrite E in *. rewrite removelast_last in H. rewrite in_app_iff. auto.
  - pose proof (F _ (last_In [] N)) as L. pose proof (split_free "$" (last (split_on "/" n) [])) as D.
    rewrite Forall_forall in *. intros x H c [<-|[<-|[]]]; [|apply D; auto].
    intros I. apply L. rewrite <- (join_split "$" (last (split_on "/" n) [])).
    revert H I. generalize (split_on "$" (last (split_on "/" n) [])) as l. induction l as [|y l IH]; simpl; [tauto|].
    intros [->|H] I; destruct l; auto; simpl in *; try tauto; rewrite in_app_iff; simpl; auto.
  - apply split_ne.
Qed.

Lemma parts_nm n : nm (ns_part n) (cls_part n) = n.
Proof.
  unfold nm, ns_part, cls_part. rewrite join_split, joined_join.
  rewrite <- app_removelast_last by apply split_ne. apply join_split.
Qed.

Lemma comps_prefix a b b' : comps a (b ++ b') -> b <> [] -> comps a b.
Proof. intros [A B N] H. constructor; auto. apply Forall_app in B. tauto. Qed.

Lemma join_snoc c b x : b <> [] -> join c (b ++ [x]) = join c b ++ [c] ++ x.
Proof.
  induction b as [|y b IH]; [congruence|]. intros _. destruct b as [|z b].
  - reflexivity.
  - change ((y :: z :: b) ++ [x]) with (y :: (z :: b) ++ [x]).
    rewrite join_cons by (simpl; discriminate). rewrite IH by discriminate. rewrite (@join_cons c y (z :: b)) by discriminate.
    rewrite <- !app_assoc. reflexivity.
Qed.

Lemma nm_snoc a b x : b <> [] -> nm a (b ++ [x]) = nm a b ++ ["$"] ++ x.
Proof. intros. unfold nm. rewrite join_snoc by auto. rewrite app_assoc. reflexivity. Qed.

Lemma bracket_app x y : x <> [] -> bracket (x ++ y) = bracket x.
Proof. destruct x; [congruence|reflexivity]. Qed.

Lemma bracket_prefix a b x : b <> [] -> bracket (nm a (b ++ [x])) = false -> bracket (nm a b) = false.
Proof.
  intros N. rewrite nm_snoc by auto. destruct (nm a b) as [|c r]; auto.
Qed.

(** ** Lookup without creation, as a function of the state *)

Fixpoint wns (s : st) (c : nat) (segs : list str) : option nat :=
  match segs with
  | [] => Some c
  | n :: r =>
      match nth_error (s_ns s) c with
      | None => None
      | Some x => match find_sub s (n_subs x) n with Some k => wns s k r | None => None end
      end
  end.
Fixpoint winner (s : st) (c : oid) (segs : list str) : option oid :=
  match segs with
  | [] => Some c
  | n :: r =>
      match cls_of s c with
      | None => None
      | Some k => match find_cls s (c_inner k) n with Some i => winner s i r | None => None end
      end
  end.
Definition tget (s : st) (a b : list str) : option oid :=
  match wns s 0 a with
  | None => None
  | Some k =>
      match nth_error (s_ns s) k, b with
      | Some x, n :: r => match find_cls s (n_classes x) n with Some i => winner s i r | None => None end
      | _, _ => None
      end
  end.

Lemma wns_app s c p q : wns s c (p ++ q) = match wns s c p with Some k => wns s k q | None => None end.
Proof.
  revert c. induction p; intros c; simpl; auto. destruct (nth_error (s_ns s) c); auto.
  destruct (find_sub s (n_subs n) a); auto.
Qed.
Lemma winner_app s c p q : winner s c (p ++ q) = match winner s c p with Some k => winner s k q | None => None end.
Proof.
  revert c. induction p; intros c; simpl; auto. destruct (cls_of s c); auto.
  destruct (find_cls s (c_inner c0) a); auto.
Qed.
Lemma tget_app s a b q : b <> [] -> tget s a (b ++ q) = match tget s a b with Some k => winner s k q | None => None end.
Proof.
  intros N. unfold tget. destruct (wns s 0 a); auto. destruct (nth_error (s_ns s) n); auto.
  destruct b; [congruence|]. simpl. destruct (find_cls s (n_classes n0) l); auto. apply winner_app.
Qed.

(** ** The invariant *)

Record tree_ok (s : st) (pth : nat -> list str) : Prop := {
  t_root : pth 0 = [];
  t_edge : forall k x j y, nth_error (s_ns s) k = Some x -> In j (n_subs x) -> nth_error (s_ns s) j = Some y ->
           pth j = pth k ++ [n_name y]
}.

Record reg (G : cfg) (s : st) : Prop := {
  r_tree : exists pth, tree_ok s pth;
  r_same : debug G = true -> forall a b, comps a b -> bracket (nm a b) = false -> tget s a b = get_class s (nm a b);
  r_name : forall n i, get_class s n = Some i -> exists c, cls_of s i = Some c /\ c_prefix c = n;
  r_all : forall i c, cls_of s i = Some c -> get_class s (c_prefix c) = Some i
}.

(** the state changes by which classes come into being keep everything *)
Record inv (G : cfg) (s : st) : Prop := { inv_wf : wf s; inv_reg : reg G s }.

Lemma wns_lt s p k : wf s -> wns s 0 p = Some k -> k < length (s_ns s).
Proof.
  intros W. assert (forall p c, c < length (s_ns s) -> wns s c p = Some k -> k < length (s_ns s)) as H.
  { clear p. induction p; intros c L; simpl; intros H; [inversion H; subst; auto|].
    destruct (nth_error (s_ns s) c) as [x|] eqn:E; [|discriminate].
    destruct (find_sub s (n_subs x) a) eqn:F; [|discriminate]. eapply IHp; [|exact H].
    apply find_some in F. destruct F as [F _]. eapply wf_subs; eauto. eapply nth_error_In; eauto. }
  apply H. pose proof (wf_root W). destruct (s_ns s); simpl; [congruence|lia].
Qed.

Lemma wns_path s pth p k : tree_ok s pth -> wns s 0 p = Some k -> p = pth k.
Proof.
  intros [R E]. assert (forall p c, wns s c p = Some k -> pth k = pth c ++ p) as H.
  { clear p. induction p; intros c; simpl; intros H; [inversion H; rewrite app_nil_r; auto|].
    destruct (nth_error (s_ns s) c) as [x|] eqn:En; [|discriminate].
    destruct (find_sub s (n_subs x) a) eqn:F; [|discriminate].
    apply find_some in F. destruct F as [F F']. destruct (nth_error (s_ns s) n) as [y|] eqn:Ey; [|discriminate].
    apply str_eqb_eq in F'. rewrite (IHp _ H). rewrite (E _ _ _ _ En F Ey). rewrite <- app_assoc. subst. reflexivity. }
  intros Hk. apply H in Hk. rewrite R in Hk. simpl in Hk. auto.
Qed.

(** *** A new namespace *)
Definition ns_new (s : st) (k : nat) (p : nsnode) (n : str) : st :=
  with_ns s (list_set (s_ns s) k (mkNs (n_name p) (n_subs p ++ [length (s_ns s)]) (n_classes p)) ++ [mkNs n [] []]).

Lemma nth_ns_new s k p n j : nth_error (s_ns s) k = Some p ->
  nth_error (s_ns (ns_new s k p n)) j =
  if Nat.eqb j (length (s_ns s)) then Some (mkNs n [] [])
  else if Nat.eqb j k then Some (mkNs (n_name p) (n_subs p ++ [length (s_ns s)]) (n_classes p))
  else nth_error (s_ns s) j.
Proof.
  intros H. assert (k < length (s_ns s)) as Lk by (apply nth_error_Some; congruence). simpl.
  destruct (Nat.eqb_spec j (length (s_ns s))).
  - subst. rewrite nth_error_app2 by (rewrite list_set_length; lia). rewrite list_set_length, Nat.sub_diag. reflexivity.
  - destruct (Nat.lt_ge_cases j (length (s_ns s))).
    + rewrite nth_error_app1 by (rewrite list_set_length; lia). rewrite nth_list_set.
      rewrite Nat.eqb_sym. destruct (Nat.eqb_spec j k); auto. subst. rewrite H. reflexivity.
    + destruct (Nat.eqb_spec j k); [lia|]. rewrite (proj2 (nth_error_None _ _)).
      * symmetry. apply nth_error_None. lia.
      * rewrite app_length, list_set_length. simpl. lia.
Qed.

Lemma find_app A (f : A -> bool) l m : find f (l ++ m) = match find f l with Some x => Some x | None => find f m end.
Proof. induction l; simpl; auto. destruct (f a); auto. Qed.
Lemma find_ext A (f g : A -> bool) l : (forall x, In x l -> f x = g x) -> find f l = find g l.
Proof.
  induction l as [|x l IH]; simpl; intros H; auto. rewrite <- H by auto. destruct (f x); auto.
Qed.

Lemma ns_new_sub s k p n l m : nth_error (s_ns s) k = Some p -> (forall j, In j l -> j < length (s_ns s)) ->
  find_sub (ns_new s k p n) l m = find_sub s l m.
Proof.
  intros H L. unfold find_sub. apply find_ext. intros j Hj. rewrite nth_ns_new by auto.
  specialize (L _ Hj). destruct (Nat.eqb_spec j (length (s_ns s))); [lia|].
  destruct (Nat.eqb_spec j k); auto. subst. rewrite H. reflexivity.
Qed.

Lemma wns_new s k p n q c : wf s -> nth_error (s_ns s) k = Some p -> find_sub s (n_subs p) n = None ->
  c < length (s_ns s) ->
  wns (ns_new s k p n) c q = wns s c q \/
  (wns s c q = None /\ wns (ns_new s k p n) c q = Some (length (s_ns s))).
Proof.
  intros W H N. revert c. induction q as [|m q IH]; intros c L; auto.
  cbn [wns]. rewrite nth_ns_new by auto. destruct (Nat.eqb_spec c (length (s_ns s))); [lia|].
  destruct (Nat.eqb_spec c k).
  - subst c. rewrite H. cbn [n_subs].
    assert (forall j, In j (n_subs p) -> j < length (s_ns s)) as S.
    { intros j Hj. eapply wf_subs; eauto. eapply nth_error_In; eauto. }
    assert (find_sub (ns_new s k p n) (n_subs p ++ [length (s_ns s)]) m =
            match find_sub s (n_subs p) m with Some j => Some j
            | None => if str_eqb n m then Some (length (s_ns s)) else None end) as ->.
    { unfold find_sub at 1. rewrite find_app. fold (find_sub (ns_new s k p n) (n_subs p) m).
      rewrite ns_new_sub by auto. destruct (find_sub s (n_subs p) m) as [j|] eqn:F; auto.
      cbn [find]. rewrite nth_ns_new by auto. rewrite Nat.eqb_refl. reflexivity. }
    destruct (find_sub s (n_subs p) m) as [j|] eqn:F.
    + apply IH. apply find_some in F. apply S. tauto.
    + destruct (str_eqb_spec n m); auto. destruct q as [|m' q].
      * cbn [wns]. auto.
      * cbn [wns]. rewrite nth_ns_new by auto. rewrite Nat.eqb_refl. auto.
  - destruct (nth_error (s_ns s) c) as [x|] eqn:E; auto.
    assert (forall j, In j (n_subs x) -> j < length (s_ns s)) as S.
    { intros j Hj. eapply wf_subs; eauto. eapply nth_error_In; eauto. }
    rewrite ns_new_sub by auto. destruct (find_sub s (n_subs x) m) as [j|] eqn:F; auto.
    apply IH. apply find_some in F. apply S. tauto.
Qed.

Lemma cls_of_heap s s' i : s_heap s = s_heap s' -> cls_of s i = cls_of s' i.
Proof. intros H. unfold cls_of, lookup. rewrite H. reflexivity. Qed.
Lemma find_cls_ext s s' l n : (forall i, In i l -> cls_of s i = cls_of s' i) -> find_cls s l n = find_cls s' l n.
Proof. intros H. unfold find_cls. apply find_ext. intros i Hi. rewrite H; auto. Qed.
Lemma winner_ext s s' c q : (forall i, cls_of s i = cls_of s' i) -> winner s c q = winner s' c q.
Proof.
  intros H. revert c. induction q; intros c; simpl; auto. rewrite H. destruct (cls_of s' c); auto.
  rewrite (@find_cls_ext s s') by auto. destruct (find_cls s' (c_inner c0) a); auto.
Qed.

Lemma tget_ns_new s k p n a b : wf s -> nth_error (s_ns s) k = Some p -> find_sub s (n_subs p) n = None ->
  tget (ns_new s k p n) a b = tget s a b.
Proof.
  intros W H N. assert (0 < length (s_ns s)) as L0.
  { pose proof (wf_root W). destruct (s_ns s); simpl; [congruence|lia]. }
  unfold tget. destruct (wns_new _ _ a W H N L0) as [->|[E1 E2]].
  - destruct (wns s 0 a) as [j|] eqn:E; auto. pose proof (wns_lt _ W E). rewrite nth_ns_new by auto.
    destruct (Nat.eqb_spec j (length (s_ns s))); [lia|]. destruct (Nat.eqb_spec j k).
    + subst. rewrite H. cbn [n_classes]. destruct b as [|m r]; auto.
      change (find_cls (ns_new s k p n)) with (find_cls s). destruct (find_cls s (n_classes p) m); auto.
      apply winner_ext. intros. apply cls_of_heap. reflexivity.
    + destruct (nth_error (s_ns s) j); auto. destruct b as [|m r]; auto.
      change (find_cls (ns_new s k p n)) with (find_cls s). destruct (find_cls s (n_classes n2) m); auto.
      apply winner_ext. intros. apply cls_of_heap. reflexivity.
  - rewrite E1, E2. rewrite nth_ns_new by auto. rewrite Nat.eqb_refl. destruct b; auto.
Qed.

Lemma reg_ns_new G s k p n : inv G s -> nth_error (s_ns s) k = Some p -> find_sub s (n_subs p) n = None ->
  inv G (ns_new s k p n).
Proof.
  intros [W [(pth & T) A B C]] H N. constructor.
  - assert (wfi s (ns_new s k p n)) as X by (apply (c_ns wfi_coarse); auto). apply X. auto.
  - constructor; auto.
    + exists (fun j => if Nat.eqb j (length (s_ns s)) then pth k ++ [n] else pth j). destruct T as [T1 T2].
      assert (k < length (s_ns s)) as Lk by (apply nth_error_Some; congruence).
      constructor.
      * destruct (Nat.eqb_spec 0 (length (s_ns s))); [lia|auto].
      * intros c x j y. rewrite !nth_ns_new by auto.
        destruct (Nat.eqb_spec c (length (s_ns s))); [intros E; inversion E; subst; simpl; tauto|].
        assert (forall x, nth_error (s_ns s) c = Some x -> In j (n_subs x) -> j < length (s_ns s)) as Lj.
        { intros z Hz Hj. eapply wf_subs; eauto. eapply nth_error_In; eauto. }
        destruct (Nat.eqb_spec c k).
        -- intros E I. inversion E; subst; clear E. simpl in I. rewrite in_app_iff in I. destruct I as [I|[<-|[]]].
           ++ specialize (Lj _ H I). destruct (Nat.eqb_spec j (length (s_ns s))); [lia|].
              destruct (Nat.eqb_spec j k).
              ** intros E. inversion E; subst. simpl. eapply T2; eauto.
              ** intros E. eapply T2; eauto.
           ++ rewrite Nat.eqb_refl. intros E. inversion E; subst. reflexivity.
        -- intros E I. specialize (Lj _ E I). destruct (Nat.eqb_spec j (length (s_ns s))); [lia|].
           destruct (Nat.eqb_spec j k).
           ++ intros E'. inversion E'; subst. simpl. eapply T2; eauto.
           ++ intros E'. eapply T2; eauto.
    + intros D a b Co Br. rewrite tget_ns_new by auto. apply A; auto.
Qed.

Lemma wns_ext s s' c q : s_ns s = s_ns s' -> wns s c q = wns s' c q.
Proof.
  intros H. revert c. induction q; intros c; simpl; auto. rewrite H. destruct (nth_error (s_ns s') c); auto.
  assert (find_sub s (n_subs n) a = find_sub s' (n_subs n) a) as -> by (unfold find_sub; rewrite H; auto).
  destruct (find_sub s' (n_subs n) a); auto.
Qed.

(** *** A new class *)
Definition fresh_cls (n p : str) : obj := new_obj None (PClass (new_cls n p)).
Definition cls_new (s : st) (n p : str) : st :=
  with_classes (add s (fresh_cls n p)) (aset str_eqb (s_classes s) p (length (s_heap s))).

Lemma create_cls_eq n p s : create_cls n p s = Ret (length (s_heap s)) (cls_new s n p).
Proof.
  unfold create_cls, alloc, set_class, bind, check. cbn [obj_ok pay_ok new_obj o_pay o_clazz c_inner c_fields
    c_methods new_cls forallb clazz_ok andb].
  fold (new_obj None (PClass (new_cls n p))). fold (fresh_cls n p). fold (add s (fresh_cls n p)).
  assert (is_cls (add s (fresh_cls n p)) (length (s_heap s)) = true) as ->.
  { unfold is_cls, add. rewrite lookup_alloc, Nat.eqb_refl. reflexivity. }
  reflexivity.
Qed.

Lemma cls_of_new s n p i :
  cls_of (cls_new s n p) i = if Nat.eqb i (length (s_heap s)) then Some (new_cls n p) else cls_of s i.
Proof.
  unfold cls_of. change (lookup (cls_new s n p) i) with (lookup (add s (fresh_cls n p)) i).
  unfold add. rewrite lookup_alloc. destruct (Nat.eqb i (length (s_heap s))); reflexivity.
Qed.
Lemma cls_of_lt s i c : cls_of s i = Some c -> i < length (s_heap s).
Proof. unfold cls_of. destruct (lookup s i) eqn:E; [|discriminate]. intros _. eapply lookup_lt; eauto. Qed.
Lemma is_cls_of s i : is_cls s i = true <-> exists c, cls_of s i = Some c.
Proof.
  unfold is_cls, cls_of. destruct (lookup s i) as [o|]; [destruct (o_pay o)|]; split; intros H; eauto; try discriminate;
    destruct H; discriminate.
Qed.
Lemma get_class_new s n p m :
  get_class (cls_new s n p) m = if str_eqb p m then Some (length (s_heap s)) else get_class s m.
Proof. unfold get_class. simpl. apply aget_aset. apply str_eqb_spec. Qed.

Lemma cls_new_wf s n p : wf s -> wf (cls_new s n p).
Proof.
  intros W. assert (wfi s (cls_new s n p)) as X.
  { eapply wfi_trans; [apply (c_add wfi_coarse) with (o := fresh_cls n p); reflexivity|].
    refine (@c_classes wfi wfi_coarse (add s (fresh_cls n p)) p (length (s_heap s)) _). unfold is_cls, add. rewrite lookup_alloc, Nat.eqb_refl. reflexivity. }
  apply X. auto.
Qed.

Lemma winner_new s n p c q : wf s -> c < length (s_heap s) -> winner (cls_new s n p) c q = winner s c q.
Proof.
  intros W. revert c. induction q as [|m q IH]; intros c L; auto. cbn [winner]. rewrite cls_of_new.
  destruct (Nat.eqb_spec c (length (s_heap s))); [lia|]. destruct (cls_of s c) as [k|] eqn:E; auto.
  assert (forall i, In i (c_inner k) -> is_cls s i = true) as Hin.
  { unfold cls_of in E. destruct (lookup s c) as [o|] eqn:Eo; [|discriminate].
    pose proof (wf_obj W _ Eo) as O. unfold obj_ok in O. destruct (o_pay o) eqn:Ep; try discriminate.
    inversion E; subst. cbn [pay_ok] in O. rewrite !andb_true_iff, !forallb_forall in O. apply O. }
  assert (forall i, In i (c_inner k) -> i < length (s_heap s)) as Hlt.
  { intros i Hi. apply Hin in Hi. apply is_cls_of in Hi. destruct Hi. eapply cls_of_lt; eauto. }
  rewrite (@find_cls_ext (cls_new s n p) s).
  - destruct (find_cls s (c_inner k) m) eqn:F; auto. apply IH. apply find_some in F. apply Hlt. tauto.
  - intros i Hi. rewrite cls_of_new. apply Hlt in Hi. destruct (Nat.eqb_spec i (length (s_heap s))); [lia|auto].
Qed.

(** A class of a namespace *)
Definition ns_cls (s : st) (k : nat) (x : nsnode) (i : oid) : st :=
  with_ns s (list_set (s_ns s) k (mkNs (n_name x) (n_subs x) (n_classes x ++ [i]))).
Definition top_new (s : st) (k : nat) (x : nsnode) (n p : str) : st :=
  ns_cls (cls_new s n p) k x (length (s_heap s)).

Lemma nth_ns_cls s k x i j : nth_error (s_ns s) k = Some x ->
  nth_error (s_ns (ns_cls s k x i)) j =
  if Nat.eqb k j then Some (mkNs (n_name x) (n_subs x) (n_classes x ++ [i])) else nth_error (s_ns s) j.
Proof.
  intros H. simpl. rewrite nth_list_set. destruct (Nat.eqb_spec k j); auto. subst. rewrite H. reflexivity.
Qed.

Lemma wns_ns_cls s k x i c q : nth_error (s_ns s) k = Some x -> wns (ns_cls s k x i) c q = wns s c q.
Proof.
  intros H. revert c. induction q as [|m q IH]; intros c; auto. cbn [wns]. rewrite nth_ns_cls by auto.
  assert (forall l, find_sub (ns_cls s k x i) l m = find_sub s l m) as F.
  { intros l. apply find_ext. intros j _. rewrite nth_ns_cls by auto. destruct (Nat.eqb_spec k j); auto.
    subst. rewrite H. reflexivity. }
  destruct (Nat.eqb_spec k c).
  - subst. rewrite H. cbn [n_subs]. rewrite F. destruct (find_sub s (n_subs x) m); auto.
  - destruct (nth_error (s_ns s) c); auto. rewrite F. destruct (find_sub s (n_subs n0) m); auto.
Qed.

Lemma ns_cls_lt s k x i : wf s -> nth_error (s_ns s) k = Some x -> In i (n_classes x) -> i < length (s_heap s).
Proof.
  intros W H I. pose proof (wf_nsc W _ _ (nth_error_In _ _ H) I) as C. apply is_cls_of in C.
  destruct C. eapply cls_of_lt; eauto.
Qed.

Lemma find_cls_new s n p l m : (forall i, In i l -> i < length (s_heap s)) ->
  find_cls (cls_new s n p) l m = find_cls s l m.
Proof.
  intros H. apply find_cls_ext. intros i Hi. rewrite cls_of_new. apply H in Hi.
  destruct (Nat.eqb_spec i (length (s_heap s))); [lia|auto].
Qed.

Lemma tget_top_new s k x n p a b :
  wf s -> nth_error (s_ns s) k = Some x -> find_cls s (n_classes x) n = None ->
  tget (top_new s k x n p) a b =
  match tget s a b with
  | Some i => Some i
  | None => match wns s 0 a, b with
            | Some k', [n'] => if Nat.eqb k' k && str_eqb n' n then Some (length (s_heap s)) else None
            | _, _ => None
            end
  end.
Proof.
  intros W H N. unfold tget, top_new. rewrite wns_ns_cls by auto.
  rewrite (@wns_ext (cls_new s n p) s) by reflexivity. destruct (wns s 0 a) as [j|]; auto.
  rewrite nth_ns_cls by auto. change (s_ns (cls_new s n p)) with (s_ns s).
  destruct b as [|m r].
  { destruct (Nat.eqb k j), (nth_error (s_ns s) j); auto. }
  set (s' := ns_cls (cls_new s n p) k x (length (s_heap s))).
  assert (forall l, find_cls s' l m = find_cls (cls_new s n p) l m) as F by reflexivity.
  assert (forall c q, winner s' c q = winner (cls_new s n p) c q) as Wn.
  { intros. apply winner_ext. intros. apply cls_of_heap. reflexivity. }
  destruct (Nat.eqb_spec k j).
  - subst j. rewrite H. cbn [n_classes]. rewrite F. unfold find_cls at 1. rewrite find_app.
    fold (find_cls (cls_new s n p) (n_classes x) m).
    rewrite find_cls_new by (intros; eapply ns_cls_lt; eauto).
    destruct (find_cls s (n_classes x) m) as [i|] eqn:E.
    + rewrite Wn. rewrite winner_new; auto.
      * destruct (winner s i r); auto. destruct r; auto. rewrite Nat.eqb_refl.
        destruct (str_eqb_spec m n); auto. subst. congruence.
      * apply find_some in E. eapply ns_cls_lt; eauto. tauto.
    + cbn [find]. rewrite cls_of_new, Nat.eqb_refl. cbn [c_name new_cls]. rewrite Nat.eqb_refl. cbn [andb].
      destruct (str_eqb_spec n m).
      * subst m. destruct r as [|m r].
        -- rewrite str_eqb_refl. reflexivity.
        -- cbn [winner]. rewrite Wn || idtac. cbn [winner]. unfold s'.
           change (cls_of (ns_cls (cls_new s n p) k x (length (s_heap s))) (length (s_heap s)))
             with (cls_of (cls_new s n p) (length (s_heap s))).
           rewrite cls_of_new, Nat.eqb_refl. reflexivity.
      * destruct r; auto. destruct (str_eqb_spec m n); auto. congruence.
  - destruct (nth_error (s_ns s) j) as [y|] eqn:Ej.
    + rewrite F. rewrite find_cls_new by (intros; eapply ns_cls_lt; eauto).
      destruct (find_cls s (n_classes y) m) as [i|] eqn:E.
      * rewrite Wn. rewrite winner_new; auto.
        -- destruct (winner s i r); auto. destruct r; auto. destruct (Nat.eqb_spec j k); [congruence|auto].
        -- apply find_some in E. eapply ns_cls_lt; eauto. tauto.
      * destruct r; auto. destruct (Nat.eqb_spec j k); [congruence|auto].
    + destruct r; auto. destruct (Nat.eqb_spec j k); [congruence|auto].
Qed.

(** An inner class *)
Definition with_inner (c : cls) (k : oid) : cls :=
  mkCls (c_name c) (c_prefix c) (c_inner c ++ [k]) (c_fields c) (c_methods c) (c_natives c) (c_inst c)
    (c_instarr c) (c_bases c).
Definition inner_new (s : st) (c : oid) (o : obj) (k : cls) (n p : str) : st :=
  put (cls_new s n p) c (set_pay o (PClass (with_inner k (length (s_heap s))))).

Lemma cls_of_put s i x o j : lookup s i = Some x ->
  cls_of (put s i o) j = if Nat.eqb i j then match o_pay o with PClass c => Some c | _ => None end else cls_of s j.
Proof.
  intros H. unfold cls_of, put. rewrite (lookup_set _ _ _ _ H). destruct (Nat.eqb i j); reflexivity.
Qed.

Lemma lookup_cls_new s n p i : i < length (s_heap s) -> lookup (cls_new s n p) i = lookup s i.
Proof.
  intros L. change (lookup (cls_new s n p) i) with (lookup (add s (fresh_cls n p)) i). unfold add.
  rewrite lookup_alloc. destruct (Nat.eqb_spec i (length (s_heap s))); [lia|auto].
Qed.

Lemma cls_of_inner s c o k n p i : lookup s c = Some o -> o_pay o = PClass k ->
  cls_of (inner_new s c o k n p) i =
  if Nat.eqb c i then Some (with_inner k (length (s_heap s)))
  else if Nat.eqb i (length (s_heap s)) then Some (new_cls n p) else cls_of s i.
Proof.
  intros H P. unfold inner_new. pose proof (lookup_lt _ _ H).
  rewrite (cls_of_put _ _ (x := o)) by (rewrite lookup_cls_new; auto).
  destruct (Nat.eqb c i); auto. apply cls_of_new.
Qed.

Lemma wf_inner s c k : wf s -> cls_of s c = Some k -> forall i, In i (c_inner k) -> exists c', cls_of s i = Some c'.
Proof.
  intros W E i Hi. apply is_cls_of. unfold cls_of in E. destruct (lookup s c) as [o|] eqn:Eo; [|discriminate].
  pose proof (wf_obj W _ Eo) as O. unfold obj_ok in O. destruct (o_pay o) eqn:Ep; try discriminate.
  inversion E; subst. cbn [pay_ok] in O. rewrite !andb_true_iff, !forallb_forall in O. apply O. auto.
Qed.

Lemma find_cls_inner s c o k n p l m : wf s -> lookup s c = Some o -> o_pay o = PClass k ->
  (forall i, In i l -> exists x, cls_of s i = Some x) ->
  find_cls (inner_new s c o k n p) l m = find_cls s l m.
Proof.
  intros W H P L. unfold find_cls. apply find_ext. intros i Hi. rewrite cls_of_inner by auto.
  destruct (L _ Hi) as (x & E). destruct (Nat.eqb_spec c i).
  - subst i. unfold cls_of in *. rewrite H, P. reflexivity.
  - destruct (Nat.eqb_spec i (length (s_heap s))); auto. apply cls_of_lt in E. lia.
Qed.

Lemma winner_inner s c o k n p q d :
  wf s -> lookup s c = Some o -> o_pay o = PClass k -> find_cls s (c_inner k) n = None ->
  (exists x, cls_of s d = Some x) ->
  (winner (inner_new s c o k n p) d q = winner s d q /\
    (forall q1, q = q1 ++ [n] -> winner s d q1 <> Some c)) \/
  (winner s d q = None /\ exists q1, q = q1 ++ [n] /\ winner s d q1 = Some c /\
     winner (inner_new s c o k n p) d q = Some (length (s_heap s))).
Proof.
  intros W H P N. revert d. induction q as [|m q IH]; intros d (x & Ed).
  - left. split; auto. intros [|]; discriminate.
  - cbn [winner]. rewrite cls_of_inner by auto. destruct (Nat.eqb_spec c d).
    + subst d. assert (cls_of s c = Some k) as Ek by (unfold cls_of; rewrite H, P; auto).
      rewrite Ek in *. inversion Ed; subst x.
      assert (find_cls (inner_new s c o k n p) (c_inner (with_inner k (length (s_heap s)))) m =
        match find_cls s (c_inner k) m with Some i => Some i | None => if str_eqb n m then Some (length (s_heap s)) else None end) as ->.
      { cbn [c_inner with_inner]. unfold find_cls at 1. rewrite find_app. fold (find_cls (inner_new s c o k n p) (c_inner k) m).
        rewrite find_cls_inner by (auto; eapply wf_inner; eauto). destruct (find_cls s (c_inner k) m); auto.
        cbn [find]. rewrite cls_of_inner by auto. pose proof (lookup_lt _ _ H).
        destruct (Nat.eqb_spec c (length (s_heap s))); [lia|]. rewrite Nat.eqb_refl. reflexivity. }
      destruct (find_cls s (c_inner k) m) as [i|] eqn:F.
      * assert (exists x, cls_of s i = Some x) as Li.
        { apply find_some in F. eapply wf_inner; eauto. tauto. }
        destruct (IH i Li) as [[E1 E2]|(E1 & q1 & E2 & E3 & E4)].
        -- left. split; auto. intros [|y q1] E; inversion E; subst; [congruence|].
           simpl. rewrite Ek, F. apply E2; auto.
        -- right. split; auto. exists (m :: q1). subst q. simpl. rewrite Ek, F. auto.
      * destruct (str_eqb_spec n m).
        -- subst m. destruct q as [|m q].
           ++ right. split; auto. exists []. auto.
           ++ left. split.
              ** cbn [winner]. rewrite cls_of_inner by auto. pose proof (lookup_lt _ _ H).
                 destruct (Nat.eqb_spec c (length (s_heap s))); [lia|]. rewrite Nat.eqb_refl. reflexivity.
              ** intros [|y q1] E; inversion E; subst. simpl. rewrite Ek, F. discriminate.
        -- left. split; auto. intros [|y q1] E; inversion E; subst; [congruence|]. simpl. rewrite Ek, F. discriminate.
    + destruct (Nat.eqb_spec d (length (s_heap s))); [apply cls_of_lt in Ed; lia|]. rewrite Ed.
      rewrite find_cls_inner by (auto; eapply wf_inner; eauto). destruct (find_cls s (c_inner x) m) as [i|] eqn:F.
      * assert (exists x, cls_of s i = Some x) as Li.
        { apply find_some in F. eapply wf_inner; eauto. tauto. }
        destruct (IH i Li) as [[E1 E2]|(E1 & q1 & E2 & E3 & E4)].
        -- left. split; auto. intros [|y q1] E; inversion E; subst; simpl; [congruence|].
           rewrite Ed, F. apply E2; auto.
        -- right. split; auto. exists (m :: q1). subst q. simpl. rewrite Ed, F. auto.
      * left. split; auto. intros [|y q1] E; inversion E; subst; simpl; [congruence|]. rewrite Ed, F. discriminate.
Qed.

Lemma tget_inner s c o k n p a b :
  wf s -> lookup s c = Some o -> o_pay o = PClass k -> find_cls s (c_inner k) n = None ->
  (tget (inner_new s c o k n p) a b = tget s a b /\ (forall b1, b1 <> [] -> b = b1 ++ [n] -> tget s a b1 <> Some c)) \/
  (tget s a b = None /\ exists b1, b1 <> [] /\ b = b1 ++ [n] /\ tget s a b1 = Some c /\
     tget (inner_new s c o k n p) a b = Some (length (s_heap s))).
Proof.
  intros W H P N. unfold tget. rewrite (@wns_ext (inner_new s c o k n p) s) by reflexivity.
  change (s_ns (inner_new s c o k n p)) with (s_ns s).
  destruct (wns s 0 a) as [j|]; [|left; split; auto; discriminate].
  destruct (nth_error (s_ns s) j) as [x|] eqn:Ej; [|left; split; auto; discriminate].
  destruct b as [|m r]; [left; split; auto; intros [|]; discriminate|].
  assert (forall i, In i (n_classes x) -> exists c, cls_of s i = Some c) as L.
  { intros i Hi. apply is_cls_of. eapply wf_nsc; eauto. eapply nth_error_In; eauto. }
  rewrite find_cls_inner by auto. destruct (find_cls s (n_classes x) m) as [i|] eqn:F.
  - assert (exists x, cls_of s i = Some x) as Li by (apply find_some in F; apply L; tauto).
    destruct (@winner_inner s c o k n p r i W H P N Li) as [[E1 E2]|(E1 & q1 & E2 & E3 & E4)].
    + left. split; auto. intros [|y b1] Nb E; [congruence|]. inversion E; subst. rewrite F. apply E2. auto.
    + right. split; auto. exists (m :: q1). subst r. rewrite F. repeat split; auto. discriminate.
  - left. split; auto. intros [|y b1] Nb E; [congruence|]. inversion E; subst. rewrite F. discriminate.
Qed.

(** *** New classes keep the invariant *)
Section Reg.
Variable G : cfg.

(** [s'] has the classes of [s] and in addition exactly those named in [L] *)
Record creates (s s' : st) (L : list str) : Prop := {
  cr_keep : forall m i, get_class s m = Some i -> get_class s' m = Some i;
  cr_new : forall m, get_class s m = None -> (In m L <-> get_class s' m <> None)
}.

Lemma creates_refl s L : (forall m, In m L -> get_class s m <> None) -> creates s s L.
Proof. intros H. constructor; auto. intros m N. split; [auto|congruence]. Qed.
Lemma creates_trans a b c L M : creates a b L -> creates b c M -> creates a c (L ++ M).
Proof.
  intros [K1 N1] [K2 N2]. constructor; auto. intros m H. rewrite in_app_iff.
  destruct (get_class b m) as [i|] eqn:E.
  - rewrite (K2 _ _ E). split; [discriminate|]. intros _. left. apply N1; congruence.
  - rewrite (N1 _ H), (N2 _ E). split; [intros [?|?]; congruence|auto].
Qed.
Lemma creates_same a b c L : creates a b L -> (forall m, get_class c m = get_class b m) -> creates a c L.
Proof. intros [K N] H. constructor; intros; rewrite H; auto. Qed.

Lemma tree_ok_ext s s' pth : s_ns s' = s_ns s -> tree_ok s pth -> tree_ok s' pth.
Proof. intros E [R T]. constructor; auto. rewrite E. auto. Qed.

Lemma reg_map_new s n p : inv G s -> get_class s p = None -> (debug G = true -> bracket p = true) ->
  inv G (cls_new s n p).
Proof.
  intros [W [(pth & T) A B C]] N Br. constructor; [apply cls_new_wf; auto|]. constructor.
  - exists pth. apply tree_ok_ext with (s := s); auto.
  - intros D a b Co Hb. rewrite get_class_new. destruct (str_eqb_spec p (nm a b)).
    { subst. rewrite Br in Hb by auto. discriminate. }
    rewrite <- A by auto. unfold tget. rewrite (@wns_ext (cls_new s n p) s) by reflexivity.
    change (s_ns (cls_new s n p)) with (s_ns s).
    destruct (wns s 0 a); auto. destruct (nth_error (s_ns s) n1) eqn:E; auto. destruct b; auto.
    rewrite find_cls_new by (intros; eapply ns_cls_lt; eauto).
    destruct (find_cls s (n_classes n2) l) eqn:F; auto. apply winner_new; auto.
    apply find_some in F. eapply ns_cls_lt; eauto. tauto.
  - intros m i. rewrite get_class_new. destruct (str_eqb_spec p m).
    + intros E. inversion E; subst. exists (new_cls n m). rewrite cls_of_new, Nat.eqb_refl. auto.
    + intros E. destruct (B _ _ E) as (c & E1 & E2). exists c. rewrite cls_of_new.
      destruct (Nat.eqb_spec i (length (s_heap s))); auto. apply cls_of_lt in E1. lia.
  - intros i c. rewrite cls_of_new, get_class_new. destruct (Nat.eqb_spec i (length (s_heap s))).
    + intros E. inversion E; subst. simpl. rewrite str_eqb_refl. auto.
    + intros E. pose proof (C _ _ E). destruct (str_eqb_spec p (c_prefix c)); auto. congruence.
Qed.

Lemma creates_map_new s n p : get_class s p = None -> creates s (cls_new s n p) [p].
Proof.
  intros N. constructor.
  - intros m i E. rewrite get_class_new. destruct (str_eqb_spec p m); auto. congruence.
  - intros m E. rewrite get_class_new. simpl. destruct (str_eqb_spec p m).
    + split; [discriminate|auto].
    + split; [intros [?|[]]; congruence|congruence].
Qed.

Lemma top_new_wf s k x n p : wf s -> nth_error (s_ns s) k = Some x -> wf (top_new s k x n p).
Proof.
  intros W H. assert (wfi (cls_new s n p) (top_new s k x n p)) as X.
  { refine (@c_nsc wfi wfi_coarse (cls_new s n p) k x (length (s_heap s)) H _).
    apply is_cls_of. rewrite cls_of_new, Nat.eqb_refl. eauto. }
  apply X. apply cls_new_wf. auto.
Qed.

Lemma get_class_top s k x n p m : get_class (top_new s k x n p) m = get_class (cls_new s n p) m.
Proof. reflexivity. Qed.
Lemma cls_of_top s k x n p i : cls_of (top_new s k x n p) i = cls_of (cls_new s n p) i.
Proof. reflexivity. Qed.

Lemma reg_top_new s k x n a :
  debug G = true -> inv G s -> wns s 0 a = Some k -> nth_error (s_ns s) k = Some x -> find_cls s (n_classes x) n = None ->
  comps a [n] -> bracket (nm a [n]) = false ->
  get_class s (nm a [n]) = None /\ inv G (top_new s k x n (nm a [n])) /\
  tget (top_new s k x n (nm a [n])) a [n] = Some (length (s_heap s)).
Proof.
  intros Dbg [W [(pth & T) A B C]] Hk Hx N Co Br.
  assert (get_class s (nm a [n]) = None) as NC.
  { rewrite <- A by auto. unfold tget. rewrite Hk, Hx, N. auto. }
  assert (tget (top_new s k x n (nm a [n])) a [n] = Some (length (s_heap s))) as TG.
  { rewrite tget_top_new by auto. rewrite A, NC by auto. rewrite Hk, Nat.eqb_refl, str_eqb_refl. reflexivity. }
  split; auto. split; auto. constructor; [apply top_new_wf; auto|]. constructor.
  - exists pth. destruct T as [T1 T2]. constructor; auto. intros c y j z.
    unfold top_new. rewrite !nth_ns_cls by auto. change (s_ns (cls_new s n (nm a [n]))) with (s_ns s).
    intros E I E'.
    assert (exists y', nth_error (s_ns s) c = Some y' /\ n_subs y' = n_subs y) as (y' & Ey & Sy).
    { destruct (Nat.eqb_spec k c); [subst c|]; [inversion E; subst|]; eauto. }
    assert (exists z', nth_error (s_ns s) j = Some z' /\ n_name z' = n_name z) as (z' & Ez & Sz).
    { destruct (Nat.eqb_spec k j); [subst j|]; [inversion E'; subst|]; eauto. }
    rewrite <- Sz. eapply T2; eauto. congruence.
  - intros D a' b' Co' Br'. rewrite get_class_top, get_class_new, tget_top_new by auto. rewrite (A D a' b') by auto.
    destruct (str_eqb_spec (nm a [n]) (nm a' b')) as [E|E].
    + apply nm_inj in E; auto. destruct E; subst. rewrite NC, Hk, Nat.eqb_refl, str_eqb_refl. reflexivity.
    + destruct (get_class s (nm a' b')) eqn:Eg; auto. destruct (wns s 0 a') eqn:Ew; auto.
      destruct b' as [|n' [|]]; auto. destruct (Nat.eqb_spec n0 k), (str_eqb_spec n' n); auto. subst.
      pose proof (wns_path _ T Ew). pose proof (wns_path _ T Hk). congruence.
  - intros m i. rewrite get_class_top, get_class_new, cls_of_top. destruct (str_eqb_spec (nm a [n]) m).
    + intros E. inversion E; subst. exists (new_cls n (nm a [n])). rewrite cls_of_new, Nat.eqb_refl. auto.
    + intros E. destruct (B _ _ E) as (c & E1 & E2). exists c. rewrite cls_of_new.
      destruct (Nat.eqb_spec i (length (s_heap s))); auto. apply cls_of_lt in E1. lia.
  - intros i c. rewrite get_class_top, get_class_new, cls_of_top, cls_of_new. destruct (Nat.eqb_spec i (length (s_heap s))).
    + intros E. inversion E; subst. simpl. rewrite str_eqb_refl. auto.
    + intros E. pose proof (C _ _ E). destruct (str_eqb_spec (nm a [n]) (c_prefix c)); auto. congruence.
Qed.

Lemma inner_ok s c o k n p : wf s -> lookup s c = Some o -> o_pay o = PClass k ->
  obj_ok (cls_new s n p) (set_pay o (PClass (with_inner k (length (s_heap s))))) = true.
Proof.
  intros W H P. pose proof (cls_new_wf n p W) as W'. pose proof (lookup_lt _ _ H) as L.
  assert (lookup (cls_new s n p) c = Some o) as H' by (rewrite lookup_cls_new; auto).
  pose proof (wf_obj W' _ H') as O. unfold obj_ok in *. rewrite andb_true_iff in *. destruct O as [O1 O2]. split; auto.
  rewrite P in O1. cbn [pay_ok set_pay o_pay with_inner c_inner c_fields c_methods] in *.
  rewrite !andb_true_iff in *. destruct O1 as [[O1 O3] O4]. repeat split; auto.
  rewrite forallb_app, O1. cbn [forallb]. rewrite andb_true_r. apply is_cls_of.
  rewrite cls_of_new, Nat.eqb_refl. eauto.
Qed.

Lemma inner_new_wf s c o k n p : wf s -> lookup s c = Some o -> o_pay o = PClass k -> wf (inner_new s c o k n p).
Proof.
  intros W H P. assert (wfi (cls_new s n p) (inner_new s c o k n p)) as X.
  { refine (@c_put wfi wfi_coarse (cls_new s n p) c o _ _ _ _).
    - rewrite lookup_cls_new; [exact H|]. eapply lookup_lt; eauto.
    - simpl. rewrite P. simpl. auto.
    - exact (inner_ok c n p W H P). }
  apply X. exact (cls_new_wf n p W).
Qed.

Lemma reg_inner_new s c o k n a b :
  debug G = true -> inv G s -> b <> [] -> tget s a b = Some c -> lookup s c = Some o -> o_pay o = PClass k ->
  find_cls s (c_inner k) n = None -> comps a (b ++ [n]) -> bracket (nm a (b ++ [n])) = false ->
  get_class s (nm a (b ++ [n])) = None /\ inv G (inner_new s c o k n (nm a (b ++ [n]))) /\
  tget (inner_new s c o k n (nm a (b ++ [n]))) a (b ++ [n]) = Some (length (s_heap s)).
Proof.
  intros Dbg [W [(pth & T) A B C]] Hb Ht Hl Hp N Co Br. set (p := nm a (b ++ [n])) in *.
  assert (cls_of s c = Some k) as Ck by (unfold cls_of; rewrite Hl, Hp; auto).
  assert (comps a b) as Co' by (eapply comps_prefix; eauto).
  assert (bracket (nm a b) = false) as Br' by (eapply bracket_prefix; eauto).
  assert (get_class s (nm a b) = Some c) as Gc by (rewrite <- A; auto).
  assert (c_prefix k = nm a b) as Pk.
  { destruct (B _ _ Gc) as (k' & E1 & E2). congruence. }
  assert (get_class s p = None) as NC.
  { unfold p. rewrite <- A by auto. rewrite tget_app by auto. rewrite Ht. simpl. rewrite Ck, N. auto. }
  assert (tget (inner_new s c o k n p) a (b ++ [n]) = Some (length (s_heap s))) as TG.
  { destruct (@tget_inner s c o k n p a (b ++ [n]) W Hl Hp N) as [[_ E]|(_ & b1 & _ & _ & _ & E)]; auto.
    exfalso. apply (E b); auto. }
  assert (forall m, get_class (inner_new s c o k n p) m = get_class (cls_new s n p) m) as GI by reflexivity.
  pose proof (lookup_lt _ _ Hl) as Lc.
  split; auto. split; auto. constructor; [apply inner_new_wf; auto|]. constructor.
  - exists pth. apply tree_ok_ext with (s := s); auto.
  - intros D a' b' Co2 Br2. rewrite GI, get_class_new.
    destruct (@tget_inner s c o k n p a' b' W Hl Hp N) as [[E1 E2]|(E1 & b1 & E2 & E3 & E4 & E5)].
    + rewrite E1. destruct (str_eqb_spec p (nm a' b')) as [E|E]; [|apply A; auto].
      apply nm_inj in E; auto. destruct E; subst. exfalso. eapply E2; eauto.
    + rewrite E5. subst b'. assert (comps a' b1) as Co3 by (eapply comps_prefix; eauto).
      assert (bracket (nm a' b1) = false) as Br3 by (eapply bracket_prefix; eauto).
      rewrite A in E4 by auto. destruct (B _ _ E4) as (k' & F1 & F2).
      assert (nm a' b1 = nm a b) as F3 by congruence. apply nm_inj in F3; auto. destruct F3; subst.
      fold p. rewrite str_eqb_refl. auto.
  - intros m i. rewrite GI, get_class_new, cls_of_inner by auto. destruct (str_eqb_spec p m).
    + intros E. inversion E; subst. exists (new_cls n p). destruct (Nat.eqb_spec c (length (s_heap s))); [lia|].
      rewrite Nat.eqb_refl. auto.
    + intros E. destruct (B _ _ E) as (c' & E1 & E2). destruct (Nat.eqb_spec c i).
      * subst i. eexists. split; [reflexivity|]. simpl. congruence.
      * exists c'. destruct (Nat.eqb_spec i (length (s_heap s))); auto. apply cls_of_lt in E1. lia.
  - intros i c'. rewrite GI, get_class_new, cls_of_inner by auto. destruct (Nat.eqb_spec c i).
    + subst i. intros E. inversion E; subst. simpl. rewrite Pk. destruct (str_eqb_spec p (nm a b)); [congruence|auto].
    + destruct (Nat.eqb_spec i (length (s_heap s))).
      * intros E. inversion E; subst. simpl. rewrite str_eqb_refl. auto.
      * intros E. pose proof (C _ _ E). destruct (str_eqb_spec p (c_prefix c')); auto. congruence.
Qed.

(** ** [find_class] *)

Lemma walk_ns_true s segs c : wf s -> c < length (s_ns s) -> walk_ns true c segs s = Ret (wns s c segs) s.
Proof.
  intros W. revert c. induction segs as [|n r IH]; intros c L; auto. cbn [walk_ns wns]. unfold bind, gets.
  destruct (nth_error (s_ns s) c) as [x|] eqn:E; [|apply nth_error_None in E; lia].
  destruct (find_sub s (n_subs x) n) as [k|] eqn:F; auto. apply IH.
  apply find_some in F. eapply wf_subs; eauto; [eapply nth_error_In; eauto|tauto].
Qed.

Lemma walk_inner_true s segs c pre : wf s -> (exists k, cls_of s c = Some k) ->
  walk_inner true c pre segs s = Ret (winner s c segs) s.
Proof.
  intros W. revert c pre. induction segs as [|n r IH]; intros c pre (k & E); auto.
  cbn [walk_inner winner]. rewrite E. unfold bind, gets, get_cls, bind, deref.
  pose proof E as E'. unfold cls_of in E'. destruct (lookup s c) as [o|] eqn:El; [|discriminate].
  destruct (o_pay o) eqn:Ep; try discriminate. inversion E'; subst. cbn [ret].
  destruct (find_cls s (c_inner k) n) as [i|] eqn:F; auto. apply IH. apply find_some in F. eapply wf_inner; eauto. tauto.
Qed.

Lemma find_class_true n s : inv G s -> find_class G true n s = Ret (get_class s n) s.
Proof.
  intros [W R]. unfold find_class. fold (bracket n). destruct (debug G) eqn:D, (bracket n) eqn:Br; cbn [andb negb].
  1,3,4: unfold bind, gets; destruct (get_class s n); reflexivity.
  fold (ns_part n) (cls_part n). pose proof (parts_comps n) as Co.
  assert (tget s (ns_part n) (cls_part n) = get_class s n) as <-.
  { rewrite (r_same R D Co); rewrite parts_nm; auto. }
  assert (0 < length (s_ns s)) as L0 by (pose proof (wf_root W); destruct (s_ns s); simpl; [congruence|lia]).
  unfold bind at 1. rewrite walk_ns_true by auto. unfold tget. destruct (wns s 0 (ns_part n)) as [k|] eqn:Ek; auto.
  unfold walk_cls. pose proof (co_ne Co). destruct (cls_part n) as [|m r]; [congruence|].
  unfold bind, gets. pose proof (wns_lt _ W Ek) as Lk. destruct (nth_error (s_ns s) k) as [x|] eqn:Ex; [|apply nth_error_None in Ex; lia].
  destruct (find_cls s (n_classes x) m) as [i|] eqn:F; auto. apply walk_inner_true; auto.
  apply is_cls_of. apply find_some in F. eapply wf_nsc; eauto; [eapply nth_error_In; eauto|tauto].
Qed.

(** the names of the enclosing classes and of the class itself *)
Fixpoint prefixes {A} (l : list A) : list (list A) :=
  match l with [] => [] | x :: r => [x] :: map (cons x) (prefixes r) end.
Definition outer_names (n : str) : list str :=
  if debug G && negb (bracket n) then map (nm (ns_part n)) (prefixes (cls_part n)) else [n].

Lemma prefixes_app A (l m : list A) : prefixes (l ++ m) = prefixes l ++ map (app l) (prefixes m).
Proof.
  induction l as [|x l IH]; cbn [prefixes app map].
  - rewrite map_id. reflexivity.
  - rewrite IH, map_app, map_map. reflexivity.
Qed.

Lemma walk_ns_false s segs : inv G s -> forall c p, wns s 0 p = Some c ->
  exists k s', walk_ns false c segs s = Ret (Some k) s' /\ inv G s' /\ wns s' 0 (p ++ segs) = Some k /\
    (forall m, get_class s' m = get_class s m).
Proof.
  revert s. induction segs as [|n r IH]; intros s I c p Hp.
  - exists c, s. rewrite app_nil_r. auto.
  - cbn [walk_ns]. unfold bind at 1, gets. pose proof I as [W R]. pose proof (wns_lt _ W Hp) as L.
    destruct (nth_error (s_ns s) c) as [x|] eqn:E; [|apply nth_error_None in E; lia].
    destruct (find_sub s (n_subs x) n) as [k|] eqn:F.
    + destruct (IH s I k (p ++ [n])) as (k' & s' & H1 & H2 & H3 & H4).
      { rewrite wns_app, Hp. simpl. rewrite E, F. auto. }
      exists k', s'. rewrite <- app_assoc in H3. auto.
    + unfold bind, new_ns. rewrite E. fold (ns_new s c x n).
      assert (inv G (ns_new s c x n)) as I' by (apply reg_ns_new; auto).
      destruct (IH _ I' (length (s_ns s)) (p ++ [n])) as (k' & s' & H1 & H2 & H3 & H4).
      { rewrite wns_app. assert (wns (ns_new s c x n) 0 p = Some c) as ->.
        { destruct (@wns_new s c x n p 0 W E F) as [->|[? _]]; auto; [lia|congruence]. }
        cbn [wns]. rewrite nth_ns_new by auto. destruct (Nat.eqb_spec c (length (s_ns s))); [lia|].
        rewrite Nat.eqb_refl. cbn [n_subs]. unfold find_sub. rewrite find_app.
        fold (find_sub (ns_new s c x n) (n_subs x) n).
        rewrite ns_new_sub; auto.
        - rewrite F. cbn [find]. rewrite nth_ns_new by auto. rewrite Nat.eqb_refl. cbn [n_name].
          rewrite str_eqb_refl. auto.
        - intros j Hj. eapply wf_subs; eauto. eapply nth_error_In; eauto. }
      exists k', s'. rewrite <- app_assoc in H3. auto.
Qed.

Lemma add_inner_new s c o k n p : wf s -> lookup s c = Some o -> o_pay o = PClass k ->
  add_inner c (length (s_heap s)) (cls_new s n p) = Ret tt (inner_new s c o k n p).
Proof.
  intros W Hl Hp. unfold add_inner, upd_cls, bind, deref. rewrite lookup_cls_new by (eapply lookup_lt; eauto).
  rewrite Hl, Hp. unfold put_obj, bind, check. change (obj_ok (cls_new s n p) _) with
    (obj_ok (cls_new s n p) (set_pay o (PClass (with_inner k (length (s_heap s)))))).
  rewrite (inner_ok c n p W Hl Hp). reflexivity.
Qed.

Lemma creates_inner s c o k n p : get_class s p = None -> creates s (inner_new s c o k n p) [p].
Proof. intros. apply creates_same with (b := cls_new s n p); [apply creates_map_new; auto|]. reflexivity. Qed.
Lemma creates_top s k x n p : get_class s p = None -> creates s (top_new s k x n p) [p].
Proof. intros. apply creates_same with (b := cls_new s n p); [apply creates_map_new; auto|]. reflexivity. Qed.

Lemma bracket_prefixes a b r : b <> [] -> bracket (nm a (b ++ r)) = false -> bracket (nm a b) = false.
Proof.
  intros N. induction r as [|x r IH] using rev_ind; [rewrite app_nil_r; auto|]. intros H. apply IH.
  rewrite app_assoc in H. eapply bracket_prefix; [|exact H]. destruct b; [congruence|discriminate].
Qed.

Lemma walk_inner_false s segs a : debug G = true -> inv G s -> forall b c,
  b <> [] -> comps a (b ++ segs) -> bracket (nm a (b ++ segs)) = false -> tget s a b = Some c ->
  exists i s', walk_inner false c (nm a b ++ ["$"]) segs s = Ret (Some i) s' /\ inv G s' /\
    tget s' a (b ++ segs) = Some i /\ creates s s' (map (nm a) (map (app b) (prefixes segs))).
Proof.
  intros D. revert s. induction segs as [|n r IH]; intros s I b c Nb Co Br Ht.
  - exists c, s. rewrite app_nil_r in *. split; [auto|]. split; [auto|]. split; [auto|]. apply creates_refl. intros m [].
  - replace (b ++ n :: r) with ((b ++ [n]) ++ r) in * by (rewrite <- app_assoc; reflexivity).
    assert (comps a (b ++ [n])) as Co1 by (eapply comps_prefix; eauto; destruct b; discriminate).
    assert (bracket (nm a (b ++ [n])) = false) as Br1.
    { apply bracket_prefixes with (r := r); auto. destruct b; discriminate. }
    pose proof I as [W R].
    assert (nm a b ++ ["$"] ++ n = nm a (b ++ [n])) as Nm by (rewrite nm_snoc; auto).
    assert (get_class s (nm a b) = Some c) as Gc.
    { rewrite <- (r_same R D); auto. eapply comps_prefix; [|exact Nb]. exact Co1. eapply bracket_prefix; eauto. }
    destruct (r_name R _ Gc) as (k & Ck & Pk). pose proof Ck as Ck'. unfold cls_of in Ck'.
    destruct (lookup s c) as [o|] eqn:El; [|discriminate]. destruct (o_pay o) eqn:Ep; try discriminate.
    inversion Ck'; subst c0. clear Ck'.
    cbn [walk_inner]. unfold bind at 1, gets. unfold get_cls at 1, bind at 1 2, deref. rewrite El, Ep. cbn [ret].
    replace ((nm a b ++ ["$"]) ++ n ++ ["$"]) with (nm a (b ++ [n]) ++ ["$"]) by (rewrite <- Nm, <- !app_assoc; reflexivity).
    cbn [prefixes map].
    assert (map (nm a) (map (app b) (map (cons n) (prefixes r))) = map (nm a) (map (app (b ++ [n])) (prefixes r))) as Em.
    { f_equal. rewrite map_map. apply map_ext. intros l. rewrite <- app_assoc. reflexivity. }
    rewrite Em. destruct (find_cls s (c_inner k) n) as [i|] eqn:F.
    + assert (tget s a (b ++ [n]) = Some i) as Hi.
      { rewrite tget_app, Ht by auto. simpl. rewrite Ck, F. auto. }
      destruct (IH s I (b ++ [n]) i) as (i' & s' & H1 & H2 & H3 & H4); auto; [destruct b; discriminate|].
      exists i', s'. split; [auto|]. split; [auto|]. split; [auto|]. constructor; [apply H4|]. intros m H. split.
      * intros [<-|Hm]; [|apply H4; auto]. rewrite <- (r_same R D) in H by auto. congruence.
      * intros Hm. right. apply (cr_new H4 _ H). auto.
    + destruct (@reg_inner_new s c o k n a b D I Nb Ht El Ep F Co1 Br1) as (X1 & X2 & X3).
      replace ((nm a b ++ ["$"]) ++ n) with (nm a (b ++ [n])) by (rewrite <- app_assoc; auto).
      unfold bind at 1. rewrite create_cls_eq. unfold bind at 1.
      rewrite (@add_inner_new s c o k n (nm a (b ++ [n])) W El Ep).
      destruct (IH _ X2 (b ++ [n]) _ ltac:(destruct b; discriminate) Co Br X3) as (i' & s' & H1 & H2 & H3 & H4).
      exists i', s'. split; [exact H1|]. split; [auto|]. split; [auto|].
      change (nm a (b ++ [n]) :: ?l) with ([nm a (b ++ [n])] ++ l).
      eapply creates_trans; [|exact H4]. apply creates_inner. auto.
Qed.

Theorem find_class_false n s : inv G s ->
  exists i s', find_class G false n s = Ret (Some i) s' /\ inv G s' /\ get_class s' n = Some i /\
    creates s s' (outer_names n).
Proof.
  intros I. pose proof I as [W R]. unfold find_class, outer_names. fold (bracket n).
  destruct (debug G) eqn:D, (bracket n) eqn:Br; cbn [andb negb].
  1,3,4: unfold bind, gets; destruct (get_class s n) as [i|] eqn:E;
    [exists i, s; split; [auto|]; split; [auto|]; split; [auto|]; apply creates_refl; intros m [<-|[]]; congruence|
     rewrite create_cls_eq; exists (length (s_heap s)), (cls_new s (after_slash n) n);
     split; [reflexivity|]; split; [apply reg_map_new; auto; congruence|];
     split; [rewrite get_class_new, str_eqb_refl; auto|apply creates_map_new; auto]].
  fold (ns_part n) (cls_part n). pose proof (parts_comps n) as Co. pose proof (parts_nm n) as Nm.
  set (a := ns_part n) in *. set (b := cls_part n) in *. clearbody a b.
  destruct (@walk_ns_false s a I 0 [] eq_refl) as (k & s1 & H1 & I1 & H2 & H3).
  unfold bind at 1. rewrite H1. simpl app in H2. pose proof (co_ne Co). destruct b as [|m r]; [congruence|].
  pose proof I1 as [W1 R1]. unfold walk_cls. unfold bind at 1, gets. pose proof (wns_lt _ W1 H2) as Lk.
  destruct (nth_error (s_ns s1) k) as [x|] eqn:Ex; [|apply nth_error_None in Ex; lia].
  replace (joined "/" a ++ m ++ ["$"]) with (nm a [m] ++ ["$"]) by (unfold nm; simpl; rewrite <- app_assoc; auto).
  replace (joined "/" a ++ m) with (nm a [m]) by reflexivity.
  assert (comps a [m]) as Co1 by (apply (@comps_prefix a [m] r); auto; discriminate).
  assert (bracket (nm a [m]) = false) as Br1.
  { rewrite <- Nm in Br. apply bracket_prefixes with (r := r); [discriminate|auto]. }
  assert (map (nm a) (prefixes (m :: r)) = nm a [m] :: map (nm a) (map (app [m]) (prefixes r))) as Ep by reflexivity.
  rewrite Ep.
  destruct (find_cls s1 (n_classes x) m) as [c|] eqn:F.
  - assert (tget s1 a [m] = Some c) as Ht by (unfold tget; rewrite H2, Ex, F; auto).
    destruct (@walk_inner_false s1 r a D I1 [m] c) as (i & s' & J1 & J2 & J3 & J4); auto; try discriminate.
    { rewrite <- Nm in Br. exact Br. }
    exists i, s'. split; [exact J1|]. split; [auto|]. split.
    + rewrite <- Nm. rewrite <- (r_same (inv_reg J2) D); auto. rewrite Nm. auto.
    + constructor.
      * intros. apply J4. rewrite H3. auto.
      * intros y Hy. rewrite <- H3 in Hy. split.
        -- intros [<-|Hm]; [|apply J4; auto]. rewrite <- (r_same R1 D) in Hy by auto. congruence.
        -- intros Hm. right. apply (cr_new J4 _ Hy). auto.
  - destruct (@reg_top_new s1 k x m a D I1 H2 Ex F Co1 Br1) as (X1 & X2 & X3).
    unfold bind at 1. rewrite create_cls_eq. unfold bind at 1, ns_add_class, bind at 1, check.
    assert (is_cls (cls_new s1 m (nm a [m])) (length (s_heap s1)) = true) as ->.
    { apply is_cls_of. rewrite cls_of_new, Nat.eqb_refl. eauto. }
    change (s_ns (cls_new s1 m (nm a [m]))) with (s_ns s1) at 1. rewrite Ex.
    fold (ns_cls (cls_new s1 m (nm a [m])) k x (length (s_heap s1))). fold (top_new s1 k x m (nm a [m])).
    destruct (@walk_inner_false _ r a D X2 [m] (length (s_heap s1))) as (i & s' & J1 & J2 & J3 & J4); auto; try discriminate.
    { rewrite <- Nm in Br. exact Br. }
    exists i, s'. split; [exact J1|]. split; [auto|]. split.
    + rewrite <- Nm. rewrite <- (r_same (inv_reg J2) D); auto. rewrite Nm. auto.
    + change (nm a [m] :: ?l) with ([nm a [m]] ++ l). eapply creates_trans; [|exact J4].
      constructor.
      * intros. rewrite <- H3 in H0. apply (@creates_top s1 k x m _ X1). auto.
      * intros y Hy. rewrite <- H3 in Hy. apply (@creates_top s1 k x m _ X1). auto.
Qed.
End Reg.
