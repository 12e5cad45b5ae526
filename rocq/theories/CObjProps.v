(** Property C94: arrays of objects in C++. *)
From Verif Require Import Base BaseProofs VmState VmBase CObjModel.
Set Implicit Arguments.
Unset Strict Implicit.
Local Open Scope Z_scope.

(** ** Specification *)
(** Class [d] is [z] or derives from it. *)
Definition sub (d z : cty) : Prop := exists p, d = p ++ z.
(** An array of [z] seen as an array of [y] takes an object of class [d] … *)
Inductive takes (z y d : cty) : Prop :=
| tk_same : y = z -> takes z y d
| tk_below n p : z = p ++ n :: y -> sub d (n :: y) -> takes z y d.
(** Array [a] has elements of class [z]: [l]. *)
Definition has (s : ost) (a : nat) (z : cty) (l : list (option nat)) : Prop := carray s a = Some (mkCarr z (Some l)).
Definition obj (s : ost) (x : nat) (o : cobj) : Prop := nth_error (o_objs s) x = Some o.
(** [s'] is [s] with [v] at position [i] of array [a]. *)
Definition stored (s : ost) (a : nat) (i : Z) (v : option nat) (s' : ost) : Prop :=
  o_objs s' = o_objs s /\ length (o_arrs s') = length (o_arrs s) /\ (forall b, b <> a -> nth_error (o_arrs s') b = nth_error (o_arrs s) b) /\
  exists z l1 e l2, has s a z (l1 ++ e :: l2) /\ Z.of_nat (length l1) = i /\ has s' a z (l1 ++ v :: l2).

Lemma cty_eqb_spec x y : cty_eqb x y = true <-> x = y.
Proof.
  revert y. induction x as [|a x IH]; intros [|b y]; cbn; try (split; congruence). rewrite andb_true_iff, Nat.eqb_eq, IH. split; [intros [-> ->]; reflexivity|intros [= -> ->]; auto].
Qed.
Lemma derives_spec d z : derives d z = true <-> sub d z.
Proof.
  unfold sub. induction d as [|n d IH]; cbn [derives]; rewrite orb_true_iff, cty_eqb_spec.
  - split; [intros [<-|[=]]; exists []; reflexivity|]. intros ([|] & E); [left; exact E|discriminate].
  - rewrite IH. split.
    + intros [<-|(p & ->)]; [exists []; reflexivity|exists (n :: p); reflexivity].
    + intros ([|m p] & E); [left; exact E|]. injection E as -> ->. right. eauto.
Qed.
Lemma sub_len d z : sub d z -> (length z <= length d)%nat.
Proof. intros (p & ->). rewrite app_length. lia. Qed.
Lemma below_spec p n y : below y (p ++ n :: y) = n :: y.
Proof.
  induction p as [|m p IH]; cbn.
  - assert (cty_eqb y y = true) as -> by (apply cty_eqb_spec; reflexivity). reflexivity.
  - destruct (cty_eqb (p ++ n :: y) y) eqn:E; [|exact IH]. apply cty_eqb_spec in E. apply (f_equal (@length nat)) in E. rewrite app_length in E. cbn in E. lia.
Qed.
Lemma sub_split z y : sub z y -> y = z \/ exists p n, z = p ++ n :: y.
Proof.
  intros (p & ->). destruct (rev p) as [|n q] eqn:R.
  - left. apply (f_equal (@rev nat)) in R. rewrite rev_involutive in R. subst. reflexivity.
  - right. apply (f_equal (@rev nat)) in R. rewrite rev_involutive in R. subst. exists (rev q), n. cbn. rewrite <- app_assoc. reflexivity.
Qed.
Lemma takes_spec z y d : sub z y -> (cty_eqb y z || derives d (below y z) = true <-> takes z y d).
Proof.
  intros H. rewrite orb_true_iff, cty_eqb_spec. destruct (sub_split H) as [->|(p & n & ->)].
  - split; [intros _; apply tk_same; reflexivity|auto].
  - rewrite below_spec, derives_spec. split.
    + intros [E|D]; [apply tk_same; exact E|apply (tk_below (n := n) (p := p)); auto].
    + intros [E|m q E D]; [auto|]. right. assert (n = m) as ->; [|exact D].
      apply (f_equal (@rev nat)) in E. rewrite !rev_app_distr in E. cbn in E. rewrite <- !app_assoc in E. apply app_inv_head in E. injection E as -> _. reflexivity.
Qed.

Section Std.
Variable cxx17 : bool.
Local Notation ostep := (ostep cxx17).
Local Notation oexec := (oexec cxx17).
Local Notation oreach := (oreach cxx17).

Lemma slot_spec z l i : slot (mkCarr z (Some l)) i = if (0 <=? i) && (i <? Z.of_nat (length l)) then Some (l, Z.to_nat i) else None.
Proof. reflexivity. Qed.
Lemma split_nth A (l : list A) i : 0 <= i < Z.of_nat (length l) -> exists l1 e l2, l = l1 ++ e :: l2 /\ Z.of_nat (length l1) = i.
Proof.
  intros H. destruct (nth_error l (Z.to_nat i)) as [e|] eqn:N; [|apply nth_error_None in N; lia].
  destruct (nth_error_split _ _ N) as (l1 & l2 & -> & L). exists l1, e, l2. split; [reflexivity|lia].
Qed.
Lemma list_set_mid A (l1 l2 : list A) e v : list_set (l1 ++ e :: l2) (length l1) v = l1 ++ v :: l2.
Proof. induction l1; cbn; congruence. Qed.
Lemma aput_get s a c b x : carray s a = Some x -> nth_error (o_arrs (aput s a c)) b = if Nat.eqb a b then Some c else nth_error (o_arrs s) b.
Proof.
  intros H. cbn. rewrite nth_list_set. destruct (Nat.eqb_spec a b) as [<-|]; [|reflexivity]. unfold carray in H. destruct (nth_error (o_arrs s) a); [reflexivity|discriminate].
Qed.
Lemma set_stored s a z l y i v : has s a z l -> 0 <= i < Z.of_nat (length l) ->
  match v with Some x => exists o, obj s x o /\ takes z y (ob_ty o) | None => True end -> sub z y ->
  exists s', set_ s a (mkCarr z (Some l)) y i v = Some (DDone, s') /\ stored s a i v s'.
Proof.
  intros H R V Sy. unfold set_. cbn [ca_ty].
  replace (match v with Some x => match nth_error (o_objs s) x with Some o => cty_eqb y z || derives (ob_ty o) (below y z) | None => false end | None => true end) with true.
  2: { destruct v as [x|]; [|reflexivity]. destruct V as (o & -> & T). symmetry. apply takes_spec; assumption. }
  rewrite slot_spec. destruct (Z.leb_spec 0 i), (Z.ltb_spec i (Z.of_nat (length l))); try lia. cbn [andb]. eexists. split; [reflexivity|].
  destruct (split_nth R) as (l1 & e & l2 & -> & L). split; [reflexivity|]. split; [cbn; apply list_set_length|]. split.
  - intros b N. rewrite (aput_get _ _ H). destruct (Nat.eqb_spec a b); congruence.
  - exists z, l1, e, l2. split; [exact H|]. split; [exact L|]. unfold has, carray. rewrite (aput_get _ _ H), Nat.eqb_refl. rewrite <- L, Nat2Z.id, list_set_mid. reflexivity.
Qed.
Lemma set_undefined s a z l y i v : ~ (0 <= i < Z.of_nat (length l)) ->
  match v with Some x => exists o, obj s x o /\ takes z y (ob_ty o) | None => True end -> sub z y -> set_ s a (mkCarr z (Some l)) y i v = None.
Proof.
  intros R V Sy. unfold set_. cbn [ca_ty].
  replace (match v with Some x => match nth_error (o_objs s) x with Some o => cty_eqb y z || derives (ob_ty o) (below y z) | None => false end | None => true end) with true.
  2: { destruct v as [x|]; [|reflexivity]. destruct V as (o & -> & T). symmetry. apply takes_spec; assumption. }
  rewrite slot_spec. destruct (Z.leb_spec 0 i), (Z.ltb_spec i (Z.of_nat (length l))); try lia; reflexivity.
Qed.
Lemma set_refused s a z l y i x o : obj s x o -> ~ takes z y (ob_ty o) -> sub z y -> set_ s a (mkCarr z l) y i (Some x) = Some (DThrow, s).
Proof.
  intros O T Sy. unfold set_. cbn [ca_ty]. unfold obj in O. rewrite O. destruct (cty_eqb y z || derives (ob_ty o) (below y z)) eqn:E; [|reflexivity]. apply (takes_spec _ Sy) in E. contradiction.
Qed.
Lemma view_has s a z l y : has s a z l -> sub z y -> view s a y = Some (mkCarr z (Some l)).
Proof. intros H Sy. unfold view. rewrite H. cbn [ca_ty]. apply derives_spec in Sy. rewrite Sy. reflexivity. Qed.

(** ** Property C94 *)
(** Storing a shared pointer: the position refers to the object, or an exception and nothing changes; exactly when, for every view. *)
Theorem C94_shared s a z l y i x o : has s a z l -> sub z y -> obj s x o -> ob_auto o = false -> alive s x = true -> sub (ob_ty o) y ->
  (takes z y (ob_ty o) -> 0 <= i < Z.of_nat (length l) -> exists s', ostep (AShared a y i x) s = Some (DDone, s') /\ stored s a i (Some x) s') /\
  (takes z y (ob_ty o) -> ~ (0 <= i < Z.of_nat (length l)) -> ostep (AShared a y i x) s = None) /\
  (~ takes z y (ob_ty o) -> ostep (AShared a y i x) s = Some (DThrow, s)).
Proof.
  intros H Sy O Au Al Sd. cbn [CObjModel.ostep]. rewrite (view_has H Sy). pose proof O as O'. unfold obj in O'. rewrite O', Au, Al. apply derives_spec in Sd. rewrite Sd. cbn [andb negb].
  split; [|split].
  - intros T R. apply set_stored; eauto.
  - intros T R. apply set_undefined; eauto.
  - intros T. eapply set_refused; eauto.
Qed.
Theorem C94_null s a z l y i : has s a z l -> sub z y ->
  (0 <= i < Z.of_nat (length l) -> exists s', ostep (ANull a y i) s = Some (DDone, s') /\ stored s a i None s') /\
  (~ (0 <= i < Z.of_nat (length l)) -> ostep (ANull a y i) s = None).
Proof.
  intros H Sy. cbn [CObjModel.ostep]. rewrite (view_has H Sy). split; intros R; [apply set_stored; auto|apply set_undefined; auto].
Qed.
(** Storing a pointer or reference of static type [w]: the object itself, if user code is C++17 and the object is managed by shared pointers … *)
Theorem C94_pointer s a y i w x o : cxx17 = true -> obj s x o -> ob_auto o = false -> sub (ob_ty o) w -> sub w y ->
  ostep (ARaw a y i w x) s = ostep (AShared a y i x) s.
Proof.
  intros C O Au S1 S2. cbn [CObjModel.ostep]. unfold obj in O. rewrite O, C, Au.
  assert (sub (ob_ty o) y) as S3 by (destruct S1 as (p & ->), S2 as (q & ->); exists (p ++ q); rewrite app_assoc; reflexivity).
  apply derives_spec in S1, S2, S3. rewrite S1, S2, S3. destruct (view s a y), (alive s x); reflexivity.
Qed.
(** … otherwise a copy, of class [w] and not of the class of the object. *)
Definition copy_of (o : cobj) (w : cty) : cobj := mkObj w (ob_val o) 0 false false.
Theorem C94_copy s a z l y i w x o : cxx17 && negb (ob_auto o) = false -> has s a z l -> sub z y -> obj s x o -> alive s x = true -> sub (ob_ty o) w -> sub w y ->
  let s1 := mkO (o_objs s ++ [copy_of o w]) (o_arrs s) in let new := length (o_objs s) in
  (takes z y w -> 0 <= i < Z.of_nat (length l) -> exists s', ostep (ARaw a y i w x) s = Some (DDone, s') /\ stored s1 a i (Some new) s' /\ obj s' new (copy_of o w) /\ new <> x) /\
  (takes z y w -> ~ (0 <= i < Z.of_nat (length l)) -> ostep (ARaw a y i w x) s = None) /\
  (~ takes z y w -> ostep (ARaw a y i w x) s = Some (DThrow, s1)).
Proof.
  intros C H Sy O Al S1 S2 s1 new. cbn [CObjModel.ostep]. rewrite (view_has H Sy). pose proof O as O'. unfold obj in O'. rewrite O', Al, C. apply derives_spec in S1, S2. rewrite S1, S2. cbn [andb].
  fold (copy_of o w). fold s1. fold new.
  assert (H1 : has s1 a z l) by exact H.
  assert (O1 : obj s1 new (copy_of o w)) by (unfold obj, s1, new; cbn; rewrite nth_error_app2, Nat.sub_diag by lia; reflexivity).
  split; [|split].
  - intros T R. destruct (@set_stored s1 a z l y i (Some new) H1 R) as (s' & E & St); eauto. exists s'. split; [exact E|]. split; [exact St|]. split.
    + unfold obj. rewrite (proj1 St). exact O1.
    + assert (nth_error (o_objs s) x <> None) as Hs by congruence. apply nth_error_Some in Hs. unfold new. lia.
  - intros T R. apply set_undefined; eauto.
  - intros T. eapply set_refused; eauto.
Qed.
(** Reading gives what is there, one shared pointer more; undefined outside of the array. *)
Definition held (s : ost) (x : nat) (s' : ost) : Prop :=
  o_arrs s' = o_arrs s /\ length (o_objs s') = length (o_objs s) /\ (forall b, b <> x -> nth_error (o_objs s') b = nth_error (o_objs s) b) /\
  exists o, obj s x o /\ obj s' x (mkObj (ob_ty o) (ob_val o) (S (ob_refs o)) (ob_auto o) (ob_gone o)).

(** ** Invariant *)
Definition oinv (s : ost) : Prop := forall a c l x, carray s a = Some c -> ca_elems c = Some l -> In (Some x) l -> exists o, obj s x o /\ ob_auto o = false /\ ob_gone o = false.
Definition grows (s s' : ost) : Prop := forall x o, obj s x o -> exists o', obj s' x o' /\ ob_ty o' = ob_ty o /\ ob_auto o' = ob_auto o /\ (ob_auto o = false -> ob_gone o' = ob_gone o).
Lemma grows_refl s : grows s s.
Proof. intros x o O. eauto. Qed.
Lemma grows_app s l : grows s (mkO (o_objs s ++ l) (o_arrs s)).
Proof. intros x o O. exists o. split; [|auto]. unfold obj in *; cbn. rewrite nth_error_app1; [exact O|]. apply nth_error_Some. congruence. Qed.
Lemma grows_oset s x o o' : obj s x o -> ob_ty o' = ob_ty o -> ob_auto o' = ob_auto o -> (ob_auto o = false -> ob_gone o' = ob_gone o) -> grows s (oset s x o').
Proof.
  intros O T A G y p P. unfold obj in *; cbn. rewrite nth_list_set. destruct (Nat.eqb_spec x y) as [<-|]; [|eauto]. rewrite O in P |- *. injection P as <-. eauto.
Qed.
Lemma set_cases s a c y i v w s' : carray s a = Some c -> set_ s a c y i v = Some (w, s') ->
  (w = DThrow /\ s' = s) \/ (w = DDone /\ exists l k, ca_elems c = Some l /\ k = Z.to_nat i /\ (k < length l)%nat /\ s' = aput s a (Some (mkCarr (ca_ty c) (Some (list_set l k v)))) /\
     match v with Some x => exists o, obj s x o /\ cty_eqb y (ca_ty c) || derives (ob_ty o) (below y (ca_ty c)) = true | None => True end).
Proof.
  intros A E. unfold set_ in E.
  destruct (match v with Some x => match nth_error (o_objs s) x with Some o => cty_eqb y (ca_ty c) || derives (ob_ty o) (below y (ca_ty c)) | None => false end | None => true end) eqn:Ac.
  - right. unfold slot in E. destruct (ca_elems c) as [l|]; [|discriminate]. destruct ((0 <=? i) && (i <? Z.of_nat (length l))) eqn:R; [|discriminate]. injection E as <- <-.
    split; [reflexivity|]. exists l, (Z.to_nat i). apply andb_prop in R. destruct R as [R1 R2]. apply Z.leb_le in R1. apply Z.ltb_lt in R2. repeat split; auto; [lia|].
    destruct v as [x|]; [|exact I]. destruct (nth_error (o_objs s) x) as [o|] eqn:O; [|discriminate]. exists o. auto.
  - injection E as <- <-. auto.
Qed.
Lemma view_array s a y c : view s a y = Some c -> carray s a = Some c /\ sub (ca_ty c) y.
Proof. unfold view. destruct (carray s a) as [c0|]; [|discriminate]. destruct (derives (ca_ty c0) y) eqn:D; [|discriminate]. intros [= <-]. apply derives_spec in D. auto. Qed.
Lemma In_list_set A (l : list A) k x y : In y (list_set l k x) -> y = x \/ In y l.
Proof. revert k. induction l as [|z l IH]; intros [|k]; cbn; try tauto; [intuition|]. intros [->|H]; [auto|]. apply IH in H. tauto. Qed.
Lemma inv_grows s s' : oinv s -> grows s s' -> o_arrs s' = o_arrs s -> oinv s'.
Proof.
  intros I G E a c l x A L X. unfold carray in A. rewrite E in A. destruct (I a c l x A L X) as (o & O & Au & Go). destruct (G x o O) as (o' & O' & T & A' & G'). exists o'. rewrite A', (G' Au). auto.
Qed.
Lemma inv_aput s a c : oinv s -> (forall c' l x, c = Some c' -> ca_elems c' = Some l -> In (Some x) l -> exists o, obj s x o /\ ob_auto o = false /\ ob_gone o = false) -> oinv (aput s a c).
Proof.
  intros I H b c' l x A L X. unfold carray in A; cbn in A. rewrite nth_list_set in A. destruct (Nat.eqb a b).
  - destruct (nth_error (o_arrs s) b); [|discriminate]. exact (H c' l x A L X).
  - exact (I b c' l x A L X).
Qed.
Lemma inv_set s a c y i v w s' : oinv s -> carray s a = Some c -> match v with Some x => exists o, obj s x o /\ ob_auto o = false /\ ob_gone o = false | None => True end ->
  set_ s a c y i v = Some (w, s') -> oinv s' /\ grows s s'.
Proof.
  intros I A V E. destruct (set_cases A E) as [[_ ->]|(_ & l & k & L & _ & _ & -> & _)]; [auto using grows_refl|]. split; [|intros x o O; exists o; auto].
  apply inv_aput; [exact I|]. intros c' l' x [= <-] [= <-] X. apply In_list_set in X. destruct X as [X|X]; [subst; exact V|]. exact (I a c l x A L X).
Qed.
Definition oinv2 (s : ost) : Prop := oinv s /\ forall x o, obj s x o -> ob_auto o = false -> ob_gone o = false.
Lemma step_inv o s v s' : oinv2 s -> ostep o s = Some (v, s') -> oinv2 s' /\ grows s s'.
Proof.
  intros [I J] E.
  assert (App : forall o0, (ob_auto o0 = false -> ob_gone o0 = false) -> oinv2 (mkO (o_objs s ++ [o0]) (o_arrs s)) /\ grows s (mkO (o_objs s ++ [o0]) (o_arrs s))).
  { intros o0 H0. split; [split; [eapply inv_grows; [exact I|apply grows_app|reflexivity]|]|apply grows_app]. intros x p P. unfold obj in P; cbn in P.
    destruct (Nat.lt_ge_cases x (length (o_objs s))) as [H|H]; [rewrite nth_error_app1 in P by lia; apply (J x p P)|]. rewrite nth_error_app2 in P by lia.
    destruct (x - length (o_objs s))%nat as [|[|]]; cbn in P; try discriminate. injection P as <-. exact H0. }
  assert (Os : forall x p p', obj s x p -> ob_ty p' = ob_ty p -> ob_auto p' = ob_auto p -> (ob_auto p = false -> ob_gone p' = ob_gone p) -> oinv2 (oset s x p') /\ grows s (oset s x p')).
  { intros x p p' P T A G. assert (grows s (oset s x p')) as Gr by (eapply grows_oset; eauto). split; [|exact Gr]. split; [eapply inv_grows; [exact I|exact Gr|reflexivity]|].
    intros y q Q Aq. unfold obj in Q; cbn in Q. rewrite nth_list_set in Q. destruct (Nat.eqb x y); [|apply (J y q Q Aq)]. destruct (nth_error (o_objs s) y); [|discriminate]. injection Q as <-.
    rewrite A in Aq. rewrite (G Aq). apply (J x p P Aq). }
  assert (St : forall s0 a c y i u, oinv2 s0 -> grows s s0 -> carray s0 a = Some c -> match u with Some x => exists o, obj s0 x o /\ ob_auto o = false | None => True end ->
               set_ s0 a c y i u = Some (v, s') -> oinv2 s' /\ grows s s').
  { intros s0 a c y i u [I0 J0] G0 A U H. destruct (inv_set (s := s0) (a := a) (c := c) (y := y) (i := i) (v := u) (w := v) (s' := s') I0 A) as [I1 G1].
    - destruct u as [x|]; [|exact Logic.I]. destruct U as (p & P & Pa). exists p. split; [exact P|]. split; [exact Pa|]. apply (J0 x p P Pa).
    - exact H.
    - assert (o_objs s' = o_objs s0) as Eo by (destruct (set_cases A H) as [[_ ->]|(_ & l & k & _ & _ & _ & -> & _)]; reflexivity).
      split; [split; [exact I1|unfold obj; rewrite Eo; exact J0]|]. intros x p P. destruct (G0 x p P) as (p' & P' & R). exists p'. split; [unfold obj; rewrite Eo; exact P'|exact R]. }
  destruct o as [z u|z u|x|x|x|x|x u|z|z n|a y i|a y i|a y i x|a y i w x|a|a]; cbn [CObjModel.ostep] in E.
  - injection E as _ <-. apply App. reflexivity.
  - injection E as _ <-. apply App. discriminate.
  - destruct (nth_error (o_objs s) x) as [p|] eqn:P; [|discriminate]. destruct (ob_auto p) eqn:A; [|discriminate]. destruct (ob_gone p); [discriminate|]. injection E as _ <-. apply (Os x p); auto. congruence.
  - destruct (nth_error (o_objs s) x) as [p|] eqn:P; [|discriminate]. destruct (ob_auto p) eqn:A; [discriminate|]. destruct (0 <? ob_refs p)%nat; [|discriminate]. injection E as _ <-. apply (Os x p); auto. intros _. symmetry. apply (J x p P A).
  - destruct (nth_error (o_objs s) x) as [p|] eqn:P; [|discriminate]. destruct (ob_auto p) eqn:A; [discriminate|]. destruct (0 <? ob_refs p)%nat; [|discriminate]. injection E as _ <-. apply (Os x p); auto. intros _. symmetry. apply (J x p P A).
  - destruct (nth_error (o_objs s) x); [|discriminate]. destruct (alive s x); [|discriminate]. injection E as _ <-. split; [split; assumption|apply grows_refl].
  - destruct (nth_error (o_objs s) x) as [p|] eqn:P; [|discriminate]. destruct (alive s x); [|discriminate]. injection E as _ <-. apply (Os x p); auto.
  - injection E as _ <-. split; [|intros x o O; exists o; auto]. split; [|exact J]. intros a c l x A L X. unfold carray in A; cbn in A.
    destruct (Nat.lt_ge_cases a (length (o_arrs s))) as [H|H]; [rewrite nth_error_app1 in A by lia; apply (I a c l x A L X)|]. rewrite nth_error_app2 in A by lia.
    destruct (a - length (o_arrs s))%nat as [|[|]]; cbn in A; try discriminate. injection A as <-. discriminate.
  - destruct (n <? 0); [injection E as _ <-; split; [split; assumption|apply grows_refl]|]. injection E as _ <-. split; [|intros x o O; exists o; auto]. split; [|exact J]. intros a c l x A L X. unfold carray in A; cbn in A.
    destruct (Nat.lt_ge_cases a (length (o_arrs s))) as [H|H]; [rewrite nth_error_app1 in A by lia; apply (I a c l x A L X)|]. rewrite nth_error_app2 in A by lia.
    destruct (a - length (o_arrs s))%nat as [|[|]]; cbn in A; try discriminate. injection A as <-. injection L as <-. apply repeat_spec in X. discriminate.
  - destruct (view s a y) as [c|] eqn:V; [|discriminate]. destruct (view_array V) as [A _]. unfold slot in E. destruct (ca_elems c) as [l|] eqn:L; [|discriminate].
    destruct ((0 <=? i) && (i <? Z.of_nat (length l))); [|discriminate]. destruct (nth_error l (Z.to_nat i)) as [[x|]|] eqn:N; try (injection E as _ <-; split; [split; assumption|apply grows_refl]).
    destruct (I a c l x A L (nth_error_In _ _ N)) as (p & P & Pa & Pg). unfold obj in P. rewrite P in E. injection E as _ <-. apply (Os x p); auto.
  - destruct (view s a y) as [c|] eqn:V; [|discriminate]. destruct (view_array V) as [A _]. apply (St s a c y i None (conj I J) (@grows_refl s) A Logic.I E).
  - destruct (view s a y) as [c|] eqn:V; [|discriminate]. destruct (view_array V) as [A _]. destruct (nth_error (o_objs s) x) as [p|] eqn:P; [|discriminate].
    destruct (derives (ob_ty p) y && negb (ob_auto p) && alive s x) eqn:Q; [|discriminate]. apply andb_prop in Q. destruct Q as [Q _]. apply andb_prop in Q. destruct Q as [_ Q]. apply negb_true_iff in Q.
    apply (St s a c y i (Some x)); auto using grows_refl; [split; assumption|eauto].
  - destruct (view s a y) as [c|] eqn:V; [|discriminate]. destruct (view_array V) as [A _]. destruct (nth_error (o_objs s) x) as [p|] eqn:P; [|discriminate].
    destruct (derives (ob_ty p) w && derives w y && alive s x); [|discriminate]. destruct (cxx17 && negb (ob_auto p)) eqn:Q.
    + apply andb_prop in Q. destruct Q as [_ Q]. apply negb_true_iff in Q. apply (St s a c y i (Some x)); auto using grows_refl; [split; assumption|eauto].
    + destruct (App (copy_of p w) (fun _ => eq_refl)) as [I1 G1]. refine (St _ a c y i (Some (length (o_objs s))) I1 G1 A _ E).
      exists (copy_of p w). split; [|reflexivity]. unfold obj; cbn. rewrite nth_error_app2, Nat.sub_diag by lia. reflexivity.
  - destruct (carray s a); [|discriminate]. injection E as _ <-. split; [split; assumption|apply grows_refl].
  - destruct (carray s a); [|discriminate]. injection E as _ <-. split; [|intros x o O; exists o; auto]. split; [|exact J]. apply inv_aput; [exact I|discriminate].
Qed.
Lemma exec_inv l s vs s' : oinv2 s -> oexec l s = Some (vs, s') -> oinv2 s' /\ grows s s'.
Proof.
  revert s vs. induction l as [|o l IH]; intros s vs I E; cbn in E; [injection E as <- <-; auto using grows_refl|].
  destruct (ostep o s) as [[v s1]|] eqn:E1; [|discriminate]. destruct (oexec l s1) as [[ws s2]|] eqn:E2; [|discriminate]. injection E as <- <-.
  destruct (step_inv I E1) as [I1 G1]. destruct (IH s1 ws I1 E2) as [I2 G2]. split; [exact I2|]. intros x p P. destruct (G1 x p P) as (q & Q & T & A & G). destruct (G2 x q Q) as (r & R & T' & A' & G').
  exists r. split; [exact R|]. split; [congruence|]. split; [congruence|]. intros H. rewrite G', G by congruence. reflexivity.
Qed.
Lemma reach_inv s : oreach s -> oinv2 s.
Proof. intros (l & vs & E). refine (proj1 (exec_inv (s := oinit) _ E)). split; [intros [|a] c l0 x; discriminate|intros [|x] o; discriminate]. Qed.

(** Reading gives what is there, and user code holds it; undefined outside of the array and without storage. *)
Theorem C94_get s a z l y i : oreach s -> has s a z l -> sub z y ->
  (forall l1 l2, l = l1 ++ None :: l2 -> Z.of_nat (length l1) = i -> ostep (AGet a y i) s = Some (DRef None, s)) /\
  (forall l1 x l2, l = l1 ++ Some x :: l2 -> Z.of_nat (length l1) = i -> exists s', ostep (AGet a y i) s = Some (DRef (Some x), s') /\ held s x s') /\
  (~ (0 <= i < Z.of_nat (length l)) -> ostep (AGet a y i) s = None).
Proof.
  intros R H Sy. destruct (reach_inv R) as [I J]. cbn [CObjModel.ostep]. rewrite (view_has H Sy), slot_spec.
  assert (In_ : forall l1 (e : option nat) l2, l = l1 ++ e :: l2 -> Z.of_nat (length l1) = i ->
    (if (0 <=? i) && (i <? Z.of_nat (length l)) then Some (l, Z.to_nat i) else None) = Some (l, length l1) /\ nth_error l (length l1) = Some e).
  { intros l1 e l2 -> <-. rewrite app_length. cbn [length]. rewrite Nat2Z.id. destruct (Z.leb_spec 0 (Z.of_nat (length l1))), (Z.ltb_spec (Z.of_nat (length l1)) (Z.of_nat (length l1 + S (length l2)))); try lia.
    split; [reflexivity|]. rewrite nth_error_app2, Nat.sub_diag by lia. reflexivity. }
  split; [|split].
  - intros l1 l2 E L. destruct (In_ _ _ _ E L) as [-> ->]. reflexivity.
  - intros l1 x l2 E L. destruct (In_ _ _ _ E L) as [-> ->]. destruct (I a _ l x H eq_refl) as (o & O & Au & Go); [rewrite E; apply in_elt|]. pose proof O as O'. unfold obj in O'. rewrite O'.
    eexists. split; [reflexivity|]. split; [reflexivity|]. split; [cbn; apply list_set_length|]. split.
    + intros b N. cbn. rewrite nth_list_set. destruct (Nat.eqb_spec x b); congruence.
    + exists o. split; [exact O|]. rewrite Au, Go. unfold obj; cbn. rewrite nth_list_set, Nat.eqb_refl, O'. reflexivity.
  - intros N. destruct (Z.leb_spec 0 i), (Z.ltb_spec i (Z.of_nat (length l))); try lia; reflexivity.
Qed.
Theorem C94_new s z n : (n < 0 -> ostep (ANew z n) s = Some (DThrow, s)) /\
  (0 <= n -> exists a s', ostep (ANew z n) s = Some (DNew a, s') /\ carray s a = None /\ has s' a z (repeat None (Z.to_nat n)) /\
     ostep (ASize a) s' = Some (DVal n, s') /\ o_objs s' = o_objs s /\ forall b c, carray s b = Some c -> carray s' b = Some c).
Proof.
  cbn [CObjModel.ostep]. destruct (Z.ltb_spec n 0); split; intros Hn; try lia; [reflexivity|]. eexists. eexists. split; [reflexivity|].
  assert (carray s (length (o_arrs s)) = None) as -> by (unfold carray; destruct (nth_error (o_arrs s) (length (o_arrs s))) eqn:N; [|reflexivity]; assert (nth_error (o_arrs s) (length (o_arrs s)) <> None) as Hs by congruence; apply nth_error_Some in Hs; lia).
  split; [reflexivity|]. assert (H1 : has (mkO (o_objs s) (o_arrs s ++ [Some (mkCarr z (Some (repeat None (Z.to_nat n))))])) (length (o_arrs s)) z (repeat None (Z.to_nat n))).
  { unfold has, carray; cbn. rewrite nth_error_app2, Nat.sub_diag by lia. reflexivity. }
  split; [exact H1|]. split; [rewrite H1; cbn; rewrite repeat_length, Z2Nat.id by lia; reflexivity|]. split; [reflexivity|].
  intros b c A. unfold carray in *; cbn. destruct (nth_error (o_arrs s) b) eqn:N; [|discriminate]. rewrite nth_error_app1, N; [exact A|]. apply nth_error_Some. congruence.
Qed.
(** A default constructed array has size 0 and no elements. *)
Theorem C94_empty s z : exists a s', ostep (AEmpty z) s = Some (DNew a, s') /\ carray s a = None /\ ostep (ASize a) s' = Some (DVal 0, s') /\ o_objs s' = o_objs s /\
  (forall b c, carray s b = Some c -> carray s' b = Some c) /\ forall y i, ostep (AGet a y i) s' = None /\ ostep (ANull a y i) s' = None.
Proof.
  cbn [CObjModel.ostep]. eexists. eexists. split; [reflexivity|].
  split; [unfold carray; destruct (nth_error (o_arrs s) (length (o_arrs s))) eqn:N; [|reflexivity]; assert (nth_error (o_arrs s) (length (o_arrs s)) <> None) as Hs by congruence; apply nth_error_Some in Hs; lia|].
  assert (H1 : carray (mkO (o_objs s) (o_arrs s ++ [Some (mkCarr z None)])) (length (o_arrs s)) = Some (mkCarr z None)).
  { unfold carray; cbn. rewrite nth_error_app2, Nat.sub_diag by lia. reflexivity. }
  rewrite H1. split; [reflexivity|]. split; [reflexivity|]. split.
  - intros b c A. unfold carray in *; cbn. destruct (nth_error (o_arrs s) b) eqn:N; [|discriminate]. rewrite nth_error_app1, N; [exact A|]. apply nth_error_Some. congruence.
  - intros y i. unfold view. rewrite H1. destruct (derives (ca_ty (mkCarr z None)) y); auto.
Qed.

(** *** Elements keep their objects alive *)
Theorem C94_alive s x : oreach s -> (alive s x = true <-> exists o, obj s x o /\
  (ob_auto o = true /\ ob_gone o = false \/ ob_auto o = false /\ ((0 < ob_refs o)%nat \/ exists a z l, has s a z l /\ In (Some x) l))).
Proof.
  intros R. unfold alive. fold (obj s x). destruct (nth_error (o_objs s) x) as [o|] eqn:O; [|split; [discriminate|intros (o & O' & _); unfold obj in O'; congruence]].
  assert (Ex : existsb (holds x) (o_arrs s) = true <-> exists a z l, has s a z l /\ In (Some x) l).
  { rewrite existsb_exists. split.
    - intros (c & Ic & Hc). destruct c as [[z [l|]]|]; cbn in Hc; try discriminate. apply In_nth_error in Ic. destruct Ic as (a & N). apply existsb_exists in Hc. destruct Hc as ([y|] & Iy & Ey); [|discriminate].
      apply Nat.eqb_eq in Ey. subst y. exists a, z, l. split; [unfold has, carray; rewrite N; reflexivity|exact Iy].
    - intros (a & z & l & H & Ix). unfold has, carray in H. destruct (nth_error (o_arrs s) a) as [c|] eqn:N; [|discriminate]. subst c. exists (Some (mkCarr z (Some l))). split; [eapply nth_error_In; eassumption|].
      cbn. apply existsb_exists. exists (Some x). rewrite Nat.eqb_refl. auto. }
  destruct (ob_auto o) eqn:A.
  - rewrite negb_true_iff. split; [intros G; exists o; auto|]. intros (o' & O' & [[_ G]|[A' _]]); unfold obj in O'; congruence.
  - rewrite orb_true_iff, Nat.ltb_lt, Ex. split; [intros G; exists o; auto|]. intros (o' & O' & [[A' _]|[_ G]]); unfold obj in O'; [congruence|]. assert (o' = o) as -> by congruence. exact G.
Qed.
(** [o] may change position [k] of array [a]. *)
Inductive touches (a k : nat) : oop -> Prop :=
| to_null y i : Z.to_nat i = k -> touches a k (ANull a y i)
| to_shared y i x : Z.to_nat i = k -> touches a k (AShared a y i x)
| to_raw y i w x : Z.to_nat i = k -> touches a k (ARaw a y i w x)
| to_destroy : touches a k (ADestroy a).
Definition elem (s : ost) (a k : nat) (x : nat) : Prop := exists z l, has s a z l /\ nth_error l k = Some (Some x).
Lemma set_elem s a k x b c y i u v s' : carray s b = Some c -> set_ s b c y i u = Some (v, s') -> (b = a -> Z.to_nat i <> k) -> elem s a k x -> elem s' a k x.
Proof.
  intros A E N (z & l & H & X). destruct (set_cases A E) as [[_ ->]|(_ & m & j & M & -> & _ & -> & _)]; [exists z, l; auto|].
  unfold elem, has, carray. setoid_rewrite (aput_get _ _ A). destruct (Nat.eqb_spec b a) as [->|]; [|exists z, l; split; [exact H|exact X]].
  assert (c = mkCarr z (Some l)) as -> by (unfold has in H; congruence). cbn in M. injection M as <-. eexists. eexists. split; [reflexivity|].
  rewrite nth_list_set. destruct (Nat.eqb_spec (Z.to_nat i) k); [destruct (N eq_refl); assumption|exact X].
Qed.
Lemma step_elem o s v s' a k x : ostep o s = Some (v, s') -> ~ touches a k o -> elem s a k x -> elem s' a k x.
Proof.
  intros E N (z & l & H & X).
  assert (Same : o_arrs s' = o_arrs s -> elem s' a k x) by (intros Eq; exists z, l; unfold has, carray; rewrite Eq; auto).
  assert (App : forall c, o_arrs s' = o_arrs s ++ [c] -> elem s' a k x).
  { intros c Eq. exists z, l. split; [|exact X]. unfold has, carray in *. rewrite Eq. destruct (nth_error (o_arrs s) a) eqn:Na; [|discriminate]. rewrite nth_error_app1, Na; [exact H|]. apply nth_error_Some. congruence. }
  destruct o as [z0 u|z0 u|x0|x0|x0|x0|x0 u|z0|z0 n|b y i|b y i|b y i x0|b y i w x0|b|b]; cbn [CObjModel.ostep] in E;
    try (destruct (nth_error (o_objs s) x0) as [p|] eqn:P; [|try discriminate; destruct (view s b y); discriminate]).
  - injection E as _ <-. apply Same. reflexivity.
  - injection E as _ <-. apply Same. reflexivity.
  - destruct (ob_auto p && negb (ob_gone p)); [|discriminate]. injection E as _ <-. apply Same. reflexivity.
  - destruct (negb (ob_auto p) && (0 <? ob_refs p)%nat); [|discriminate]. injection E as _ <-. apply Same. reflexivity.
  - destruct (negb (ob_auto p) && (0 <? ob_refs p)%nat); [|discriminate]. injection E as _ <-. apply Same. reflexivity.
  - destruct (alive s x0); [|discriminate]. injection E as _ <-. apply Same. reflexivity.
  - destruct (alive s x0); [|discriminate]. injection E as _ <-. apply Same. reflexivity.
  - injection E as _ <-. eapply App. reflexivity.
  - destruct (n <? 0); injection E as _ <-; [apply Same; reflexivity|eapply App; reflexivity].
  - destruct (view s b y) as [c|]; [|discriminate]. destruct (slot c i) as [[m j]|]; [|discriminate]. destruct (nth_error m j) as [[x1|]|]; try (injection E as _ <-; apply Same; reflexivity).
    destruct (nth_error (o_objs s) x1); [|discriminate]. injection E as _ <-. apply Same. reflexivity.
  - destruct (view s b y) as [c|] eqn:V; [|discriminate]. apply view_array in V. apply (set_elem (x := x) (a := a) (k := k) (proj1 V) E); [|exists z, l; auto]. intros -> Q. apply N. constructor. exact Q.
  - destruct (view s b y) as [c|] eqn:V; [|discriminate]. apply view_array in V. destruct (derives (ob_ty p) y && negb (ob_auto p) && alive s x0); [|discriminate].
    apply (set_elem (x := x) (a := a) (k := k) (proj1 V) E); [|exists z, l; auto]. intros -> Q. apply N. constructor. exact Q.
  - destruct (view s b y) as [c|] eqn:V; [|discriminate]. apply view_array in V. destruct (derives (ob_ty p) w && derives w y && alive s x0); [|discriminate].
    destruct (cxx17 && negb (ob_auto p)).
    + apply (set_elem (x := x) (a := a) (k := k) (proj1 V) E); [|exists z, l; auto]. intros -> Q. apply N. constructor. exact Q.
    + refine (set_elem (x := x) (a := a) (k := k) (s := mkO (o_objs s ++ [mkObj w (ob_val p) 0 false false]) (o_arrs s)) (proj1 V) E _ _); [|exists z, l; auto]. intros -> Q. apply N. constructor. exact Q.
  - destruct (carray s b); [|discriminate]. injection E as _ <-. apply Same. reflexivity.
  - destruct (carray s b) eqn:A; [|discriminate]. injection E as _ <-. exists z, l. split; [|exact X]. unfold has, carray. rewrite (aput_get _ _ A). destruct (Nat.eqb_spec b a) as [->|]; [|exact H]. destruct N. constructor.
Qed.
(** Whatever happens to the rest, an element refers to the same object, which is alive and of the same class, until the position is assigned or the array is destroyed. *)
Theorem C94_kept s l vs s' a k x o : oreach s -> oexec l s = Some (vs, s') -> Forall (fun op => ~ touches a k op) l -> elem s a k x -> obj s x o ->
  elem s' a k x /\ alive s' x = true /\ exists o', obj s' x o' /\ ob_ty o' = ob_ty o.
Proof.
  intros R E F X O. pose proof (reach_inv R) as I. destruct (exec_inv I E) as [I' G]. destruct (G x o O) as (o' & O' & T & A & _).
  assert (X' : elem s' a k x).
  { clear - E F X. revert s vs E X. induction F as [|p l N F IH]; intros s vs E X; cbn in E; [injection E as <- <-; exact X|].
    destruct (ostep p s) as [[v s1]|] eqn:E1; [|discriminate]. destruct (oexec l s1) as [[ws s2]|] eqn:E2; [|discriminate]. injection E as <- <-. apply (IH s1 ws E2). apply (step_elem E1 N X). }
  split; [exact X'|]. split; [|eauto]. destruct R as (l0 & vs0 & E0).
  assert (R' : oreach s').
  { exists (l0 ++ l), (vs0 ++ vs). clear - E0 E. revert vs0 E0. generalize oinit. induction l0 as [|p l0 IH]; intros s0 vs0 E0; cbn in *; [injection E0 as <- <-; exact E|].
    destruct (ostep p s0) as [[v s1]|]; [|discriminate]. destruct (oexec l0 s1) as [[ws s2]|] eqn:E2; [|discriminate]. injection E0 as <- ->. rewrite (IH s1 ws E2). reflexivity. }
  apply (C94_alive x R'). destruct X' as (z & m & H & Hm). destruct I' as [I' _]. destruct (I' a _ m x H eq_refl (nth_error_In _ _ Hm)) as (p & P & Pa & _).
  exists p. split; [exact P|]. right. split; [exact Pa|]. right. exists a, z, m. split; [exact H|eapply nth_error_In; eassumption].
Qed.
(** Destroying an array drops its elements and nothing else. *)
Theorem C94_destroy s a c : oreach s -> carray s a = Some c -> exists s', ostep (ADestroy a) s = Some (DDone, s') /\ o_objs s' = o_objs s /\ carray s' a = None /\
  (forall b, b <> a -> carray s' b = carray s b) /\
  forall x o, obj s x o -> ob_auto o = false -> (alive s' x = true <-> (0 < ob_refs o)%nat \/ exists b z l, b <> a /\ has s b z l /\ In (Some x) l).
Proof.
  intros R A. assert (E : ostep (ADestroy a) s = Some (DDone, aput s a None)) by (cbn; rewrite A; reflexivity). exists (aput s a None). split; [exact E|]. split; [reflexivity|].
  assert (C : forall b, carray (aput s a None) b = if Nat.eqb a b then None else carray s b) by (intros b; unfold carray; rewrite (aput_get _ _ A); destruct (Nat.eqb a b); reflexivity).
  split; [rewrite C, Nat.eqb_refl; reflexivity|]. split; [intros b N; rewrite C; destruct (Nat.eqb_spec a b); congruence|].
  assert (R' : oreach (aput s a None)).
  { destruct R as (l0 & vs0 & E0). exists (l0 ++ [ADestroy a]), (vs0 ++ [DDone]). clear - E0 E. revert vs0 E0. generalize oinit. induction l0 as [|p l0 IH]; intros s0 vs0 E0; cbn [app CObjModel.oexec] in *; [injection E0 as <- <-; rewrite E; reflexivity|].
    destruct (ostep p s0) as [[v s1]|]; [|discriminate]. destruct (oexec l0 s1) as [[ws s2]|] eqn:E2; [|discriminate]. injection E0 as <- ->. rewrite (IH s1 ws E2). reflexivity. }
  intros x o O Au. rewrite (C94_alive x R'). split.
  - intros (o' & O' & H). change (obj s x o') in O'. assert (o' = o) as -> by (unfold obj in *; congruence). destruct H as [[H _]|[_ [H|(b & z & l & H & X)]]]; [congruence|auto|].
    right. unfold has in H. rewrite C in H. destruct (Nat.eqb_spec a b) as [|N]; [discriminate|]. exists b, z, l. auto.
  - intros H. exists o. split; [exact O|]. right. split; [exact Au|]. destruct H as [H|(b & z & l & N & H & X)]; [auto|]. right. exists b, z, l. split; [|exact X]. unfold has. rewrite C. destruct (Nat.eqb_spec a b); [congruence|exact H].
Qed.
(** The content of an object changes only when it is assigned itself. *)
Theorem C94_content s o v s' x p : ostep o s = Some (v, s') -> obj s x p -> (forall u, o <> OPut x u) -> exists p', obj s' x p' /\ ob_val p' = ob_val p.
Proof.
  intros E P N.
  assert (App : forall q b, exists p', obj (mkO (o_objs s ++ [q]) b) x p' /\ ob_val p' = ob_val p).
  { intros q b. exists p. split; [|reflexivity]. unfold obj in *; cbn. rewrite nth_error_app1; [exact P|]. apply nth_error_Some. congruence. }
  assert (Os : forall y q q', obj s y q -> ob_val q' = ob_val q -> exists p', obj (oset s y q') x p' /\ ob_val p' = ob_val p).
  { intros y q q' Q V. unfold obj in *; cbn. rewrite nth_list_set. destruct (Nat.eqb_spec y x) as [->|]; [|eauto]. rewrite P in *. injection Q as <-. eauto. }
  assert (St : forall s0 a c y i u, (exists p', obj s0 x p' /\ ob_val p' = ob_val p) -> set_ s0 a c y i u = Some (v, s') -> exists p', obj s' x p' /\ ob_val p' = ob_val p).
  { intros s0 a c y i u H X. unfold set_ in X. destruct (match u with Some _ => _ | None => _ end); [|injection X as _ <-; exact H]. destruct (slot c i) as [[m j]|]; [|discriminate]. injection X as _ <-. exact H. }
  destruct o as [z0 u|z0 u|x0|x0|x0|x0|x0 u|z0|z0 n|b y i|b y i|b y i x0|b y i w x0|b|b]; cbn [CObjModel.ostep] in E;
    try (destruct (nth_error (o_objs s) x0) as [q|] eqn:Q; [|try discriminate; destruct (view s b y); discriminate]).
  - injection E as _ <-. apply App.
  - injection E as _ <-. apply App.
  - destruct (ob_auto q && negb (ob_gone q)); [|discriminate]. injection E as _ <-. eapply Os; [exact Q|reflexivity].
  - destruct (negb (ob_auto q) && (0 <? ob_refs q)%nat); [|discriminate]. injection E as _ <-. eapply Os; [exact Q|reflexivity].
  - destruct (negb (ob_auto q) && (0 <? ob_refs q)%nat); [|discriminate]. injection E as _ <-. eapply Os; [exact Q|reflexivity].
  - destruct (alive s x0); [|discriminate]. injection E as _ <-. eauto.
  - destruct (alive s x0); [|discriminate]. injection E as _ <-. exists p. split; [|reflexivity]. unfold obj in *; cbn. rewrite nth_list_set. destruct (Nat.eqb_spec x0 x) as [->|]; [|exact P]. destruct (N u eq_refl).
  - injection E as _ <-. eauto.
  - destruct (n <? 0); injection E as _ <-; eauto.
  - destruct (view s b y) as [c|]; [|discriminate]. destruct (slot c i) as [[m j]|]; [|discriminate]. destruct (nth_error m j) as [[x1|]|]; [|injection E as _ <-; eauto|injection E as _ <-; eauto].
    destruct (nth_error (o_objs s) x1) as [q|] eqn:Q; [|discriminate]. injection E as _ <-. eapply Os; [exact Q|reflexivity].
  - destruct (view s b y) as [c|]; [|discriminate]. refine (St _ _ _ _ _ _ _ E); eauto.
  - destruct (view s b y) as [c|]; [|discriminate]. destruct (derives (ob_ty q) y && negb (ob_auto q) && alive s x0); [|discriminate]. refine (St _ _ _ _ _ _ _ E); eauto.
  - destruct (view s b y) as [c|]; [|discriminate]. destruct (derives (ob_ty q) w && derives w y && alive s x0); [|discriminate]. destruct (cxx17 && negb (ob_auto q)); [refine (St _ _ _ _ _ _ _ E); eauto|refine (St _ _ _ _ _ _ _ E); apply App].
  - destruct (carray s b); [|discriminate]. injection E as _ <-. eauto.
  - destruct (carray s b); [|discriminate]. injection E as _ <-. eauto.
Qed.

(** What the operations of user code do with an object: nothing else changes. *)
Definition only (s : ost) (x : nat) (o : cobj) (s' : ost) : Prop :=
  o_arrs s' = o_arrs s /\ length (o_objs s') = length (o_objs s) /\ obj s' x o /\ forall b, b <> x -> nth_error (o_objs s') b = nth_error (o_objs s) b.
Lemma oset_only s x o o' : obj s x o -> only s x o' (oset s x o').
Proof.
  intros O. split; [reflexivity|]. split; [cbn; apply list_set_length|]. split.
  - unfold obj in *. cbn. rewrite nth_list_set, Nat.eqb_refl, O. reflexivity.
  - intros b N. cbn. rewrite nth_list_set. destruct (Nat.eqb_spec x b); [congruence|reflexivity].
Qed.
Theorem C94_objects s x o : obj s x o ->
  (forall v, alive s x = true -> (exists s', ostep (OPut x v) s = Some (DDone, s') /\ only s x (mkObj (ob_ty o) v (ob_refs o) (ob_auto o) (ob_gone o)) s') /\ ostep (OValue x) s = Some (DVal (ob_val o), s)) /\
  (alive s x = false -> ostep (OValue x) s = None /\ forall v, ostep (OPut x v) s = None) /\
  (ob_auto o = false -> ob_gone o = false -> (0 < ob_refs o)%nat ->
    (exists s', ostep (OHold x) s = Some (DDone, s') /\ only s x (mkObj (ob_ty o) (ob_val o) (ob_refs o + 1) false false) s') /\
    (exists s', ostep (ODrop x) s = Some (DDone, s') /\ only s x (mkObj (ob_ty o) (ob_val o) (ob_refs o - 1) false false) s')) /\
  (ob_auto o = true \/ ob_refs o = 0%nat -> ostep (OHold x) s = None /\ ostep (ODrop x) s = None) /\
  (ob_auto o = true -> ob_gone o = false -> exists s', ostep (OEnd x) s = Some (DDone, s') /\ only s x (mkObj (ob_ty o) (ob_val o) 0 true true) s') /\
  (ob_auto o = false \/ ob_gone o = true -> ostep (OEnd x) s = None).
Proof.
  intros O. pose proof O as N. unfold obj in N. cbn [CObjModel.ostep]. rewrite N.
  split; [intros v ->; split; [eexists; split; [reflexivity|eapply oset_only; exact O]|reflexivity]|].
  split; [intros ->; split; [|intros v]; reflexivity|].
  split; [intros -> _ P; rewrite (proj2 (Nat.ltb_lt _ _) P); split; eexists; (split; [reflexivity|]); [rewrite Nat.add_1_r|rewrite Nat.sub_1_r]; eapply oset_only; exact O|].
  split; [intros [->| ->]; [split; reflexivity|]; rewrite andb_false_r; split; reflexivity|].
  split; [intros -> ->; eexists; split; [reflexivity|eapply oset_only; exact O]|].
  intros [->| ->]; [|rewrite andb_false_r]; reflexivity.
Qed.
(** Objects made by user code are new, hold the given content and have one owner. *)
Theorem C94_make s z v : let x := length (o_objs s) in
  (exists s', ostep (ONew z v) s = Some (DNew x, s') /\ o_arrs s' = o_arrs s /\ o_objs s' = o_objs s ++ [mkObj z v 1 false false]) /\
  (exists s', ostep (OAuto z v) s = Some (DNew x, s') /\ o_arrs s' = o_arrs s /\ o_objs s' = o_objs s ++ [mkObj z v 0 true false]).
Proof. split; eexists; (split; [reflexivity|split; reflexivity]). Qed.

(** *** Classes of elements *)
Definition tinv (Q : cty -> cty -> Prop) (s : ost) : Prop := forall a z l x o, has s a z l -> In (Some x) l -> obj s x o -> Q z (ob_ty o).
(** [o] stores an object through a view of [a] as an array of [y]. *)
Inductive via (a : nat) (y : cty) : oop -> Prop :=
| via_shared i x : via a y (AShared a y i x)
| via_raw i w x : via a y (ARaw a y i w x).
Lemma tinv_grows Q s s' : oinv s -> tinv Q s -> grows s s' -> o_arrs s' = o_arrs s -> tinv Q s'.
Proof.
  intros I T G E a z l x o H X O. unfold has, carray in H. rewrite E in H. destruct (I a _ l x H eq_refl X) as (p & P & _). destruct (G x p P) as (p' & P' & Ty & _).
  assert (o = p') as -> by (unfold obj in *; congruence). rewrite Ty. exact (T a z l x p H X P).
Qed.
Lemma tinv_set Q s a c y i v w s' : tinv Q s -> carray s a = Some c -> set_ s a c y i v = Some (w, s') -> sub (ca_ty c) y ->
  (forall x o, v = Some x -> obj s x o -> takes (ca_ty c) y (ob_ty o) -> Q (ca_ty c) (ob_ty o)) -> tinv Q s'.
Proof.
  intros T A E Sy K. destruct (set_cases A E) as [[_ ->]|(_ & l & k & L & _ & _ & -> & V)]; [exact T|]. intros b z m x o H X O. change (obj s x o) in O. unfold has, carray in H. rewrite (aput_get _ _ A) in H.
  destruct (Nat.eqb_spec a b) as [<-|]; [|exact (T b z m x o H X O)]. injection H as <- <-. apply In_list_set in X. destruct X as [<-|X].
  - destruct V as (o' & O' & V). assert (o' = o) as -> by (unfold obj in *; congruence). apply (K x o eq_refl O). apply takes_spec; assumption.
  - refine (T a (ca_ty c) l x o _ X O). unfold has. rewrite A. destruct c; cbn in *; congruence.
Qed.
Lemma step_tinv Q o s v s' : oinv2 s -> tinv Q s -> ostep o s = Some (v, s') ->
  (forall a y c d, via a y o -> carray s a = Some c -> sub (ca_ty c) y -> sub d y -> takes (ca_ty c) y d -> Q (ca_ty c) d) -> tinv Q s'.
Proof.
  intros I T E K. pose proof (step_inv I E) as [I' G]. destruct I as [I J].
  assert (Same : o_arrs s' = o_arrs s -> tinv Q s') by (apply tinv_grows; assumption).
  assert (App : forall c, o_objs s' = o_objs s -> o_arrs s' = o_arrs s ++ [c] -> (forall c' l x, c = Some c' -> ca_elems c' = Some l -> ~ In (Some x) l) -> tinv Q s').
  { intros c Eo Ea N a z l x p H X P. unfold obj in P. rewrite Eo in P. unfold has, carray in H. rewrite Ea in H. destruct (Nat.lt_ge_cases a (length (o_arrs s))) as [La|La].
    - rewrite nth_error_app1 in H by lia. exact (T a z l x p H X P).
    - rewrite nth_error_app2 in H by lia. destruct (a - length (o_arrs s))%nat as [|[|]]; cbn in H; try discriminate. destruct (N _ l x H eq_refl X). }
  destruct o as [z0 u|z0 u|x0|x0|x0|x0|x0 u|z0|z0 n|b y i|b y i|b y i x0|b y i w x0|b|b]; cbn [CObjModel.ostep] in E;
    try (destruct (nth_error (o_objs s) x0) as [p|] eqn:P; [|try discriminate; destruct (view s b y); discriminate]).
  - injection E as _ <-. apply Same. reflexivity.
  - injection E as _ <-. apply Same. reflexivity.
  - destruct (ob_auto p && negb (ob_gone p)); [|discriminate]. injection E as _ <-. apply Same. reflexivity.
  - destruct (negb (ob_auto p) && (0 <? ob_refs p)%nat); [|discriminate]. injection E as _ <-. apply Same. reflexivity.
  - destruct (negb (ob_auto p) && (0 <? ob_refs p)%nat); [|discriminate]. injection E as _ <-. apply Same. reflexivity.
  - destruct (alive s x0); [|discriminate]. injection E as _ <-. apply Same. reflexivity.
  - destruct (alive s x0); [|discriminate]. injection E as _ <-. apply Same. reflexivity.
  - injection E as _ <-. eapply App; try reflexivity. intros c' l x [= <-]. discriminate.
  - destruct (n <? 0); injection E as _ <-; [apply Same; reflexivity|]. eapply App; try reflexivity. intros c' l x [= <-] [= <-] X. apply repeat_spec in X. discriminate.
  - destruct (view s b y) as [c|]; [|discriminate]. destruct (slot c i) as [[m j]|]; [|discriminate]. destruct (nth_error m j) as [[x1|]|]; try (injection E as _ <-; apply Same; reflexivity).
    destruct (nth_error (o_objs s) x1); [|discriminate]. injection E as _ <-. apply Same. reflexivity.
  - destruct (view s b y) as [c|] eqn:V; [|discriminate]. apply view_array in V. destruct V as [A Sy]. apply (tinv_set T A E Sy). discriminate.
  - destruct (view s b y) as [c|] eqn:V; [|discriminate]. apply view_array in V. destruct V as [A Sy]. destruct (derives (ob_ty p) y && negb (ob_auto p) && alive s x0) eqn:C; [|discriminate].
    apply andb_prop in C. destruct C as [C _]. apply andb_prop in C. destruct C as [C _]. apply derives_spec in C.
    apply (tinv_set T A E Sy). intros x o [= <-] O Tk. assert (o = p) as -> by (unfold obj in *; congruence). apply (K b y c _ (via_shared _ _ _ _) A Sy C Tk).
  - destruct (view s b y) as [c|] eqn:V; [|discriminate]. apply view_array in V. destruct V as [A Sy]. destruct (derives (ob_ty p) w && derives w y && alive s x0) eqn:C; [|discriminate].
    apply andb_prop in C. destruct C as [C _]. apply andb_prop in C. destruct C as [C1 C2]. apply derives_spec in C1, C2. destruct (cxx17 && negb (ob_auto p)).
    + apply (tinv_set T A E Sy). intros x o [= <-] O Tk. assert (o = p) as -> by (unfold obj in *; congruence).
      refine (K b y c _ (via_raw _ _ _ _ _) A Sy _ Tk). destruct C1 as (q & ->), C2 as (r & ->). exists (q ++ r). rewrite app_assoc. reflexivity.
    + fold (copy_of p w) in E. assert (T1 : tinv Q (mkO (o_objs s ++ [copy_of p w]) (o_arrs s))) by (apply (tinv_grows I T); [apply grows_app|reflexivity]).
      refine (tinv_set T1 A E Sy _). intros x o [= <-] O Tk. assert (o = copy_of p w) as -> by (unfold obj in O; cbn in O; rewrite nth_error_app2, Nat.sub_diag in O by lia; cbn in O; congruence).
      apply (K b y c _ (via_raw _ _ _ _ _) A Sy C2 Tk).
  - destruct (carray s b); [|discriminate]. injection E as _ <-. apply Same. reflexivity.
  - destruct (carray s b) eqn:A; [|discriminate]. injection E as _ <-. intros a z l x o H X O. unfold has, carray in H. rewrite (aput_get _ _ A) in H. destruct (Nat.eqb b a); [discriminate|]. exact (T a z l x o H X O).
Qed.
Lemma exec_tinv Q l s vs s' : oinv2 s -> tinv Q s -> oexec l s = Some (vs, s') -> (forall z y d, sub z y -> sub d y -> takes z y d -> Q z d) -> tinv Q s'.
Proof.
  revert s vs. induction l as [|o l IH]; intros s vs I T E K; cbn in E; [injection E as <- <-; exact T|]. destruct (ostep o s) as [[v s1]|] eqn:E1; [|discriminate].
  destruct (oexec l s1) as [[ws s2]|] eqn:E2; [|discriminate]. injection E as <- <-. apply (IH s1 ws (proj1 (step_inv I E1)) (step_tinv I T E1 (fun a y c d _ _ => @K (ca_ty c) y d)) E2 K).
Qed.
Lemma inv_start : oinv2 oinit.
Proof. split; [intros [|a] c l0 x; discriminate|intros [|x] o; discriminate]. Qed.
Lemma tinv_start Q : tinv Q oinit.
Proof. intros [|a] z l x o H; discriminate. Qed.
(** In all programs: the elements derive from the topmost class below Object that the class of the array derives from. *)
Theorem C94_top s a p n l x o : oreach s -> has s a (p ++ [n]) l -> In (Some x) l -> obj s x o -> sub (ob_ty o) [n].
Proof.
  intros (ops & vs & E) H X O. refine (exec_tinv (Q := fun z d => forall p n, z = p ++ [n] -> sub d [n]) inv_start (@tinv_start _) E _ H X O p n eq_refl).
  clear. intros z y d Sz Sd [->|m q Ez Dm] p n E.
  - destruct Sd as (r & ->). exists (r ++ p). rewrite E, app_assoc. reflexivity.
  - destruct Dm as (r & ->). rewrite Ez in E. destruct (exists_last (l := m :: y)) as (t & k & Et); [discriminate|]. rewrite Et in *. rewrite app_assoc in E. apply app_inj_tail in E. destruct E as [_ ->].
    exists (r ++ t). rewrite app_assoc. reflexivity.
Qed.
(** Programs that store only through arrays of the class of the elements or of its direct base. *)
Inductive careful : ost -> Prop :=
| cf_start : careful oinit
| cf_step o s v s' : careful s -> ostep o s = Some (v, s') ->
    (forall a y c, via a y o -> carray s a = Some c -> ca_ty c = y \/ exists n, ca_ty c = n :: y) -> careful s'.
Theorem C94_typed_partial s a z l x o : careful s -> has s a z l -> In (Some x) l -> obj s x o -> sub (ob_ty o) z.
Proof.
  intros C. cut (oinv2 s /\ tinv (fun z d => sub d z) s); [intros [_ T]; apply T|]. induction C as [|op s v s' C [I T] E V]; [split; [apply inv_start|apply tinv_start]|].
  split; [apply (step_inv I E)|]. apply (step_tinv I T E). intros b y c d Vi A Sy Sd [->|m p Ez Dm]; [exact Sd|].
  destruct (V b y c Vi A) as [Ec|(n & Ec)]; [rewrite Ec; exact Sd|]. rewrite Ec in *. destruct p as [|k p]; [injection Ez as ->; exact Dm|]. injection Ez as _ Ez.
  apply (f_equal (@length nat)) in Ez. rewrite app_length in Ez. cbn in Ez. lia.
Qed.
Lemma oexec_app l1 s vs1 s1 l2 vs2 s2 : oexec l1 s = Some (vs1, s1) -> oexec l2 s1 = Some (vs2, s2) -> oexec (l1 ++ l2) s = Some (vs1 ++ vs2, s2).
Proof.
  revert s vs1. induction l1 as [|o l1 IH]; intros s vs1 E1 E2; cbn in *; [injection E1 as <- <-; exact E2|]. destruct (ostep o s) as [[v s3]|]; [|discriminate].
  destruct (oexec l1 s3) as [[ws s4]|] eqn:E3; [|discriminate]. injection E1 as <- ->. rewrite (IH s3 ws E3 E2). reflexivity.
Qed.
End Std.

(** Classes: 0 derives from Object, 1 from 0. *)
Definition clA : cty := [0%nat].
Definition clB : cty := [1%nat; 0%nat].
(** An array of [clB] seen as an array of Object accepts an object of class [clA]; as an array of [clB] it gives it back. *)
Theorem C94_typed_refuted : forall c17, exists l s a x o, oexec c17 l oinit = Some ([DNew 0; DNew 0; DDone; DRef (Some x)], s) /\
  l = [ANew clB 2; ONew clA 5; AShared a [] 0 x; AGet a clB 0] /\ obj s x o /\ ~ sub (ob_ty o) clB.
Proof.
  intros c17. exists [ANew clB 2; ONew clA 5; AShared 0 [] 0 0; AGet 0 clB 0]. eexists. exists 0%nat, 0%nat. eexists. split; [reflexivity|]. split; [reflexivity|]. split; [reflexivity|].
  cbn. intros (p & E). apply (f_equal (@length nat)) in E. rewrite app_length in E. cbn in E. lia.
Qed.
(** An object of class [clB] that is a variable, assigned through a reference to its base class: another object, of the base class. *)
Theorem C94_pointer_refuted : forall c17, exists s x y o, oexec c17 [ANew clA 1; OAuto clB 5; ARaw 0 clA 0 clA 0; OPut 0 6; AGet 0 clA 0; OValue 1] oinit =
    Some ([DNew 0; DNew x; DDone; DDone; DRef (Some y); DVal 5], s) /\ x <> y /\ obj s y o /\ ob_ty o = clA.
Proof. intros [|]; eexists; exists 0%nat, 1%nat; eexists; (split; [reflexivity|]; split; [lia|]; split; reflexivity). Qed.
(** Before C++17 also for objects made by make_shared. *)
Theorem C94_pointer14_refuted : exists s x y, oexec false [ANew clA 1; ONew clB 5; ARaw 0 clA 0 clB 0; OPut 0 6; AGet 0 clA 0; OValue 1] oinit =
    Some ([DNew 0; DNew x; DDone; DDone; DRef (Some y); DVal 5], s) /\ x <> y.
Proof. eexists. exists 0%nat, 1%nat. split; [reflexivity|lia]. Qed.

Example C94_case : exists s, oexec true [ANew clB 2; ONew clB 5; ONew clA 7; AShared 0 clA 1 0; ODrop 0; OValue 0; AShared 0 clA 0 1; ARaw 0 [] 0 clB 0; AGet 0 clB 0; ANull 0 [] 1; ASize 0; ADestroy 0; OValue 0; ODrop 0] oinit =
    Some ([DNew 0; DNew 0; DNew 1; DDone; DDone; DVal 5; DThrow; DDone; DRef (Some 0%nat); DDone; DVal 2; DDone; DVal 5; DDone], s) /\ alive s 0 = false /\ alive s 1 = true.
Proof. eexists. split; [reflexivity|]. split; reflexivity. Qed.
Example C94_hypotheses : exists s, oreach true s /\ careful true s /\ has s 0 clB [None; Some 0%nat] /\ elem s 0 1 0 /\ sub clB clA /\ takes clB clA clB /\ ~ takes clB clA clA /\ takes clB [] clA /\
  ~ touches 0 1 (AShared 0 clA 0 0) /\ alive s 0 = true.
Proof.
  exists (mkO [mkObj clB 5 1 false false; mkObj clA 7 1 false false] [Some (mkCarr clB (Some [None; Some 0%nat]))]).
  split; [exists [ANew clB 2; ONew clB 5; ONew clA 7; AShared 0 clA 1 0]; eexists; reflexivity|]. split.
  { eapply (cf_step (o := AShared 0 clA 1 0) (cxx17 := true)).
    - eapply (cf_step (o := ONew clA 7)); [eapply (cf_step (o := ONew clB 5)); [eapply (cf_step (o := ANew clB 2)); [apply cf_start|reflexivity|]|reflexivity|]|reflexivity|]; intros a y c V; inversion V.
    - reflexivity.
    - intros a y c V A. inversion V; subst. injection A as <-. right. exists 1%nat. reflexivity. }
  split; [reflexivity|]. split; [exists clB, [None; Some 0%nat]; split; reflexivity|]. split; [exists [1%nat]; reflexivity|]. split; [apply (tk_below (n := 1%nat) (p := [])); [reflexivity|exists []; reflexivity]|].
  split; [|split; [apply (tk_below (n := 0%nat) (p := [1%nat])); [reflexivity|exists []; reflexivity]|split]].
  - intros [E|n p E (q & D)]; [discriminate|]. apply (f_equal (@length nat)) in D. rewrite app_length in D. cbn in D. lia.
  - intros V. inversion V as [| | |]; subst. discriminate.
  - reflexivity.
Qed.
Print Assumptions C94_shared. Print Assumptions C94_null. Print Assumptions C94_pointer. Print Assumptions C94_copy. Print Assumptions C94_get. Print Assumptions C94_new. Print Assumptions C94_empty.
Print Assumptions C94_alive. Print Assumptions C94_kept. Print Assumptions C94_destroy. Print Assumptions C94_content. Print Assumptions C94_top. Print Assumptions C94_typed_partial.
Print Assumptions C94_typed_refuted. Print Assumptions C94_pointer_refuted. Print Assumptions C94_pointer14_refuted. Print Assumptions C94_objects. Print Assumptions C94_make.
