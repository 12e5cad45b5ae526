(** Array contents over histories. *)
From Verif Require Import Base BaseProofs VmState VmModel VmStep VmBase VmWf VmPrim VmInv VmReg VmRegInv VmFrame VmFine VmSpec MemSpec HookSpec CallSpec RefSpec ArrSpec
  VmExact VmQuiet VmClass VmMember VmMember2 VmMember3 VmTables VmHook VmMemHist VmEnvInv VmCall VmCall2 VmThread VmRef VmRef2 VmRef3 VmObj VmArr.
Set Implicit Arguments.
Unset Strict Implicit.
Local Open Scope vm_scope.

Section Cfg.
Variable G : cfg.

(** ** Which functions change arrays *)
Definition AP (q : pay -> bool) (s s' : st) : Prop := length (s_heap s) <= length (s_heap s') /\
  forall i, i < length (s_heap s) -> live s' i = true -> live s i = true /\ forall x, contents s i = Some x -> q x = true -> contents s' i = Some x.
Lemma AP_trans q a b c : AP q a b -> AP q b c -> AP q a c.
Proof. intros [A B] [C D]. split; [lia|]. intros i L K. destruct (D i ltac:(lia) K) as [E F]. destruct (B i L E) as [E' F']. split; auto. Qed.
Lemma AP_heap q s s' : s_heap s' = s_heap s -> AP q s s'.
Proof. intros H. unfold AP, live, contents, lookup. rewrite H. auto. Qed.
Lemma AP_add q s o : AP q s (add s o).
Proof.
  split; [unfold add; simpl; rewrite app_length; lia|]. intros i L K. unfold live, contents in *. rewrite lookup_add in *. destruct (Nat.eqb_spec i (length (s_heap s))); [lia|]. auto.
Qed.
Lemma AP_put q s i x o : lookup s i = Some x -> (q (o_pay x) = true -> o_pay o = o_pay x) -> AP q s (put s i o).
Proof.
  intros L M. split; [unfold put; simpl; rewrite list_set_length; lia|]. intros j Lj K. unfold live, contents in *. rewrite (lookup_put _ _ L) in *. destruct (Nat.eqb_spec i j); [subst; rewrite L|]; auto.
  split; auto. intros y [= <-] Q. simpl. rewrite M; auto.
Qed.
Definition q_prim (p : pay) : bool := match p with PPrim _ _ => true | _ => false end.
Definition q_arr (p : pay) : bool := match p with PArr _ _ => true | _ => false end.
Ltac ap := first [apply AP_heap; reflexivity|apply AP_add|eapply AP_put; [eassumption|]; simpl; first [reflexivity|match goal with H : o_pay _ = _ |- _ => rewrite H; simpl; first [discriminate|congruence] end]].
Lemma AP_newm q s i o c m : (forall c, q (PClass c) = false) -> lookup s i = Some o -> o_pay o = PClass c -> AP q s (newm s i o c m).
Proof.
  intros Q L P. unfold newm. eapply AP_trans; [apply AP_add|]. apply (@AP_put _ _ i o); [|rewrite P, Q; discriminate]. rewrite lookup_add. pose proof (lookup_lt _ _ L). destruct (Nat.eqb_spec i (length (s_heap s))); [lia|auto].
Qed.
Lemma AP_newf q s i o c m : (forall c, q (PClass c) = false) -> lookup s i = Some o -> o_pay o = PClass c -> AP q s (newf s i o c m).
Proof.
  intros Q L P. unfold newf. eapply AP_trans; [apply AP_add|]. apply (@AP_put _ _ i o); [|rewrite P, Q; discriminate]. rewrite lookup_add. pose proof (lookup_lt _ _ L). destruct (Nat.eqb_spec i (length (s_heap s))); [lia|auto].
Qed.
Lemma AP_collect q s : AP q s (collect s).
Proof.
  split; [apply collect_ident|]. intros i L K. unfold live, contents in *. destruct (lookup (collect s) i) eqn:Q; [|discriminate]. rewrite (collect_sub _ _ Q). auto.
Qed.
Lemma prim_fine t : fine G t (fun p => p <> PrPrim) (AP q_prim).
Proof.
  constructor; intros; try congruence; try ap; try (apply AP_newm; auto; fail); try (apply AP_newf; auto; fail); try apply AP_collect; try (eapply AP_trans; eauto; fail).
  - apply (@find_fine G (AP q_prim)); auto; intros; try ap. eapply AP_trans; eauto.
Qed.
Lemma arr_fine t : fine G t (fun p => p <> PrArr) (AP q_arr).
Proof.
  constructor; intros; try congruence; try ap; try (apply AP_newm; auto; fail); try (apply AP_newf; auto; fail); try apply AP_collect; try (eapply AP_trans; eauto; fail).
  - apply (@find_fine G (AP q_arr)); auto; intros; try ap. eapply AP_trans; eauto.
Qed.
Definition prim_op (o : op) : bool := match o with SetArrayRegion_ _ _ _ _ _ | ElementsWrite_ _ _ _ => true | _ => false end.
Definition arr_op (o : op) : bool := match o with SetObjectArrayElement_ _ _ _ | NewObjectArray_ _ _ _ => true | _ => false end.
Lemma prim_step t o s v s' : wf s -> prim_op o = false -> step G t o s = Some (v, s') -> AP q_prim s s'.
Proof.
  intros W N St. eapply (fine_step (prim_fine t)); eauto.
  destruct o; try discriminate; simpl; intros pr H; repeat (destruct H as [<-|H]; [discriminate|]); destruct H.
Qed.
Lemma arr_step t o s v s' : wf s -> arr_op o = false -> step G t o s = Some (v, s') -> AP q_arr s s'.
Proof.
  intros W N St. eapply (fine_step (arr_fine t)); eauto.
  destruct o; try discriminate; simpl; intros pr H; repeat (destruct H as [<-|H]; [discriminate|]); destruct H.
Qed.

(** ** Arrays of numbers *)
Lemma intact_contents s s' i x : intact s s' i -> contents s i = Some x -> (forall c, x <> PClass c) -> contents s' i = Some x.
Proof.
  intros (o & o' & L & L' & V & _) C N. unfold contents in *. rewrite L in C. rewrite L'. simpl in *. injection C as <-. f_equal.
  destruct (o_pay o) eqn:P, (o_pay o'); simpl in V; try discriminate; try congruence; exfalso; eapply N; eauto.
Qed.
Lemma handle_contents s h i : denotes_opt s h (Some i) -> exists x, contents s i = Some x.
Proof.
  intros D. destruct h as [h|]; [|discriminate]. simpl in D. destruct (denotes_target D) as (o & L & _). exists (o_pay o). unfold contents. rewrite L. auto.
Qed.
Lemma region_denotes t p h start len buf s v s' : wf s -> step G t (SetArrayRegion_ p h start len buf) s = Some (v, s') -> exists i, denotes_opt s h (Some i).
Proof.
  intros W St. assert (attached s t) as A by (eapply step_attached; eauto).
  assert (exists r, denotes_opt s h r) as (r & D).
  { eapply (@arg_denotes G t (SetArrayRegion_ p h start len buf)); eauto; [|congruence]. intros i -> Dd. cbn [body]; unfold as_unit, SetArrayRegion, bind; rewrite jnicast_dead by auto; reflexivity. }
  destruct r as [i|]; eauto. exfalso. unfold step in St. rewrite run_attached in St by auto. cbn [body] in St. unfold as_unit, SetArrayRegion, bind in St.
  destruct h as [h|]; simpl in D; [rewrite (jnicast_spec _ _ W D) in St|]; discriminate.
Qed.
(** The outcome of SetArrayRegion *)
Lemma region_inv t p h start len buf s v s' : good G s -> step G t (SetArrayRegion_ p h start len buf) s = Some (v, s') ->
  exists i, denotes_opt s h (Some i) /\
  ((exists l l', v = OVal RUnit /\ contents s i = Some (PPrim p l) /\ (len <= Z.of_nat (length buf))%Z /\ in_range l start len /\ is_written l (Z.to_nat start) (firstn (Z.to_nat len) buf) l' /\ changed t i (PPrim p l') s s') \/
   (v = OExn (Err bad_ref) /\ s' = s)).
Proof.
  intros Gs St. destruct (region_denotes (good_wf Gs) St) as (i & D). exists i. split; auto. destruct (handle_contents D) as (x & C).
  pose proof (@SetArrayRegion_step G t p h i x start len buf s Gs (step_attached St eq_refl) D C) as H.
  destruct x; try (rewrite H in St; injection St as <- <-; auto; fail). destruct (pty_eqb_spec p0 p); [|rewrite H in St; injection St as <- <-; auto]. subst p0. destruct H as [H1 H2].
  destruct (Z_le_dec len (Z.of_nat (length buf))) as [Lb|Nb]; [|rewrite H2 in St; [discriminate|tauto]].
  assert (in_range elems start len \/ ~ in_range elems start len) as [R|R] by (unfold in_range; lia); [|rewrite H2 in St; [discriminate|tauto]].
  left. destruct (H1 R Lb) as (l' & s2 & E & _ & Wr & Ch). rewrite E in St. injection St as <- <-. exists elems, l'. auto 10.
Qed.
Lemma direct_inv t a k z s v s' : good G s -> step G t (ElementsWrite_ a k z) s = Some (v, s') ->
  exists p l l', v = OVal RUnit /\ contents s a = Some (PPrim p l) /\ k < length l /\ is_written l k [z] l' /\ forall u, changed u a (PPrim p l') s s'.
Proof.
  intros Gs St. assert (exists p l, contents s a = Some (PPrim p l)) as (p & l & C).
  { unfold step, run in St. cbn [needs_env body] in St. unfold as_unit, ElementsWrite, bind, ret, deref in St. unfold contents. destruct (lookup s a) as [o|]; [|discriminate].
    simpl. destruct (o_pay o) eqn:P; try (exfalso; destruct k; simpl in St; discriminate). eauto. }
  destruct (@ElementsWrite_step G t a k z p l s Gs C) as [H1 H2]. destruct (Nat.lt_ge_cases k (length l)) as [Lt|Ge]; [|rewrite H2 in St by auto; discriminate].
  destruct (H1 Lt) as (l' & s2 & E & _ & Wr & Ch). rewrite E in St. injection St as <- <-. exists p, l, l'. auto 10.
Qed.
Lemma writing_exec a l s w s' : writing G a l s w s' -> exists vs, exec G l s = Some (vs, s').
Proof.
  induction 1; [exists []; reflexivity| | | |]; destruct IHwriting as (vs & E); eexists (_ :: vs); simpl; match goal with H : step _ _ _ _ = Some _ |- _ => rewrite H end; rewrite E; reflexivity.
Qed.
Lemma live_back t o s v s1 l vs s' i : wf s -> step G t o s = Some (v, s1) -> exec G l s1 = Some (vs, s') -> i < length (s_heap s) -> live s' i = true -> live s1 i = true.
Proof.
  intros W St Ex Lt Li. pose proof (step_wf G t o W St) as [W1 I1]. assert (length (s_heap s) <= length (s_heap s1)) as Le1 by apply I1.
  destruct (exec_ident W1 Ex) as [_ I]. specialize (I i ltac:(lia)). unfold live in *. destruct (lookup s1 i); auto. destruct (lookup s' i); [tauto|discriminate].
Qed.
Lemma updated_cons k b w l l1 l2 : is_written l k b l1 -> updated l1 w l2 -> k + length b <= length l -> updated l ((k, b) :: w) l2.
Proof.
  intros [A B] [C D] Le. split; [lia|]. intros j. rewrite D. cbn [last_written]. destruct (last_written w j) as [z|]; auto. rewrite B.
  destruct (Nat.leb_spec k j); simpl; auto. destruct (Nat.ltb_spec j (k + length b)).
  - destruct (nth_error b (j - k)) eqn:E; auto. apply nth_error_None in E. lia.
  - destruct (nth_error b (j - k)) eqn:E; auto. assert (nth_error b (j - k) <> None) by congruence. apply nth_error_Some in H1. lia.
Qed.
Theorem writing_contents a l s w s' p l0 : good G s -> writing G a l s w s' -> contents s a = Some (PPrim p l0) -> live s' a = true ->
  exists l1, contents s' a = Some (PPrim p l1) /\ updated l0 w l1.
Proof.
  intros Gs H. revert Gs l0. induction H; intros Gs l0 C Lv.
  - exists l0. split; auto. split; auto.
  - pose proof (step_good Gs H0) as G1. destruct (region_inv Gs H0) as (i & D & [(x & l' & _ & C' & Lb & R & Wr & Ch)|(Q & _)]); [|discriminate].
    assert (i = a) as -> by (destruct h as [h|]; [|discriminate]; simpl in *; pose proof (denotes_fun D H) as Q; congruence). rewrite C in C'. injection C' as <- <-.
    destruct (IHwriting G1 l') as (l1 & C1 & U); auto; [apply Ch|]. exists l1. split; auto. eapply updated_cons; eauto. destruct R as (R1 & R2 & R3). rewrite firstn_length. lia.
  - pose proof (step_good Gs H) as G1. destruct (direct_inv Gs H) as (q & x & l' & _ & C' & Lk & Wr & Ch). rewrite C in C'. injection C' as <- <-.
    destruct (IHwriting G1 l') as (l1 & C1 & U); auto; [apply (Ch 0)|]. exists l1. split; auto. eapply updated_cons; eauto. simpl. lia.
  - pose proof (step_good Gs H) as G1. destruct (region_inv Gs H) as (i & D & [(x & l' & Q & _)|(_ & ->)]); [discriminate|]. apply IHwriting; auto.
  - pose proof (step_good Gs H1) as G1. pose proof (good_wf Gs) as W. destruct (writing_exec H2) as (vs & Ex).
    assert (a < length (s_heap s)) as La. { unfold contents in C. destruct (lookup s a) eqn:L; [|discriminate]. eapply lookup_lt; eauto. }
    pose proof (live_back W H1 Ex La Lv) as L1. assert (live s a = true) as L0 by (unfold contents, live in *; destruct (lookup s a); auto; discriminate). apply IHwriting; auto.
    destruct (prim_op o) eqn:Po.
    + destruct o; try discriminate.
      * destruct (region_inv Gs H1) as (i & D & [(x & l' & _ & C' & _ & _ & _ & Ch)|(_ & ->)]); auto.
        assert (i <> a) as Ne by (intros ->; eapply H; eauto). destruct Ch as (_ & _ & _ & _ & Ch & _). eapply intact_contents; [apply (d_obj Ch); auto|exact C|discriminate].
      * destruct (direct_inv Gs H1) as (q & x & l' & _ & C' & _ & _ & Ch). assert (a0 <> a) as Ne by (intros ->; eapply H0; eauto).
        destruct (Ch t) as (_ & _ & _ & _ & Ch' & _). eapply intact_contents; [apply (d_obj Ch'); auto|exact C|discriminate].
    + destruct (prim_step W Po H1) as [_ M]. apply M; auto.
Qed.

(** ** Arrays of objects *)
Lemma arr_denotes t h k x s v s' : wf s -> step G t (SetObjectArrayElement_ h k x) s = Some (v, s') -> exists r, denotes_opt s x r.
Proof.
  intros W St. assert (attached s t) as A by (eapply step_attached; eauto).
  eapply (@arg_denotes G t (SetObjectArrayElement_ h k x)); eauto; [|congruence]. intros i -> Dd. cbn [body]; unfold as_unit, SetObjectArrayElement, bind; rewrite jnicast_dead by auto; reflexivity.
Qed.
Lemma arr_denotes2 t h k x s v s' : wf s -> step G t (SetObjectArrayElement_ h k x) s = Some (v, s') -> exists i, denotes_opt s h (Some i).
Proof.
  intros W St. assert (attached s t) as A by (eapply step_attached; eauto). destruct (arr_denotes W St) as (r & Dx).
  assert (exists r, denotes_opt s h r) as (r' & D).
  { eapply (@arg_denotes G t (SetObjectArrayElement_ h k x)); eauto; [|congruence]. intros i -> Dd. cbn [body]; unfold as_unit, SetObjectArrayElement, bind. rewrite (jnicast_obj G W Dx). rewrite jnicast_dead by auto; reflexivity. }
  destruct r' as [i|]; eauto. exfalso. unfold step in St. rewrite run_attached in St by auto. cbn [body] in St. unfold as_unit, SetObjectArrayElement, bind in St. rewrite (jnicast_obj G W Dx) in St.
  destruct h as [h|]; simpl in D; [rewrite (jnicast_spec _ _ W D) in St|]; discriminate.
Qed.
Lemma store_inv t h k x s v s' : good G s -> step G t (SetObjectArrayElement_ h k x) s = Some (v, s') ->
  exists i r, denotes_opt s h (Some i) /\ denotes_opt s x r /\
  ((exists p l l', v = OVal RUnit /\ contents s i = Some (PArr p l) /\ elem_ok G s p r = true /\ (0 <= k < Z.of_nat (length l))%Z /\ is_stored l (Z.to_nat k) r l' /\ stored t i (PArr p l') s s') \/
   ((exists e, v = OExn e) /\ s' = s)).
Proof.
  intros Gs St. pose proof (good_wf Gs) as W. destruct (arr_denotes W St) as (r & Dx). destruct (arr_denotes2 W St) as (i & D). exists i, r. split; auto. split; auto. destruct (handle_contents D) as (y & C).
  pose proof (@SetObjectArrayElement_step G t h i y k x r s Gs (step_attached St eq_refl) Dx D C) as H.
  destruct y; try (rewrite H in St; injection St as <- <-; eauto; fail). destruct H as (H1 & H2 & H3).
  destruct (elem_ok G s t0 r) eqn:E; [|rewrite H1 in St by auto; injection St as <- <-; eauto].
  assert ((0 <= k < Z.of_nat (length elems))%Z \/ ~ (0 <= k < Z.of_nat (length elems))%Z) as [R|R] by lia; [|rewrite H3 in St by auto; discriminate].
  left. destruct (H2 eq_refl R) as (l' & s2 & E' & _ & Wr & Ch). rewrite E' in St. injection St as <- <-. exists t0, elems, l'. auto 10.
Qed.
Lemma newarr_inv t n c v s r s' : good G s -> step G t (NewObjectArray_ n c v) s = Some (r, s') -> forall i, live s i = true -> intact s s' i.
Proof.
  intros Gs St. pose proof (good_wf Gs) as W. assert (attached s t) as A by (eapply step_attached; eauto).
  assert (exists q, denotes_opt s c q) as (q & D).
  { eapply (@arg_denotes G t (NewObjectArray_ n c v)); eauto; [|congruence]. intros i -> Dd. cbn [body]; unfold as_ref, NewObjectArray, bind; rewrite jnicast_dead by auto; reflexivity. }
  assert (forall i, live s i = true -> intact s s i) as Id by (intros i L; apply live_lookup in L; destruct L as (o & L); exists o, o; auto 8).
  destruct q as [ci|].
  2: { exfalso. unfold step in St. rewrite run_attached in St by auto. cbn [body] in St. unfold as_ref, NewObjectArray, bind in St. destruct c as [c|]; simpl in D; [rewrite (jnicast_spec _ _ W D) in St|]; discriminate. }
  destruct (handle_contents D) as (y & C). assert ((exists k, y = PClass k) \/ forall k, y <> PClass k) as [(k & ->)|N] by (destruct y; eauto; right; discriminate).
  2: { assert (step G t (NewObjectArray_ n c v) s = Some (OExn (Err bad_ref), s)) as E.
    { apply step_thr; auto. cbn [body]. unfold as_ref, NewObjectArray, bind. rewrite (@cast_eq G TClass c ci y s W D C). destruct y; try reflexivity. destruct (N c0 eq_refl). }
    rewrite E in St. injection St as <- <-. auto. }
  destruct v as [v|].
  - destruct (live s v) eqn:Lv.
    + destruct (@NewObjectArray_step G t n c ci k (Some v) s Gs A D C) as (p & _ & H1 & H2 & H3); [intros i [= <-]; auto|].
      destruct (Z_lt_dec n 0) as [Ln|Ln].
      * destruct (H1 Ln) as (s2 & E & _ & Ne). rewrite E in St. injection St as <- <-. apply (gn_obj (proj1 Ne)).
      * destruct (elem_ok G s p (Some v)) eqn:Eo.
        -- destruct (H2 ltac:(lia) (or_intror eq_refl)) as (i & s2 & E & _ & M & _). rewrite E in St. injection St as <- <-. apply (gn_obj (md_gained M)).
        -- destruct (Z.eq_dec n 0) as [->|Nz].
           ++ destruct (H2 ltac:(lia) (or_introl eq_refl)) as (i & s2 & E & _ & M & _). rewrite E in St. injection St as <- <-. apply (gn_obj (md_gained M)).
           ++ destruct (H3 ltac:(lia) eq_refl) as (s2 & E & _ & Ne). rewrite E in St. injection St as <- <-. apply (gn_obj (proj1 Ne)).
    + assert ((n <= 0)%Z \/ (0 < n)%Z) as [Ln|Ln] by lia.
      * destruct (@NewObjectArray_step G t n c ci k None s Gs A D C) as (p & _ & H1 & H2 & _); [discriminate|].
        assert (step G t (NewObjectArray_ n c (Some v)) s = step G t (NewObjectArray_ n c None) s) as Eq.
        { unfold step. rewrite !run_attached by auto. cbn [body]. unfold as_ref, NewObjectArray, bind. destruct (jnicast G TClass c s); auto. destruct (nonnull _ _); auto. destruct (get_cls _ _); auto.
          destruct (Z.ltb_spec 0 n); [lia|]. unfold ret. destruct (find_class _ _ _ _); auto. destruct (nonnull _ _); auto. destruct (get_cls _ _); auto. destruct (n <? 0)%Z; auto. replace (Z.to_nat n) with 0 by lia. cbn [seq mapM_]. unfold ret. reflexivity. }
        rewrite Eq in St. destruct (Z.eq_dec n 0) as [->|Nz].
        -- destruct (H2 ltac:(lia) (or_introl eq_refl)) as (i & s2 & E & _ & M & _). rewrite E in St. injection St as <- <-. apply (gn_obj (md_gained M)).
        -- destruct (H1 ltac:(lia)) as (s2 & E & _ & Ne). rewrite E in St. injection St as <- <-. apply (gn_obj (proj1 Ne)).
      * exfalso. (* the first element is read through a dangling pointer *)
        unfold step in St. rewrite !run_attached in St by auto. cbn [body] in St. unfold as_ref, NewObjectArray, bind in St.
        rewrite (@cast_eq G TClass c ci (PClass k) s W D C) in St. cbn [isa nonnull] in St. unfold ret in St. unfold get_cls, bind in St. destruct (deref_eq C) as (o & L & P & De). rewrite De, P in St. unfold ret in St.
        destruct (Z.ltb_spec 0 n); [|lia]. unfold live_all, check in St. cbn [opt_list forallb] in St. rewrite Lv in St. discriminate.
  - destruct (@NewObjectArray_step G t n c ci k None s Gs A D C) as (p & _ & H1 & H2 & _); [discriminate|].
    destruct (Z_lt_dec n 0) as [Ln|Ln].
    + destruct (H1 Ln) as (s2 & E & _ & Ne). rewrite E in St. injection St as <- <-. apply (gn_obj (proj1 Ne)).
    + destruct (H2 ltac:(lia)) as (i & s2 & E & _ & M & _); [right; unfold elem_ok; destruct p; reflexivity|]. rewrite E in St. injection St as <- <-. apply (gn_obj (md_gained M)).
Qed.

Lemma storing_exec a l s w s' : storing G a l s w s' -> exists vs, exec G l s = Some (vs, s').
Proof.
  induction 1; [exists []; reflexivity| | |]; destruct IHstoring as (vs & E); eexists (_ :: vs); simpl; match goal with H : step _ _ _ _ = Some _ |- _ => rewrite H end; rewrite E; reflexivity.
Qed.
Lemma restored_cons k b w l l1 l2 : is_stored l k b l1 -> restored l1 w l2 -> restored l ((k, b) :: w) l2.
Proof.
  intros [A B] [C D]. split; [congruence|]. intros j. rewrite D. cbn [last_stored]. destruct (last_stored w j) as [z|]; auto. rewrite B. destruct (Nat.eqb j k); auto.
Qed.
Lemma collect_other s s1 i x : good G s -> live (finish s1) i = true -> lookup s1 i = lookup s i -> contents s i = Some x -> contents (finish s1) i = Some x.
Proof.
  intros Gs L Q C. apply live_lookup in L. destruct L as (o & L). unfold contents in *. rewrite L. apply finish_sub in L. rewrite Q in L. rewrite L in C. auto.
Qed.
(** Objects other than the array keep their contents when an element is stored. *)
Lemma store_other t h k x s v s' i y : good G s -> step G t (SetObjectArrayElement_ h k x) s = Some (v, s') -> ~ denotes_opt s h (Some i) -> contents s i = Some y -> live s' i = true ->
  contents s' i = Some y.
Proof.
  intros Gs St N C L. pose proof (good_wf Gs) as W. destruct (arr_denotes W St) as (r & Dx). destruct (arr_denotes2 W St) as (a & D). destruct (handle_contents D) as (z & Ca).
  pose proof (step_attached St eq_refl) as A. assert (i <> a) as Ne by (intros ->; auto).
  unfold step in St. rewrite run_attached in St by auto. cbn [body] in St. unfold as_unit, SetObjectArrayElement, bind in St. rewrite (jnicast_obj G W Dx), (@cast_eq G (TArr None) h a z s W D Ca) in St.
  destruct (isa G z (TArr None)).
  2: { injection St as <- <-. rewrite (tidy_finish_id (g_tidy Gs)). auto. }
  cbn [nonnull] in St. unfold ret in St. assert (keeps (fun s s1 => forall i, i <> a -> lookup s1 i = lookup s i) (array_set G a k r)) as K.
  { apply I_array_set; [auto|]. intros s0 o p l Lo Po _ _ q Nq. rewrite (lookup_put _ _ Lo). destruct (Nat.eqb_spec a q); congruence. }
  specialize (K s).
  destruct (array_set G a k r s); try discriminate; injection St as <- <-; eapply collect_other; eauto.
Qed.
Theorem storing_contents a l s w s' p l0 : good G s -> storing G a l s w s' -> contents s a = Some (PArr p l0) -> live s' a = true ->
  exists l1, contents s' a = Some (PArr p l1) /\ restored l0 w l1.
Proof.
  intros Gs H. revert Gs l0. induction H; intros Gs l0 C Lv.
  - exists l0. split; auto. split; auto.
  - pose proof (step_good Gs H1) as G1. destruct (storing_exec H2) as (vs & Ex).
    assert (a < length (s_heap s)) as La. { unfold contents in C. destruct (lookup s a) eqn:L; [|discriminate]. eapply lookup_lt; eauto. }
    pose proof (live_back (good_wf Gs) H1 Ex La Lv) as L1.
    destruct (store_inv Gs H1) as (i & r & D & Dx & [(q & y & l' & _ & C' & _ & R & Wr & Ch)|((e & Q) & _)]); [|discriminate].
    assert (i = a) as -> by (destruct h as [h|]; [|discriminate]; simpl in *; pose proof (denotes_fun D H) as Q; congruence). rewrite C in C'. injection C' as <- <-.
    assert (r = v) as -> by (destruct x as [x|]; simpl in *; [exact (denotes_fun Dx H0)|congruence]).
    destruct (IHstoring G1 l') as (l1 & C1 & U); auto; [apply (sd_contents Ch); auto|]. exists l1. split; auto. eapply restored_cons; eauto.
  - pose proof (step_good Gs H) as G1. destruct (store_inv Gs H) as (i & r & _ & _ & [(q & y & l' & Q & _)|(_ & ->)]); [discriminate|]. apply IHstoring; auto.
  - pose proof (step_good Gs H0) as G1. pose proof (good_wf Gs) as W. destruct (storing_exec H1) as (vs & Ex).
    assert (a < length (s_heap s)) as La. { unfold contents in C. destruct (lookup s a) eqn:L; [|discriminate]. eapply lookup_lt; eauto. }
    pose proof (live_back W H0 Ex La Lv) as L1. assert (live s a = true) as L0 by (unfold contents, live in *; destruct (lookup s a); auto; discriminate). apply IHstoring; auto.
    destruct (arr_op o) eqn:Po.
    + destruct o; try discriminate.
      * refine (@intact_contents s s1 a _ _ C _); [exact (newarr_inv Gs H0 L0)|discriminate].
      * exact (store_other Gs H0 (H _ _ _ eq_refl) C L1).
    + destruct (arr_step W Po H0) as [_ M]. apply M; auto.
Qed.

(** ** Element types *)
Definition typed (s : st) : Prop := forall a n l i, contents s a = Some (PArr (Some n) l) -> In (Some i) l -> elem_ok G s (Some n) (Some i) = true.
Definition TY (s s' : st) : Prop := typed s -> typed s'.
Lemma TY_heap s s' : s_heap s' = s_heap s -> TY s s'.
Proof. intros H T. unfold typed, contents, elem_ok, lookup in *. rewrite H. exact T. Qed.
Lemma elem_ok_live s n i : elem_ok G s (Some n) (Some i) = true -> exists o, lookup s i = Some o.
Proof. simpl. destruct (lookup s i); eauto. discriminate. Qed.
Lemma TY_add s o : (forall n l, o_pay o = PArr (Some n) l -> forall i, ~ In (Some i) l) -> TY s (add s o).
Proof.
  intros B T a n l i C H. unfold contents in C. rewrite lookup_add in C. destruct (Nat.eqb_spec a (length (s_heap s))).
  - simpl in C. injection C as C. destruct (B _ _ C _ H).
  - pose proof (T a n l i C H) as E. destruct (elem_ok_live E) as (o' & L). unfold elem_ok in *. rewrite lookup_add_old; auto. eapply lookup_lt; eauto.
Qed.
Lemma isa_user p q m : same_kind p q -> isa G q (TUser m) = isa G p (TUser m).
Proof. destruct p, q; simpl; try tauto. intros [-> _]. reflexivity. Qed.
Lemma TY_put s i x o : lookup s i = Some x -> same_kind (o_pay x) (o_pay o) ->
  (forall n l', o_pay o = PArr (Some n) l' -> forall v, In (Some v) l' -> (exists l, o_pay x = PArr (Some n) l /\ In (Some v) l) \/ elem_ok G s (Some n) (Some v) = true) -> TY s (put s i o).
Proof.
  intros L K B T a n l v C H. assert (elem_ok G s (Some n) (Some v) = true) as E.
  { unfold contents in C. rewrite (lookup_put _ _ L) in C. destruct (Nat.eqb_spec i a).
    - subst. simpl in C. injection C as C. destruct (B _ _ C _ H) as [(l0 & P & Hi)|E]; auto. eapply (T a n l0); eauto. unfold contents. rewrite L. simpl. congruence.
    - eapply (T a n l); eauto. }
  unfold elem_ok in *. rewrite (lookup_put _ _ L). destruct (Nat.eqb_spec i v); auto. subst. rewrite L in E. rewrite (isa_user _ K). exact E.
Qed.
Ltac ty := first [apply TY_heap; reflexivity|apply TY_add; intros; discriminate|
  eapply TY_put; [eassumption|simpl; first [apply same_kind_refl|match goal with H : o_pay _ = _ |- _ => rewrite H; simpl; solve [auto] end]|simpl; intros; first [discriminate|left; eexists; split; eassumption]]].
Lemma TY_trans a b c : TY a b -> TY b c -> TY a c.
Proof. unfold TY. auto. Qed.
Lemma typed_fine t : fine G t (fun _ => True) TY.
Proof.
  constructor; intros; try ty; try (eapply TY_trans; eauto; fail).
  - apply (@find_fine G TY); auto; intros; try ty. eapply TY_trans; eauto.
  - apply TY_add. simpl. intros n l E i Hi. eapply H3; eauto.
  - destruct H2; eapply TY_put; try eassumption; simpl; try discriminate; rewrite H1; simpl; auto.
  - unfold newm. eapply TY_trans; [apply (@TY_add s (new_obj None (PMethod m))); simpl; intros; discriminate|]. eapply (@TY_put _ i o); [|simpl; rewrite H2; simpl; auto|simpl; intros; discriminate]. rewrite lookup_add_old; auto. eapply lookup_lt; eauto.
  - unfold newf. eapply TY_trans; [apply (@TY_add s (new_obj None (PField f))); simpl; intros; discriminate|]. eapply (@TY_put _ i o); [|simpl; rewrite H2; simpl; auto|simpl; intros; discriminate]. rewrite lookup_add_old; auto. eapply lookup_lt; eauto.
  - eapply TY_put; eauto.
    + simpl. rewrite H2. simpl. rewrite list_set_length. auto.
    + simpl. intros n l' [= -> <-] w Hw. apply In_nth_error in Hw. destruct Hw as (q & Hq). rewrite nth_list_set in Hq. destruct (Nat.eqb k q).
      * destruct (nth_error l q); [|discriminate]. injection Hq as ->. auto.
      * left. exists l. split; auto. eapply nth_error_In; eauto.
  - eapply TY_put; eauto; simpl; [|intros; discriminate]. rewrite H2. simpl. rewrite list_set_length. auto.
  - intros T a n l i C Hi. pose proof (collect_wf H) as W'. unfold contents in C. destruct (lookup (collect s) a) as [o|] eqn:L; [|discriminate]. simpl in C. injection C as P.
    assert (live (collect s) i = true) as Li.
    { eapply (@wf_refs _ a o); eauto. rewrite P. simpl. clear -Hi. induction l as [|[x|] r IH]; simpl in *; auto; destruct Hi as [Q|Q]; try discriminate; auto. injection Q as ->. auto. }
    apply live_lookup in Li. destruct Li as (oi & Li). pose proof (T a n l i) as Q. unfold contents in Q. rewrite (collect_sub _ _ L) in Q. simpl in Q. rewrite P in Q. specialize (Q eq_refl Hi).
    rewrite (collect_sub _ _ Li) in Q. simpl. rewrite Li. exact Q.
Qed.
Theorem typed_reachable t0 s : reachable G t0 s -> typed s.
Proof.
  intros (l & vs & E). assert (typed (init_vm G t0)) as T0.
  { apply (fine_init (typed_fine t0)). intros a n m i C. unfold contents, lookup in C. destruct a; discriminate. }
  apply (fine_history typed_fine (inv_wf (init_inv G t0)) E); auto.
Qed.
Theorem typed_exec l s vs s' : wf s -> exec G l s = Some (vs, s') -> typed s -> typed s'.
Proof. intros W E. apply (fine_history typed_fine W E). Qed.
End Cfg.
