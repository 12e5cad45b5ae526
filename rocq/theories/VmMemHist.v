(** Member IDs over histories. *)
From Verif Require Import Base BaseProofs SigModel VmState VmModel VmStep VmSpec MemSpec HookSpec VmBase VmFrame VmWf VmPrim VmInv VmReg
  VmFine VmRegInv VmExact VmQuiet VmClass VmMember VmMember2 VmMember3 VmTables VmHook.
Set Implicit Arguments.
Unset Strict Implicit.
Local Open Scope vm_scope.

Lemma first_in_filter A (P : A -> Prop) (f : A -> bool) l x : (forall y, In y l -> P y -> f y = true) ->
  (first_in P l x <-> first_in P (filter f l) x).
Proof.
  induction l as [|y l IH]; intros H; simpl; [tauto|].
  assert (first_in P l x <-> first_in P (filter f l) x) as IH' by (apply IH; intros; apply H; simpl; auto).
  destruct (f y) eqn:E; split; intros F.
  - inversion F; subst; [apply fi_here; auto|apply fi_later; auto; apply IH'; auto].
  - inversion F; subst; [apply fi_here; auto|apply fi_later; auto; apply IH'; auto].
  - inversion F; subst; [rewrite H in E; simpl; auto; discriminate|apply IH'; auto].
  - apply fi_later; [intros K; rewrite H in E; simpl; auto; discriminate|apply IH'; auto].
Qed.
Lemma is_method_plain s st nm sg i : is_method s st false nm sg i -> nonnative s i = true.
Proof.
  intros (m & Hm & _ & _ & _ & N). unfold nonnative, is_native. rewrite <- method_at_of, Hm. destruct (m_native m); auto.
  exfalso. assert (false = true) by (apply N; discriminate). discriminate.
Qed.
Lemma plain_first s cl st nm sg i :
  first_in (is_method s st false nm sg) (methods_of s cl) i <-> first_in (is_method s st false nm sg) (plain s cl) i.
Proof. apply first_in_filter. intros y _. apply is_method_plain. Qed.
Lemma ident_method s s' i : ident s s' -> is_mth s i = true -> is_mth s' i = true ->
  forall st nat nm sg, is_method s st nat nm sg i <-> is_method s' st nat nm sg i.
Proof.
  intros [_ H] M M' st nat nm sg. unfold is_method. rewrite !method_at_of. pose proof (is_mth_lt M) as Lt. specialize (H i Lt).
  unfold is_mth, mth_of in *. destruct (lookup s i) as [o|]; [|discriminate]. destruct (lookup s' i) as [o'|]; [|discriminate].
  destruct (o_pay o), (o_pay o'); simpl in *; try discriminate. destruct H as (A & B & C & D).
  split; intros (x & E & K); inversion E; subst x; eexists; (split; [reflexivity|]); rewrite ?A, ?B, ?C, ?D in *; auto.
Qed.
Lemma ident_field s s' i : ident s s' -> is_fld s i = true -> is_fld s' i = true ->
  forall st nm sg, is_field s st nm sg i <-> is_field s' st nm sg i.
Proof.
  intros [_ H] M M' st nm sg. unfold is_field. rewrite !field_at_of. pose proof (is_fld_lt M) as Lt. specialize (H i Lt).
  unfold is_fld, fld_of in *. destruct (lookup s i) as [o|]; [|discriminate]. destruct (lookup s' i) as [o'|]; [|discriminate].
  destruct (o_pay o), (o_pay o'); simpl in *; try discriminate. destruct H as (A & B & C).
  split; intros (x & E & K); inversion E; subst x; eexists; (split; [reflexivity|]); rewrite ?A, ?B, ?C in *; auto.
Qed.
Lemma plain_In s cl i : In i (plain s cl) -> In i (methods_of s cl).
Proof. unfold plain. rewrite filter_In. tauto. Qed.
Lemma own_method_history G l s vs s' cl st nm sg i : good G s -> exec G l s = Some (vs, s') -> is_cls s cl = true ->
  first_in (is_method s st false nm sg) (methods_of s cl) i -> first_in (is_method s' st false nm sg) (methods_of s' cl) i.
Proof.
  intros Gs E C F. destruct (tables_history Gs E C) as (Id & ms & fs & Ep & _). pose proof (exec_good Gs E) as Gs'.
  apply plain_first. rewrite Ep. apply plain_first in F. apply first_in_app. eapply first_in_iff; [|exact F].
  intros y Hy. apply (ident_method Id).
  - eapply methods_wf; [apply (good_wf Gs)|]. apply plain_In; eauto.
  - eapply methods_wf; [apply (good_wf Gs')|]. apply (plain_In (cl := cl)). rewrite Ep, in_app_iff. auto.
Qed.
Lemma own_field_history G l s vs s' cl st nm sg i : good G s -> exec G l s = Some (vs, s') -> is_cls s cl = true ->
  first_in (is_field s st nm sg) (fields_of s cl) i -> first_in (is_field s' st nm sg) (fields_of s' cl) i.
Proof.
  intros Gs E C F. destruct (tables_history Gs E C) as (Id & ms & fs & _ & Ef). pose proof (exec_good Gs E) as Gs'.
  rewrite Ef. apply first_in_app. eapply first_in_iff; [|exact F].
  intros y Hy. apply (ident_field Id).
  - eapply fields_wf; [apply (good_wf Gs)|]; eauto.
  - eapply fields_wf; [apply (good_wf Gs')|]. rewrite Ef, in_app_iff. eauto.
Qed.

(** ** Methods bound by RegisterNatives are never static *)
Definition snat (s : VmState.st) : Prop := forall cl i m, In i (methods_of s cl) -> method_at s i = Some m ->
  m_native m <> None -> m_static m = false.
Definition SP (s s' : VmState.st) : Prop := snat s -> snat s'.
Lemma SP_shrinks s s' : wf s -> ident s s' -> shrinks s s' -> SP s s'.
Proof.
  intros W I H N cl i m Hi Hm Hn. apply H in Hi. pose proof (methods_wf W Hi) as M. pose proof (is_mth_lt M) as Lt.
  destruct I as [_ I]. specialize (I i Lt). unfold is_mth in M. unfold method_at, contents in Hm.
  destruct (lookup s i) as [o|] eqn:L; [|discriminate]. destruct (o_pay o) eqn:Po; try discriminate.
  destruct (lookup s' i) as [o'|]; simpl in Hm; [|discriminate]. destruct (o_pay o'); try discriminate. injection Hm as ->.
  simpl in I. destruct I as (A & B & C & D). rewrite <- C. eapply N; [exact Hi| |congruence].
  unfold method_at, contents. rewrite L. simpl. rewrite Po. reflexivity.
Qed.
Lemma SP_tab s s' : wf s -> tab s s' -> shrinks s s' -> SP s s'.
Proof. intros W [I _]. apply SP_shrinks; auto. Qed.
Ltac sp_put L E := apply SP_tab; [assumption|put_tab L E|eapply shrinks_put; [exact L|..]; cbn [o_pay set_pay]; try rewrite E; simpl; auto using incl_refl].
Lemma snat_fine G t : fine G t (fun _ => True) SP.
Proof.
  constructor; intros; try (apply SP_tab; [assumption|apply tab_heap; reflexivity|apply shrinks_heap; reflexivity]).
  - intros O. auto.
  - intros O. auto.
  - apply (@find_fine G SP); auto.
    + intros x O. auto.
    + intros a b c A B O. auto.
    + intros. apply SP_tab; [assumption|apply tab_add; auto|apply shrinks_add; reflexivity].
    + intros s0 i o c k W L E K. sp_put L E.
    + intros. apply SP_tab; [assumption|apply tab_heap; reflexivity|apply shrinks_heap; reflexivity].
    + intros. apply SP_tab; [assumption|apply tab_heap; reflexivity|apply shrinks_heap; reflexivity].
  - apply SP_tab; [assumption|apply tab_add; auto|apply shrinks_add; destruct p; simpl; auto; exfalso; eapply H1; eauto].
  - sp_put H1 H1.
  - apply SP_tab; [assumption|eapply (f_cls (tab_fine G t)); eauto|].
    eapply shrinks_put; [eassumption|..]; cbn [o_pay set_pay]; rewrite H1; destruct H2; cbn [pmeths pfields c_methods c_fields]; auto using incl_refl; subst l; rewrite unreg_loop_filter.
    + apply NoDup_filter.
    + intros j Hj. apply filter_In in Hj. tauto.
  - intros N a j x Hj Hx Hn. rewrite (proj1 (methods_newm m a H1 H2)) in Hj. apply in_app_iff in Hj. unfold newm in Hx.
    assert (i < length (s_heap s)) as Li by (eapply lookup_lt; eauto).
    assert (lookup (add s (new_obj None (PMethod m))) i = Some o) as L'.
    { rewrite lookup_add. destruct (Nat.eqb_spec i (length (s_heap s))); [lia|auto]. }
    unfold method_at, contents in Hx. rewrite (lookup_put _ _ L') in Hx. destruct (Nat.eqb_spec i j); [simpl in Hx; discriminate|].
    rewrite lookup_add in Hx. destruct (Nat.eqb_spec j (length (s_heap s))).
    + simpl in Hx. injection Hx as <-. apply H3; auto.
    + destruct Hj as [Hj|Hj]; [eapply N; [exact Hj| |exact Hn]; exact Hx|].
      destruct (Nat.eqb i a); simpl in Hj; [destruct Hj as [Hj|[]]; congruence|tauto].
  - intros N a j x Hj Hx Hn. rewrite (proj2 (methods_newf f a H1 H2)) in Hj. pose proof (methods_wf H0 Hj) as M. apply is_mth_lt in M. unfold newf in Hx.
    assert (i < length (s_heap s)) as Li by (eapply lookup_lt; eauto).
    assert (lookup (add s (new_obj None (PField f))) i = Some o) as L'.
    { rewrite lookup_add. destruct (Nat.eqb_spec i (length (s_heap s))); [lia|auto]. }
    unfold method_at, contents in Hx. rewrite (lookup_put _ _ L') in Hx. destruct (Nat.eqb_spec i j); [simpl in Hx; discriminate|].
    rewrite lookup_add in Hx. destruct (Nat.eqb_spec j (length (s_heap s))); [lia|]. eapply N; [exact Hj| |exact Hn]; exact Hx.
  - sp_put H1 H2.
  - sp_put H1 H2.
  - sp_put H1 H2.
  - sp_put H1 H2.
  - sp_put H1 H2.
  - sp_put H1 H1.
  - apply SP_tab; [assumption|apply tab_collect; auto|apply shrinks_collect].
Qed.
Theorem reachable_snat G t s : reachable G t s -> snat s.
Proof.
  intros (l & vs & E). assert (snat (init_vm G t)) as O.
  { apply (fine_init (snat_fine G t)). intros cl i m H. destruct cl; destruct H. }
  eapply (fine_history (snat_fine G)); eauto. apply (inv_wf (init_inv G t)).
Qed.
Lemma exec_snat G l s vs s' : wf s -> snat s -> exec G l s = Some (vs, s') -> snat s'.
Proof. intros W O E. eapply (fine_history (snat_fine G)); eauto. Qed.

Section Cfg.
Variable G : cfg.
Lemma GetMethodID_own t st nm sg st' sg' h cl i s : good G s -> attached s t -> denotes_opt s h (Some cl) -> asks s cl st nm sg st' sg' ->
  first_in (is_method s st' false nm sg') (methods_of s cl) i ->
  step G t (GetMethodID_ st h nm sg) s = Some (OVal (RRef (Some i)), s).
Proof.
  intros Gs A Dh As F. apply step_tidy_ret; [auto| |apply Gs]. pose proof (good_wf Gs) as W.
  assert (exists c, class_at s cl = Some c) as (c & Ec).
  { unfold methods_of in F. destruct (class_at s cl); [eauto|]. inversion F. }
  assert (c_methods c = methods_of s cl) as Em by (unfold methods_of; rewrite Ec; auto).
  assert (forall fuel, (st' = true \/ nm <> S_ "<init>") -> getMethodID G (S fuel) t st' (retnull G) false h nm sg' s = Ret (Some i) s) as Lv.
  { intros fuel NI. cbn [getMethodID]. unfold bind at 1. rewrite (jnicast_class G W Dh Ec). unfold bind at 1. rewrite (get_cls_eq Ec).
    assert (negb st' && str_eqb nm (S_ "<init>") = false) as ->.
    { destruct NI as [->|NI]; auto. destruct (str_eqb_spec nm (S_ "<init>")); [congruence|]. apply andb_false_r. }
    unfold bind at 1, gets. pose proof (find_mth_spec s st' false nm sg' (c_methods c)) as FM. rewrite Em in *.
    destruct (find_mth _ _ _) as [j|].
    - rewrite (first_in_fun FM F). reflexivity.
    - exfalso. apply first_in_In in F. apply (FM i); tauto. }
  cbn [body]. unfold as_ref, bind at 1, GetMethodID, bind at 1, gets, depth. replace (length (s_heap s) + 2) with (S (S (length (s_heap s)))) by lia.
  assert (exists n, n = S (length (s_heap s))) as (n & En) by eauto. rewrite <- En. pose proof (asks_eq Ec As) as E.
  destruct (negb st && str_eqb nm (S_ "<init>")) eqn:B.
  - destruct E as [-> ->]. cbn [getMethodID]. unfold bind at 1. rewrite (jnicast_class G W Dh Ec). unfold bind at 1. rewrite (get_cls_eq Ec), B.
    subst n. rewrite Lv; auto.
  - destruct E as [-> ->]. rewrite Lv; auto. destruct st; auto. right. intros ->. discriminate B.
Qed.
Lemma GetFieldID_own t st nm sg h cl i s : good G s -> attached s t -> denotes_opt s h (Some cl) ->
  first_in (is_field s st nm sg) (fields_of s cl) i ->
  step G t (GetFieldID_ st h nm sg) s = Some (OVal (RRef (Some i)), s).
Proof.
  intros Gs A Dh F. apply step_tidy_ret; [auto| |apply Gs]. pose proof (good_wf Gs) as W.
  assert (exists c, class_at s cl = Some c) as (c & Ec).
  { unfold fields_of in F. destruct (class_at s cl); [eauto|]. inversion F. }
  assert (c_fields c = fields_of s cl) as Em by (unfold fields_of; rewrite Ec; auto).
  cbn [body]. unfold as_ref, bind at 1, GetFieldID, bind at 1, gets, depth. replace (length (s_heap s) + 2) with (S (S (length (s_heap s)))) by lia.
  cbn [getFieldID]. unfold bind at 1. rewrite (jnicast_class G W Dh Ec). unfold bind at 1, nonnull, ret at 1. unfold bind at 1. rewrite (get_cls_eq Ec).
  unfold bind at 1, gets. pose proof (find_fld_spec s st nm sg (c_fields c)) as FM. rewrite Em in *.
  destruct (find_fld _ _ _) as [j|].
  - rewrite (first_in_fun FM F). reflexivity.
  - exfalso. apply first_in_In in F. apply (FM i); tauto.
Qed.

(** the result of GetMethodID, when it lies in the class itself, is its first match in the new state *)
Lemma first_in_snoc A (P : A -> Prop) l x : (forall y, In y l -> ~ P y) -> P x -> first_in P (l ++ [x]) x.
Proof. intros N H. apply first_in_skip; auto. apply fi_here. auto. Qed.
Lemma first_own (P : oid -> Prop) (f : oid -> list oid) cl L i : first_in P (flat_map f (cl :: L)) i -> In i (f cl) -> first_in P (f cl) i.
Proof.
  cbn [flat_map]. generalize (flat_map f L) as M. intros M. induction (f cl) as [|y l IH]; intros F H; [destruct H|].
  cbn [app] in F. inversion F; subst; [apply fi_here; auto|]. apply fi_later; auto. apply IH; auto. destruct H as [->|H]; auto.
  exfalso. apply first_in_In in F. tauto.
Qed.
Lemma same_types_method s s' i : same_but_types s s' -> method_at s' i = method_at s i.
Proof. intros [-> _]. reflexivity. Qed.
Lemma same_types_field s s' i : same_but_types s s' -> field_at s' i = field_at s i.
Proof. intros [-> _]. reflexivity. Qed.
Lemma same_types_class s s' i : same_but_types s s' -> class_at s' i = class_at s i.
Proof. intros [-> _]. reflexivity. Qed.
Lemma got_method_own t st nm sg l cl s s' i : wf s -> got_method G t st nm sg l cl s s' (Some i) -> In i (methods_of s' cl) ->
  first_in (is_method s' st false nm sg) (methods_of s' cl) i.
Proof.
  intros W H Hi. inversion H as [j (L & D & F) St Ej| |j (L & D & N) Rn Ej Hm (c & c' & C & C' & Em & _) Di Br Ek]; subst.
  - unfold is_method, methods_of in *. rewrite (same_types_class _ St) in *. inversion D; subst.
    pose proof (first_own (f := methods_of s) F Hi) as F'. eapply first_in_iff; [|exact F']. intros y _.
    unfold is_method. rewrite (same_types_method _ St). reflexivity.
  - assert (methods_of s cl = c_methods c) as Ec by (unfold methods_of; rewrite C; auto).
    assert (methods_of s' cl = c_methods c ++ [length (s_heap s)]) as Ec' by (unfold methods_of; rewrite C'; auto).
    rewrite Ec'. apply first_in_snoc.
    + intros y Hy K. inversion D; subst. apply (N y); [cbn [flat_map]; rewrite in_app_iff, Ec; auto|].
      assert (y <> cl) as Ny.
      { intros ->. rewrite <- Ec in Hy. apply (methods_wf W) in Hy. unfold is_mth in Hy. destruct (class_at_lookup C) as (o & Lo & Po).
        rewrite Lo, Po in Hy. discriminate. }
      rewrite <- Ec in Hy. apply (methods_wf W) in Hy.
      assert (exists m, method_at s y = Some m) as (m & Hy').
      { rewrite method_at_of. unfold is_mth, mth_of in *. destruct (lookup s y) as [o|]; [|discriminate]. destruct (o_pay o); try discriminate. eauto. }
      destruct K as (m' & K & K'). rewrite (intact_method' Di (fun E => Ny (eq_sym E)) Hy') in K. inversion K; subst m'. exists m. auto.
    + eexists. split; [exact Hm|]. simpl. repeat split; auto; congruence.
Qed.
Lemma intact_field' s s' X t i m : disturbs X t s s' -> ~ X i -> field_at s i = Some m -> field_at s' i = Some m.
Proof.
  intros D N H. eapply intact_field; eauto. apply (d_obj D); auto. destruct (field_at_lookup H) as (o & L & _). unfold live. rewrite L. auto.
Qed.
Lemma got_field_own t st nm sg l cl s s' i : wf s -> got_field G t st nm sg l cl s s' (Some i) -> In i (fields_of s' cl) ->
  first_in (is_field s' st nm sg) (fields_of s' cl) i.
Proof.
  intros W H Hi. inversion H as [j (L & D & F) St Ej| |j (L & D & N) Rn Ej Hm (c & c' & C & C' & _ & Em & _) Di Br Ek]; subst.
  - unfold is_field, fields_of in *. rewrite (same_types_class _ St) in *. inversion D; subst.
    pose proof (first_own (f := fields_of s) F Hi) as F'. eapply first_in_iff; [|exact F']. intros y _.
    unfold is_field. rewrite (same_types_field _ St). reflexivity.
  - assert (fields_of s cl = c_fields c) as Ec by (unfold fields_of; rewrite C; auto).
    assert (fields_of s' cl = c_fields c ++ [length (s_heap s)]) as Ec' by (unfold fields_of; rewrite C'; auto).
    rewrite Ec'. apply first_in_snoc.
    + intros y Hy K. inversion D; subst. apply (N y); [cbn [flat_map]; rewrite in_app_iff, Ec; auto|].
      assert (y <> cl) as Ny.
      { intros ->. rewrite <- Ec in Hy. apply (fields_wf W) in Hy. unfold is_fld in Hy. destruct (class_at_lookup C) as (o & Lo & Po).
        rewrite Lo, Po in Hy. discriminate. }
      rewrite <- Ec in Hy. apply (fields_wf W) in Hy.
      assert (exists m, field_at s y = Some m) as (m & Hy').
      { rewrite field_at_of. unfold is_fld, fld_of in *. destruct (lookup s y) as [o|]; [|discriminate]. destruct (o_pay o); try discriminate. eauto. }
      destruct K as (m' & K & K'). rewrite (intact_field' Di (fun E => Ny (eq_sym E)) Hy') in K. inversion K; subst m'. exists m. auto.
    + eexists. split; [exact Hm|]. simpl. repeat split; auto; congruence.
Qed.
End Cfg.
