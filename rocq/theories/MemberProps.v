(** Member lookup, hooking and native registration: C13 - C21. *)
From Verif Require Import Base BaseProofs SigModel SigSpec SigProps VmState VmModel VmStep VmSpec MemSpec HookSpec CallSpec VmBase VmFrame VmWf VmPrim VmInv VmReg
  VmFine VmRegInv VmExact VmQuiet VmClass VmMember VmMember2 VmMember3 VmTables VmHook VmMemHist VmEnvInv VmCall VmCall2 VmDemo.
Set Implicit Arguments.
Unset Strict Implicit.

(** ** Auxiliary facts *)
Lemma first_block (P : oid -> Prop) (f : oid -> list oid) L d i : first_in P (flat_map f L) i -> In i (f d) ->
  (forall d', In i (f d') -> d' = d) -> first_in P (f d) i.
Proof.
  intros F Hd U. induction L as [|c L IH]; [inversion F|].
  destruct (in_dec Nat.eq_dec i (f c)) as [K|K].
  - assert (c = d) as -> by auto. eapply first_own; eauto.
  - apply IH. simpl in F. clear IH. induction (f c) as [|x l IHl]; auto. inversion F; subst; [exfalso; apply K; simpl; auto|].
    apply IHl; auto. intros H. apply K. simpl. auto.
Qed.
Lemma same_types_methods s s' cl : same_but_types s s' -> methods_of s' cl = methods_of s cl.
Proof. intros S. unfold methods_of. rewrite (same_types_class cl S). auto. Qed.
Lemma same_types_fields s s' cl : same_but_types s s' -> fields_of s' cl = fields_of s cl.
Proof. intros S. unfold fields_of. rewrite (same_types_class cl S). auto. Qed.
Lemma same_types_is_method s s' st native nm sg i : same_but_types s s' -> (is_method s st native nm sg i <-> is_method s' st native nm sg i).
Proof. intros S. unfold is_method. rewrite (same_types_method i S). reflexivity. Qed.
Lemma same_types_is_field s s' st nm sg i : same_but_types s s' -> (is_field s st nm sg i <-> is_field s' st nm sg i).
Proof. intros S. unfold is_field. rewrite (same_types_field i S). reflexivity. Qed.
Lemma methods_of_cls s cl i : In i (methods_of s cl) -> is_cls s cl = true.
Proof. unfold methods_of. destruct (class_at s cl) as [c|] eqn:C; [|intros []]. intros _. apply is_cls_class_at. eauto. Qed.
Lemma fields_of_cls s cl i : In i (fields_of s cl) -> is_cls s cl = true.
Proof. unfold fields_of. destruct (class_at s cl) as [c|] eqn:C; [|intros []]. intros _. apply is_cls_class_at. eauto. Qed.
Lemma asks_history G l s vs s' cl st nm sg st' sg' : good G s -> exec G l s = Some (vs, s') ->
  asks s cl st nm sg st' sg' -> asks s' cl st nm sg st' sg'.
Proof.
  intros Gs E A. assert (forall c, class_at s cl = Some c -> exists c', class_at s' cl = Some c' /\ c_prefix c' = c_prefix c) as K.
  { intros c C. assert (is_cls s cl = true) as I by (apply is_cls_class_at; eauto). destruct (class_forever Gs E I) as [I' P].
    apply is_cls_class_at in I'. destruct I' as (c' & C'). exists c'. split; auto. rewrite C, C' in P. simpl in P. congruence. }
  inversion A; subst.
  - apply asks_plain. auto.
  - destruct (K _ H1) as (c' & C' & <-). eapply asks_ctor; eauto.
  - destruct (K _ H1) as (c' & C' & <-). eapply asks_bad; eauto.
Qed.
Lemma got_method_is G t st nm sg l cl s s' i : got_method G t st nm sg l cl s s' (Some i) -> is_method s' st false nm sg i.
Proof.
  intros H. inversion H as [j F S| |j F R Ej M Gr D B]; subst.
  - destruct F as (L & _ & F). apply first_in_In in F. apply (same_types_is_method st false nm sg i S). tauto.
  - eexists. split; [exact M|]. simpl. intuition congruence.
Qed.
Lemma got_field_is G t st nm sg l cl s s' i : got_field G t st nm sg l cl s s' (Some i) -> is_field s' st nm sg i.
Proof.
  intros H. inversion H as [j F S| |j F R Ej M Gr D B]; subst.
  - destruct F as (L & _ & F). apply first_in_In in F. apply (same_types_is_field st nm sg i S). tauto.
  - eexists. split; [exact M|]. simpl. auto.
Qed.
(** the ID is declared by a class of the hierarchy *)
Lemma got_method_declared G t st nm sg l cl s s' i : got_method G t st nm sg l cl s s' (Some i) -> exists d, In i (methods_of s' d).
Proof.
  intros H. inversion H as [j F S| |j F R Ej M Gr D B]; subst.
  - destruct F as (L & _ & F). apply first_in_In in F. destruct F as [F _]. apply in_flat_map in F. destruct F as (d & _ & F).
    exists d. rewrite (same_types_methods d S). auto.
  - destruct Gr as (c & c' & _ & C' & E & _). exists cl. unfold methods_of. rewrite C', E, in_app_iff. simpl. auto.
Qed.
Lemma got_field_declared G t st nm sg l cl s s' i : got_field G t st nm sg l cl s s' (Some i) -> exists d, In i (fields_of s' d).
Proof.
  intros H. inversion H as [j F S| |j F R Ej M Gr D B]; subst.
  - destruct F as (L & _ & F). apply first_in_In in F. destruct F as [F _]. apply in_flat_map in F. destruct F as (d & _ & F).
    exists d. rewrite (same_types_fields d S). auto.
  - destruct Gr as (c & c' & _ & C' & _ & E & _). exists cl. unfold fields_of. rewrite C', E, in_app_iff. simpl. auto.
Qed.
(** ... and is the first member of that class with the requested key *)
Lemma got_method_first G t st nm sg l cl s s' i d : wf s -> owned s' -> got_method G t st nm sg l cl s s' (Some i) -> In i (methods_of s' d) ->
  first_in (is_method s' st false nm sg) (methods_of s' d) i.
Proof.
  intros W O H Hd. inversion H as [j F S| |j F R Ej M Gr D B]; subst.
  - destruct F as (L & _ & F). rewrite (same_types_methods d S) in *.
    apply (@first_in_iff _ (is_method s st false nm sg)); [intros; apply (same_types_is_method st false nm sg y S)|].
    eapply first_block; eauto. intros d' K. apply (ow_mx O (i := i)); rewrite (same_types_methods _ S); auto.
  - assert (d = cl) as ->.
    { eapply (ow_mx O); eauto. destruct Gr as (c & c' & _ & C' & E & _). unfold methods_of. rewrite C', E, in_app_iff. simpl. auto. }
    eapply got_method_own; eauto.
Qed.
Lemma got_field_first G t st nm sg l cl s s' i d : wf s -> owned s' -> got_field G t st nm sg l cl s s' (Some i) -> In i (fields_of s' d) ->
  first_in (is_field s' st nm sg) (fields_of s' d) i.
Proof.
  intros W O H Hd. inversion H as [j F S| |j F R Ej M Gr D B]; subst.
  - destruct F as (L & _ & F). rewrite (same_types_fields d S) in *.
    apply (@first_in_iff _ (is_field s st nm sg)); [intros; apply (same_types_is_field st nm sg y S)|].
    eapply first_block; eauto. intros d' K. apply (ow_fx O (i := i)); rewrite (same_types_fields _ S); auto.
  - assert (d = cl) as ->.
    { eapply (ow_fx O); eauto. destruct Gr as (c & c' & _ & C' & _ & E & _). unfold fields_of. rewrite C', E, in_app_iff. simpl. auto. }
    eapply got_field_own; eauto.
Qed.
Lemma dfs_cls G s cl L : dfs G s cl L -> is_cls s cl = true /\ In cl L.
Proof. intros D. inversion D; subst. split; [apply class_at_is_cls; auto|simpl; auto]. Qed.

(** ** C16 *)
(** GetMethodID and GetFieldID for a class with a finite hierarchy return the first matching member in depth first
    order, and create one on the class only if there is none (and the VM may create); [got_method] and [got_field]
    also say that nothing else changes. *)
Theorem C16_method G t0 s t st h cl L nm sg st' sg' l : reachable G t0 s -> attached s t -> denotes_opt s h (Some cl) -> dfs G s cl L ->
  asks s cl st nm sg st' sg' -> ~ In NUL sg' -> names sg' l ->
  exists r s', step G t (GetMethodID_ st h nm sg) s = Some (OVal (RRef r), s') /\ got_method G t st' nm sg' l cl s s' r.
Proof.
  intros R A D F As N Nm. apply reachable_good in R.
  destruct (GetMethodID_step (l := l) R A D F As) as (r & s' & E & _ & H); [|eauto]. intros _. apply C09_declare_partial; auto.
Qed.
Theorem C16_field G t0 s t st h cl L nm ty l : reachable G t0 s -> attached s t -> denotes_opt s h (Some cl) -> dfs G s cl L ->
  ~ In NUL ty -> names ty l ->
  exists r s', step G t (GetFieldID_ st h nm ty) s = Some (OVal (RRef r), s') /\ got_field G t st nm ty l cl s s' r.
Proof.
  intros R A D F N Nm. apply reachable_good in R.
  destruct (@GetFieldID_step G t st nm ty l h cl L s R A D F) as (r & s' & E & _ & H); [|eauto]. intros _. apply C09_declare_partial; auto.
Qed.
(** The result is unique: what the hierarchy contains determines it. *)
Theorem C16_found_unique G s st native nm sg cl r r' : finds_method G s st native nm sg cl r -> finds_method G s st native nm sg cl r' -> r = r'.
Proof.
  intros (L & D & H) (L' & D' & H'). assert (L' = L) as -> by (eapply (proj1 (dfs_fun G s)); eauto).
  eapply (@picks_fun (is_method s st native nm sg) (flat_map (methods_of s) L)); auto.
Qed.

(** ** C13 *)
Lemma Forall2_In_l A B (P : A -> B -> Prop) l m x : Forall2 P l m -> In x l -> exists y, P x y.
Proof. induction 1; simpl; [tauto|]. intros [<-|H']; eauto. Qed.
Lemma brought_exists G t l s s' n : brought G t l s s' -> debug G = true -> In n l -> class_exists s' n.
Proof. unfold brought. intros B D I. rewrite D in B. destruct B as (ks & F & _). destruct (Forall2_In_l F I) as (k & K). exists k. auto. Qed.
(** Partial: for a member that did not exist before (missing: members that were already there, see [C13_refuted]). *)
Theorem C13_method_partial G t0 s t st h cl nm sg st' ps r i s' n : reachable G t0 s -> debug G = true ->
  denotes_opt s h (Some cl) -> asks s cl st nm sg st' (msig ps r) -> finds_method G s st' false nm (msig ps r) cl None ->
  Forall ty_ok ps -> ret_ok r ->
  step G t (GetMethodID_ st h nm sg) s = Some (OVal (RRef (Some i)), s') ->
  In n (sig_classes ps r) -> class_exists s' n.
Proof.
  intros R Db D As F Ps Rk St In1. apply reachable_good in R. pose proof (step_attached St eq_refl) as A.
  pose proof F as (L & Df & _).
  destruct (GetMethodID_step (l := sig_classes ps r) R A D Df As) as (x & s1 & E & _ & H).
  { intros _. apply C13_declared_names; auto. }
  rewrite St in E. inversion E; subst. inversion H as [j F' S| |j F' Rn Ej M Gr Di B]; subst.
  - pose proof (C16_found_unique F F'). discriminate.
  - eapply brought_exists; eauto.
Qed.
Theorem C13_field_partial G t0 s t st h cl nm ft i s' n : reachable G t0 s -> debug G = true ->
  denotes_opt s h (Some cl) -> finds_field G s st nm (descr ft) cl None -> ty_ok ft ->
  step G t (GetFieldID_ st h nm (descr ft)) s = Some (OVal (RRef (Some i)), s') ->
  In n (ty_classes ft) -> class_exists s' n.
Proof.
  intros R Db D F Tk St In1. apply reachable_good in R. pose proof (step_attached St eq_refl) as A.
  pose proof F as (L & Df & N).
  destruct (@GetFieldID_step G t st nm (descr ft) (ty_classes ft) h cl L s R A D Df) as (x & s1 & E & _ & H).
  { intros _. apply C13_declared_field; auto. }
  rewrite St in E. inversion E; subst. inversion H as [j F' S| |j F' Rn Ej M Gr Di B]; subst.
  - destruct F' as (L' & Df' & F'). assert (L' = L) as -> by (eapply (proj1 (dfs_fun G s)); eauto). apply first_in_In in F'. exfalso. eapply N; apply F'.
  - eapply brought_exists; eauto.
Qed.
(** ... and they stay. *)
Theorem C13_forever G t0 s n l vs s' : reachable G t0 s -> class_exists s n -> exec G l s = Some (vs, s') -> class_exists s' n.
Proof.
  intros R (i & o & c & L & P & E) X. apply reachable_good in R. assert (class_at s i = Some c) as C by (apply class_at_named; eauto).
  assert (is_cls s i = true) as I by (apply is_cls_class_at; eauto). destruct (class_forever R X I) as [I' Pr].
  apply is_cls_class_at in I'. destruct I' as (c' & C'). rewrite C, C' in Pr. simpl in Pr. apply class_at_named in C'. destruct C' as (o' & L' & P').
  exists i, o', c'. split; auto. split; auto. congruence.
Qed.

(** ** C14, C15 *)
(** The state in which a lookup returned is reachable too. *)
Lemma reach_step G t0 s t o v s' : reachable G t0 s -> step G t o s = Some (v, s') -> reachable G t0 s'.
Proof. intros R E. eapply reachable_exec; eauto. apply step_exec. eauto. Qed.
Lemma reach_exec G t0 s l vs s' : reachable G t0 s -> exec G l s = Some (vs, s') -> reachable G t0 s'.
Proof. intros R E. eapply reachable_exec; eauto. Qed.

Lemma GetMethodID_found G t st nm sg st' sg' h cl i s : good G s -> attached s t -> denotes_opt s h (Some cl) ->
  finds_method G s st' false nm sg' cl (Some i) -> asks s cl st nm sg st' sg' ->
  exists s', step G t (GetMethodID_ st h nm sg) s = Some (OVal (RRef (Some i)), s') /\ same_but_types s s'.
Proof.
  intros [I Ti] A Dh Fd As. pose proof (inv_wf I) as W. pose proof Fd as (L & D & _).
  assert (exists c, class_at s cl = Some c) as (c & Ec).
  { inversion D; subst. destruct (class_at s cl); eauto. congruence. }
  assert (method_id G t (retnull G) st' nm sg' cl s (GetMethodID G t st h nm sg s)) as H.
  { unfold GetMethodID, bind at 1, gets. unfold depth. pose proof (asks_eq Ec As) as E.
    replace (length (s_heap s) + 2) with (S (S (length (s_heap s)))) by lia. assert (exists n, n = S (length (s_heap s))) as (n & En) by eauto. rewrite <- En.
    destruct (negb st && str_eqb nm (S_ "<init>")) eqn:B.
    - destruct E as [-> ->]. cbn [getMethodID]. unfold bind at 1. rewrite (jnicast_class G W Dh Ec). unfold bind at 1. rewrite (get_cls_eq Ec), B.
      eapply getMethodID_level; eauto. lia.
    - destruct E as [-> ->]. eapply getMethodID_level; eauto; [|lia].
      destruct st; auto. right. intros ->. discriminate B. }
  assert (step G t (GetMethodID_ st h nm sg) s = match GetMethodID G t st h nm sg s with
    | Ret r s' => Some (OVal (RRef r), finish s') | Thr e s' => Some (OExn e, finish s') | _ => None end) as St.
  { unfold step. rewrite run_attached by auto. cbn [body]. unfold as_ref, bind. destruct (GetMethodID G t st h nm sg s); auto. }
  inversion H as [i0 s0 Hf Ts E0|s0 Hf Hr Ts E0|s1 o0 c0 s2 s0 Hf Hr Ts Lo Po E2 Hd E0|x Hf Hr Dg Nd Bad E0]; try (pose proof (C16_found_unique Fd Hf) as X; congruence).
  assert (i0 = i) as -> by (pose proof (C16_found_unique Fd Hf); congruence). rewrite <- E0, (tidy_finish_id (tstep_tidy W Ts Ti)) in St.
  exists s0. split; auto. apply tstep_same; auto.
Qed.
Lemma found_field_unique G s st nm sg cl r r' : finds_field G s st nm sg cl r -> finds_field G s st nm sg cl r' -> r = r'.
Proof.
  intros (L & D & H) (L' & D' & H'). assert (L' = L) as -> by (eapply (proj1 (dfs_fun G s)); eauto).
  eapply (@picks_fun (is_field s st nm sg) (flat_map (fields_of s) L)); auto.
Qed.
Lemma GetFieldID_found G t st nm sg h cl i s : good G s -> attached s t -> denotes_opt s h (Some cl) ->
  finds_field G s st nm sg cl (Some i) ->
  exists s', step G t (GetFieldID_ st h nm sg) s = Some (OVal (RRef (Some i)), s') /\ same_but_types s s'.
Proof.
  intros [I Ti] A Dh Fd. pose proof (inv_wf I) as W. pose proof Fd as (L & D & _).
  assert (field_id G t (retnull G) st nm sg cl s (GetFieldID G t st h nm sg s)) as H.
  { unfold GetFieldID, bind at 1, gets. eapply getFieldID_level; eauto. unfold depth. lia. }
  assert (step G t (GetFieldID_ st h nm sg) s = match GetFieldID G t st h nm sg s with
    | Ret r s' => Some (OVal (RRef r), finish s') | Thr e s' => Some (OExn e, finish s') | _ => None end) as St.
  { unfold step. rewrite run_attached by auto. cbn [body]. unfold as_ref, bind. destruct (GetFieldID G t st h nm sg s); auto. }
  inversion H as [i0 s0 Hf Ts E0|s0 Hf Hr Ts E0|s1 o0 c0 s2 s0 Hf Hr Ts Lo Po E2 Hd E0|x Hf Hr Dg Nd Bad E0]; try (pose proof (found_field_unique Fd Hf) as X; congruence).
  assert (i0 = i) as -> by (pose proof (found_field_unique Fd Hf); congruence). rewrite <- E0, (tidy_finish_id (tstep_tidy W Ts Ti)) in St.
  exists s0. split; auto. apply tstep_same; auto.
Qed.

(** Two lookups of one method with anything in between return the same ID [i], provided that the hierarchy of the class is
    the same and the classes [P] that come before the class [d] declaring the method still do not have one.  (Missing:
    these conditions are necessary, see [C14_refuted].) *)
Theorem C14_stable_partial G t0 s t st h cl P d Q nm sg st' sg' i s1 l vs s2 t2 h2 :
  reachable G t0 s -> denotes_opt s h (Some cl) -> dfs G s cl (P ++ d :: Q) -> asks s cl st nm sg st' sg' ->
  step G t (GetMethodID_ st h nm sg) s = Some (OVal (RRef (Some i)), s1) -> In i (methods_of s1 d) ->
  exec G l s1 = Some (vs, s2) ->
  attached s2 t2 -> denotes_opt s2 h2 (Some cl) -> dfs G s2 cl (P ++ d :: Q) ->
  (forall c j, In c P -> In j (methods_of s2 c) -> ~ is_method s2 st' false nm sg' j) ->
  exists s3, step G t2 (GetMethodID_ st h2 nm sg) s2 = Some (OVal (RRef (Some i)), s3) /\ same_but_types s2 s3.
Proof.
  intros R D Df As St Hd Ex A2 D2 Df2 NP. pose proof (step_attached St eq_refl) as A.
  pose proof (reachable_solid R) as So. pose proof (reachable_solid (reach_step R St)) as So1. pose proof (reachable_solid (reach_exec (reach_step R St) Ex)) as So2.
  destruct (GetMethodID_ret (so_good So) A D Df As St) as (r & ns & Er & _ & H). inversion Er; subst r.
  pose proof (got_method_first (good_wf (so_good So)) (so_owned So1) H Hd) as F1.
  pose proof (own_method_history (so_good So1) Ex (methods_of_cls Hd) F1) as F2.
  assert (first_in (is_method s2 st' false nm sg') (flat_map (methods_of s2) (P ++ d :: Q)) i) as F.
  { rewrite flat_map_app. apply first_in_skip; [|simpl; apply first_in_app; auto]. intros y Hy. apply in_flat_map in Hy. destruct Hy as (c & Hc & Hy). eapply NP; eauto. }
  assert (asks s2 cl st nm sg st' sg') as As2.
  { eapply asks_history; [apply So1|exact Ex|]. eapply asks_history; [apply So|apply (step_exec St)|exact As]. }
  assert (finds_method G s2 st' false nm sg' cl (Some i)) as Fd by (exists (P ++ d :: Q); auto).
  destruct (GetMethodID_found (so_good So2) A2 D2 Fd As2) as (s3 & E3 & S3). eauto.
Qed.

(** One ID never stands for two methods: it has one name, signature and static flag, and one declaring class. *)
Theorem C14_distinct G t0 s t st h cl L nm sg st' sg' i s1 l vs s2 t2 u h2 cl2 L2 nm2 sg2 u' sg2' s3 :
  reachable G t0 s -> denotes_opt s h (Some cl) -> dfs G s cl L -> asks s cl st nm sg st' sg' ->
  step G t (GetMethodID_ st h nm sg) s = Some (OVal (RRef (Some i)), s1) ->
  exec G l s1 = Some (vs, s2) ->
  denotes_opt s2 h2 (Some cl2) -> dfs G s2 cl2 L2 -> asks s2 cl2 u nm2 sg2 u' sg2' ->
  step G t2 (GetMethodID_ u h2 nm2 sg2) s2 = Some (OVal (RRef (Some i)), s3) ->
  nm2 = nm /\ sg2' = sg' /\ u' = st' /\
  exists d, In i (methods_of s1 d) /\ In i (methods_of s3 d) /\ forall d', In i (methods_of s1 d') \/ In i (methods_of s3 d') -> d' = d.
Proof.
  intros R D Df As St Ex D2 Df2 As2 St2. pose proof (step_attached St eq_refl) as A. pose proof (step_attached St2 eq_refl) as A2.
  pose proof (reach_step R St) as R1. pose proof (reach_exec R1 Ex) as R2. pose proof (reach_step R2 St2) as R3.
  pose proof (reachable_solid R) as So. pose proof (reachable_solid R1) as So1. pose proof (reachable_solid R2) as So2. pose proof (reachable_solid R3) as So3.
  destruct (GetMethodID_ret (so_good So) A D Df As St) as (r & ns & Er & _ & H). inversion Er; subst r.
  destruct (GetMethodID_ret (so_good So2) A2 D2 Df2 As2 St2) as (r & ns2 & Er2 & _ & H2). inversion Er2; subst r.
  assert (exec G (l ++ [(t2, GetMethodID_ u h2 nm2 sg2)]) s1 = Some (vs ++ [OVal (RRef (Some i))], s3)) as Ex3.
  { apply exec_app. exists vs, s2, [OVal (RRef (Some i))]. split; auto. split; auto. apply (step_exec St2). }
  destruct (got_method_declared H) as (d & Hd). pose proof (methods_of_cls Hd) as Cd.
  pose proof (got_method_first (good_wf (so_good So)) (so_owned So1) H Hd) as F1.
  pose proof (own_method_history (so_good So1) Ex3 Cd F1) as F3. apply first_in_In in F3. destruct F3 as [I3 M3].
  pose proof (got_method_is H2) as M3'. destruct M3 as (m & E & E1 & E2 & E3 & _). destruct M3' as (m' & E' & E1' & E2' & E3' & _).
  assert (m' = m) by congruence. subst m'. split; [congruence|]. split; [congruence|]. split; [congruence|].
  exists d. split; auto. split; auto. intros d' [K|K]; [eapply (ow_mx (so_owned So1)); eauto|eapply (ow_mx (so_owned So3)); eauto].
Qed.

Theorem C15_stable_partial G t0 s t st h cl P d Q nm ty i s1 l vs s2 t2 h2 :
  reachable G t0 s -> denotes_opt s h (Some cl) -> dfs G s cl (P ++ d :: Q) ->
  step G t (GetFieldID_ st h nm ty) s = Some (OVal (RRef (Some i)), s1) -> In i (fields_of s1 d) ->
  exec G l s1 = Some (vs, s2) ->
  attached s2 t2 -> denotes_opt s2 h2 (Some cl) -> dfs G s2 cl (P ++ d :: Q) ->
  (forall c j, In c P -> In j (fields_of s2 c) -> ~ is_field s2 st nm ty j) ->
  exists s3, step G t2 (GetFieldID_ st h2 nm ty) s2 = Some (OVal (RRef (Some i)), s3) /\ same_but_types s2 s3.
Proof.
  intros R D Df St Hd Ex A2 D2 Df2 NP. pose proof (step_attached St eq_refl) as A.
  pose proof (reachable_solid R) as So. pose proof (reachable_solid (reach_step R St)) as So1. pose proof (reachable_solid (reach_exec (reach_step R St) Ex)) as So2.
  destruct (GetFieldID_ret (so_good So) A D Df St) as (r & ns & Er & _ & H). inversion Er; subst r.
  pose proof (got_field_first (good_wf (so_good So)) (so_owned So1) H Hd) as F1.
  pose proof (own_field_history (so_good So1) Ex (fields_of_cls Hd) F1) as F2.
  assert (first_in (is_field s2 st nm ty) (flat_map (fields_of s2) (P ++ d :: Q)) i) as F.
  { rewrite flat_map_app. apply first_in_skip; [|simpl; apply first_in_app; auto]. intros y Hy. apply in_flat_map in Hy. destruct Hy as (c & Hc & Hy). eapply NP; eauto. }
  assert (finds_field G s2 st nm ty cl (Some i)) as Fd by (exists (P ++ d :: Q); auto).
  destruct (GetFieldID_found (so_good So2) A2 D2 Fd) as (s3 & E3 & S3). eauto.
Qed.
Theorem C15_distinct G t0 s t st h cl L nm ty i s1 l vs s2 t2 u h2 cl2 L2 nm2 ty2 s3 :
  reachable G t0 s -> denotes_opt s h (Some cl) -> dfs G s cl L ->
  step G t (GetFieldID_ st h nm ty) s = Some (OVal (RRef (Some i)), s1) ->
  exec G l s1 = Some (vs, s2) ->
  denotes_opt s2 h2 (Some cl2) -> dfs G s2 cl2 L2 ->
  step G t2 (GetFieldID_ u h2 nm2 ty2) s2 = Some (OVal (RRef (Some i)), s3) ->
  nm2 = nm /\ ty2 = ty /\ u = st /\
  exists d, In i (fields_of s1 d) /\ In i (fields_of s3 d) /\ forall d', In i (fields_of s1 d') \/ In i (fields_of s3 d') -> d' = d.
Proof.
  intros R D Df St Ex D2 Df2 St2. pose proof (step_attached St eq_refl) as A. pose proof (step_attached St2 eq_refl) as A2.
  pose proof (reach_step R St) as R1. pose proof (reach_exec R1 Ex) as R2. pose proof (reach_step R2 St2) as R3.
  pose proof (reachable_solid R) as So. pose proof (reachable_solid R1) as So1. pose proof (reachable_solid R2) as So2. pose proof (reachable_solid R3) as So3.
  destruct (GetFieldID_ret (so_good So) A D Df St) as (r & ns & Er & _ & H). inversion Er; subst r.
  destruct (GetFieldID_ret (so_good So2) A2 D2 Df2 St2) as (r & ns2 & Er2 & _ & H2). inversion Er2; subst r.
  assert (exec G (l ++ [(t2, GetFieldID_ u h2 nm2 ty2)]) s1 = Some (vs ++ [OVal (RRef (Some i))], s3)) as Ex3.
  { apply exec_app. exists vs, s2, [OVal (RRef (Some i))]. split; auto. split; auto. apply (step_exec St2). }
  destruct (got_field_declared H) as (d & Hd). pose proof (fields_of_cls Hd) as Cd.
  pose proof (got_field_first (good_wf (so_good So)) (so_owned So1) H Hd) as F1.
  pose proof (own_field_history (so_good So1) Ex3 Cd F1) as F3. apply first_in_In in F3. destruct F3 as [I3 M3].
  pose proof (got_field_is H2) as M3'. destruct M3 as (m & E & E1 & E2 & E3). destruct M3' as (m' & E' & E1' & E2' & E3').
  assert (m' = m) by congruence. subst m'. split; [congruence|]. split; [congruence|]. split; [congruence|].
  exists d. split; auto. split; auto. intros d' [K|K]; [eapply (ow_fx (so_owned So1)); eauto|eapply (ow_fx (so_owned So3)); eauto].
Qed.

(** ** C17 *)
Lemma same_key_plain s st nm sg d : (st = true -> snat s) -> (st = false -> forall j, In j (methods_of s d) -> same_key s st nm sg j -> ~ is_native_method s j) ->
  forall j, In j (methods_of s d) -> (is_method s st false nm sg j <-> same_key s st nm sg j).
Proof.
  intros N1 N2 j Hj. split.
  - intros (m & E & E1 & E2 & E3 & _). exists m. auto.
  - intros (m & E & E1 & E2 & E3). exists m. split; auto. split; auto. split; auto. split; auto. split; [|discriminate]. intros K. exfalso.
    destruct st.
    + pose proof (N1 eq_refl d j m Hj E K). congruence.
    + apply (N2 eq_refl j Hj); [exists m; auto|exists m; auto].
Qed.
(** Hooking a method of class [d] after native code got its ID [i] binds the implementation to [i].  Complete for static methods and constructors
    ([st' = true]); for instance methods only if no method with the same name and signature has been registered natively in the
    class (missing: that case, see [C17_refuted]). *)
Theorem C17_method_partial G t0 s t st h cl L nm sg st' sg' i s1 d l vs s2 t2 hd :
  reachable G t0 s -> denotes_opt s h (Some cl) -> dfs G s cl L -> asks s cl st nm sg st' sg' ->
  step G t (GetMethodID_ st h nm sg) s = Some (OVal (RRef (Some i)), s1) -> In i (methods_of s1 d) ->
  exec G l s1 = Some (vs, s2) -> attached s2 t2 ->
  (st' = false -> forall j, In j (methods_of s2 d) -> same_key s2 st' nm sg' j -> ~ is_native_method s2 j) ->
  exists s3, step G t2 (UHookMethod_ d st' nm sg' hd) s2 = Some (OVal (RRef (Some i)), s3) /\ handle_at s3 i = Some hd /\
    (forall j, method_at s2 j <> None -> j <> i -> method_at s3 j = method_at s2 j) /\ disturbs (eq i) t2 s2 s3.
Proof.
  intros R D Df As St Hd Ex A2 NN. pose proof (step_attached St eq_refl) as A.
  pose proof (reachable_solid R) as So. pose proof (reachable_solid (reach_step R St)) as So1. pose proof (reachable_solid (reach_exec (reach_step R St) Ex)) as So2.
  destruct (GetMethodID_ret (so_good So) A D Df As St) as (r & ns & Er & _ & H). inversion Er; subst r.
  pose proof (got_method_first (good_wf (so_good So)) (so_owned So1) H Hd) as F1.
  pose proof (own_method_history (so_good So1) Ex (methods_of_cls Hd) F1) as F2.
  assert (first_in (same_key s2 st' nm sg') (methods_of s2 d) i) as F.
  { eapply first_in_iff; [|exact F2]. apply same_key_plain; auto. intros _. apply So2. }
  assert (is_cls s2 d = true) as Cd by (apply first_in_In in F2; eapply methods_of_cls; apply F2).
  destruct (hook_method_step st' nm sg' hd (so_good So2) A2 Cd) as (j & s3 & E3 & _ & K).
  inversion K as [i' m F' M M' Mo Di Fr Lv|i' N Ei M' Gr Di Fr Lv]; subst.
  - assert (j = i) as -> by (eapply first_in_fun; eauto). exists s3. split; auto. split; [unfold handle_at; rewrite M'; auto|]. split; [|auto].
    intros j Nj Ne. destruct (method_at s2 j) as [x|] eqn:Ex2; [|congruence]. eapply intact_method'; eauto.
  - exfalso. apply first_in_In in F. eapply N; apply F.
Qed.
Theorem C17_field G t0 s t st h cl L nm ty i s1 d l vs s2 t2 getter hd :
  reachable G t0 s -> denotes_opt s h (Some cl) -> dfs G s cl L ->
  step G t (GetFieldID_ st h nm ty) s = Some (OVal (RRef (Some i)), s1) -> In i (fields_of s1 d) ->
  exec G l s1 = Some (vs, s2) -> attached s2 t2 ->
  exists s3 f, step G t2 (UHookField_ d st getter nm ty hd) s2 = Some (OVal (RRef (Some i)), s3) /\
    field_at s2 i = Some f /\ field_at s3 i = Some (with_hook f getter hd) /\ disturbs (eq i) t2 s2 s3.
Proof.
  intros R D Df St Hd Ex A2. pose proof (step_attached St eq_refl) as A.
  pose proof (reachable_solid R) as So. pose proof (reachable_solid (reach_step R St)) as So1. pose proof (reachable_solid (reach_exec (reach_step R St) Ex)) as So2.
  destruct (GetFieldID_ret (so_good So) A D Df St) as (r & ns & Er & _ & H). inversion Er; subst r.
  pose proof (got_field_first (good_wf (so_good So)) (so_owned So1) H Hd) as F1.
  pose proof (own_field_history (so_good So1) Ex (fields_of_cls Hd) F1) as F2.
  assert (is_cls s2 d = true) as Cd by (apply first_in_In in F2; eapply fields_of_cls; apply F2).
  destruct (hook_field_step st getter nm ty hd (so_good So2) A2 Cd) as (j & s3 & E3 & _ & K).
  inversion K as [i' f F' M M' Mo Di Fr Lv|i' N Ei M' Gr Di Fr Lv]; subst.
  - assert (j = i) as -> by (eapply first_in_fun; eauto). exists s3, f. auto.
  - exfalso. apply first_in_In in F2. eapply N; apply F2.
Qed.

(** ** C18 *)
Lemma hooked_first t cl st nm sg hd s s' i : wf s -> hooked_method t cl st nm sg hd s s' i -> is_cls s cl = true ->
  first_in (same_key s' st nm sg) (methods_of s' cl) i /\ handle_at s' i = Some hd /\
  (forall j, In j (methods_of s' cl) -> is_native_method s' j -> In j (methods_of s cl) /\ is_native_method s j).
Proof.
  intros W K C. inversion K as [i' m F' M M' Mo Di Fr Lv|i' N Ei M' Gr Di Fr Lv]; subst.
  - assert (methods_of s' cl = methods_of s cl) as Em.
    { apply is_cls_class_at in C. destruct C as (c & C). assert (cl <> i) as Ne.
      { intros ->. unfold class_at, method_at in *. destruct (contents s i) as [[]|]; discriminate. }
      assert (live s cl = true) as Lc by (eapply class_at_live; eauto).
      destruct (intact_class (d_obj Di Lc (not_eq_sym Ne)) C) as (c' & C' & Mm & _). unfold methods_of. rewrite C, C'. auto. }
    assert (forall j, In j (methods_of s cl) -> j <> i -> method_at s' j = method_at s j) as Oth.
    { intros j Hj Ne. pose proof (methods_wf W Hj) as Mj. unfold is_mth in Mj. destruct (lookup s j) as [o|] eqn:L; [|discriminate].
      assert (exists x, method_at s j = Some x) as (x & X) by (unfold method_at, contents; rewrite L; simpl; destruct (o_pay o); try discriminate; eauto).
      rewrite X. eapply intact_method'; eauto. }
    assert (m_name m = nm /\ m_sig m = sg /\ m_static m = st) as (Q1 & Q2 & Q3).
    { pose proof (proj2 (first_in_In F')) as (x & X & X1 & X2 & X3). assert (x = m) by congruence. subst x. auto. }
    split; [|split].
    + rewrite Em. eapply first_in_iff; [|exact F']. intros y Hy. destruct (Nat.eq_dec y i) as [->|Ne].
      * split; intros _; eexists; eauto.
      * unfold same_key. rewrite (Oth y Hy Ne). reflexivity.
    + unfold handle_at. rewrite M'. auto.
    + rewrite Em. intros j Hj (x & X & Nx). split; auto. destruct (Nat.eq_dec j i) as [->|Ne].
      * exists m. split; auto. rewrite M' in X. inversion X; subst x. auto.
      * exists x. split; auto. rewrite <- (Oth j Hj Ne). auto.
  - destruct Gr as (c & c' & C0 & C' & Em & _).
    assert (methods_of s' cl = methods_of s cl ++ [length (s_heap s)]) as Em' by (unfold methods_of; rewrite C0, C'; auto).
    assert (forall j, In j (methods_of s cl) -> method_at s' j = method_at s j) as Oth.
    { intros j Hj. pose proof (methods_wf W Hj) as Mj. unfold is_mth in Mj. destruct (lookup s j) as [o|] eqn:L; [|discriminate].
      assert (exists x, method_at s j = Some x) as (x & X) by (unfold method_at, contents; rewrite L; simpl; destruct (o_pay o); try discriminate; eauto).
      rewrite X. eapply intact_method'; eauto. intros ->. unfold class_at in C0. unfold method_at in X. destruct (contents s j) as [[]|]; discriminate. }
    split; [|split].
    + rewrite Em'. apply first_in_snoc; [|eexists; eauto]. intros y Hy. unfold same_key. rewrite (Oth y Hy). apply N. auto.
    + unfold handle_at. rewrite M'. auto.
    + intros j Hj (x & X & Nx). rewrite Em', in_app_iff in Hj. destruct Hj as [Hj|[<-|[]]].
      * split; auto. exists x. rewrite <- (Oth j Hj). auto.
      * rewrite M' in X. inversion X; subst. simpl in Nx. congruence.
Qed.
(** After hooking a method on class [cl], GetMethodID finds it and calling the result runs the hook: static calls directly ... *)
Theorem C18_static G t0 s t cl nm sg hd v s1 h T cls args : reachable G t0 s -> is_cls s cl = true ->
  step G t (UHookMethod_ cl true nm sg hd) s = Some (v, s1) ->
  denotes_opt s1 h (Some cl) -> denotes_opt s1 cls (Some cl) ->
  exists i w s2, step G t (GetMethodID_ true h nm sg) s1 = Some (OVal (RRef (Some i)), s1) /\
    step G t (CallStaticMethodA_ T cls (Some i) args) s1 = Some (w, s2) /\
    entered t true hd KStatic false T (Some cl) [cl] args s1 s2 w.
Proof.
  intros R C St D Dc. pose proof (step_attached St eq_refl) as A. pose proof (reachable_solid R) as So. pose proof (reachable_solid (reach_step R St)) as So1.
  destruct (hook_method_step true nm sg hd (so_good So) A C) as (i & s' & E & Gs' & K). rewrite St in E. inversion E; subst.
  destruct (hooked_first (good_wf (so_good So)) K C) as (F & Hh & _).
  assert (attached s' t) as A1.
  { inversion K; subst; match goal with X : disturbs _ t s s' |- _ => pose proof (d_envid X) as Ei end; destruct A as (e & A); rewrite A in Ei; simpl in Ei; destruct (get_env s' t) as [e'|] eqn:E'; [exists e'; auto|discriminate|exists e'; auto|discriminate]. }
  assert (first_in (is_method s' true false nm sg) (methods_of s' cl) i) as Fi.
  { eapply first_in_iff; [|exact F]. intros y Hy. symmetry. eapply same_key_plain; eauto; [intros _; apply So1|discriminate]. }
  assert (is_cls s' cl = true) as C1 by (apply first_in_In in Fi; eapply methods_of_cls; apply Fi).
  destruct (@CallStaticMethodA_step G t T cls (Some cl) i hd args s' Gs' A1 Dc) as (w & s2 & E2 & _ & En); auto.
  { intros j [= <-]. auto. }
  exists i, w, s2. split; [|split; auto]. eapply GetMethodID_own; eauto. apply asks_plain. auto.
Qed.
(** ... and virtual calls on objects of that class.  (Missing: classes where the same name and signature have been
    registered natively before the hook, see [C18_refuted].) *)
Theorem C18_instance_partial G t0 s t cl nm sg hd v s1 h T obj r args : reachable G t0 s -> is_cls s cl = true -> nm <> S_ "<init>" ->
  (forall j, In j (methods_of s cl) -> same_key s false nm sg j -> ~ is_native_method s j) ->
  step G t (UHookMethod_ cl false nm sg hd) s = Some (v, s1) ->
  denotes_opt s1 h (Some cl) -> denotes s1 obj (Some r) -> class_ptr s1 r = Some cl ->
  exists i w s2 s3, step G t (GetMethodID_ false h nm sg) s1 = Some (OVal (RRef (Some i)), s1) /\
    step G t (CallMethodA_ T (Some obj) (Some i) args) s1 = Some (w, s3) /\ class_passed t (Some cl) s1 s2 /\
    entered t true hd KInst false T (Some obj) [cl] args s2 s3 w.
Proof.
  intros R C NI NN St D Dobj Cp. pose proof (step_attached St eq_refl) as A. pose proof (reachable_solid R) as So. pose proof (reachable_solid (reach_step R St)) as So1.
  destruct (hook_method_step false nm sg hd (so_good So) A C) as (i & s' & E & Gs' & K). rewrite St in E. inversion E; subst.
  destruct (hooked_first (good_wf (so_good So)) K C) as (F & Hh & Hn).
  assert (attached s' t) as A1.
  { inversion K; subst; match goal with X : disturbs _ t s s' |- _ => pose proof (d_envid X) as Ei end; destruct A as (e & A); rewrite A in Ei; simpl in Ei; destruct (get_env s' t) as [e'|] eqn:E'; [exists e'; auto|discriminate|exists e'; auto|discriminate]. }
  assert (ident s s') as Id by (eapply tables_history; [apply So|apply (step_exec St)|exact C]).
  assert (forall y, In y (methods_of s' cl) -> (is_method s' false false nm sg y <-> same_key s' false nm sg y)) as Pl.
  { apply same_key_plain; [discriminate|]. intros _ j Hj (x & X & X1 & X2 & X3) Nj. destruct (Hn j Hj Nj) as [Hj0 N0]. apply (NN j Hj0); auto.
    destruct N0 as (y & Y & Ny). pose proof (methods_wf (good_wf (so_good So)) Hj0) as M0. pose proof (methods_wf (good_wf Gs') Hj) as M1.
    assert (is_method s (m_static y) true (m_name y) (m_sig y) j) as Is by (exists y; repeat (split; auto); tauto).
    apply (ident_method Id M0 M1) in Is. destruct Is as (z & Z & Z1 & Z2 & Z3 & _). assert (z = x) by congruence. subst z. exists y. split; auto. split; [congruence|]. split; congruence. }
  assert (first_in (is_method s' false false nm sg) (methods_of s' cl) i) as Fi.
  { eapply first_in_iff; [|exact F]. intros y Hy. symmetry. auto. }
  destruct (handle_at_eq Hh) as (m & Hm & Hmh). pose proof (proj2 (first_in_In F)) as (m' & Hm' & Q1 & Q2 & Q3). assert (m' = m) by congruence. subst m'.
  destruct (@CallMethodA_step G t T obj r i m hd args s' Gs' A1 Dobj Hm Hmh) as (s2 & j & hj & w & s3 & P & Dj & Hj & E3 & _ & En).
  assert (j = i) as ->.
  { eapply dispatched_fun; [exact Dj|]. rewrite Cp. eapply dp_own; eauto. rewrite Q1, Q2. clear - F Hm Hmh Q1 Q2 Q3.
    induction F as [x l Px|x y l N F IH].
    - apply fi_here. exists m, hd. auto 10.
    - apply fi_later; auto. intros (a & b & X & X1 & X2 & X3 & _). apply N. exists a. auto. }
  assert (hj = hd) as -> by congruence. rewrite Cp in P, En.
  exists i, w, s2, s3. split; [|split; auto]. eapply GetMethodID_own; eauto. apply asks_plain. auto.
Qed.

(** ** C19 *)
(** GetMethodID(cls, "<init>", "(args)...") only returns constructors of that very class with these arguments. *)
Theorem C19_constructor G t0 s t h cl c L a b i s' : reachable G t0 s -> denotes_opt s h (Some cl) -> dfs G s cl L -> class_at s cl = Some c ->
  ~ In ")"%char a -> step G t (GetMethodID_ false h (S_ "<init>") (a ++ S_ ")" ++ b)) s = Some (OVal (RRef (Some i)), s') ->
  exists m, method_at s' i = Some m /\ m_name m = S_ "<init>" /\ m_sig m = a ++ S_ ")L" ++ c_prefix c ++ S_ ";" /\ m_static m = true /\ m_native m = None.
Proof.
  intros R D Df C Na St. pose proof (reachable_solid R) as So. pose proof (step_attached St eq_refl) as A.
  destruct (GetMethodID_ret (so_good So) A D Df (asks_ctor (s := s) (cl := cl) (c := c) (a := a) (b := b) eq_refl eq_refl C eq_refl Na) St) as (r & ns & Er & _ & H).
  inversion Er; subst r. apply got_method_is in H. destruct H as (m & E & E1 & E2 & E3 & E4). exists m. split; auto. split; auto. split; auto. split; auto.
  destruct (m_native m); auto. exfalso. assert (false = true) by (apply E4; discriminate). discriminate.
Qed.
(** ... so the constructor of another class (in particular of a base class) is never returned. *)
Theorem C19_not_inherited G t0 s t h cl c L a b i s' cl' c' a' m : reachable G t0 s -> denotes_opt s h (Some cl) -> dfs G s cl L -> class_at s cl = Some c ->
  ~ In ")"%char a -> step G t (GetMethodID_ false h (S_ "<init>") (a ++ S_ ")" ++ b)) s = Some (OVal (RRef (Some i)), s') ->
  class_at s cl' = Some c' -> ~ In ")"%char a' -> method_at s' i = Some m -> m_sig m = a' ++ S_ ")L" ++ c_prefix c' ++ S_ ";" ->
  a' = a /\ cl' = cl.
Proof.
  intros R D Df C Na St C' Na' M Sg. destruct (C19_constructor R D Df C Na St) as (m' & M' & _ & Sg' & _).
  assert (m' = m) by congruence. subst m'. rewrite Sg in Sg'. 
  assert (a' = a /\ S_ "L" ++ c_prefix c' ++ S_ ";" = S_ "L" ++ c_prefix c ++ S_ ";") as [-> E].
  { clear - Sg' Na Na'. revert a Na Sg'. induction a' as [|x a' IH]; intros [|y a] Na E; simpl in *.
    - inversion E. auto.
    - inversion E; subst. exfalso. apply Na. auto.
    - inversion E; subst. exfalso. apply Na'. auto.
    - inversion E; subst. destruct (IH (fun H => Na' (or_intror H)) a (fun H => Na (or_intror H)) H1) as [-> K]. auto. }
  split; auto. simpl in E. inversion E as [E']. apply app_inv_tail in E'. pose proof (so_good (reachable_solid R)) as Gs.
  assert (get_class s (c_prefix c) = Some cl) as X by (apply (class_named_iff _ _ (g_inv Gs)); apply class_at_named in C; destruct C as (o & L1 & P1); exists o, c; auto).
  assert (get_class s (c_prefix c) = Some cl') as Y by (apply (class_named_iff _ _ (g_inv Gs)); apply class_at_named in C'; destruct C' as (o & L1 & P1); exists o, c'; auto).
  congruence.
Qed.
(** ... and a constructor hooked on the class is found, after any history. *)
Theorem C19_found G t0 s t cl c a b hd i s1 l vs s2 t2 h2 : reachable G t0 s -> class_at s cl = Some c -> ~ In ")"%char a ->
  step G t (UHookMethod_ cl true (S_ "<init>") (a ++ S_ ")L" ++ c_prefix c ++ S_ ";") hd) s = Some (OVal (RRef (Some i)), s1) ->
  exec G l s1 = Some (vs, s2) -> attached s2 t2 -> denotes_opt s2 h2 (Some cl) ->
  handle_at s1 i = Some hd /\
  step G t2 (GetMethodID_ false h2 (S_ "<init>") (a ++ S_ ")" ++ b)) s2 = Some (OVal (RRef (Some i)), s2).
Proof.
  intros R C Na St Ex A2 D2. pose proof (step_attached St eq_refl) as A. pose proof (reachable_solid R) as So. pose proof (reachable_solid (reach_step R St)) as So1.
  pose proof (reachable_solid (reach_exec (reach_step R St) Ex)) as So2. assert (is_cls s cl = true) as Ic by (apply is_cls_class_at; eauto).
  destruct (hook_method_step true (S_ "<init>") (a ++ S_ ")L" ++ c_prefix c ++ S_ ";") hd (so_good So) A Ic) as (j & s' & E & Gs' & K). rewrite St in E. inversion E; subst j s'.
  destruct (hooked_first (good_wf (so_good So)) K Ic) as (F & Hh & _). split; auto.
  assert (first_in (is_method s1 true false (S_ "<init>") (a ++ S_ ")L" ++ c_prefix c ++ S_ ";")) (methods_of s1 cl) i) as Fi.
  { eapply first_in_iff; [|exact F]. intros y Hy. symmetry. eapply same_key_plain; eauto; [intros _; apply So1|discriminate]. }
  assert (is_cls s1 cl = true) as C1 by (apply first_in_In in Fi; eapply methods_of_cls; apply Fi).
  eapply GetMethodID_own; [apply So2|exact A2|exact D2| |eapply own_method_history; [apply So1|exact Ex|exact C1|exact Fi]].
  eapply asks_history; [apply So1|exact Ex|]. eapply asks_history; [apply So|apply (step_exec St)|]. eapply asks_ctor; eauto.
Qed.

(** ** C20 *)
Theorem C20_unregister G t0 s t h cl : reachable G t0 s -> attached s t -> denotes_opt s h (Some cl) -> is_cls s cl = true -> exists s',
  step G t (UnregisterNatives_ h) s = Some (OVal (RInt 0), s') /\ natives_removed t cl s s'.
Proof. intros R A D C. destruct (UnregisterNatives_step (so_good (reachable_solid R)) A D C) as (s' & E & _ & H). eauto. Qed.
(** consequences in terms of lookups: nothing that GetMethodID can find changes *)
Theorem C20_lookups_unchanged G t0 s t h cl s' d st nm sg i : reachable G t0 s -> denotes_opt s h (Some cl) -> is_cls s cl = true -> is_cls s d = true ->
  step G t (UnregisterNatives_ h) s = Some (OVal (RInt 0), s') ->
  first_in (is_method s st false nm sg) (methods_of s d) i -> first_in (is_method s' st false nm sg) (methods_of s' d) i.
Proof.
  intros R D C Cd St F. eapply own_method_history; [apply (so_good (reachable_solid R))|apply (step_exec St)|exact Cd|exact F].
Qed.

(** ** C21 *)
(** The table of native functions by name always has the most recent one: *)
Theorem C21_natives_partial G t0 s t h cl l : reachable G t0 s -> attached s t -> denotes_opt s h (Some cl) -> is_cls s cl = true ->
  exists s', step G t (RegisterNatives_ h l (Z.of_nat (length l))) s = Some (OVal (RInt 0), s') /\ natives_added t cl l s s'.
Proof.
  intros R A D C. destruct (RegisterNatives_step (n := length l) (so_good (reachable_solid R)) A D C (le_n _)) as (s' & E & _ & H).
  rewrite firstn_all in H. eauto.
Qed.
Lemma last_given_last l nm sg fn f : last_given (l ++ [(nm, sg, fn)]) nm f = fn.
Proof. unfold last_given. rewrite fold_left_app. simpl. rewrite str_eqb_refl. auto. Qed.

(** Looking a method up from C++ ([Class::getMethod]): an instance or static method, else a native one. *)
Lemma getMethod_good G s t cl L nm sg : good G s -> attached s t -> dfs G s cl L -> nm <> S_ "<init>" ->
  exists m p n s', step G t (UGetMethod_ cl sg nm) s = Some (OVal (RTriple m p n), s') /\ same_but_types s s' /\
    finds_method G s false false nm sg cl m /\ finds_method G s true false nm sg cl p /\
    match m, p with None, None => finds_method G s false true nm sg cl n | _, _ => n = None end.
Proof.
  intros Gs A D NI. pose proof (good_wf Gs) as W.
  assert (forall s1 st native, tstep s s1 -> exists r s2, getMethodID G (depth s) t st true native (Some cl) nm sg s1 = Ret r s2 /\ tstep s s2 /\ finds_method G s st native nm sg cl r) as K.
  { intros s1 st native T. pose proof (ts_wf T W) as W1. pose proof (dfs_tmore (ts_more T) D) as D1.
    assert (class_at s1 cl <> None) as C1 by (inversion D1; auto). destruct (class_at s1 cl) as [c|] eqn:Ec; [|congruence].
    destruct (@lookup_method G t st native nm sg (or_intror NI) (depth s) s1 [] cl L (Some cl)) as (r & s2 & E & T2 & P); auto.
    - apply chain_one. apply is_cls_lt. apply is_cls_class_at. eauto.
    - unfold depth. destruct T as [[-> _] _ _]. simpl. lia.
    - simpl. apply denotes_cls. apply is_cls_class_at. eauto.
    - exists r, s2. split; auto. split; [eapply tstep_trans; eauto|]. exists L. split; auto. pose proof (tstep_same T) as Sm.
      assert (flat_map (methods_of s1) L = flat_map (methods_of s) L) as Ef by (apply flat_map_ext; intros; apply same_types_methods; auto).
      rewrite Ef in P. destruct r as [i|]; simpl in P.
      + eapply first_in_iff; [|exact P]. intros y _. symmetry. apply same_types_is_method. auto.
      + intros i Hi Hm. apply (P i Hi). apply (same_types_is_method st native nm sg i Sm). auto. }
  destruct (K s false false (tstep_refl s)) as (m & s1 & E1 & T1 & F1).
  destruct (K s1 true false T1) as (p & s2 & E2 & T2 & F2). destruct (K s2 false true T2) as (n & s3 & E3 & T3 & F3).
  assert (tidy s2 /\ tidy s3) as [Ti2 Ti3] by (split; [apply (tstep_tidy W T2)|apply (tstep_tidy W T3)]; apply Gs).
  assert (forall x s', getMethod G t cl sg nm s = Ret x s' -> tidy s' -> step G t (UGetMethod_ cl sg nm) s = Some (OVal (match x with (a, b, c) => RTriple a b c end), s')) as St.
  { intros [[a b] c] s' E Ti. apply (step_tidy_ret A); auto. simpl. unfold bind at 1. rewrite E. reflexivity. }
  assert (getMethod G t cl sg nm s = match m, p with None, None => Ret (None, None, n) s3 | _, _ => Ret (m, p, None) s2 end) as Eg.
  { unfold getMethod, bind at 1, gets. unfold bind at 1. rewrite E1. unfold bind at 1. rewrite E2. destruct m, p; try reflexivity. unfold bind. rewrite E3. reflexivity. }
  exists m, p. destruct m as [i|], p as [j|]; try (exists None, s2; split; [apply (St _ _ Eg Ti2)|]; split; [apply tstep_same; auto|]; auto).
  exists n, s3. split; [apply (St _ _ Eg Ti3)|]. split; [apply tstep_same; auto|]. auto.
Qed.
Theorem C21_getMethod G t0 s t cl L nm sg : reachable G t0 s -> attached s t -> dfs G s cl L -> nm <> S_ "<init>" ->
  exists m p n s', step G t (UGetMethod_ cl sg nm) s = Some (OVal (RTriple m p n), s') /\ same_but_types s s' /\
    finds_method G s false false nm sg cl m /\ finds_method G s true false nm sg cl p /\
    match m, p with None, None => finds_method G s false true nm sg cl n | _, _ => n = None end.
Proof. intros R. apply getMethod_good. exact (so_good (reachable_solid R)). Qed.
(** Partial: a function registered for a name and signature that the hierarchy does not have yet is the one that [getMethod] returns.
    (Missing: a later registration of the same name and signature, see [C21_refuted].) *)
Theorem C21_first_partial G t0 s t h cl nm sg fn L s1 : reachable G t0 s -> denotes_opt s h (Some cl) -> is_cls s cl = true -> nm <> S_ "<init>" ->
  step G t (RegisterNatives_ h [(nm, sg, Some fn)] 1) s = Some (OVal (RInt 0), s1) ->
  dfs G s1 cl L ->
  (forall d j b, In d L -> In j (methods_of s d) -> ~ same_key s b nm sg j) ->
  exists i m s2, step G t (UGetMethod_ cl sg nm) s1 = Some (OVal (RTriple None None (Some i)), s2) /\ method_at s2 i = Some m /\ m_native m = Some fn.
Proof.
  intros R D C NI St Df NN. pose proof (step_attached St eq_refl) as A. pose proof (reachable_solid R) as So. pose proof (good_wf (so_good So)) as W.
  destruct (RegisterNatives_step (n := 1) (l := [(nm, sg, Some fn)]) (so_good So) A D C (le_n _)) as (s' & E & Gs' & (c & c' & C0 & C1 & Em & Mt & _ & _ & _ & _ & _ & _ & _ & _ & Di & Fr & Lv)).
  change (Z.of_nat 1) with 1%Z in E. rewrite St in E. inversion E; subst s'. clear E.
  specialize (Mt 0 nm sg (Some fn) eq_refl). rewrite Nat.add_0_r in Mt. simpl in Em.
  assert (attached s1 t) as A1.
  { pose proof (d_envid Di) as Ei. destruct A as (e & A). rewrite A in Ei. simpl in Ei. destruct (get_env s1 t) as [e'|] eqn:E'; [exists e'; auto|discriminate]. }
  destruct (@C21_getMethod G t0 s1 t cl L nm sg (reach_step R St) A1 Df NI) as (m & p & n & s2 & E2 & Sm & F1 & F2 & F3).
  assert (forall d, is_cls s d = true -> methods_of s1 d = if Nat.eqb d cl then methods_of s cl ++ [length (s_heap s)] else methods_of s d) as Me.
  { intros d Id. destruct (Nat.eqb_spec d cl) as [->|Ne]; [unfold methods_of; rewrite C0, C1, Em; auto|].
    apply is_cls_class_at in Id. destruct Id as (k & Ek). destruct (intact_class (d_obj Di (class_at_live Ek) (not_eq_sym Ne)) Ek) as (k' & Ek' & Mm & _).
    unfold methods_of. rewrite Ek, Ek'. auto. }
  assert (forall j x, method_at s j = Some x -> method_at s1 j = Some x) as Old.
  { intros j x X. eapply intact_method'; eauto. intros ->. unfold class_at in C0. unfold method_at in X. destruct (contents s j) as [[]|]; discriminate. }
  (* every method of the hierarchy with this key is the new one *)
  assert (forall d j b, In d L -> In j (methods_of s1 d) -> same_key s1 b nm sg j -> j = length (s_heap s)) as Uq.
  { intros d j b Hd Hj (x & X & X1 & X2 & X3). destruct (Nat.eq_dec j (length (s_heap s))) as [|Ne]; auto. exfalso.
    assert (is_cls s d = true /\ In j (methods_of s d)) as [Id Hj0].
    { pose proof (methods_of_cls Hj) as Id1. assert (is_cls s d = true) as Id.
      { unfold is_cls in *. destruct (lookup s1 d) as [o1|] eqn:L1; [|discriminate]. assert (live s1 d = true) as Ld by (apply live_lookup; eauto).
        apply Lv in Ld. destruct Ld as [Ld|Ld].
        - apply live_lookup in Ld. destruct Ld as (o & Lo). rewrite Lo. destruct (Nat.eq_dec d cl) as [->|Nd].
          { unfold class_at, contents in C0. rewrite Lo in C0. simpl in C0. destruct (o_pay o); auto; discriminate. }
          assert (live s d = true) as Ld by (apply live_lookup; eauto).
          destruct (d_obj Di Ld (not_eq_sym Nd)) as (y & y' & Ly & Ly' & V & _). rewrite Lo in Ly. inversion Ly; subst y. rewrite L1 in Ly'. inversion Ly'; subst y'.
          destruct (o_pay o1); try discriminate; destruct (o_pay o); simpl in V; try discriminate; auto.
        - simpl in Ld. assert (d = length (s_heap s)) as -> by lia. unfold method_at, contents in Mt. rewrite L1 in Mt. simpl in Mt. destruct (o_pay o1); discriminate. }
      split; auto. rewrite (Me d Id) in Hj. destruct (Nat.eqb_spec d cl) as [->|Nd]; auto. rewrite in_app_iff in Hj. destruct Hj as [Hj|[Hj|[]]]; auto. congruence. }
    apply (NN d j b Hd Hj0). pose proof (methods_wf W Hj0) as Mj. unfold is_mth in Mj. destruct (lookup s j) as [o|] eqn:Lo; [|discriminate].
    assert (exists y, method_at s j = Some y) as (y & Y) by (unfold method_at, contents; rewrite Lo; simpl; destruct (o_pay o); try discriminate; eauto).
    assert (y = x) by (pose proof (Old j y Y); congruence). subst y. exists x. auto. }
  assert (m = None) as ->.
  { destruct m as [i|]; auto. exfalso. destruct F1 as (L' & Df' & F1). assert (L' = L) as -> by (eapply (proj1 (dfs_fun G s1)); eauto).
    apply first_in_In in F1. destruct F1 as [Hi (x & X & X1 & X2 & X3 & X4)]. apply in_flat_map in Hi. destruct Hi as (d & Hd & Hi).
    assert (i = length (s_heap s)) as -> by (eapply Uq; eauto; exists x; eauto). rewrite Mt in X. inversion X; subst x. simpl in X4. assert (false = true) by (apply X4; discriminate). discriminate. }
  assert (p = None) as ->.
  { destruct p as [i|]; auto. exfalso. destruct F2 as (L' & Df' & F2). assert (L' = L) as -> by (eapply (proj1 (dfs_fun G s1)); eauto).
    apply first_in_In in F2. destruct F2 as [Hi (x & X & X1 & X2 & X3 & X4)]. apply in_flat_map in Hi. destruct Hi as (d & Hd & Hi).
    assert (i = length (s_heap s)) as -> by (eapply Uq; eauto; exists x; eauto). rewrite Mt in X. inversion X; subst x. simpl in X3. discriminate. }
  destruct F3 as (L' & Df' & F3). assert (L' = L) as -> by (eapply (proj1 (dfs_fun G s1)); eauto).
  destruct n as [i|].
  - apply first_in_In in F3. destruct F3 as [Hi (x & X & X1 & X2 & X3 & X4)]. apply in_flat_map in Hi. destruct Hi as (d & Hd & Hi).
    assert (i = length (s_heap s)) as -> by (eapply Uq; eauto; exists x; eauto). exists (length (s_heap s)), (mkMth nm sg false (Some fn) None), s2.
    split; auto. split; auto. rewrite (same_types_method _ Sm). auto.
  - exfalso. apply (F3 (length (s_heap s))).
    + apply in_flat_map. exists cl. split; [apply (dfs_cls Df)|]. rewrite (Me cl C), Nat.eqb_refl, in_app_iff. simpl. auto.
    + eexists. split; [exact Mt|]. simpl. intuition congruence.
Qed.

(** ** Refutations and examples *)
Local Opaque after.
Ltac dfs_tac := repeat match goal with
  | |- dfs_all ?G ?s (supers ?G ?s ?c) ?L => let x := eval vm_compute in (supers G s c) in replace (supers G s c) with x by (vm_compute; reflexivity)
  | |- dfs_all _ _ [] _ => apply dfs_nil
  | |- dfs_all _ _ (_ :: _) _ => eapply dfs_cons
  | |- dfs _ _ _ _ => eapply dfs_node; [vm_compute; discriminate|vm_compute; intros _ B HB; repeat (destruct HB as [<-|HB]; [discriminate|]); destruct HB|]
  end.
Ltac den_tac := unfold denotes_opt; eapply den_obj; [vm_compute; reflexivity|vm_compute; discriminate|vm_compute; discriminate].

Definition f_ := S_ "f".
Definition v_ := S_ "()V".
(** [D : Extends<X, Y>], [X : Extends<B>], [Y : Extends<Object>]: objects 9, 10, 11, 12 *)
Definition ex_mi : list event :=
  [(main, UBind_ 0 true (S_ "B")); (main, UBind_ 1 true (S_ "X")); (main, UBind_ 3 true (S_ "Y")); (main, UBind_ 4 true (S_ "D"));
   (main, FindClass_ (S_ "D")); (main, GetMethodID_ false (Some 11) f_ v_); (main, GetFieldID_ true (Some 11) f_ (S_ "LQ;"))].
Example ex_mi_seen : seen Gd ex_mi = [OVal (RRef (Some 9)); OVal (RRef (Some 10)); OVal (RRef (Some 11)); OVal (RRef (Some 12));
  OVal (RRef (Some 12)); OVal (RRef (Some 13)); OVal (RRef (Some 14))].
Proof. vm_compute. reflexivity. Qed.
Example ex_mi_reachable : reachable Gd main (after Gd ex_mi).
Proof. apply after_reachable. vm_compute. reflexivity. Qed.
Example ex_mi_attached : attached (after Gd ex_mi) main.
Proof. eexists. vm_compute. reflexivity. Qed.
Example ex_mi_denotes : denotes_opt (after Gd ex_mi) (Some 12) (Some 12).
Proof. den_tac. Qed.
Example ex_mi_dfs : exists L, dfs Gd (after Gd ex_mi) 12 L /\ L = [12; 10; 9; 11; 0].
Proof. eexists. split; [dfs_tac|reflexivity]. Qed.
(** the inherited method 13 of Y is found from D; from X a new one is created *)
Example C16_ex : step Gd main (GetMethodID_ false (Some 12) f_ v_) (after Gd ex_mi) = Some (OVal (RRef (Some 13)), after Gd ex_mi).
Proof. vm_compute. reflexivity. Qed.
Example C16_ex_names : asks (after Gd ex_mi) 12 false f_ v_ false v_ /\ ~ In NUL v_ /\ names v_ [].
Proof.
  split; [apply asks_plain; right; discriminate|]. split; [simpl; intuition discriminate|].
  repeat (apply names_other; [discriminate|]). apply names_nil.
Qed.

(** the hypothesis of the C13 theorems *)
Example C13_ex : finds_method Gd (after Gd ex_mi) true false f_ (msig [JObj (S_ "a/P"); JArr (JObj (S_ "R"))] None) 12 None /\
  finds_field Gd (after Gd ex_mi) false f_ (descr (JObj (S_ "Q"))) 12 None.
Proof.
  destruct ex_mi_dfs as (L & D & ->). split; exists [12; 10; 9; 11; 0]; (split; [exact D|]); intros i Hi (m & E & N & T & B).
  - assert (flat_map (methods_of (after Gd ex_mi)) [12; 10; 9; 11; 0] = [13]) as X by (vm_compute; reflexivity). rewrite X in Hi. destruct Hi as [<-|[]].
    assert (option_map m_static (method_at (after Gd ex_mi) 13) = Some false) as Y by (vm_compute; reflexivity). rewrite E in Y. injection Y as Y.
    destruct B as [B _]. rewrite Y in B. discriminate B.
  - assert (flat_map (fields_of (after Gd ex_mi)) [12; 10; 9; 11; 0] = [14]) as X by (vm_compute; reflexivity). rewrite X in Hi. destruct Hi as [<-|[]].
    assert (option_map f_static (field_at (after Gd ex_mi) 14) = Some true) as Y by (vm_compute; reflexivity). rewrite E in Y. injection Y as Y.
    rewrite Y in B. discriminate B.
Qed.
(** False in general: a method that already exists, here from RegisterNatives with a null function, does not declare its classes. *)
Definition ex_null : list event := [(main, FindClass_ (S_ "A")); (main, RegisterNatives_ (Some 9) [(f_, S_ "(LZ;)V", None)] 1)].
Theorem C13_refuted : exists s i s', reachable Gd main s /\ debug Gd = true /\ denotes_opt s (Some 9) (Some 9) /\
  step Gd main (GetMethodID_ false (Some 9) f_ (msig [JObj (S_ "Z")] None)) s = Some (OVal (RRef (Some i)), s') /\
  In (S_ "Z") (sig_classes [JObj (S_ "Z")] None) /\ ~ class_exists s' (S_ "Z").
Proof.
  exists (after Gd ex_null), 10, (after Gd ex_null). assert (reachable Gd main (after Gd ex_null)) as R by (apply after_reachable; vm_compute; reflexivity).
  split; auto. split; auto. split; [den_tac|]. split; [vm_compute; reflexivity|]. split; [simpl; auto|].
  rewrite (class_exists_iff _ (g_inv (reachable_good R))). intros H. apply H. vm_compute. reflexivity.
Qed.

(** False in general: with two base classes, asking for the method of the first base class changes the answer for the derived class. *)
Theorem C14_refuted : exists s i s1 l vs s2 j s3, reachable Gd main s /\ denotes_opt s (Some 12) (Some 12) /\
  step Gd main (GetMethodID_ false (Some 12) f_ v_) s = Some (OVal (RRef (Some i)), s1) /\
  l = [(main, GetMethodID_ false (Some 10) f_ v_)] /\ exec Gd l s1 = Some (vs, s2) /\
  denotes_opt s2 (Some 12) (Some 12) /\ step Gd main (GetMethodID_ false (Some 12) f_ v_) s2 = Some (OVal (RRef (Some j)), s3) /\ i <> j.
Proof.
  exists (after Gd ex_mi), 13, (after Gd ex_mi), [(main, GetMethodID_ false (Some 10) f_ v_)], [OVal (RRef (Some 16))],
    (after Gd (ex_mi ++ [(main, GetMethodID_ false (Some 10) f_ v_)])), 16, (after Gd (ex_mi ++ [(main, GetMethodID_ false (Some 10) f_ v_)])).
  split; [apply ex_mi_reachable|]. split; [den_tac|]. split; [vm_compute; reflexivity|]. split; [reflexivity|]. split; [vm_compute; reflexivity|].
  split; [den_tac|]. split; [vm_compute; reflexivity|discriminate].
Qed.
Theorem C15_refuted : exists s i s1 l vs s2 j s3, reachable Gd main s /\ denotes_opt s (Some 12) (Some 12) /\
  step Gd main (GetFieldID_ true (Some 12) f_ (S_ "LQ;")) s = Some (OVal (RRef (Some i)), s1) /\
  l = [(main, GetFieldID_ true (Some 10) f_ (S_ "LQ;"))] /\ exec Gd l s1 = Some (vs, s2) /\
  denotes_opt s2 (Some 12) (Some 12) /\ step Gd main (GetFieldID_ true (Some 12) f_ (S_ "LQ;")) s2 = Some (OVal (RRef (Some j)), s3) /\ i <> j.
Proof.
  exists (after Gd ex_mi), 14, (after Gd ex_mi), [(main, GetFieldID_ true (Some 10) f_ (S_ "LQ;"))], [OVal (RRef (Some 16))],
    (after Gd (ex_mi ++ [(main, GetFieldID_ true (Some 10) f_ (S_ "LQ;"))])), 16, (after Gd (ex_mi ++ [(main, GetFieldID_ true (Some 10) f_ (S_ "LQ;"))])).
  split; [apply ex_mi_reachable|]. split; [den_tac|]. split; [vm_compute; reflexivity|]. split; [reflexivity|]. split; [vm_compute; reflexivity|].
  split; [den_tac|]. split; [vm_compute; reflexivity|discriminate].
Qed.
(** the hypotheses of the stability theorems: 13 is declared by Y = 11, which comes after D, X and B *)
Example C14_ex : In 13 (methods_of (after Gd ex_mi) 11) /\ In 14 (fields_of (after Gd ex_mi) 11) /\ (forall c, In c [12; 10; 9] -> methods_of (after Gd ex_mi) c = []).
Proof. split; [vm_compute; auto|]. split; [vm_compute; auto|]. simpl. intros c [<-|[<-|[<-|[]]]]; vm_compute; reflexivity. Qed.

(** False in general: if the method was registered natively first, the hook goes to that registration and not to the ID. *)
Definition hd_ : handle := mkHandle 7 KInst RVoid false.
Definition ex_nat : list event := [(main, FindClass_ (S_ "A")); (main, RegisterNatives_ (Some 9) [(f_, v_, Some 1)] 1)].
Theorem C17_refuted : exists s i s1 j s2, reachable Gd main s /\ denotes_opt s (Some 9) (Some 9) /\
  step Gd main (GetMethodID_ false (Some 9) f_ v_) s = Some (OVal (RRef (Some i)), s1) /\ In i (methods_of s1 9) /\
  step Gd main (UHookMethod_ 9 false f_ v_ hd_) s1 = Some (OVal (RRef (Some j)), s2) /\ handle_at s2 i = None.
Proof.
  exists (after Gd ex_nat), 11, (after Gd (ex_nat ++ [(main, GetMethodID_ false (Some 9) f_ v_)])), 10,
    (after Gd (ex_nat ++ [(main, GetMethodID_ false (Some 9) f_ v_); (main, UHookMethod_ 9 false f_ v_ hd_)])).
  split; [apply after_reachable; vm_compute; reflexivity|]. split; [den_tac|]. split; [vm_compute; reflexivity|]. split; [vm_compute; auto|].
  split; vm_compute; reflexivity.
Qed.
Theorem C18_refuted : exists s v s1 i s2, reachable Gd main s /\ is_cls s 9 = true /\ denotes_opt s (Some 9) (Some 9) /\
  step Gd main (UHookMethod_ 9 false f_ v_ hd_) s = Some (v, s1) /\
  step Gd main (GetMethodID_ false (Some 9) f_ v_) s1 = Some (OVal (RRef (Some i)), s2) /\ handle_at s2 i = None.
Proof.
  exists (after Gd ex_nat), (OVal (RRef (Some 10))), (after Gd (ex_nat ++ [(main, UHookMethod_ 9 false f_ v_ hd_)])), 11,
    (after Gd (ex_nat ++ [(main, UHookMethod_ 9 false f_ v_ hd_); (main, GetMethodID_ false (Some 9) f_ v_)])).
  split; [apply after_reachable; vm_compute; reflexivity|]. split; [vm_compute; reflexivity|]. split; [den_tac|].
  split; [vm_compute; reflexivity|]. split; vm_compute; reflexivity.
Qed.
(** late hooking, then calls: the hook runs *)
Definition sd_ : handle := mkHandle 8 KStatic RVoid false.
Definition ex_late : list event :=
  [(main, UBind_ 0 true (S_ "A")); (main, GetMethodID_ false (Some 9) f_ v_); (main, GetMethodID_ true (Some 9) f_ v_); (main, UNew_ 0 0); (main, UToJNI_ (TUser 0) 12);
   (main, UHookMethod_ 9 false f_ v_ hd_); (main, UHookMethod_ 9 true f_ v_ sd_); (main, CallMethodA_ RVoid (Some 12) (Some 10) []); (main, HookReturn_ HUnit);
   (main, CallStaticMethodA_ RVoid (Some 9) (Some 11) [ArgZ 3])].
Example C18_ex : seen Gd ex_late = [OVal (RRef (Some 9)); OVal (RRef (Some 10)); OVal (RRef (Some 11)); OVal (RRef (Some 12)); OVal (RRef (Some 12));
  OVal (RRef (Some 10)); OVal (RRef (Some 11)); OVal (RCall (Entered 7 (Some 12) [])); OVal (RVal VUnit); OVal (RCall (Entered 8 (Some 9) [ArgZ 3]))].
Proof. vm_compute. reflexivity. Qed.
Example C18_ex_class : class_ptr (after Gd ex_late) 12 = Some 9 /\ is_cls (after Gd ex_late) 9 = true.
Proof. split; vm_compute; reflexivity. Qed.

(** constructors: hooked on the base class A, not found for D *)
Definition ex_ctor : list event :=
  [(main, UBind_ 0 true (S_ "A")); (main, UBind_ 1 true (S_ "D")); (main, UHookMethod_ 9 true (S_ "<init>") (S_ "(I)LA;") (mkHandle 9 KStatic RObj false));
   (main, GetMethodID_ false (Some 9) (S_ "<init>") (S_ "(I)V")); (main, GetMethodID_ false (Some 10) (S_ "<init>") (S_ "(I)V"))].
Example C19_ex : seen Gd ex_ctor = [OVal (RRef (Some 9)); OVal (RRef (Some 10)); OVal (RRef (Some 11)); OVal (RRef (Some 11)); OVal (RRef (Some 12))].
Proof. vm_compute. reflexivity. Qed.
Example C19_ex_dfs : exists L, dfs Gd (after Gd ex_ctor) 10 L /\ L = [10; 9].
Proof. eexists. split; [dfs_tac|reflexivity]. Qed.

(** False in general: looked up from C++, the first registration stays in effect. *)
Definition ex_re : list event := ex_nat ++ [(main, RegisterNatives_ (Some 9) [(f_, v_, Some 2)] 1)].
Theorem C21_refuted : exists s i s' m, reachable Gd main s /\ s = after Gd (ex_nat ++ [(main, RegisterNatives_ (Some 9) [(f_, v_, Some 2)] 1)]) /\
  step Gd main (UGetMethod_ 9 v_ f_) s = Some (OVal (RTriple None None (Some i)), s') /\ method_at s' i = Some m /\ m_native m = Some 1.
Proof.
  eexists (after Gd ex_re), 10, (after Gd ex_re), _. split; [apply after_reachable; vm_compute; reflexivity|]. split; [reflexivity|].
  split; [vm_compute; reflexivity|]. split; vm_compute; reflexivity.
Qed.
Example C20_ex : seen Gd (ex_re ++ [(main, GetMethodID_ false (Some 9) f_ v_); (main, UnregisterNatives_ (Some 9)); (main, UGetMethod_ 9 v_ f_)]) =
  [OVal (RRef (Some 9)); OVal (RInt 0); OVal (RInt 0); OVal (RRef (Some 12)); OVal (RInt 0); OVal (RTriple (Some 12) None None)].
Proof. vm_compute. reflexivity. Qed.
Example C21_ex : last_given [(f_, v_, Some 1); (S_ "g", v_, Some 3); (f_, v_, Some 2)] f_ None = Some 2 /\
  option_map (fun c => native_fn c f_) (class_at (after Gd ex_re) 9) = Some (Some 2).
Proof. split; vm_compute; reflexivity. Qed.

Print Assumptions C13_method_partial.
Print Assumptions C13_field_partial.
Print Assumptions C13_forever.
Print Assumptions C13_refuted.
Print Assumptions C14_stable_partial.
Print Assumptions C14_distinct.
Print Assumptions C14_refuted.
Print Assumptions C15_stable_partial.
Print Assumptions C15_distinct.
Print Assumptions C15_refuted.
Print Assumptions C16_method.
Print Assumptions C16_field.
Print Assumptions C16_found_unique.
Print Assumptions C17_method_partial.
Print Assumptions C17_field.
Print Assumptions C17_refuted.
Print Assumptions C18_static.
Print Assumptions C18_instance_partial.
Print Assumptions C18_refuted.
Print Assumptions C19_constructor.
Print Assumptions C19_not_inherited.
Print Assumptions C19_found.
Print Assumptions C20_unregister.
Print Assumptions C20_lookups_unchanged.
Print Assumptions C21_natives_partial.
Print Assumptions C21_getMethod.
Print Assumptions C21_first_partial.
Print Assumptions C21_refuted.
