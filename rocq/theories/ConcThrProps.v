(** Global references, environments and hooks of concurrent threads: theorems. *)
From Coq Require Import Permutation.
From Verif Require Import Base BaseProofs SigModel VmState VmModel ConcModel ConcLogic ConcSpec ConcDisc ConcReg ConcMem ConcThr ConcProps.
Set Implicit Arguments.
Unset Strict Implicit.

(** ** C97: global references *)
(** At any moment of any schedule: every call that makes a reference and has returned gave a reference; the table has no entry twice; a reference that
    no call deletes is in the table as often as it was before plus as often as it was returned.  At the end, the table has nothing else. *)
Theorem C97 G height s calls D : ranked G height -> tidy_refs s -> reaches G height s calls D ->
  (forall c r, returned D c r -> makes_ref c = true -> exists i, r = Some i) /\
  NoDup (globals (sh D)) /\
  (forall i, no_call calls (CDeleteGlobalRef i) ->
     occurs i (globals s) + occurs i (handles D) <= occurs i (globals (sh D)) /\
     (finished D -> occurs i (globals (sh D)) = occurs i (globals s) + occurs i (handles D))).
Proof.
  intros Hr Ht Re. split; [intros c r; eapply refs_some; eauto|]. split; [apply (tidy_refs_all Hr Ht Re)|]. intros i Hn. destruct (count_run Hr Hn Re) as [Hc _]. destruct (handles_has i D) as [A B]. split; [lia|].
  intros F. specialize (B F). lia.
Qed.
(** So references that are not deleted differ from each other and from those that were there before. *)
Corollary C97_distinct G height s calls D i : ranked G height -> tidy_refs s -> reaches G height s calls D -> no_call calls (CDeleteGlobalRef i) ->
  occurs i (handles D) <= 1 /\ (In i (handles D) -> ~ In i (globals s) /\ In i (globals (sh D))) /\ (In i (globals s) -> In i (globals (sh D))).
Proof.
  intros Hr Ht Re Hn. destruct (C97 Hr Ht Re) as (_ & Nd & Hc). destruct (Hc i Hn) as [Hl _]. pose proof (proj1 (NoDup_count_occ Nat.eq_dec _) Nd i) as Le. fold (occurs i (globals (sh D))) in Le.
  assert (forall l, In i l <-> occurs i l > 0) as Oc by (intros l; apply count_occ_In). split; [lia|]. rewrite !Oc. split; [intros H; split|intros H]; lia.
Qed.
(** If nothing is deleted, the table at the end is the old one and the returned references. *)
Corollary C97_table G height s calls D : ranked G height -> tidy_refs s -> reaches G height s calls D -> (forall i, no_call calls (CDeleteGlobalRef i)) -> finished D ->
  Permutation (globals (sh D)) (globals s ++ handles D).
Proof.
  intros Hr Ht Re Hn F. apply (Permutation_count_occ Nat.eq_dec). intros i. rewrite count_occ_app. apply (proj2 (proj2 (C97 Hr Ht Re)) i (Hn i)). exact F.
Qed.
(** References that are there when the threads start: once a call that deletes one has returned, it is not in the table. *)
Theorem C97_deleted G height s calls D i r : ranked G height -> tidy_refs s -> i < next s -> reaches G height s calls D -> returned D (CDeleteGlobalRef i) r -> ~ In i (globals (sh D)).
Proof. intros Hr [Nd Hn] Hi Re Rt. eapply deleted; [exact Hr| |exact Re|exact Rt]. split; [exact Hi|split; assumption]. Qed.

(** ** C87: environments, among all other calls *)
(** Every thread gets the results that it would get if there were no other threads. *)
Theorem C87_mixed G height s calls D t x : ranked G height -> own_ids calls -> reaches G height s calls D -> nth_error (thrs D) t = Some x -> t_cur x = None ->
  alone (envs s t) (t_done x) (envs (sh D) t).
Proof. intros Hr Ho Re Hx Hc. destruct (alone_run Hr Ho Re Hx) as (_ & o & Al & Q). rewrite Hc in Q. rewrite Q. exact Al. Qed.
(** A thread that does not detach itself has one environment, which is no other thread's. *)
Lemma attached_entry G height s calls D t x e : ranked G height -> own_ids calls -> no_call calls (CDetach t) -> reaches G height s calls D ->
  nth_error (thrs D) t = Some x -> In (CAttach t, Some e) (t_done x) -> envs (sh D) t = Some (Some e).
Proof.
  intros Hr Ho Hn Re Hx Hin. destruct (alone_run Hr Ho Re Hx) as (_ & o & Al & Q). destruct (made Re Hx) as (l & Hl & Md & Mc). assert (o = Some (Some e)) as ->.
  { eapply alone_attached; [exact Al| | |exact Hin].
    - intros r Hd. exact (Hn l _ (nth_error_In _ _ Hl) (Md _ _ Hd) eq_refl).
    - intros c r u Hc Ha. exact (Ho t u l c Hl (Md _ _ Hc) Ha). }
  destruct (t_cur x) as [[c p]|] eqn:Ec; [|exact Q]. destruct Q as [_ Q]. apply (fun H => Q H e eq_refl). intros ->. exact (Hn l _ (nth_error_In _ _ Hl) (Mc _ _ eq_refl) eq_refl).
Qed.
Theorem C87_mixed_same G height s calls D t x r q : ranked G height -> own_ids calls -> no_call calls (CDetach t) -> reaches G height s calls D ->
  nth_error (thrs D) t = Some x -> In (CAttach t, r) (t_done x) -> In (CAttach t, q) (t_done x) -> r = q /\ (exists e, r = Some e) /\ (forall e, envs s t = Some (Some e) -> r = Some e).
Proof.
  intros Hr Ho Hn Re Hx H1 H2. destruct (alone_run Hr Ho Re Hx) as (_ & o & Al & _). destruct (attach_some Al H1) as (e & ->). destruct (attach_some Al H2) as (e' & ->).
  pose proof (attached_entry Hr Ho Hn Re Hx H1) as A. pose proof (attached_entry Hr Ho Hn Re Hx H2) as B. split; [congruence|]. split; [eauto|]. intros e0 E0.
  destruct (made Re Hx) as (l & Hl & Md & _). assert (forall l' o', alone (envs s t) l' o' -> (forall c r, In (c, r) l' -> c <> CDetach t /\ forall u, about_env c u -> u = t) -> o' = Some (Some e0)) as K.
  { intros l' o' Al'. induction Al' as [|l' o' c r o'' Al' IH Ef]; intros Hi; [exact E0|]. assert (o' = Some (Some e0)) as -> by (apply IH; intros c' r' Hc; apply (Hi c' r'); apply in_or_app; auto).
    destruct (Hi c r) as [Nd Ha]; [apply in_or_app; right; left; reflexivity|]. inversion Ef as [| |t' ? E1 E2| | |]; subst; auto; [exfalso; eapply H; reflexivity|].
    exfalso. apply Nd. f_equal. apply Ha. right. left. reflexivity. }
  assert (o = Some (Some e0)) as Eo by (apply (K _ _ Al); intros c r Hc; split; [intros ->; exact (Hn l _ (nth_error_In _ _ Hl) (Md _ _ Hc) eq_refl)|intros u Ha; exact (Ho t u l c Hl (Md _ _ Hc) Ha)]).
  assert (o = Some (Some e)) as Ee; [|congruence]. eapply alone_attached; [exact Al| | |exact H1].
  - intros r Hd. exact (Hn l _ (nth_error_In _ _ Hl) (Md _ _ Hd) eq_refl).
  - intros c r u Hc Ha. exact (Ho t u l c Hl (Md _ _ Hc) Ha).
Qed.
Theorem C87_mixed_distinct G height s calls D t u x y e e' : ranked G height -> own_ids calls -> tidy_envs s -> no_call calls (CDetach t) -> no_call calls (CDetach u) -> reaches G height s calls D -> t <> u ->
  nth_error (thrs D) t = Some x -> In (CAttach t, Some e) (t_done x) -> nth_error (thrs D) u = Some y -> In (CAttach u, Some e') (t_done y) -> e <> e'.
Proof.
  intros Hr Ho Ht Nt Nu Re Ne Hx Hin Hy Hin' ->. apply Ne. destruct (tidy_envs_all Hr Ht Re) as [_ Inj]. eapply Inj; eapply attached_entry; eauto.
Qed.

(** ** C98: hooks *)
(** Members that the class has: hooks and lookups by any threads find them, and they stay.  For methods, no thread may unregister the natives of the class. *)
Theorem C98_partial G height s calls D c x i : ranked G height -> reaches G height s calls D ->
  (no_call calls (CUnregisterNatives c) -> find_key (methods s c) x = Some i ->
     (forall k r, k = CHookMethod c x \/ k = CGetMethodID c x -> returned D k r -> r = Some i) /\ find_key (methods (sh D) c) x = Some i) /\
  (find_key (fields s c) x = Some i ->
     (forall k r, k = CHookField c x \/ k = CGetFieldID c x -> returned D k r -> r = Some i) /\ find_key (fields (sh D) c) x = Some i).
Proof.
  intros Hr Re. split; [intros Nu H|intros H]; split.
  - intros k r Hk Rt. eapply known_method; eauto.
  - eapply known_keep_method; eauto.
  - intros k r Hk Rt. eapply known_field; eauto.
  - eapply known_keep; eauto.
Qed.
(** Methods without native functions, such as hooked ones, are found and stay even if threads unregister natives. *)
Theorem C98_hooked G height s calls D c x i : ranked G height -> reaches G height s calls D -> find_key (methods s c) x = Some i -> ~ In i (natives s) -> i < next s ->
  (forall k r, k = CHookMethod c x \/ k = CGetMethodID c x -> returned D k r -> r = Some i) /\ find_key (methods (sh D) c) x = Some i.
Proof.
  intros Hr Re Hf Hn Hl. assert (has_plain c i x s) as Hp by (split; [exact Hf|split; assumption]). split.
  - intros k r Hk Rt. eapply plain_method_found; eauto.
  - apply (plain_method_kept Hr Re Hp).
Qed.
(** New members: a hook that runs at the same time as another one, or as a lookup, makes a second member; later lookups do not find the hooked one. *)
Theorem C98_refuted : exists D i j, ranked (Gb false) h1 /\ reaches (Gb false) h1 empty_shared [[CHookMethod 0 kI]; [CGetMethodID 0 kI]; [CGetMethodID 0 kI]] D /\ finished D /\
  returned D (CHookMethod 0 kI) (Some j) /\ i <> j /\ (forall r, returned D (CGetMethodID 0 kI) r -> r = Some i) /\ find_key (methods (sh D) 0) kI = Some i.
Proof.
  exists (run_of (Gb false) h1 empty_shared [[CHookMethod 0 kI]; [CGetMethodID 0 kI]; [CGetMethodID 0 kI]] (0 :: 0 :: repeat 1 7 ++ [0; 0] ++ repeat 2 5)), 100, 101.
  split; [apply ranked_b|]. split; [ran (0 :: 0 :: repeat 1 7 ++ [0; 0] ++ repeat 2 5)|]. split; [over|]. split; [got 0|]. split; [discriminate|]. split; [|reflexivity].
  intros r (t & x & Hx & Hin). destruct t as [|[|[|t]]]; vm_compute in Hx; try (injection Hx as <-; vm_compute in Hin; destruct Hin as [E|[]]; (discriminate E || (injection E as <-; reflexivity))). destruct t; discriminate.
Qed.
Theorem C98_refuted_field : exists D i j, ranked (Gb false) h1 /\ reaches (Gb false) h1 empty_shared [[CHookField 0 kI]; [CGetFieldID 0 kI]; [CGetFieldID 0 kI]] D /\ finished D /\
  returned D (CHookField 0 kI) (Some j) /\ i <> j /\ (forall r, returned D (CGetFieldID 0 kI) r -> r = Some i) /\ find_key (fields (sh D) 0) kI = Some i.
Proof.
  exists (run_of (Gb false) h1 empty_shared [[CHookField 0 kI]; [CGetFieldID 0 kI]; [CGetFieldID 0 kI]] (0 :: 0 :: repeat 1 7 ++ [0; 0] ++ repeat 2 5)), 100, 101.
  split; [apply ranked_b|]. split; [ran (0 :: 0 :: repeat 1 7 ++ [0; 0] ++ repeat 2 5)|]. split; [over|]. split; [got 0|]. split; [discriminate|]. split; [|reflexivity].
  intros r (t & x & Hx & Hin). destruct t as [|[|[|t]]]; vm_compute in Hx; try (injection Hx as <-; vm_compute in Hin; destruct Hin as [E|[]]; (discriminate E || (injection E as <-; reflexivity))). destruct t; discriminate.
Qed.
Theorem C98_refuted_hooks : exists D i j, ranked (Gb false) h1 /\ reaches (Gb false) h1 empty_shared [[CHookMethod 0 kI]; [CHookMethod 0 kI]] D /\ finished D /\
  returned D (CHookMethod 0 kI) (Some i) /\ returned D (CHookMethod 0 kI) (Some j) /\ i <> j.
Proof.
  exists (run_of (Gb false) h1 empty_shared [[CHookMethod 0 kI]; [CHookMethod 0 kI]] [0; 0; 1; 1; 0; 1; 0; 1]), 100, 101.
  split; [apply ranked_b|]. split; [ran [0; 0; 1; 1; 0; 1; 0; 1]|]. split; [over|]. split; [got 0|]. split; [got 1|]. discriminate.
Qed.

(** ** Cases *)
Definition calls9 : list (list call) :=
  [[CAttach 0; CNewGlobalRef; CDeleteGlobalRef 7; CAttach 0; CCurrentEnv 0; CHookMethod 0 kI]; [CAttach 1; CNewWeakGlobalRef; CNewGlobalRef; CGetMethodID 0 kI; CAttach 1]; [CCurrentEnv 2; CAttach 2; CDetach 2; CDetach 2; CAttach 2]].
Definition s9 : shared := mkShared [] (fun _ => []) (fun c => match c with 0 => [(kI, 50)] | _ => [] end) (fun _ => None) [5; 7] (fun t => match t with 0 => Some (Some 9) | _ => None end) 100 [].
Fixpoint turns_of (G : ccfg) (l : list nat) (C : conf) : list nat := match l with [] => [] | t :: r => match cstep G h1 t C with Some D => t :: turns_of G r D | None => turns_of G r C end end.
Definition sched9 : list nat := turns_of (Gb false) (spin 40) (cinit s9 calls9).
Definition D9 : conf := run_of (Gb false) h1 s9 calls9 sched9.
Example C97_case : tidy_refs s9 /\ reaches (Gb false) h1 s9 calls9 D9 /\ finished D9 /\ no_call calls9 (CDeleteGlobalRef 5) /\ length (handles D9) = 3 /\ length (globals (sh D9)) = 4 /\ NoDup (handles D9) /\
  In 7 (globals s9) /\ 7 < next s9 /\ returned D9 (CDeleteGlobalRef 7) None.
Proof.
  split; [split; [repeat constructor; cbn; intuition discriminate|cbn; intros i [<-|[<-|[]]]; lia]|]. split; [ran sched9|]. split; [over|]. split.
  - intros l c Hl Hc. cbn in Hl. repeat destruct Hl as [<-|Hl]; try contradiction; cbn in Hc; repeat destruct Hc as [<-|Hc]; try contradiction; discriminate.
  - split; [reflexivity|]. split; [reflexivity|]. split; [vm_compute; repeat constructor; cbn; intuition discriminate|]. split; [right; left; reflexivity|]. split; [cbn; lia|]. got 0.
Qed.
Example C87_mixed_case : own_ids calls9 /\ tidy_envs s9 /\ no_call calls9 (CDetach 0) /\ no_call calls9 (CDetach 1) /\ returned D9 (CAttach 0) (Some 9) /\ (exists e, returned D9 (CAttach 1) (Some e)) /\
  exists e f, e <> f /\ returned D9 (CAttach 2) (Some e) /\ returned D9 (CAttach 2) (Some f).
Proof.
  split.
  { intros t u l c Ht Hc Ha. destruct t as [|[|[|t]]]; cbn in Ht; try (destruct t; discriminate); injection Ht as <-; cbn in Hc; repeat destruct Hc as [<-|Hc]; try contradiction;
      destruct Ha as [Ha|[Ha|Ha]]; try discriminate Ha; injection Ha as <-; reflexivity. }
  split; [split; [intros [|t] e H; [injection H as <-; cbn; lia|discriminate]|intros [|t] [|u] e H H'; [reflexivity|discriminate..]]|].
  split; [|split].
  1, 2: intros l c Hl Hc; cbn in Hl; repeat destruct Hl as [<-|Hl]; try contradiction; cbn in Hc; repeat destruct Hc as [<-|Hc]; try contradiction; discriminate.
  split; [got 0|]. split.
  - eexists. exists 1. eexists. split; [vm_compute; reflexivity|]. left. reflexivity.
  - do 2 eexists. split; [|split; [exists 2; eexists; split; [vm_compute; reflexivity|right; left; reflexivity]|exists 2; eexists; split; [vm_compute; reflexivity|do 4 right; left; reflexivity]]]. discriminate.
Qed.
Example C98_case : no_call calls9 (CUnregisterNatives 0) /\ find_key (methods s9 0) kI = Some 50 /\ returned D9 (CHookMethod 0 kI) (Some 50) /\ returned D9 (CGetMethodID 0 kI) (Some 50).
Proof.
  split; [intros l c Hl Hc; cbn in Hl; repeat destruct Hl as [<-|Hl]; try contradiction; cbn in Hc; repeat destruct Hc as [<-|Hc]; try contradiction; discriminate|].
  split; [reflexivity|]. split; [got 0|got 1].
Qed.
Definition calls12 : list (list call) := [[CUnregisterNatives 0; CUnregisterNatives 0]; [CGetMethodID 0 kI; CHookMethod 0 kI; CRegisterNatives 0 [kI]]; [CUnregisterNatives 0; CGetMethodID 0 kI]].
Definition sched12 : list nat := turns_of (Gb false) (spin 40) (cinit s9 calls12).
Definition D12 : conf := run_of (Gb false) h1 s9 calls12 sched12.
Example C98_hooked_case : ranked (Gb false) h1 /\ reaches (Gb false) h1 s9 calls12 D12 /\ finished D12 /\ find_key (methods s9 0) kI = Some 50 /\ ~ In 50 (natives s9) /\ 50 < next s9 /\
  returned D12 (CUnregisterNatives 0) None /\ returned D12 (CHookMethod 0 kI) (Some 50) /\ returned D12 (CGetMethodID 0 kI) (Some 50).
Proof. split; [apply ranked_b|]. split; [ran sched12|]. split; [over|]. split; [reflexivity|]. split; [intros []|]. split; [cbn; lia|]. split; [got 0|]. split; [got 1|got 2]. Qed.
Print Assumptions C97.
Print Assumptions C98_hooked.
Print Assumptions C97_table.
Print Assumptions C97_deleted.
Print Assumptions C87_mixed.
Print Assumptions C87_mixed_same.
Print Assumptions C87_mixed_distinct.
Print Assumptions C98_partial.
Print Assumptions C98_refuted.
