(** C53 to C56: concurrent calls, for any number of threads and every schedule. *)
From Verif Require Import Base BaseProofs SigModel VmState VmModel ConcModel ConcLogic ConcSpec ConcDisc ConcReg ConcMem.
Set Implicit Arguments.
Unset Strict Implicit.

(** ** C53: classes *)
(** Threads that ask for the same name get the same class, for different names different ones.  Other calls may run, if the class names that
    they would add without the mutex are known ([settled]; nothing is asked of FindClass, GetClass, RegisterNatives, ...). *)
Theorem C53_class G height s calls D c d n m i j :
  ranked G height -> tidy_reg s -> every (settled (c_debug G) s) calls -> reaches G height s calls D ->
  asks c n -> asks d m -> returned D c (Some i) -> returned D d (Some j) -> (i = j <-> n = m).
Proof.
  intros Hr Ht He Re Ac Ad Rc Rd. destruct (registry_results Hr Ht He Re Rc) as [Is Qc]. destruct (registry_results Hr Ht He Re Rd) as [_ Qd].
  specialize (Qc n Ac). specialize (Qd m Ad). cbn in Qc, Qd. destruct Is as [[Nd Pp] _]. split; intros E; subst.
  - eapply path_inj. eapply leads_inj; [exact Pp|exact Qc|exact Qd].
  - assert (Some i = Some j) as Q by (eapply leads_det; eauto). congruence.
Qed.
(** The class asked for is in the registry from then on; classes known before are returned; null is only returned (if the VM is to return
    null) for classes that were not known at the start. *)
Theorem C53_registered G height s calls D c n r :
  ranked G height -> tidy_reg s -> every (settled (c_debug G) s) calls -> reaches G height s calls D -> asks c n -> returned D c r ->
  (forall i, has_class (c_debug G) s n i -> r = Some i) /\ (c_retnull G = false -> r <> None) /\ (forall i, r = Some i -> has_class (c_debug G) (sh D) n i).
Proof.
  intros Hr Ht He Re Ac Rc. destruct (registry_results Hr Ht He Re Rc) as [Is Qc]. specialize (Qc n Ac). split; [|split].
  - intros i Hi. destruct r as [j|]; [|destruct Qc as (_ & _ & Q); destruct (Q i Hi)]. destruct Is as [[Nd Pp] (l & E)].
    eapply leads_det; [exact Nd|exact Qc|]. rewrite E. apply leads_grow. exact Hi.
  - intros Er ->. destruct Qc as (Q & _). congruence.
  - intros i ->. exact Qc.
Qed.
(** FindClass alone: the statement of C53 for any names and threads *)
Corollary C53_find_class G height s calls D n m i j :
  ranked G height -> tidy_reg s -> every (fun c => exists n, c = CFindClass n) calls -> reaches G height s calls D ->
  returned D (CFindClass n) (Some i) -> returned D (CFindClass m) (Some j) -> (i = j <-> n = m).
Proof.
  intros Hr Ht He Re. eapply C53_class; try eassumption; try reflexivity. intros l c Hl Hc. destruct (He l c Hl Hc) as (k & ->). intros z [].
Qed.
(** ** C53: fields *)
Theorem C53_field G height s calls D c x r q :
  ranked G height -> every (leaves_bases G c x) calls -> reaches G height s calls D -> returned D (CGetFieldID c x) r -> returned D (CGetFieldID c x) q ->
  r = q /\ (c_retnull G = false -> r <> None) /\ (forall i, inherited G (fields s) x (S (height c)) c = Some i -> r = Some i).
Proof.
  intros Hr He Re R1 R2. destruct (field_results Hr He Re R1) as [_ Q1]. destruct (field_results Hr He Re R2) as [_ Q2]. specialize (Q1 eq_refl). specialize (Q2 eq_refl).
  cbn [inherited]. fold (own0 s c x) (base0 G height s c x). destruct (own0 s c x) as [i|]; [subst; split; [reflexivity|split; [discriminate|intros k Hk; congruence]]|].
  destruct (base0 G height s c x) as [i|]; [subst; split; [reflexivity|split; [discriminate|intros k Hk; congruence]]|].
  destruct (c_retnull G); [subst; split; [reflexivity|split; discriminate]|]. destruct Q1 as (i & -> & F1). destruct Q2 as (j & -> & F2). split; [congruence|split; discriminate].
Qed.
(** GetFieldID with the same arguments *)
Corollary C53_same_field G height s calls D c x r q :
  ranked G height -> every (fun k => k = CGetFieldID c x) calls -> reaches G height s calls D -> returned D (CGetFieldID c x) r -> returned D (CGetFieldID c x) q -> r = q.
Proof.
  intros Hr He Re R1 R2. eapply C53_field; try eassumption. intros l k Hl Hk. split; intros d Hd E; rewrite (He l k Hl Hk) in E; [|discriminate]. injection E as ->. pose proof (base_height Hr Hd). lia.
Qed.

(** ** C54: methods *)
(** A method that the class has, or inherits and that no call adds nearer: every lookup returns it. *)
Theorem C54_partial G height s calls D c x i r :
  ranked G height -> inherited G (methods s) x (S (height c)) c = Some i -> every (leaves_methods G s c x) calls -> reaches G height s calls D -> returned D (CGetMethodID c x) r -> r = Some i.
Proof. intros Hr Hi He Re R. eapply method_results; eauto. Qed.

(** ** C55: no deadlocks *)
Lemma all_good G height calls P : (forall c, good_call G height (in_order (rank height)) P c) -> every (good_call G height (in_order (rank height)) P) calls.
Proof. intros H l c _ _. apply H. Qed.
Lemma reach_step G height s calls D t E : reaches G height s calls D -> cstep G height t D = Some E -> reaches G height s calls E.
Proof.
  intros (l & H) Q. exists (l ++ [t]). revert H. generalize (cinit s calls). induction l as [|u l IH]; intros C H; simpl in *; [injection H as ->; rewrite Q; reflexivity|].
  destruct (cstep G height u C); [auto|discriminate].
Qed.
Lemma finished_or D : finished D \/ exists t x, nth_error (thrs D) t = Some x /\ unfinished x.
Proof.
  unfold finished. generalize (thrs D). induction l as [|x l [IH|(t & y & Hy & U)]]; [left; intros [|t] x H; discriminate| |right; exists (S t), y; auto].
  destruct (t_cur x) as [p|] eqn:Ec; [right; exists 0, x; split; [reflexivity|left; congruence]|]. destruct (t_todo x) as [|c r] eqn:Et; [|right; exists 0, x; split; [reflexivity|right; congruence]].
  left. intros [|t] y Hy; [injection Hy as <-; auto|eauto].
Qed.
(** As long as not all threads are finished, one of them can go on; no schedule goes on forever; in the end all mutexes are free. *)
Theorem C55 G height s calls D : ranked G height -> reaches G height s calls D ->
  (finished D \/ exists t E, cstep G height t D = Some E) /\ Acc (after_conf G height) D /\ (finished D -> forall m, own D m = None).
Proof.
  intros Hr Re. assert (disciplined (in_order (rank height)) anything D) as Di by (eapply reach_disc; [apply all_good; intros c; apply ordered_call; exact Hr|exact Re]). split; [|split].
  - destruct (finished_or D) as [F|U]; [left; exact F|right]. eapply no_deadlock; eauto.
  - apply terminates.
  - intros F m. destruct (own D m) as [t|] eqn:E; [|reflexivity]. destruct Di as [Ow Di]. destruct (Ow m t E) as (x & Hx). destruct (F t x Hx) as [Fc _].
    specialize (Di t x Hx). unfold thread_disc in Di. rewrite Fc in Di. destruct (Di m E).
Qed.
Corollary C55_completes G height s calls D : ranked G height -> reaches G height s calls D -> exists l E, crun G height l D = Some E /\ finished E.
Proof.
  intros Hr Re. destruct (C55 Hr Re) as (_ & Ac & _). induction Ac as [D _ IH]. destruct (C55 Hr Re) as [[F|(t & E & H)] _]; [exists [], D; auto|].
  destruct (IH E) as (l & Z & R & F); [exists t; exact H|eapply reach_step; eauto|]. exists (t :: l), Z. cbn. rewrite H. auto.
Qed.

(** ** C56: protection of the registry *)
(** Calls that do not add classes without the mutex: every access to the registry happens with the mutex of the VM, hence without a race. *)
Theorem C56_partial G height s calls D :
  ranked G height -> every (fun c => adds_unlocked (c_debug G) c = []) calls -> reaches G height s calls D -> ~ unprotected D XReg LVm /\ ~ race D XReg.
Proof.
  intros Hr He Re. assert (disciplined (in_order (rank height)) (guarded XReg LVm) D) as Di by (eapply reach_disc; [|exact Re]; intros l c Hl Hc; apply registry_call; [exact Hr|exact (He l c Hl Hc)]).
  split; [eapply guarded_protected; eauto|eapply guarded_no_race; eauto].
Qed.
(** Global references are accessed with the mutex of the VM, whatever the calls; the table of threads too, unless VM::GetEnv is called; the fields of a
    class with its mutex, unless fields of the class are hooked; its methods too, unless methods are hooked or added by lookups. *)
Theorem C56_members G height s calls D :
  ranked G height -> reaches G height s calls D ->
  (~ unprotected D XGlobals LVm /\ ~ race D XGlobals) /\
  ((forall t, no_call calls (CCurrentEnv t)) -> ~ unprotected D XEnvs LVm /\ ~ race D XEnvs) /\
  (forall c, (forall y, no_call calls (CHookField c y)) -> ~ unprotected D (XFields c) (LCls c) /\ ~ race D (XFields c)) /\
  (forall c, (forall y, no_call calls (CHookMethod c y)) -> (c_retnull G = false -> forall y, no_call calls (CGetMethodID c y)) ->
     ~ unprotected D (XMethods c) (LCls c) /\ ~ race D (XMethods c)).
Proof.
  intros Hr Re. assert (forall x m, every (fun k => heeds G k x m) calls -> ~ unprotected D x m /\ ~ race D x) as Di.
  { intros x m H. assert (disciplined (in_order (rank height)) (guarded x m) D) as Q.
    - eapply reach_disc; [|exact Re]. intros l c Hl Hc. apply guarded_call; [assumption|exact (H l c Hl Hc)].
    - split; [eapply guarded_protected; eauto|eapply guarded_no_race; eauto]. }
  split; [|split; [|split]].
  - apply Di. intros l k _ _. right. left. auto.
  - intros H. apply Di. intros l k Hl Hk. do 2 right. left. split; [reflexivity|]. split; [reflexivity|]. intros t. eapply H; eauto.
  - intros c H. apply Di. intros l k Hl Hk. left. exists c. split; [reflexivity|]. split; [reflexivity|]. intros y. eapply H; eauto.
  - intros c H N. apply Di. intros l k Hl Hk. do 3 right. exists c. split; [reflexivity|]. split; [reflexivity|]. split; [intros y; eapply H; eauto|]. intros Er y. eapply N; eauto.
Qed.

(** ** What goes wrong *)
Definition G1 : ccfg := mkCcfg true false (fun c => match c with 1 => [0] | _ => [] end).
Definition h1 (c : nat) : nat := c.
Definition empty_shared : shared := mkShared [] (fun _ => []) (fun _ => []) (fun _ => None) [] (fun _ => None) 100 [].
Lemma ranked1 : ranked G1 h1.
Proof. intros [|[|c]] b H; cbn in H; try contradiction. destruct H as [<-|[]]. unfold h1. lia. Qed.
Definition results (o : option conf) : option (list (list (call * option nat))) := match o with Some D => Some (map t_done (thrs D)) | None => None end.
Definition kI : key := mkKey false (S_ "m") (S_ "()V").
Definition kA : key := mkKey false (S_ "f") (S_ "LA;").
(** Two threads look up the same new method at the same time and get different IDs. *)
Definition calls54 : list (list call) := [[CGetMethodID 1 kI]; [CGetMethodID 1 kI]].
Definition sched54 : list nat := repeat 0 8 ++ repeat 1 9 ++ repeat 1 2 ++ repeat 0 3.
Definition run_of (G : ccfg) (h : nat -> nat) (s : shared) (calls : list (list call)) (l : list nat) : conf := match crun G h l (cinit s calls) with Some D => D | None => cinit s [] end.
Ltac ran l := exists l; vm_compute; reflexivity.
Ltac got t := exists t; eexists; split; [vm_compute; reflexivity|vm_compute; solve [auto 10]].
Ltac over := let t := fresh "t" in let y := fresh "y" in let H := fresh "H" in intros t y H; repeat (destruct t as [|t]; [vm_compute in H; injection H as <-; split; reflexivity|]); destruct t; vm_compute in H; discriminate H.
Theorem C54_refuted : exists D i j, ranked G1 h1 /\ reaches G1 h1 empty_shared calls54 D /\ finished D /\
  returned D (CGetMethodID 1 kI) (Some i) /\ returned D (CGetMethodID 1 kI) (Some j) /\ i <> j.
Proof.
  exists (run_of G1 h1 empty_shared calls54 sched54), 101, 100. split; [exact ranked1|]. split; [ran sched54|]. split; [over|]. split; [got 0|]. split; [got 1|]. discriminate.
Qed.
(** GetFieldID adds the class of a field type without the mutex of the VM; then FindClass may return two classes for one name, in debug builds. *)
Definition calls53 : list (list call) := [[CGetFieldID 0 kA]; [CFindClass (S_ "A"); CFindClass (S_ "A")]].
Definition sched53 : list nat := repeat 0 6 ++ repeat 1 3 ++ [0] ++ repeat 1 8 ++ repeat 0 2.
Theorem C53_refuted_mixed : exists D i j, ranked G1 h1 /\ tidy_reg empty_shared /\ reaches G1 h1 empty_shared calls53 D /\ finished D /\
  returned D (CFindClass (S_ "A")) (Some i) /\ returned D (CFindClass (S_ "A")) (Some j) /\ i <> j.
Proof.
  exists (run_of G1 h1 empty_shared calls53 sched53), 1, 0. split; [exact ranked1|]. split; [split; [constructor|intros [|k] y j H; discriminate]|]. split; [ran sched53|]. split; [over|].
  split; [got 1|]. split; [got 1|]. discriminate.
Qed.
(** Looking a field up in a base class may change what the derived class finds. *)
Definition G3 : ccfg := mkCcfg false false (fun c => match c with 2 => [0; 1] | _ => [] end).
Definition s3 : shared := mkShared [] (fun c => match c with 1 => [(kA, 7)] | _ => [] end) (fun _ => []) (fun _ => None) [] (fun _ => None) 100 [].
Definition calls3 : list (list call) := [[CGetFieldID 2 kA; CGetFieldID 2 kA]; [CGetFieldID 0 kA]].
Definition sched3 : list nat := repeat 0 13 ++ repeat 1 7 ++ repeat 0 9.
Theorem C53_refuted_bases : exists D i j, ranked G3 h1 /\ reaches G3 h1 s3 calls3 D /\ finished D /\
  returned D (CGetFieldID 2 kA) (Some i) /\ returned D (CGetFieldID 2 kA) (Some j) /\ i <> j.
Proof.
  exists (run_of G3 h1 s3 calls3 sched3), 7, 100. split; [intros [|[|[|c]]] b H; cbn in H; try contradiction; destruct H as [<-|[<-|[]]]; unfold h1; lia|].
  split; [ran sched3|]. split; [over|]. split; [got 0|]. split; [got 0|]. discriminate.
Qed.
(** A class that is its own base class: its mutex is waited for forever by the thread that holds it. *)
Definition G2 : ccfg := mkCcfg false false (fun _ => [0]).
Theorem C55_cyclic : exists D, reaches G2 (fun _ => 1) empty_shared [[CGetFieldID 0 kA]] D /\ ~ finished D /\ forall t, cstep G2 (fun _ => 1) t D = None.
Proof.
  exists (run_of G2 (fun _ => 1) empty_shared [[CGetFieldID 0 kA]] (repeat 0 4)). split; [ran (repeat 0 4)|]. split.
  - intros F. specialize (F 0 _ eq_refl). destruct F as [F _]. vm_compute in F. discriminate.
  - intros [|[|t]]; reflexivity.
Qed.
(** The registry is accessed without the mutex, while another thread changes it; likewise the table of types and the methods of a class. *)
Definition Gb (b : bool) : ccfg := mkCcfg b false (fun _ => []).
Ltac racing t u := exists t, u; do 8 eexists; split; [discriminate|]; split; [vm_compute; reflexivity|]; split; [vm_compute; reflexivity|]; split; [reflexivity|]; split; [reflexivity|]; split; [reflexivity|]; split; [reflexivity|auto].
Lemma ranked_b b : ranked (Gb b) h1.
Proof. intros c d []. Qed.
Theorem C56_refuted b : exists D, ranked (Gb b) h1 /\ reaches (Gb b) h1 empty_shared [[CNewGlobalRef]; [CFindClass (S_ "A")]] D /\ unprotected D XReg LVm /\ race D XReg.
Proof.
  exists (run_of (Gb b) h1 empty_shared [[CNewGlobalRef]; [CFindClass (S_ "A")]] [0; 1; 1; 1]). split; [apply ranked_b|]. destruct b.
  - split; [ran [0; 1; 1; 1]|]. split; [|racing 0 1]. exists 0. do 4 eexists. split; [vm_compute; reflexivity|]. split; [reflexivity|]. split; [reflexivity|]. vm_compute. discriminate.
  - split; [ran [0; 1; 1; 1]|]. split; [|racing 0 1]. exists 0. do 4 eexists. split; [vm_compute; reflexivity|]. split; [reflexivity|]. split; [reflexivity|]. vm_compute. discriminate.
Qed.
Theorem C56_refuted_types : exists D, reaches (Gb false) h1 empty_shared [[CClassOf 7]; [CGetClassT 7 (S_ "A")]] D /\ race D XTypes.
Proof. exists (run_of (Gb false) h1 empty_shared [[CClassOf 7]; [CGetClassT 7 (S_ "A")]] [0; 1; 1; 1; 1]). split; [ran [0; 1; 1; 1; 1]|racing 0 1]. Qed.
Theorem C56_refuted_methods : exists D, reaches (Gb false) h1 empty_shared [[CGetMethodID 0 kI]; [CRegisterNatives 0 [kI]]] D /\ race D (XMethods 0).
Proof. exists (run_of (Gb false) h1 empty_shared [[CGetMethodID 0 kI]; [CRegisterNatives 0 [kI]]] [0; 0; 0; 0; 0; 1; 1]). split; [ran [0; 0; 0; 0; 0; 1; 1]|racing 0 1]. Qed.
(** Hooks, and the table of threads *)
Theorem C56_refuted_hook : exists D, reaches (Gb false) h1 empty_shared [[CHookMethod 0 kI]; [CRegisterNatives 0 [kI]]] D /\ race D (XMethods 0).
Proof. exists (run_of (Gb false) h1 empty_shared [[CHookMethod 0 kI]; [CRegisterNatives 0 [kI]]] [0; 1; 1]). split; [ran [0; 1; 1]|racing 0 1]. Qed.
Theorem C56_refuted_hook_field : exists D, reaches (Gb false) h1 empty_shared [[CHookField 0 kI]; [CGetFieldID 0 kI]] D /\ race D (XFields 0).
Proof. exists (run_of (Gb false) h1 empty_shared [[CHookField 0 kI]; [CGetFieldID 0 kI]] [0; 0; 1; 1]). split; [ran [0; 0; 1; 1]|racing 0 1]. Qed.
Theorem C56_refuted_envs : exists D, reaches (Gb false) h1 empty_shared [[CAttach 0; CCurrentEnv 0]; [CAttach 1]] D /\ race D XEnvs.
Proof. exists (run_of (Gb false) h1 empty_shared [[CAttach 0; CCurrentEnv 0]; [CAttach 1]] [0; 0; 0; 0; 0; 0; 0; 1; 1; 1]). split; [ran [0; 0; 0; 0; 0; 0; 0; 1; 1; 1]|racing 0 1]. Qed.

(** ** Cases *)
(** Three threads; the registry has class A and the class of global references, class 0 has the method and class 1 inherits it. *)
Definition s1 : shared := mkShared [mkNode None KCl (S_ "A"); mkNode None KNs (S_ "internal"); mkNode (Some 1) KNs (S_ "lang"); mkNode (Some 2) KCl (S_ "Global")]
  (fun _ => []) (fun c => match c with 0 => [(kI, 50)] | _ => [] end) (fun _ => None) [] (fun _ => None) 100 [].
Definition calls1 : list (list call) :=
  [[CFindClass (S_ "p/B"); CNewGlobalRef; CGetFieldID 1 kA]; [CGetClassT 3 (S_ "p/B"); CGetMethodID 1 kI; CGetFieldID 1 kA]; [CFindClass (S_ "A"); CFindClass (S_ "p/C")]].
Fixpoint spin (n : nat) : list nat := match n with 0 => [] | S n => [0; 1; 2] ++ spin n end.
(** Turn by turn, leaving out threads that wait *)
Fixpoint turns (l : list nat) (C : conf) : list nat := match l with [] => [] | t :: r => match cstep G1 h1 t C with Some D => t :: turns r D | None => turns r C end end.
Definition sched1 : list nat := turns (spin 60) (cinit s1 calls1).
Definition D1 : conf := run_of G1 h1 s1 calls1 sched1.
Example C53_case : ranked G1 h1 /\ tidy_reg s1 /\ every (settled (c_debug G1) s1) calls1 /\ every (leaves_bases G1 1 kA) calls1 /\ reaches G1 h1 s1 calls1 D1 /\ finished D1 /\
  returned D1 (CFindClass (S_ "p/B")) (Some 5) /\ returned D1 (CGetClassT 3 (S_ "p/B")) (Some 5) /\ returned D1 (CFindClass (S_ "A")) (Some 0) /\ returned D1 (CFindClass (S_ "p/C")) (Some 6) /\
  returned D1 CNewGlobalRef (Some 100) /\ returned D1 (CGetFieldID 1 kA) (Some 101).
Proof.
  split; [exact ranked1|]. split; [split|].
  - repeat constructor; cbn; intuition discriminate.
  - intros [|[|[|[|i]]]] y j H Hp; cbn in H; try (injection H as <-; cbn in Hp; congruence || (injection Hp as <-; lia)). destruct i; discriminate.
  - split; [|split; [|split; [ran sched1|split; [over|]]]].
    + assert (exists i, has_class true s1 (S_ "A") i) as HA by (exists 0; econstructor; [exact (eq_refl : nth_error (reg s1) 0 = _)|constructor]).
      assert (exists i, has_class true s1 (S_ "internal/lang/Global") i) as HG.
      { exists 3. econstructor; [exact (eq_refl : nth_error (reg s1) 1 = _)|]. econstructor; [exact (eq_refl : nth_error (reg s1) 2 = _)|]. econstructor; [exact (eq_refl : nth_error (reg s1) 3 = _)|]. constructor. }
      intros l c Hl Hc n Hn. cbn in Hl. repeat destruct Hl as [<-|Hl]; try contradiction; cbn in Hc; repeat destruct Hc as [<-|Hc]; try contradiction; vm_compute in Hn; try contradiction; destruct Hn as [<-|[]]; assumption.
    + intros l c Hl Hc. split; intros d Hd E; cbn in Hl.
      2: { repeat destruct Hl as [<-|Hl]; try contradiction; cbn in Hc; repeat destruct Hc as [<-|Hc]; try contradiction; discriminate. }
      assert (d <> 1) as Nd by (intros ->; pose proof (base_height ranked1 Hd); unfold h1 in *; lia).
      repeat destruct Hl as [<-|Hl]; try contradiction; cbn in Hc; repeat destruct Hc as [<-|Hc]; try contradiction; try discriminate; injection E as <-; congruence.
    + repeat match goal with |- _ /\ _ => split end; first [got 0|got 1|got 2].
Qed.
Example C54_case : inherited G1 (methods s1) kI (S (h1 1)) 1 = Some 50 /\ every (leaves_methods G1 s1 1 kI) calls1 /\ returned D1 (CGetMethodID 1 kI) (Some 50).
Proof.
  split; [reflexivity|]. split; [|got 1]. intros l c Hl Hc. cbn in Hl. split; [repeat destruct Hl as [<-|Hl]; try contradiction; cbn in Hc; repeat destruct Hc as [<-|Hc]; try contradiction; discriminate|]. right.
  split; [|split; [|split]]; intros d Hd E; repeat destruct Hl as [<-|Hl]; try contradiction; cbn in Hc; repeat destruct Hc as [<-|Hc]; try contradiction; try (destruct E as (? & E & _); discriminate E); try discriminate.
  injection E as <-. pose proof (base_height ranked1 Hd). unfold h1 in *. lia.
Qed.
(** Half way: threads hold mutexes, one waits. *)
Definition D2 : conf := run_of G1 h1 s1 calls1 [0; 0; 1; 2].
Example C55_case : reaches G1 h1 s1 calls1 D2 /\ ~ finished D2 /\ own D2 LVm = Some 0 /\ cstep G1 h1 1 D2 = None /\ cstep G1 h1 2 D2 = None /\ cstep G1 h1 0 D2 <> None.
Proof.
  split; [ran [0; 0; 1; 2]|]. split; [intros F; specialize (F 0 _ eq_refl); destruct F as [F _]; vm_compute in F; discriminate|]. split; [reflexivity|]. split; [reflexivity|]. split; [reflexivity|]. vm_compute. discriminate.
Qed.
Definition calls56 : list (list call) := [[CFindClass (S_ "p/B")]; [CGetClassT 3 (S_ "p/B"); CGetFieldID 1 (mkKey false (S_ "f") (S_ "I"))]].
Example C56_case : every (fun c => adds_unlocked (c_debug G1) c = []) calls56 /\ reaches G1 h1 s1 calls56 (run_of G1 h1 s1 calls56 [0; 1; 0]) /\
  exists y p, nth_error (thrs (run_of G1 h1 s1 calls56 [0; 1; 0])) 0 = Some y /\ t_cur y = Some (CFindClass (S_ "p/B"), p) /\ accesses p = Some (XReg, false).
Proof.
  split; [|split; [ran [0; 1; 0]|do 2 eexists; split; [vm_compute; reflexivity|split; [reflexivity|reflexivity]]]].
  intros l c Hl Hc. cbn in Hl. repeat destruct Hl as [<-|Hl]; try contradiction; cbn in Hc; repeat destruct Hc as [<-|Hc]; try contradiction; vm_compute; reflexivity.
Qed.
Print Assumptions C53_class.
Print Assumptions C53_field.
Print Assumptions C54_partial.
Print Assumptions C55.
Print Assumptions C56_partial.
