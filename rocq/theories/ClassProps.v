(** Class lookup: C11, C12. *)
From Verif Require Import Base BaseProofs SigModel VmState VmModel VmStep VmSpec VmBase VmFrame VmWf VmPrim VmInv VmReg
  VmFine VmRegInv VmExact VmQuiet VmClass VmDemo.
Set Implicit Arguments.
Unset Strict Implicit.
Local Open Scope vm_scope.
Local Open Scope char_scope.

(** The classes a lookup of [n] brings into being: in the debug build also the classes around a nested
    class, but array classes ("[...") are not taken apart. *)
Definition brings (G : cfg) (n m : str) : Prop :=
  if debug G then match n with "[" :: _ => m = n | _ => outer m n end else m = n.

Lemma brings_spec G n m : In m (outer_names G n) <-> brings G n m.
Proof.
  unfold outer_names, brings, bracket. destruct (debug G); simpl.
  - destruct n as [|c n]; [apply outer_spec|].
    destruct c as [[] [] [] [] [] [] [] []]; simpl; try apply outer_spec. split; [intros [->|[]]; auto|auto].
  - split; [intros [->|[]]; auto|auto].
Qed.

(** ** The step *)
Lemma FindClass_step G t n s : good G s -> attached s t -> exists r s',
  step G t (FindClass_ n) s = Some (OVal (RRef r), s') /\ good G s' /\ undisturbed t s s' /\ kept s s' /\
  r = get_class s' n /\ frames s' t = match r with Some i => add_local (frames s t) i | None => frames s t end /\
  (retnull G = true -> r = get_class s n /\ (forall m, get_class s' m = get_class s m) /\ (r = None -> s' = s) /\
      forall i, live s' i = live s i) /\
  (retnull G = false -> r <> None /\ forall m, get_class s' m <> None <-> get_class s m <> None \/ brings G n m).
Proof.
  intros [I T] A. destruct (FindClass_z_spec (retnull G) n I A) as (r & s1 & s' & E & I1 & Q & K & R & Z & N & F & I' & S).
  assert (tidy s') as T'.
  { assert (tidy s1) as T1 by (apply (tidy_quiet I I1 K Q T)). subst s'. destruct r as [i|]; auto.
    eapply tidy_weaken; [|apply given_tidy; [apply I1|eapply quiet_attached; eauto|exact T1]]. intros j [[] _]. }
  assert (step G t (FindClass_ n) s = Some (OVal (RRef r), s')) as St.
  { unfold step. rewrite run_attached by auto. cbn [body]. unfold as_ref, bind, FindClass. rewrite F. simpl.
    rewrite tidy_finish_id by auto. auto. }
  assert (forall m, get_class s' m = get_class s1 m) as GC.
  { intros m. subst s'. destruct r; auto. apply given_class. }
  exists r, s'. split; auto. split; [eapply step_good; [|exact St]; constructor; auto|].
  split; [|split; [|split; [|split; [|split]]]].
  - eapply undisturbed_trans; [apply quiet_undisturbed; eauto|]. subst s'. destruct r; [apply given_undisturbed|apply undisturbed_refl].
  - intros m i H. rewrite GC. auto.
  - rewrite GC. auto.
  - subst s'. destruct r as [i|]; [rewrite given_frames|]; rewrite (frames_quiet _ Q); auto.
  - intros H. specialize (Z H). subst s1. repeat split; auto.
    + intros ->. auto.
    + subst s'. destruct r as [i|]; auto. intros j. unfold given. rewrite pushed_live.
      destruct (ensured_wf TClass i (inv_wf I)) as [_ Gr]. unfold ensured. destruct (lookup s i) as [o|] eqn:L; auto.
      assert (live (put s i (mkObj (type_class s TClass) (o_mon o) (o_pay o))) j = live s j) by (apply (live_put _ _ L)).
      destruct (o_clazz o); auto. destruct (live s o0); auto.
  - intros H. destruct (N H) as [Nn C]. split; auto. intros m. rewrite GC. split.
    + intros D. destruct (get_class s m) eqn:E0; [left; congruence|]. right. apply brings_spec. apply (cr_new C _ E0). auto.
    + intros [D|D].
      * destruct (get_class s m) as [i|] eqn:E0; [|congruence]. rewrite (K _ _ E0). congruence.
      * apply brings_spec in D. destruct (get_class s m) as [i|] eqn:E0; [rewrite (K _ _ E0); congruence|]. apply (cr_new C _ E0). auto.
Qed.

Lemma FindClass_inv G t n s v s' : step G t (FindClass_ n) s = Some (v, s') -> good G s -> attached s t /\ good G s' /\
  v = OVal (RRef (get_class s' n)) /\ kept s s'.
Proof.
  intros E I. pose proof (step_attached E eq_refl) as A. split; auto.
  destruct (FindClass_step n I A) as (r & s1 & E1 & G1 & _ & K & R & _). rewrite E in E1. inversion E1; subst. auto.
Qed.
Lemma exec_kept G l s vs s' : good G s -> exec G l s = Some (vs, s') -> kept s s'.
Proof. intros [I _] E. apply (exec_inv l I E). Qed.

(** ** C11 *)

(** Two lookups, with anything in between and by any threads, return the same class exactly if the names
    are equal. *)
Theorem C11_same_class G t0 s t n i s1 l vs s2 t' n' r s3 :
  reachable G t0 s ->
  step G t (FindClass_ n) s = Some (OVal (RRef (Some i)), s1) ->
  exec G l s1 = Some (vs, s2) ->
  step G t' (FindClass_ n') s2 = Some (OVal (RRef r), s3) ->
  (r = Some i <-> n' = n).
Proof.
  intros R E1 E2 E3. apply reachable_good in R.
  destruct (FindClass_inv E1 R) as (_ & G1 & H1 & _). injection H1 as H1'.
  pose proof (exec_good G1 E2) as G2. pose proof (exec_kept G1 E2) as K2.
  destruct (FindClass_inv E3 G2) as (_ & G3 & H3 & K3). injection H3 as H3'.
  assert (get_class s3 n = Some i) as H by (apply K3, K2; auto). split.
  - intros Hr. rewrite Hr in H3'. symmetry in H3'. apply (class_named_iff _ _ (g_inv G3)) in H. apply (class_named_iff _ _ (g_inv G3)) in H3'.
    destruct H as (o & c & L & P & <-). destruct H3' as (o' & c' & L' & P' & <-). congruence.
  - intros ->. congruence.
Qed.

(** The class reports the requested name, for ever, and is the only class with that name. *)
Theorem C11_reports_name G t0 s t n i s1 l vs s2 :
  reachable G t0 s ->
  step G t (FindClass_ n) s = Some (OVal (RRef (Some i)), s1) ->
  exec G l s1 = Some (vs, s2) ->
  class_named s2 n i /\ forall j, class_named s2 n j -> j = i.
Proof.
  intros R E1 E2. apply reachable_good in R.
  destruct (FindClass_inv E1 R) as (_ & G1 & H1 & _). injection H1 as H1'.
  pose proof (exec_good G1 E2) as G2. pose proof (exec_kept G1 E2) as K2.
  assert (get_class s2 n = Some i) as H by (apply K2; auto). split.
  - apply (class_named_iff _ _ (g_inv G2)). auto.
  - intros j Hj. apply (class_named_iff _ _ (g_inv G2)) in Hj. congruence.
Qed.

(** A lookup always returns; it adds one local reference for the result and disturbs nothing. *)
Theorem C11_lookup_returns G t0 s t n : reachable G t0 s -> attached s t -> exists r s',
  step G t (FindClass_ n) s = Some (OVal (RRef r), s') /\
  (r = None <-> retnull G = true /\ ~ class_exists s n) /\
  frames s' t = match r with Some i => add_local (frames s t) i | None => frames s t end /\
  undisturbed t s s'.
Proof.
  intros R A. apply reachable_good in R. destruct (FindClass_step n R A) as (r & s' & E & G' & U & K & Rn & F & Z & N).
  exists r, s'. split; [auto|]. split; [|auto]. rewrite (class_exists_iff n (g_inv R)). destruct (retnull G).
  - destruct (Z eq_refl) as (Z1 & _). rewrite <- Z1. split; [intros H; split; auto|].
    intros [_ H]. destruct r; auto. exfalso. apply H. discriminate.
  - destruct (N eq_refl) as [N1 _]. split; [intros; congruence|intros [? _]; discriminate].
Qed.

(** The lookups of the C++ interface, ENV::GetClass(name) ([zero] false: creates) and Jvm::findClass ([zero] true), return the class itself and make no reference. *)
Lemma UFindClass_step G t z n s : good G s -> attached s t -> exists r s',
  step G t (UFindClass_ z n) s = Some (OVal (RRef r), s') /\ good G s' /\ quiet s s' /\ kept s s' /\ r = get_class s' n /\ (z = true -> s' = s) /\
  (z = false -> r <> None /\ forall m, get_class s' m <> None <-> get_class s m <> None \/ brings G n m).
Proof.
  intros [I T] A. destruct (FindClass_z_spec z n I A) as (r & s1 & s' & E & I1 & Q & K & R & Z & N & _).
  assert (tidy s1) as T1 by (apply (tidy_quiet I I1 K Q T)).
  assert (step G t (UFindClass_ z n) s = Some (OVal (RRef r), s1)) as St.
  { unfold step. rewrite run_attached by auto. cbn [body]. unfold as_ref, bind. rewrite E. simpl. rewrite tidy_finish_id by auto. auto. }
  exists r, s1. split; [exact St|]. split; [eapply step_good; [|exact St]; constructor; auto|]. split; [exact Q|]. split; [exact K|]. split; [exact R|]. split; [exact Z|].
  intros H. destruct (N H) as [Nn C]. split; auto. intros m. split.
  - intros D. destruct (get_class s m) eqn:E0; [left; congruence|]. right. apply brings_spec. apply (cr_new C _ E0). auto.
  - intros [D|D].
    + destruct (get_class s m) as [i|] eqn:E0; [|congruence]. rewrite (K _ _ E0). congruence.
    + apply brings_spec in D. destruct (get_class s m) as [i|] eqn:E0; [rewrite (K _ _ E0); congruence|]. apply (cr_new C _ E0). auto.
Qed.
Theorem C11_cxx G t0 s t z n : reachable G t0 s -> attached s t -> exists r s',
  step G t (UFindClass_ z n) s = Some (OVal (RRef r), s') /\ (r = None <-> z = true /\ ~ class_exists s n) /\ (forall i, r = Some i -> class_named s' n i) /\
  (z = true -> s' = s) /\ (z = false -> forall m, class_exists s' m <-> class_exists s m \/ brings G n m) /\ undisturbed t s s' /\ forall u, get_env s' u = get_env s u.
Proof.
  intros R A. apply reachable_good in R. destruct (UFindClass_step z n R A) as (r & s' & E & G' & Q & K & Rn & Z & N). exists r, s'. split; [exact E|].
  pose proof (class_exists_iff n (g_inv R)) as Ce. split; [|split; [|split; [exact Z|split; [|split]]]].
  - rewrite Ce. destruct z.
    + rewrite (Z eq_refl) in Rn. rewrite <- Rn. split; [intros ->; split; auto|]. intros [_ H]. destruct r; auto. exfalso. apply H. discriminate.
    + destruct (N eq_refl) as [N1 _]. split; [intros; congruence|intros [? _]; discriminate].
  - intros i ->. apply (class_named_iff _ _ (g_inv G')). auto.
  - intros H m. destruct (N H) as [_ C]. rewrite (class_exists_iff m (g_inv R)), (class_exists_iff m (g_inv G')). apply C.
  - apply quiet_undisturbed; auto.
  - intros u. unfold get_env. rewrite (q_envs Q). reflexivity.
Qed.
Example C11_ex_cxx : seen Gn [(main, UFindClass_ true (S_ "a/B")); (main, UFindClass_ false (S_ "a/B")); (main, UFindClass_ true (S_ "a/B")); (main, FindClass_ (S_ "a/B"))] =
  [OVal (RRef None); OVal (RRef (Some 9)); OVal (RRef (Some 9)); OVal (RRef (Some 9))].
Proof. vm_compute. reflexivity. Qed.

(** ** C12 *)
Theorem C12_no_creation G t0 s t n r s' : retnull G = true -> reachable G t0 s ->
  step G t (FindClass_ n) s = Some (OVal (RRef r), s') ->
  (forall i, r = Some i <-> class_named s n i) /\
  (forall m i, class_named s' m i <-> class_named s m i) /\
  (forall i, live s' i = live s i).
Proof.
  intros Rn R E. apply reachable_good in R. pose proof (step_attached E eq_refl) as A.
  destruct (FindClass_step n R A) as (r1 & s1 & E1 & G' & U & K & _ & F & Z & N). rewrite E in E1. inversion E1; subst r1 s1.
  destruct (Z Rn) as (-> & C & _ & L). split; [|split; auto].
  - intros i. rewrite (class_named_iff _ _ (g_inv R)). reflexivity.
  - intros m i. rewrite (class_named_iff _ _ (g_inv R)), (class_named_iff _ _ (g_inv G')), C. reflexivity.
Qed.

Theorem C12_creation_exact G t0 s t n r s' : retnull G = false -> reachable G t0 s ->
  step G t (FindClass_ n) s = Some (OVal (RRef r), s') ->
  (exists i, r = Some i /\ class_named s' n i) /\
  (forall m, class_exists s' m <-> class_exists s m \/ brings G n m) /\
  (forall m i, class_named s m i -> class_named s' m i).
Proof.
  intros Rn R E. apply reachable_good in R. pose proof (step_attached E eq_refl) as A.
  destruct (FindClass_step n R A) as (r1 & s1 & E1 & G' & U & K & Rc & F & Z & N). rewrite E in E1. inversion E1; subst r1 s1.
  destruct (N Rn) as (Nn & C). split; [|split].
  - destruct r as [i|]; [|congruence]. exists i. split; auto. apply (class_named_iff _ _ (g_inv G')). auto.
  - intros m. rewrite (class_exists_iff m (g_inv R)), (class_exists_iff m (g_inv G')). apply C.
  - intros m i. rewrite (class_named_iff _ _ (g_inv R)), (class_named_iff _ _ (g_inv G')). apply K.
Qed.

(** ** Examples *)
Definition ex_find : list event :=
  [(main, FindClass_ (S_ "a/B$C")); (2, Attach_); (2, FindClass_ (S_ "a/B")); (main, PopLocalFrame_ None);
   (2, FindClass_ (S_ "a/B$C")); (main, FindClass_ (S_ "[La/B;"))].
Example C11_ex : seen Gd ex_find =
  [OVal (RRef (Some 10)); OVal (REnv 1); OVal (RRef (Some 9)); OVal (RRef None); OVal (RRef (Some 10)); OVal (RRef (Some 11))].
Proof. vm_compute. reflexivity. Qed.
Example C11_ex_reachable : reachable Gd main (after Gd ex_find).
Proof. apply after_reachable. vm_compute. reflexivity. Qed.
Example C11_ex_attached : attached (after Gd ex_find) main /\ attached (after Gd ex_find) 2.
Proof. split; eexists; vm_compute; reflexivity. Qed.
(** without creation: unknown, then (after binding a class from C++) known *)
Definition ex_nocreate : list event :=
  [(main, FindClass_ (S_ "a/B")); (main, UBind_ 0 true (S_ "a/B$C")); (main, FindClass_ (S_ "a/B")); (main, FindClass_ (S_ "a/X"))].
Example C12_ex : seen Gn ex_nocreate =
  [OVal (RRef None); OVal (RRef (Some 10)); OVal (RRef (Some 9)); OVal (RRef None)].
Proof. vm_compute. reflexivity. Qed.
Example C12_ex_brings : brings Gd (S_ "a/B$C") (S_ "a/B") /\ ~ brings Gr (S_ "a/B$C") (S_ "a/B") /\
  ~ brings Gd (S_ "a$b/C") (S_ "a") /\ ~ brings Gd (S_ "[La/B$C;") (S_ "a/B").
Proof.
  unfold brings, outer; simpl. repeat split.
  - right. exists (S_ "C"). split; [reflexivity|]. simpl. intros [H|[]]; discriminate.
  - discriminate.
  - intros [H|(r & H & N)]; [discriminate|]. simpl in H. inversion H; subst. apply N. simpl. auto.
  - discriminate.
Qed.

Print Assumptions C11_same_class.
Print Assumptions C11_reports_name.
Print Assumptions C11_lookup_returns.
Print Assumptions C11_cxx.
Print Assumptions C12_no_creation.
Print Assumptions C12_creation_exact.
