(** Members returned to concurrent threads: theorems. *)
From Coq Require Import Sorted.
From Verif Require Import Base BaseProofs SigModel VmState VmModel ConcModel ConcLogic ConcSpec ConcDisc ConcReg ConcMem ConcThr ConcProps ConcThrProps ConcIdSpec ConcId.
Set Implicit Arguments.
Unset Strict Implicit.

(** ** C99: the members that calls return *)
(** At any moment of any schedule: a lookup that has returned gave a member with this name, type and kind of the class or one of its base classes, or null,
    which only VMs that return null do; hooks gave one of the class itself.  Methods of classes whose natives some thread unregisters may be gone since. *)
Lemma results G height s calls D k r : ranked G height -> reaches G height s calls D -> returned D k r -> sound G (fun d => ~ no_call calls (CUnregisterNatives d)) (next s) k r (sh D).
Proof. intros Hr Re Rt. eapply sound_results; eauto. intros l q Hl Hq d -> N. exact (N l _ Hl Hq eq_refl). Qed.
Lemma keep_out calls m c : keeps_natives calls m c -> out (fun d => ~ no_call calls (CUnregisterNatives d)) m c.
Proof. intros K E N. apply N. auto. Qed.
Theorem C99 G height s calls D k r m c x : ranked G height -> reaches G height s calls D -> returned D k r ->
  (looks_up k m c x -> match r with Some i => exists d, in_reach G c d /\ (keeps_natives calls m d -> listed (sh D) m d x i) | None => c_retnull G = true end) /\
  (installs k m c x -> exists i, r = Some i /\ (keeps_natives calls m c -> listed (sh D) m c x i)).
Proof.
  intros Hr Re Rt. destruct (results Hr Re Rt m c x) as (A & B & _). split; intros Hk.
  - specialize (A Hk). destruct r as [i|]; [|exact A]. destruct A as (d & Hd & L). exists d. split; [exact Hd|]. intros K. apply L. apply keep_out. exact K.
  - destruct (B Hk) as (i & E & L). exists i. split; [exact E|]. intros K. apply L. apply keep_out. exact K.
Qed.
(** Registrations return no ID, and once one has returned the class lists a new method with a native function for every entry of its array, also for keys
    that it had already or that come twice, in the order of the array. *)
Theorem C99_registered G height s calls D c l r : ranked G height -> reaches G height s calls D -> returned D (CRegisterNatives c l) r ->
  r = None /\ (no_call calls (CUnregisterNatives c) -> exists ids, Forall2 (listed (sh D) true c) l ids /\ StronglySorted lt ids /\ Forall (le (next s)) ids /\ Forall (native_id (sh D)) ids).
Proof.
  intros Hr Re Rt. destruct (results Hr Re Rt true c (mkKey false [] [])) as (_ & _ & C). destruct (C l eq_refl) as (E & ids & F & O & B & Na). split; [exact E|]. intros Nu. exists ids. split; [|split; [exact O|split; [exact B|apply Forall_forall; exact Na]]].
  eapply all2_impl; [|exact F]. intros y i L. apply L. apply keep_out. intros _. exact Nu.
Qed.
(** So the same ID never stands for different members. *)
Theorem C99_ids G height s calls D k l m n c d x y i : ranked G height -> tidy_ids s -> reaches G height s calls D -> (forall e, keeps_natives calls m e) -> (forall e, keeps_natives calls n e) ->
  returned D k (Some i) -> looks_up k m c x \/ installs k m c x -> returned D l (Some i) -> looks_up l n d y \/ installs l n d y -> m = n /\ x = y.
Proof.
  intros Hr Ht Re Km Kn R1 K1 R2 K2. destruct (tidy_all Hr (fun _ => False) Ht Re) as [_ Inj].
  assert (forall k m c x, (forall e, keeps_natives calls m e) -> returned D k (Some i) -> looks_up k m c x \/ installs k m c x -> exists e, listed (sh D) m e x i) as W.
  { intros k' m' c' x' N' R' [K'|K']; destruct (C99 m' c' x' Hr Re R') as [A B]; [destruct (A K') as (e & _ & L); eauto|]. destruct (B K') as (j & E & L). injection E as <-. eauto. }
  destruct (W k m c x Km R1 K1) as (e & L1). destruct (W l n d y Kn R2 K2) as (f & L2). destruct (Inj _ _ _ _ _ _ _ L1 L2) as (-> & _ & ->). auto.
Qed.
(** Members are never lost if no thread unregisters the natives of the class; classes get none that no thread asked for. *)
Theorem C99_members G height s calls D m c x i : ranked G height -> reaches G height s calls D ->
  (keeps_natives calls m c -> listed s m c x i -> listed (sh D) m c x i) /\ (every (fun k => ~ may_add G k m c x) calls -> listed (sh D) m c x i -> listed s m c x i).
Proof.
  intros Hr Re. split.
  - intros Kn Hs. eapply (@state_inv_in G height (fun k => m = true -> k <> CUnregisterNatives c) (fun s => listed s m c x i)); [|intros l k Hl Hk E; exact (Kn E l k Hl Hk)|exact Hs|exact Re]. intros k Nk.
    assert (forall m c, out (fun _ => False) m c) as Of by (intros ? ? _ []).
    apply disc_call_quiet; try exact Hr; try (unfold listed; intros; assumption).
    + intros d y _ s' Hs'. apply (proj1 (proj1 (grows_field (fun _ => False) d y s'))); auto.
    + intros d y _ s' Hs'. apply (proj1 (proj1 (grows_method (fun _ => False) d y s'))); auto.
    + intros d y _ s' Hs'. apply (proj1 (proj1 (grows_native (fun _ => False) d y s'))); auto.
    + intros d -> s'. unfold listed. destruct m; [|auto]. rewrite drop_other; [auto|]. intros ->. exact (Nk eq_refl eq_refl).
  - intros He. assert (forall i, ~ listed s m c x i -> ~ listed (sh D) m c x i) as W.
    { clear i. intros i Hs. eapply (@state_inv_in G height (fun k => ~ may_add G k m c x) (fun s => ~ listed s m c x i)); [|exact He|exact Hs|exact Re]. intros k Nk.
      apply disc_call_quiet; try exact Hr; try (unfold listed; intros; assumption).
      1-3: intros d y Ha s' Hs' Q; apply Hs'; revert Q; unfold listed; destruct m; cbn; auto; unfold upd; (destruct (Nat.eqb_spec c d) as [->|]; [|auto]);
        intros Q; apply in_app_or in Q; (destruct Q as [Q|[Q|[]]]; [exact Q|]); exfalso; injection Q as -> _; try contradiction. 1: apply Nk; right; left; split; [reflexivity|exact Ha].
      intros d _ s' Hs' Q. apply Hs'. revert Q. unfold listed. destruct m; cbn; auto. unfold upd. destruct (Nat.eqb_spec c d) as [->|]; [|auto]. intros Q. apply filter_In in Q. apply Q. }
    intros Hd. destruct (in_dec (fun a b : key * nat => ltac:(decide equality; [apply Nat.eq_dec|decide equality; [apply (list_eq_dec ascii_dec)|apply (list_eq_dec ascii_dec)|apply Bool.bool_dec]])) (x, i) (if m then methods s c else fields s c)) as [Y|N]; [exact Y|destruct (W i N Hd)].
Qed.

(** ** C106: natives that are unregistered *)
(** Once a call that unregisters the natives of a class has returned, the class has no methods with native functions, if no thread registers some for it.
    Its other methods stay, whatever threads do. *)
Theorem C106 G height s calls D c r : ranked G height -> tidy_ids s -> tidy_natives s -> every (fun k => forall x, ~ registers k c x) calls -> reaches G height s calls D ->
  returned D (CUnregisterNatives c) r -> r = None /\ forall x i, listed (sh D) true c x i -> ~ native_id (sh D) i.
Proof. intros Hr [Ti _] Tn Ho Re Rt. eapply (@unregistered G height Hr c s); eauto. split; [exact Tn|]. intros x i Hi. exact (Ti true c x i Hi). Qed.
Theorem C106_others G height s calls D c x i : ranked G height -> tidy_ids s -> reaches G height s calls D -> listed s true c x i -> ~ native_id s i -> listed (sh D) true c x i /\ ~ native_id (sh D) i.
Proof.
  intros Hr [Ti _] Re Hl Hn. set (K := fun s => listed s true c x i /\ ~ native_id s i /\ i < next s). assert (K (sh D)) as Q; [|destruct Q as (A & B & _); auto].
  eapply (@state_inv G height K); [|split; [exact Hl|split; [exact Hn|exact (Ti _ _ _ _ Hl)]]|exact Re]. intros k. apply quiet_call; try exact Hr.
  all: unfold K, listed, native_id; cbn; try (intros; intuition lia).
  - intros d y s' (A & B & C). unfold upd. split; [|split; [exact B|lia]]. destruct (Nat.eqb_spec c d) as [->|]; [apply in_or_app; left; exact A|exact A].
  - intros d y s' (A & B & C). unfold upd. split; [|split; [intros [E|E]; [lia|contradiction]|lia]]. destruct (Nat.eqb_spec c d) as [->|]; [apply in_or_app; left; exact A|exact A].
  - intros d _ s' (A & B & C). unfold upd. split; [|split; [exact B|exact C]]. destruct (Nat.eqb_spec c d) as [->|]; [|exact A]. apply filter_In. split; [exact A|]. unfold is_native. cbn.
    destruct (existsb (Nat.eqb i) (natives s')) eqn:E; [|reflexivity]. apply existsb_exists in E. destruct E as (j & Hj & E). apply Nat.eqb_eq in E. subst j. contradiction.
Qed.

(** ** C98: members that only one thread adds *)
(** Other threads may make any calls that cannot add this member to the class; in VMs that return null, these include all lookups.  The hook then gave the
    member that the class has, and later lookups of the thread give it too. *)
Lemma call_is2 m c x (k k' : call) : k' = hook_of m c x \/ k' = look_of m c x -> {k = k'} + {k <> k'}.
Proof. intros H. apply (@call_is c x k k'). destruct m, H; auto. Qed.
Theorem C98_alone G height s calls D t y m c x : ranked G height -> only_by G t calls m c x -> keeps_natives calls m c -> reaches G height s calls D -> nth_error (thrs D) t = Some y ->
  (forall r, In (hook_of m c x, r) (t_done y) -> exists i, r = Some i /\ own_member (sh D) m c x = Some i) /\
  (forall l1 r l2 q, t_done y = l1 ++ (hook_of m c x, r) :: l2 -> In (look_of m c x, q) l2 -> q = r).
Proof.
  intros Hr Ho Kn Re Hy.
  assert (forall d z s j, own_member s m c x = Some j -> own_member (add_field d z s) m c x = Some j) as Kf.
  { intros d z s1 j. unfold own_member. destruct m; [auto|]. intros E. rewrite find_fields, E. reflexivity. }
  assert (forall d z s j, own_member s m c x = Some j -> own_member (add_method d z s) m c x = Some j) as Km.
  { intros d z s1 j. unfold own_member. destruct m; [|auto]. intros E. rewrite find_methods, E. reflexivity. }
  destruct (@solo_run G height (fun s => own_member s m c x) (hook_of m c x) (look_of m c x) (fun k => may_add G k m c x) (fun k => m = true -> k <> CUnregisterNatives c)) with (t := t) (s0 := s) (calls := calls) (D := D) (y := y) as (e & So & Hh); auto.
  - intros k Sk Nk. apply disc_call_quiet; try exact Hr; try (intros; intros s'; reflexivity).
    1-3: intros d y0 Ha s'; unfold own_member; destruct m; try reflexivity; rewrite ?find_natives, ?find_methods, ?find_fields;
      (destruct (find_key _ x); [reflexivity|]); (destruct (Nat.eqb_spec c d) as [->|]; [|reflexivity]); (destruct (key_eqb_spec y0 x) as [->|]; [|reflexivity]); exfalso; apply Nk; try exact Ha. 1: right; left; split; [reflexivity|exact Ha].
    intros d -> s'. unfold own_member. destruct m; [|reflexivity]. rewrite drop_other; [reflexivity|]. intros ->. exact (Sk eq_refl eq_refl).
  - intros k Sk. apply disc_call_quiet; try exact Hr; try (unfold keepM; intros; assumption); [intros d z _ s' j Ej; auto|intros d z _ s' j Ej; auto|intros d z _ s' j Ej; exact (Km d z s' j Ej)|].
    intros d -> s' j. unfold own_member. destruct m; [|auto]. rewrite drop_other; [auto|]. intros ->. exact (Sk eq_refl eq_refl).
  - intros o. unfold hook_of. destruct m; cbn [prog_of].
    + unfold HookMethod. constructor. intros s1 E. unfold own_member in E. rewrite E. destruct o as [i|].
      * constructor. split; [auto|]. split; [eauto|discriminate].
      * constructor. intros s2 E2. constructor. unfold own_member in *. rewrite find_methods, E2, Nat.eqb_refl. destruct (key_eqb_spec x x); [|congruence]. cbn. split; [discriminate|]. split; [eauto|discriminate].
    + unfold HookField. constructor. intros s1 E. unfold own_member in E. rewrite E. destruct o as [i|].
      * constructor. split; [auto|]. split; [eauto|discriminate].
      * constructor. intros s2 E2. constructor. unfold own_member in *. rewrite find_fields, E2, Nat.eqb_refl. destruct (key_eqb_spec x x); [|congruence]. cbn. split; [discriminate|]. split; [eauto|discriminate].
  - intros j. unfold look_of. destruct m; cbn [prog_of method_prog field_prog].
    + constructor. constructor. intros s1 E. unfold own_member in E. rewrite E. constructor. constructor. split; [auto|]. split; [discriminate|auto].
    + constructor. constructor. intros s1 E. unfold own_member in E. rewrite E. constructor. constructor. split; [auto|]. split; [discriminate|auto].
  - apply call_is2.
  - destruct m; discriminate.
  - intros l k Hl Hk E. exact (Kn E l k Hl Hk).
  - split; [exact Hh|]. intros l1 r l2 q E Hin. rewrite E in So. eapply solo_look; eauto.
Qed.

(** ** Cases *)
(** Class 1 has base class 0; the VM returns null.  Threads look members up that others hook or register at the same time. *)
Definition G10 : ccfg := mkCcfg false true (fun c => match c with 1 => [0] | _ => [] end).
Definition kJ : key := mkKey false (S_ "n") (S_ "()V").
Definition kF : key := mkKey true (S_ "f") (S_ "I").
Definition calls10 : list (list call) :=
  [[CHookMethod 1 kI; CGetMethodID 1 kI; CHookField 0 kF; CGetFieldID 0 kF]; [CGetMethodID 1 kI; CGetFieldID 1 kF; CRegisterNatives 0 [kI; kJ; kI]; CGetMethodID 1 kI; CGetFieldID 1 kF]; [CGetMethodID 1 kI; CGetMethodID 0 kI]].
Definition s10 : shared := mkShared [] (fun _ => []) (fun c => match c with 2 => [(kI, 50)] | _ => [] end) (fun _ => None) [] (fun _ => None) 100 [].
Definition sched10 : list nat := turns_of G10 (repeat 2 3 ++ repeat 1 12 ++ repeat 0 3 ++ spin 40) (cinit s10 calls10).
Definition D10 : conf := run_of G10 h1 s10 calls10 sched10.
Example C99_case : ranked G10 h1 /\ tidy_ids s10 /\ reaches G10 h1 s10 calls10 D10 /\ finished D10 /\ returned D10 (CGetMethodID 1 kI) None /\ returned D10 (CGetMethodID 1 kI) (Some 100) /\
  returned D10 (CGetFieldID 1 kF) (Some 101) /\ returned D10 (CRegisterNatives 0 [kI; kJ; kI]) None /\ methods (sh D10) 0 = [(kI, 102); (kJ, 103); (kI, 104)] /\ listed (sh D10) false 0 kF 101 /\ in_reach G10 1 0 /\ ~ listed (sh D10) false 1 kF 101.
Proof.
  split; [intros [|[|c]] b Hb; cbn in Hb; try contradiction; destruct Hb as [<-|[]]; repeat constructor|]. split.
  { assert (forall m c x i, listed s10 m c x i -> m = true /\ c = 2 /\ x = kI /\ i = 50) as W.
    { intros [|] c x i; unfold listed; cbn; [|intros []]. destruct c as [|[|[|c]]]; cbn; try (intros [H|[]]; injection H as <- <-; auto); intros []. }
    split; [intros m c x i H; apply W in H; destruct H as (_ & _ & _ & ->); cbn; lia|]. intros m c x n d y i H1 H2. apply W in H1, H2. intuition congruence. }
  split; [ran sched10|]. split; [over|]. split; [got 2|]. split; [got 0|]. split; [got 1|]. split; [got 1|]. split; [vm_compute; reflexivity|]. split; [vm_compute; auto|]. split; [right; apply bo_direct; left; reflexivity|vm_compute; auto].
Qed.
(** Only thread 0 can add the method to class 1: in this VM, lookups add nothing. *)
Example C98_alone_case : no_call calls10 (CUnregisterNatives 1) /\ only_by G10 0 calls10 true 1 kI /\ only_by G10 0 calls10 false 0 kF /\ own_member s10 true 1 kI = None /\
  exists y, nth_error (thrs D10) 0 = Some y /\ In (CHookMethod 1 kI, Some 100) (t_done y) /\ In (CHookField 0 kF, Some 101) (t_done y).
Proof.
  split; [intros l k Hl Hk; cbn in Hl; repeat destruct Hl as [<-|Hl]; try contradiction; cbn in Hk; repeat destruct Hk as [<-|Hk]; try contradiction; discriminate|].
  split; [|split].
  1, 2: intros [|[|[|u]]] l k Hl Hk Ha; [reflexivity|exfalso..]; cbn in Hl; try (destruct u; discriminate Hl); injection Hl as <-; cbn in Hk;
    repeat destruct Hk as [<-|Hk]; try contradiction; destruct Ha as [Ha|[[Hm Ha]|[_ Ha]]]; try discriminate Ha; try discriminate Hm; cbn in Ha; try discriminate Ha; destruct Ha as (? & Ha & _); discriminate Ha.
  split; [reflexivity|]. eexists. split; [vm_compute; reflexivity|]. split; [left; reflexivity|right; right; left; reflexivity].
Qed.
(** Natives of class 0 are unregistered while other threads look methods up, hook some and register natives for class 1; ID 51 is native, 52 is not. *)
Definition calls11 : list (list call) := [[CUnregisterNatives 0]; [CGetMethodID 1 kI; CRegisterNatives 1 [kJ]; CHookMethod 0 kI]; [CGetMethodID 0 kI; CGetMethodID 0 kJ]].
Definition s11 : shared := mkShared [] (fun _ => []) (fun c => match c with 0 => [(kI, 51); (kJ, 52)] | _ => [] end) (fun _ => None) [] (fun _ => None) 100 [51].
Definition sched11 : list nat := turns_of G10 (repeat 2 3 ++ repeat 1 5 ++ spin 40) (cinit s11 calls11).
Definition D11 : conf := run_of G10 h1 s11 calls11 sched11.
Lemma tidy11 : tidy_ids s11 /\ tidy_natives s11.
Proof.
  assert (forall m c x i, listed s11 m c x i -> m = true /\ c = 0 /\ ((x = kI /\ i = 51) \/ (x = kJ /\ i = 52))) as L.
  { intros [|] c x i; unfold listed; cbn; [|intros []]. destruct c as [|c]; cbn; [|intros []]. intros [H|[H|[]]]; injection H as <- <-; auto. }
  split; [split|].
  - intros m c x i H. apply L in H. destruct H as (_ & _ & [[_ ->]|[_ ->]]); cbn; lia.
  - intros m c x n d y i H1 H2. apply L in H1, H2. intuition congruence.
  - intros i [<-|[]]. cbn. lia.
Qed.
Example C106_case : ranked G10 h1 /\ tidy_ids s11 /\ tidy_natives s11 /\ every (fun k => forall x, ~ registers k 0 x) calls11 /\ reaches G10 h1 s11 calls11 D11 /\ finished D11 /\
  returned D11 (CUnregisterNatives 0) None /\ listed s11 true 0 kI 51 /\ native_id s11 51 /\ listed s11 true 0 kJ 52 /\ ~ native_id s11 52 /\ (exists i, methods (sh D11) 0 = [(kJ, 52); (kI, i)]) /\ methods (sh D11) 1 <> [].
Proof.
  split; [intros [|[|c]] b Hb; cbn in Hb; try contradiction; destruct Hb as [<-|[]]; repeat constructor|]. split; [apply tidy11|]. split; [apply tidy11|]. split.
  { intros l k Hl Hk x (q & E & _). cbn in Hl. repeat destruct Hl as [<-|Hl]; try contradiction; cbn in Hk; repeat destruct Hk as [<-|Hk]; try contradiction; discriminate. }
  split; [ran sched11|]. split; [over|]. split; [got 0|]. split; [left; reflexivity|]. split; [left; reflexivity|]. split; [right; left; reflexivity|]. split; [intros [E|[]]; discriminate|].
  split; [eexists; vm_compute; reflexivity|vm_compute; discriminate].
Qed.
(** A lookup may have returned an ID that no class lists any more: the method was destroyed, the ID must not be used. *)
Theorem C106_refuted : exists G height s calls D i, ranked G height /\ tidy_ids s /\ tidy_natives s /\ reaches G height s calls D /\ finished D /\ returned D (CGetMethodID 0 kI) (Some i) /\
  forall m c x, ~ listed (sh D) m c x i.
Proof.
  exists G10, h1, s11, calls11, D11, 51. destruct C106_case as (A & B & C & _ & E & F & _). do 5 (split; [assumption|]). split; [got 2|].
  intros [|] c x H; unfold listed in H; [|vm_compute in H; contradiction]. destruct c as [|[|c]]; vm_compute in H; repeat (destruct H as [H|H]; [discriminate H|]); try contradiction; destruct c; contradiction.
Qed.
Print Assumptions C106.
Print Assumptions C106_others.
Print Assumptions C106_refuted.
Print Assumptions C99.
Print Assumptions C99_registered.
Print Assumptions C99_ids.
Print Assumptions C99_members.
Print Assumptions C98_alone.
