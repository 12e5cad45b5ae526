(** Members returned by concurrent lookups and hooks: proofs. *)
From Coq Require Import Sorted.
From Verif Require Import Base BaseProofs SigModel VmState VmModel ConcModel ConcLogic ConcSpec ConcDisc ConcReg ConcMem ConcThr ConcIdSpec.
Set Implicit Arguments.
Unset Strict Implicit.

Lemma find_in l x i : find_key l x = Some i -> In (x, i) l.
Proof. induction l as [|[y j] l IH]; cbn; [discriminate|]. destruct (key_eqb_spec y x) as [->|]; [intros [= ->]; auto|auto]. Qed.

Lemma all2_impl (A B : Type) (P Q : A -> B -> Prop) l m : (forall a b, P a b -> Q a b) -> Forall2 P l m -> Forall2 Q l m.
Proof. induction 2; constructor; auto. Qed.

Section Ids.
Variable G : ccfg.
Variable height : nat -> nat.
Hypothesis Hr : ranked G height.
Notation prog_of := (prog_of G height).

(** Members are never removed, except natives of the classes in [Un]; IDs are not used again. *)
Variable Un : nat -> Prop.
Definition out (m : bool) (c : nat) : Prop := m = true -> ~ Un c.
Definition grows (H : list lock) (s s' : shared) : Prop := (forall m c x i, out m c -> listed s m c x i -> listed s' m c x i) /\ next s <= next s' /\ incl (natives s) (natives s').
Definition lst (s : shared) (m : bool) (c : nat) (x : key) (i : nat) : Prop := out m c -> listed s m c x i.
Lemma lst_grow s s' m c x i : grows [] s s' -> lst s m c x i -> lst s' m c x i.
Proof. intros [Gs _] L O. apply Gs; [exact O|apply L; exact O]. Qed.
Definition mono (L : shared -> Prop) : Prop := forall s s', L s -> grows [] s s' -> L s'.
Lemma mono_stable H L : mono L -> stable grows H L.
Proof. intros M s s' Ls (K & _ & Gs). eapply M; eauto. Qed.
Lemma grows_same s s' : methods s' = methods s -> fields s' = fields s -> natives s' = natives s -> next s <= next s' -> grows [] s s'.
Proof. intros A B Na N. split; [|split; [exact N|rewrite Na; apply incl_refl]]. intros m c x i _. unfold listed. rewrite A, B. auto. Qed.
Lemma grows_method d y s : grows [] s (add_method d y s) /\ lst (add_method d y s) true d y (next s).
Proof.
  split; [split; [intros [|] c x i _|split; [cbn; lia|apply incl_refl]]|intros _]; unfold listed; cbn; unfold upd; auto; [destruct (Nat.eqb_spec c d) as [->|]; auto; intros H; apply in_or_app; auto|].
  rewrite Nat.eqb_refl. apply in_or_app. right. left. reflexivity.
Qed.
Lemma grows_field d y s : grows [] s (add_field d y s) /\ lst (add_field d y s) false d y (next s).
Proof.
  split; [split; [intros [|] c x i _|split; [cbn; lia|apply incl_refl]]|intros _]; unfold listed; cbn; unfold upd; auto; [destruct (Nat.eqb_spec c d) as [->|]; auto; intros H; apply in_or_app; auto|].
  rewrite Nat.eqb_refl. apply in_or_app. right. left. reflexivity.
Qed.
Lemma grows_native d y s : grows [] s (add_native d y s) /\ lst (add_native d y s) true d y (next s).
Proof. destruct (grows_method d y s) as [[A _] B]. split; [split; [exact A|split; [cbn; lia|intros i Hi; right; exact Hi]]|exact B]. Qed.
Lemma grows_drop d s : Un d -> grows [] s (drop_natives d s).
Proof. intros Wd. split; [|split; [cbn; lia|apply incl_refl]]. intros [|] c x i O; unfold listed; [|auto]. rewrite drop_other; [auto|]. intros ->. exact (O eq_refl Wd). Qed.
Lemma listed_mono m c x i : mono (fun s => lst s m c x i).
Proof. intros s s' H Gs. eapply lst_grow; eauto. Qed.
Lemma and_mono L M : mono L -> mono M -> mono (fun s => L s /\ M s).
Proof. intros A B s s' [H1 H2] Gs. split; [eapply A; eauto|eapply B; eauto]. Qed.

Section Safe.
Variable q : option nat -> shared -> Prop.
Notation sf := (safe grows q).
Lemma sf_walk H L zero k : mono L -> (forall r, sf H L (k r)) -> forall path cur, sf H L (walk zero cur path k).
Proof.
  intros M Hk. induction path as [|[w n] r IH]; intros cur; cbn [walk]; [apply Hk|]. constructor. intros s Ls. exists L. split; [exact Ls|]. split; [apply mono_stable; exact M|].
  destruct (child (reg s) _); [apply IH|]. destruct zero; [apply Hk|]. constructor. intros s' Ls'. assert (grows [] s' (add_node (mkNode cur w n) s')) as Gs by (apply grows_same; [reflexivity..|cbn; lia]).
  split; [exact Gs|]. exists L. split; [eapply M; eauto|]. split; [apply mono_stable; exact M|]. apply IH.
Qed.
Lemma sf_declare H L ty k : mono L -> sf H L k -> sf H L (declare G ty k).
Proof.
  intros M Hk. unfold declare. destruct (c_debug G); [|exact Hk]. destruct (Declare_names ty) as [l| | | |]; try exact Hk. induction l as [|n l IH]; cbn [declare_all]; [exact Hk|].
  unfold InternalFindClass. apply sf_walk; auto.
Qed.
Lemma reach_base c b d : In b (c_bases G c) -> in_reach G b d -> in_reach G c d.
Proof.
  intros Hb [->|Hd]; [right; apply bo_direct; exact Hb|]. right. induction Hd as [e He|e f Hd IH He]; [eapply bo_further; [apply bo_direct; exact Hb|exact He]|eapply bo_further; [exact IH|exact He]].
Qed.
Lemma sf_method x L : mono L -> forall n c rn k, height c < n ->
  (forall i d, in_reach G c d -> sf [] (fun s => L s /\ lst s true d x i) (k (Some i))) -> (rn = true -> sf [] L (k None)) -> sf [] L (method_prog G n c x rn k).
Proof.
  intros Ml. induction n as [|n IH]; intros c rn k Hn Hs Hz; [lia|]. cbn [method_prog]. constructor. constructor. intros s Ls.
  destruct (find_key (methods s c) x) as [i|] eqn:E.
  - exists (fun s => L s /\ lst s true c x i). split; [split; [exact Ls|intros _; apply find_in; exact E]|]. split; [apply mono_stable; apply and_mono; [exact Ml|apply listed_mono]|].
    eapply sf_rel with (M := fun s => L s /\ lst s true c x i); [left; reflexivity|auto|apply mono_stable; apply and_mono; [exact Ml|apply listed_mono]|]. rewrite drop_cons by (intros []). apply Hs. left. reflexivity.
  - exists L. split; [exact Ls|]. split; [apply mono_stable; exact Ml|]. eapply sf_rel with (M := L); [left; reflexivity|auto|apply mono_stable; exact Ml|]. rewrite drop_cons by (intros []).
    constructor. intros s1 Ls1. exists L. split; [exact Ls1|]. split; [apply mono_stable; exact Ml|].
    assert (forall b, In b (c_bases G c) -> In b (c_bases G c)) as Hl by auto. revert Hl. generalize (c_bases G c) at 1 3. induction l as [|b l IHl]; intros Hl.
    + destruct rn; [apply Hz; reflexivity|]. constructor. intros s2 Ls2. destruct (grows_method c x s2) as [Gs Lt]. split; [exact Gs|].
      exists (fun s => L s /\ lst s true c x (next s2)). split; [split; [eapply Ml; eauto|exact Lt]|]. split; [apply mono_stable; apply and_mono; [exact Ml|apply listed_mono]|].
      apply sf_declare; [apply and_mono; [exact Ml|apply listed_mono]|]. apply Hs. left. reflexivity.
    + assert (In b (c_bases G c)) as Hb by (apply Hl; left; reflexivity). apply IH.
      * specialize (Hr Hb). lia.
      * intros i d Hd. apply Hs. eapply reach_base; eauto.
      * intros _. apply IHl. intros z Hz'. apply Hl. right. exact Hz'.
Qed.
Lemma sf_field x L : mono L -> forall n c rn H k, height c < n -> (forall d, In (LCls d) H -> height c < height d) ->
  (forall i d, in_reach G c d -> sf H (fun s => L s /\ lst s false d x i) (k (Some i))) -> (rn = true -> sf H L (k None)) -> sf H L (field_prog G n c x rn k).
Proof.
  intros Ml. induction n as [|n IH]; intros c rn H k Hn Ho Hs Hz; [lia|]. cbn [field_prog]. assert (~ In (LCls c) H) as Nc by (intros Q; apply Ho in Q; lia).
  constructor. constructor. intros s Ls.
  assert (forall i d, in_reach G c d -> sf (LCls c :: H) (fun s => L s /\ lst s false d x i) (Rel (LCls c) (k (Some i)))) as Hrel.
  { intros i d Hd. eapply sf_rel with (M := fun s => L s /\ lst s false d x i); [left; reflexivity|auto|apply mono_stable; apply and_mono; [exact Ml|apply listed_mono]|]. rewrite drop_cons by exact Nc. apply Hs. exact Hd. }
  destruct (find_key (fields s c) x) as [i|] eqn:E.
  - exists (fun s => L s /\ lst s false c x i). split; [split; [exact Ls|intros _; apply find_in; exact E]|]. split; [apply mono_stable; apply and_mono; [exact Ml|apply listed_mono]|]. apply Hrel. left. reflexivity.
  - exists L. split; [exact Ls|]. split; [apply mono_stable; exact Ml|]. constructor. intros s1 Ls1. exists L. split; [exact Ls1|]. split; [apply mono_stable; exact Ml|].
    assert (forall b, In b (c_bases G c) -> In b (c_bases G c)) as Hl by auto. revert Hl. generalize (c_bases G c) at 1 3. induction l as [|b l IHl]; intros Hl.
    + destruct rn.
      * eapply sf_rel with (M := L); [left; reflexivity|auto|apply mono_stable; exact Ml|]. rewrite drop_cons by exact Nc. apply Hz. reflexivity.
      * constructor. intros s2 Ls2. destruct (grows_field c x s2) as [Gs Lt]. split; [exact Gs|].
        exists (fun s => L s /\ lst s false c x (next s2)). split; [split; [eapply Ml; eauto|exact Lt]|]. split; [apply mono_stable; apply and_mono; [exact Ml|apply listed_mono]|].
        apply sf_declare; [apply and_mono; [exact Ml|apply listed_mono]|]. apply Hrel. left. reflexivity.
    + assert (In b (c_bases G c)) as Hb by (apply Hl; left; reflexivity). pose proof (Hr Hb) as Hbc. apply IH.
      * lia.
      * intros d [Q|Q]; [injection Q as <-; exact Hbc|apply Ho in Q; lia].
      * intros i d Hd. apply Hrel. eapply reach_base; eauto.
      * intros _. apply IHl. intros z Hz'. apply Hl. right. exact Hz'.
Qed.
End Safe.

(** Calls that unregister natives do so for classes in [Un] *)
Definition okc (k : call) : Prop := forall d, k = CUnregisterNatives d -> Un d.
(** Addresses below [base] were there before. *)
Section Base.
Variable base : nat.
Definition sound (k : call) (r : option nat) (s : shared) : Prop := forall m c x,
  (looks_up k m c x -> match r with Some i => exists d, in_reach G c d /\ lst s m d x i | None => c_retnull G = true end) /\
  (installs k m c x -> exists i, r = Some i /\ lst s m c x i) /\
  (forall l, k = CRegisterNatives c l -> r = None /\ exists ids, Forall2 (lst s true c) l ids /\ StronglySorted lt ids /\ Forall (le base) ids /\ incl ids (natives s)).
Lemma sound_mono k r : mono (sound k r).
Proof.
  intros s s' H Gs m c x. destruct (H m c x) as (A & B & C). split; [|split]; [intros Hk..|intros l Hk].
  - specialize (A Hk). destruct r as [i|]; [|exact A]. destruct A as (d & Hd & L). exists d. split; [exact Hd|eapply lst_grow; [exact Gs|exact L]].
  - destruct (B Hk) as (i & E & L). exists i. split; [exact E|eapply lst_grow; [exact Gs|exact L]].
  - destruct (C l Hk) as (E & ids & F & O & B' & Na). split; [exact E|]. exists ids. split; [|split; [exact O|split; [exact B'|eapply incl_tran; [exact Na|apply Gs]]]]. eapply all2_impl; [|exact F]. intros y i L. eapply lst_grow; [exact Gs|exact L].
Qed.
Definition TT (s : shared) : Prop := base <= next s.
Lemma TT_mono : mono TT.
Proof. intros s s' L (_ & N & _). unfold TT in *. lia. Qed.
Lemma plain k : okc k -> (forall m c x, ~ looks_up k m c x /\ ~ installs k m c x) -> (forall c l, k <> CRegisterNatives c l) -> safe_call G height grows sound TT k.
Proof.
  intros Oc N Nr. unfold safe_call. eapply disc_safe with (A := in_order (rank height)); [apply mono_stable; apply TT_mono|intros r s _ m c x; destruct (N m c x); split; [tauto|split; [tauto|]]; intros l Hl; destruct (Nr _ _ Hl)|intros K s s' Ls Gs; eapply TT_mono; [exact Ls|exact Gs]|].
  apply disc_call; try exact Hr; cbn [permitted]; intros; try exact I; try (apply grows_same; [reflexivity..|cbn; lia]); try (apply grows_drop; auto; fail); exfalso.
  - destruct (N false d y) as [A _]. apply A. subst. reflexivity.
  - destruct (N false d y) as [_ B]. apply B. subst. reflexivity.
  - destruct (N true d y) as [A B]. destruct H as [->|[-> _]]; [apply B; reflexivity|apply A; reflexivity].
  - destruct H as (l & -> & _). eapply Nr; reflexivity.
Qed.
Lemma sf_weak q H L p : safe grows q H L p -> forall L' : shared -> Prop, (forall s, L' s -> L s) -> safe grows q H L' p.
Proof.
  induction 1 as [L r Hq|H L m p Hp IH|H L M m p Hin Hm St Hp IH|H L x f Hf|H L x u f Hf]; intros L' Hl.
  - constructor. auto.
  - constructor. apply IH. exact Hl.
  - eapply sf_rel with (M := M); auto.
  - constructor. intros s Ls. apply Hf. auto.
  - constructor. intros s Ls. apply Hf. auto.
Qed.
(** What the loop has added so far *)
Definition loop_inv (c : nat) (l : list key) (ids : list nat) (s : shared) : Prop := Forall2 (lst s true c) l ids /\ StronglySorted lt ids /\ Forall (fun i => base <= i < next s) ids /\ incl ids (natives s) /\ base <= next s.
Lemma loop_mono c l ids : mono (loop_inv c l ids).
Proof.
  intros s s' (F & O & B & In0 & Lb) Gs. destruct (proj2 Gs) as [N Na]. split; [eapply all2_impl; [|exact F]; intros y i L; eapply lst_grow; [exact Gs|exact L]|]. split; [exact O|]. split; [eapply Forall_impl; [|exact B]; intros i Hi; cbn in *; lia|split; [eapply incl_tran; eauto|lia]].
Qed.
Lemma loop_add c l ids y s : loop_inv c l ids s -> loop_inv c (l ++ [y]) (ids ++ [next s]) (add_native c y s).
Proof.
  intros (F & O & B & In0 & Lb). destruct (grows_native c y s) as [Gs Lt]. split; [|split; [|split; [|split]]].
  - apply Forall2_app; [eapply all2_impl; [|exact F]; intros z i L; eapply lst_grow; [exact Gs|exact L]|]. constructor; [exact Lt|constructor].
  - clear F In0. induction ids as [|i ids IH]; [repeat constructor|]. inversion_clear O as [|? ? O' A]. inversion_clear B as [|? ? Bi B']. cbn. constructor; [apply IH; assumption|]. apply Forall_app. split; [exact A|]. constructor; [lia|constructor].
  - apply Forall_app. split; [eapply Forall_impl; [|exact B]; intros i Hi; cbn in *; lia|]. constructor; [cbn; lia|constructor].
  - apply incl_app; [intros i Hi; right; apply In0; exact Hi|intros i [<-|[]]; left; reflexivity].
  - cbn. lia.
Qed.
Lemma sf_register c l : forall pre ids, safe grows (sound (CRegisterNatives c (pre ++ l))) [LCls c] (loop_inv c pre ids) (register_loop c l).
Proof.
  induction l as [|y l IH]; intros pre ids; cbn [register_loop].
  - eapply sf_rel with (M := loop_inv c pre ids); [left; reflexivity|auto|apply mono_stable; apply loop_mono|]. rewrite drop_cons by (intros []). constructor. rewrite app_nil_r.
    intros s (F & O & B & In0 & _) m d x. split; [destruct m; discriminate|]. split; [destruct m; discriminate|]. intros l [= <- <-]. split; [reflexivity|]. exists ids. split; [exact F|]. split; [exact O|]. split; [|exact In0]. eapply Forall_impl; [|exact B]. intros i Hi. apply Hi.
  - constructor. intros s Ls. split; [apply grows_native|]. exists (loop_inv c (pre ++ [y]) (ids ++ [next s])). split; [apply loop_add; exact Ls|]. split; [apply mono_stable; apply loop_mono|].
    replace (pre ++ y :: l) with ((pre ++ [y]) ++ l) by (rewrite <- app_assoc; reflexivity). apply IH.
Qed.
Lemma sound_call k : okc k -> safe_call G height grows sound TT k.
Proof.
  intros Oc. destruct k as [n|d y|d y| | |T n|T|T|d y|g|d y|d y|t|t|t|cu]; try (apply plain; [exact Oc|intros [|] c x; split; discriminate|discriminate]); unfold safe_call; cbn [ConcModel.prog_of].
  - apply sf_field; [apply TT_mono|lia|intros ? []| |].
    + intros i e He. constructor. intros s [_ Ls] [|] c x; (split; [intros Q|split; intros ? Q || intros Q]); try discriminate Q. injection Q as -> ->. eauto.
    + intros Rn. constructor. intros s _ [|] c x; (split; [intros Q; try exact Rn|split; intros ? Q || intros Q]); try discriminate Q.
  - apply sf_method; [apply TT_mono|lia| |].
    + intros i e He. constructor. intros s [_ Ls] [|] c x; (split; [intros Q|split; intros ? Q || intros Q]); try discriminate Q. injection Q as -> ->. eauto.
    + intros Rn. constructor. intros s _ [|] c x; (split; [intros Q; try exact Rn|split; intros ? Q || intros Q]); try discriminate Q.
  - unfold RegisterNatives. constructor. eapply sf_weak; [apply (@sf_register d y [] [])|]. intros s Ls. split; [constructor|]. split; [constructor|]. split; [constructor|]. split; [intros i []|exact Ls].
  - unfold HookMethod. constructor. intros s Ls0. destruct (find_key (methods s d) y) as [i|] eqn:E.
    + exists (fun s' => lst s' true d y i). split; [intros _; apply find_in; exact E|]. split; [apply mono_stable; apply listed_mono|]. constructor.
      intros s' Ls [|] c x; (split; [intros Q|split; intros ? Q || intros Q]); try discriminate Q. injection Q as <- <-. eauto.
    + exists TT. split; [exact Ls0|]. split; [apply mono_stable; apply TT_mono|]. constructor. intros s1 _. destruct (grows_method d y s1) as [Gs Lt]. split; [exact Gs|]. exists (fun s' => lst s' true d y (next s1)).
      split; [exact Lt|]. split; [apply mono_stable; apply listed_mono|]. constructor. intros s' Ls [|] c x; (split; [intros Q|split; intros ? Q || intros Q]); try discriminate Q. injection Q as <- <-. eauto.
  - unfold HookField. constructor. intros s Ls0. destruct (find_key (fields s d) y) as [i|] eqn:E.
    + exists (fun s' => lst s' false d y i). split; [intros _; apply find_in; exact E|]. split; [apply mono_stable; apply listed_mono|]. constructor.
      intros s' Ls [|] c x; (split; [intros Q|split; intros ? Q || intros Q]); try discriminate Q. injection Q as <- <-. eauto.
    + exists TT. split; [exact Ls0|]. split; [apply mono_stable; apply TT_mono|]. constructor. intros s1 _. destruct (grows_field d y s1) as [Gs Lt]. split; [exact Gs|]. exists (fun s' => lst s' false d y (next s1)).
      split; [exact Lt|]. split; [apply mono_stable; apply listed_mono|]. constructor. intros s' Ls [|] c x; (split; [intros Q|split; intros ? Q || intros Q]); try discriminate Q. injection Q as <- <-. eauto.
Qed.
End Base.
Theorem sound_results s calls D k r : every okc calls -> reaches G height s calls D -> returned D k r -> sound (next s) k r (sh D).
Proof.
  intros Ho (l & E) (t & z & Hz & Hin). assert (all_safe grows (sound (next s)) (TT (next s)) (cinit s calls)) as A0 by (apply safe_init; apply le_n).
  eapply safe_run with (Q := sound (next s)) in E; [|intros k' r'; apply mono_stable; apply sound_mono|apply mono_stable; apply TT_mono|intros K s1 s2 Ls Gs; eapply TT_mono; [exact Ls|exact Gs]|exact A0|].
  - destruct E as [_ Sa]. destruct (Sa t z Hz) as [Fd _]. eapply Forall_forall in Fd; [|exact Hin]. exact Fd.
  - intros t' x' H. unfold cinit in H. cbn in H. rewrite nth_error_map in H. destruct (nth_error calls t') as [lc|] eqn:Ec; [|discriminate]. injection H as <-. cbn.
    apply Forall_forall. intros c' Hc. apply sound_call. eapply Ho; [eapply nth_error_In; exact Ec|exact Hc].
Qed.

(** *** What calls may change *)
Lemma disc_call_quiet (P : (shared -> shared) -> Prop) k :
  (forall z, P (add_node z)) -> (forall T i, P (set_type T i)) -> P new_global -> (forall g, P (del_global g)) -> (forall t, P (add_env t)) -> (forall t e, P (set_env t e)) ->
  (forall d y, may_add G k false d y -> P (add_field d y)) -> (forall d y, may_add G k true d y -> P (add_method d y)) ->
  (forall d y, registers k d y -> P (add_native d y)) -> (forall d, k = CUnregisterNatives d -> P (drop_natives d)) -> quiet P (prog_of k).
Proof.
  intros P1 P2 P3 P4 P5 P6 P7 P8 P9 P10. eapply disc_quiet with (A := in_order (rank height)) (H := []). apply disc_call; try exact Hr; cbn [writes]; intros; auto.
  - apply P7. right. right. split; [exact H|assumption].
  - apply P7. left. exact H.
  - apply P8. destruct H as [H|[H E]]; [left; exact H|right; right; split; assumption].
Qed.
(** *** One ID per member *)
Lemma tidy_new s s' m0 c0 x0 : tidy_ids s -> next s' = S (next s) -> (forall m c x i, listed s' m c x i <-> listed s m c x i \/ (m = m0 /\ c = c0 /\ x = x0 /\ i = next s)) -> tidy_ids s'.
Proof.
  intros [A B] En El. split.
  - intros m c x i H. rewrite En. apply El in H. destruct H as [H|(_ & _ & _ & ->)]; [apply A in H|]; lia.
  - intros m c x n d y i H1 H2. apply El in H1. apply El in H2. destruct H1 as [H1|(-> & -> & -> & E1)], H2 as [H2|(-> & -> & -> & E2)]; auto.
    + eapply B; eauto.
    + apply A in H1. lia.
    + apply A in H2. lia.
Qed.
Lemma tidy_all s calls D : tidy_ids s -> reaches G height s calls D -> tidy_ids (sh D).
Proof.
  intros Ht Re. eapply state_inv; [|exact Ht|exact Re]. clear s D Ht Re calls.
  assert (forall s s', methods s' = methods s -> fields s' = fields s -> next s <= next s' -> tidy_ids s -> tidy_ids s') as K.
  { intros s s' E1 E2 L [A B]. assert (forall m c x i, listed s' m c x i -> listed s m c x i) as W by (intros m c x i; unfold listed; rewrite E1, E2; auto).
    split; [intros m c x i H; apply W in H; apply A in H; lia|]. intros m c x n d y i H1 H2. eapply B; apply W; eauto. }
  intros k. apply quiet_call; try exact Hr; try (intros; eapply K; [| | |eassumption]; [reflexivity|reflexivity|cbn; lia]).
  - intros d y s Hs. eapply (@tidy_new s _ false d y); [exact Hs|reflexivity|]. intros m c x i. unfold listed. destruct m; cbn; [intuition discriminate|]. unfold upd. destruct (Nat.eqb_spec c d) as [->|].
    + rewrite in_app_iff. cbn. intuition congruence.
    + intuition congruence.
  - intros d y s Hs. eapply (@tidy_new s _ true d y); [exact Hs|reflexivity|]. intros m c x i. unfold listed. destruct m; cbn; [|intuition discriminate]. unfold upd. destruct (Nat.eqb_spec c d) as [->|].
    + rewrite in_app_iff. cbn. intuition congruence.
    + intuition congruence.
  - intros d y s Hs. eapply (@tidy_new s _ true d y); [exact Hs|reflexivity|]. intros m c x i. unfold listed. destruct m; cbn; [|intuition discriminate]. unfold upd. destruct (Nat.eqb_spec c d) as [->|].
    + rewrite in_app_iff. cbn. intuition congruence.
    + intuition congruence.
  - intros d _ s [A B]. assert (forall m c x i, listed (drop_natives d s) m c x i -> listed s m c x i) as L.
    { intros [|] c x i; unfold listed; [|auto]. cbn. unfold upd. destruct (Nat.eqb_spec c d) as [->|]; [|auto]. intros Q. apply filter_In in Q. apply Q. }
    split; [intros m c x i Q; apply L in Q; cbn; eauto|]. intros m c x n e y i Q1 Q2. apply L in Q1, Q2. eapply B; eauto.
Qed.
End Ids.

(** *** Hooks of one thread *)
Section Solo.
Variable G : ccfg.
Variable height : nat -> nat.
Hypothesis Hr : ranked G height.
Notation prog_of := (prog_of G height).
Variable M : shared -> option nat.
Variables hk lk : call.
Inductive okm (R : option nat -> option nat -> Prop) : prog -> option nat -> Prop :=
| om_done r e : R r e -> okm R (Done r) e
| om_acq m k e : okm R k e -> okm R (Acq m k) e
| om_rel m k e : okm R k e -> okm R (Rel m k) e
| om_rd x f e : (forall s, M s = e -> okm R (f s) e) -> okm R (Rd x f) e
| om_wr x u f e : (forall s, M s = e -> okm R (f s) (M (u s))) -> okm R (Wr x u f) e.
Definition keepM (u : shared -> shared) : Prop := forall s j, M s = Some j -> M (u s) = Some j.
Definition sameM (u : shared -> shared) : Prop := forall s, M (u s) = M s.
Definition step_of (k : call) (e r e' : option nat) : Prop :=
  (forall j, e = Some j -> e' = Some j) /\ (k = hk -> exists i, r = Some i /\ e' = Some i) /\ (k = lk -> forall j, e = Some j -> r = Some j).
Lemma okm_keep (R : option nat -> option nat -> Prop) e p : quiet keepM p -> (forall r m, (forall j, e = Some j -> m = Some j) -> R r m) -> forall m, (forall j, e = Some j -> m = Some j) -> okm R p m.
Proof.
  intros Q HR. induction Q as [r|l k Q IH|l k Q IH|x f Q IH|x u f Hu Q IH]; intros m Hm; constructor; auto. intros s E. apply IH. intros j Ej. apply Hu. rewrite E. auto.
Qed.
Inductive solo (o : option nat) : list (call * option nat) -> option nat -> Prop :=
| so_nil : solo o [] o
| so_call l e k r e' : solo o l e -> step_of k e r e' -> solo o (l ++ [(k, r)]) e'.
Lemma solo_hook o l e r : solo o l e -> In (hk, r) l -> exists i, r = Some i /\ e = Some i.
Proof.
  intros S. induction S as [|l e k q e' S IH (A & B & _)]; intros H; [destruct H|]. apply in_app_or in H. destruct H as [H|[H|[]]].
  - destruct (IH H) as (i & -> & ->). exists i. auto.
  - injection H as -> ->. apply B. reflexivity.
Qed.
Lemma solo_keep o l1 l2 e : solo o (l1 ++ l2) e -> exists e1, solo o l1 e1 /\ (forall j, e1 = Some j -> e = Some j) /\ (forall j q, e1 = Some j -> In (lk, q) l2 -> q = Some j).
Proof.
  revert e. induction l2 as [|[k r] l2 IH] using rev_ind; intros e S.
  - rewrite app_nil_r in S. exists e. split; [exact S|]. split; [auto|]. intros j q _ [].
  - rewrite app_assoc in S. inversion S as [Q|l e0 k' r' e' S0 (A & B & C) Q]; [destruct (l1 ++ l2); discriminate|]. apply app_inj_tail in Q. destruct Q as [-> Q]. injection Q as -> ->.
    subst e'. destruct (IH e0 S0) as (e1 & S1 & K1 & L1). exists e1. split; [exact S1|]. split; [auto|]. intros j q E Hin. apply in_app_or in Hin. destruct Hin as [Hin|[Hin|[]]]; [eauto|].
    injection Hin as -> ->. apply C; auto.
Qed.
Lemma solo_look o l1 r l2 e q : solo o (l1 ++ (hk, r) :: l2) e -> In (lk, q) l2 -> q = r.
Proof.
  intros S H. change ((hk, r) :: l2) with ([(hk, r)] ++ l2) in S. rewrite app_assoc in S. apply solo_keep in S. destruct S as (e1 & S1 & _ & L1).
  destruct (solo_hook (r := r) S1) as (i & -> & ->); [apply in_or_app; right; left; reflexivity|]. eapply L1; eauto.
Qed.
Variable adds : call -> Prop.
Variable stay : call -> Prop.
Hypothesis Hsame : forall k, stay k -> ~ adds k -> quiet sameM (prog_of k).
Hypothesis Hkeep : forall k, stay k -> quiet keepM (prog_of k).
Hypothesis Hhook : forall e, okm (step_of hk e) (prog_of hk) e.
Hypothesis Hlook : forall j, okm (step_of lk (Some j)) (prog_of lk) (Some j).
Hypothesis call_dec : forall k k' : call, k' = hk \/ k' = lk -> {k = k'} + {k <> k'}.
Hypothesis Hneq : hk <> lk.
Lemma okm_call k e : stay k -> okm (step_of k e) (prog_of k) e.
Proof.
  intros Sk. destruct (@call_dec k hk) as [->|N1]; [auto|apply Hhook|]. destruct (@call_dec k lk) as [->|N2]; [auto| |].
  - destruct e as [j|]; [apply Hlook|]. eapply okm_keep with (e := None); [apply Hkeep; exact Sk| |discriminate]. intros r m Hm. split; [exact Hm|]. split; [congruence|]. intros _ j Q. discriminate.
  - eapply okm_keep with (e := e); [apply Hkeep; exact Sk| |auto]. intros r m Hm. split; [exact Hm|]. split; congruence.
Qed.
Variable t : nat.
Variable s0 : shared.
Definition apart (u : nat) (z : thread) (s : shared) : Prop := (forall k, In k (t_todo z) -> stay k) /\
  (u <> t -> (forall k, In k (t_todo z) -> ~ adds k) /\ match t_cur z with Some (_, p) => quiet sameM p | None => True end) /\
  (u = t -> exists e, solo (M s0) (t_done z) e /\ match t_cur z with None => M s = e | Some (k, p) => okm (step_of k e) p (M s) /\ quiet keepM p /\ (forall j, e = Some j -> M s = Some j) end).
Lemma apart_step u z s y s' : apart u z s -> tstep G height z s y s' -> apart u y s' /\ (u <> t -> M s' = M s).
Proof.
  intros (St & A & B) Ts. split; [split; [|split; intros Hu]|intros Hu].
  - destruct Ts; cbn [t_todo] in *; intros; apply St; simpl; auto.
  - specialize (A Hu). clear B. destruct A as [At Ac]. destruct Ts; cbn [t_todo t_cur] in *; (split; [intros; apply At; simpl; auto|]); try exact I; try (inversion Ac; subst; auto; fail).
    apply Hsame; [apply St; left; reflexivity|]. apply At. left. reflexivity.
  - specialize (B Hu). clear A. destruct B as (e & So & Hc). destruct Ts; cbn [t_todo t_cur t_done] in *.
    + exists e. split; [exact So|]. rewrite Hc. assert (stay c) as Sc by (apply St; left; reflexivity). split; [apply okm_call; exact Sc|]. split; [apply Hkeep; exact Sc|auto].
    + destruct Hc as (Hc & _ & _). inversion Hc; subst. exists (M s). split; [econstructor; eauto|reflexivity].
    + destruct Hc as (Hc & Hq & Hm). inversion Hc; inversion Hq; subst. eauto 6.
    + destruct Hc as (Hc & Hq & Hm). inversion Hc; inversion Hq; subst. eauto 6.
    + destruct Hc as (Hc & Hq & Hm). inversion Hc; inversion Hq; subst. exists e. split; [exact So|]. split; [auto|]. split; [auto|exact Hm].
    + destruct Hc as (Hc & Hq & Hm). inversion Hc as [| | | |? ? ? ? Hw]; inversion Hq; subst. exists e. split; [exact So|]. split; [apply Hw; reflexivity|]. split; [auto|]. intros j Ej. auto.
  - destruct (A Hu) as [_ Ac]. destruct Ts; cbn [t_cur] in *; try reflexivity. inversion Ac; subst. auto.
Qed.
Lemma solo_run calls D : every stay calls -> (forall u l k, nth_error calls u = Some l -> In k l -> adds k -> u = t) -> reaches G height s0 calls D ->
  forall y, nth_error (thrs D) t = Some y -> exists e, solo (M s0) (t_done y) e /\ (forall r, In (hk, r) (t_done y) -> exists i, r = Some i /\ M (sh D) = Some i).
Proof.
  intros Hst Ho (l & E) y Hy.
  destruct (run_inv (G := G) (height := height) (T := fun u z s => apart u z s) (J := fun _ => True)) with (l := l) (C := cinit s0 calls) (D := D) as [_ Q]; auto.
  - intros u x s z s' H Ts. apply (apart_step H Ts).
  - intros u v x z s y0 s' Hx Hz Ne Ts. destruct (apart_step Hx Ts) as [_ Hm]. destruct Hz as (St & A & B). split; [exact St|]. split; [exact A|]. intros ->. destruct (B eq_refl) as (e & So & Hc). exists e. split; [exact So|].
    rewrite (Hm Ne). exact Hc.
  - intros u x Hx. cbn in Hx. rewrite nth_error_map in Hx. destruct (nth_error calls u) as [lc|] eqn:Eu; [|discriminate]. injection Hx as <-. split; [intros k Hk; eapply Hst; [eapply nth_error_In; exact Eu|exact Hk]|]. split; [intros Nu|intros ->]; cbn.
    + split; [|exact I]. intros k Hk Ha. apply Nu. eapply Ho; eauto.
    + exists (M s0). split; [constructor|reflexivity].
  - destruct (Q t y Hy) as (_ & _ & B). destruct (B eq_refl) as (e & So & Hc). exists e. split; [exact So|]. intros r Hin. destruct (solo_hook So Hin) as (i & -> & ->). exists i. split; [reflexivity|].
    destruct (t_cur y) as [[k p]|]; [|exact Hc]. destruct Hc as (_ & _ & Hm). auto.
Qed.
End Solo.

(** *** Natives of one class that are unregistered *)
Section Unreg.
Variable G : ccfg.
Variable height : nat -> nat.
Hypothesis Hr : ranked G height.
Variable c : nat.
Definition numbered (s : shared) : Prop := (forall i, In i (natives s) -> i < next s) /\ (forall x i, In (x, i) (methods s c) -> i < next s).
Definition without_natives (s : shared) : Prop := forall x i, In (x, i) (methods s c) -> ~ In i (natives s).
Definition GUn (H : list lock) (s s' : shared) : Prop := numbered s -> numbered s' /\ (without_natives s -> without_natives s').
Definition unreg_done (s : shared) : Prop := numbered s /\ without_natives s.
Lemma numbered_stable H : stable GUn H numbered.
Proof. intros s s' O (K & _ & Gs). apply Gs. exact O. Qed.
Lemma done_stable H : stable GUn H unreg_done.
Proof. intros s s' [O N] (K & _ & Gs). destruct (Gs O) as [A B]. split; auto. Qed.
Lemma numbered_keep H s s' : numbered s -> GUn H s s' -> numbered s'.
Proof. intros O Gs. apply Gs. exact O. Qed.
Lemma un_same s s' H : methods s' c = methods s c -> natives s' = natives s -> next s <= next s' -> GUn H s s'.
Proof.
  intros A B L [N1 N2]. unfold numbered, without_natives. rewrite A, B. split; [|auto]. split; [intros i Hi; apply N1 in Hi; lia|intros x i Hi; apply N2 in Hi; lia].
Qed.
Lemma un_method d y s H : GUn H s (add_method d y s).
Proof.
  destruct (Nat.eq_dec d c) as [->|Ne].
  - intros [N1 N2]. unfold numbered, without_natives. cbn. unfold upd. rewrite Nat.eqb_refl. split; [split; [intros i Hi; apply N1 in Hi; lia|]|].
    + intros x i Q. apply in_app_or in Q. destruct Q as [Q|[Q|[]]]; [apply N2 in Q; lia|injection Q as _ <-; lia].
    + intros O x i Q. apply in_app_or in Q. destruct Q as [Q|[Q|[]]]; [eapply O; eauto|]. injection Q as _ <-. intros Q. apply N1 in Q. lia.
  - apply un_same; [cbn; unfold upd; destruct (Nat.eqb_spec c d); [congruence|reflexivity]|reflexivity|cbn; lia].
Qed.
Lemma un_native d y s H : d <> c -> GUn H s (add_native d y s).
Proof.
  intros Ne [N1 N2]. unfold numbered, without_natives. cbn. unfold upd. destruct (Nat.eqb_spec c d); [congruence|]. split; [split|].
  - intros i [<-|Q]; [lia|apply N1 in Q; lia].
  - intros x i Q. apply N2 in Q. lia.
  - intros O x i Q [E|Q']; [apply N2 in Q; lia|eapply O; eauto].
Qed.
Lemma not_native s p : negb (is_native s p) = true -> ~ In (snd p) (natives s).
Proof. unfold is_native. intros E Q. destruct (existsb _ _) eqn:X; [discriminate|]. assert (existsb (Nat.eqb (snd p)) (natives s) = true); [|congruence]. apply existsb_exists. exists (snd p). split; [exact Q|apply Nat.eqb_refl]. Qed.
Lemma dropped s : without_natives (drop_natives c s).
Proof. intros x i Q. cbn in Q. unfold upd in Q. rewrite Nat.eqb_refl in Q. apply filter_In in Q. destruct Q as [_ Q]. apply not_native in Q. exact Q. Qed.
Lemma un_drop d s H : GUn H s (drop_natives d s).
Proof.
  destruct (Nat.eq_dec d c) as [->|Ne].
  - intros [N1 N2]. split; [split; [exact N1|]|intros _; apply dropped]. intros x i Q. cbn in Q. unfold upd in Q. rewrite Nat.eqb_refl in Q. apply filter_In in Q. apply N2 with x. apply Q.
  - apply un_same; [apply drop_other; congruence|reflexivity|cbn; lia].
Qed.
Definition QUn (k : call) (r : option nat) (s : shared) : Prop := numbered s /\ (k = CUnregisterNatives c -> r = None /\ without_natives s).
Lemma unreg_safe k : (forall x, ~ registers k c x) -> safe_call G height GUn QUn numbered k.
Proof.
  intros Nr. assert ({k = CUnregisterNatives c} + {k <> CUnregisterNatives c}) as [->|N].
  { destruct k as [n|d y|d y| | |T n|T|T|d y|g|d y|d y|t|t|t|cu]; try (right; discriminate). destruct (Nat.eq_dec cu c) as [->|]; [left; reflexivity|right; congruence]. }
  - unfold safe_call. cbn [prog_of]. unfold UnregisterNatives. constructor. constructor. intros s O. split; [apply un_drop|]. exists unreg_done. split; [|split; [apply done_stable|]].
    + split; [apply (@un_drop c s []); exact O|apply dropped].
    + eapply sf_rel with (M := unreg_done); [left; reflexivity|auto|apply done_stable|]. rewrite drop_cons by (intros []). constructor. intros s' [O' N']. split; auto.
  - unfold safe_call. eapply disc_safe with (A := in_order (rank height)); [apply numbered_stable|intros r s O; split; [exact O|intros E; congruence]|apply numbered_keep|].
    apply disc_call; try exact Hr; cbn [permitted]; auto using un_method, un_drop; try (intros; apply un_same; reflexivity || (cbn; lia)).
    intros d y Hd H s _. apply un_native. intros ->. exact (Nr y Hd).
Qed.
Lemma unregistered s calls D r : numbered s -> every (fun k => forall x, ~ registers k c x) calls -> reaches G height s calls D -> returned D (CUnregisterNatives c) r -> r = None /\ without_natives (sh D).
Proof.
  intros O Ho (l & E) (t & z & Hz & Hin). assert (all_safe GUn QUn numbered (cinit s calls)) as A0 by (apply safe_init; exact O).
  eapply safe_run with (Q := QUn) (Gt := GUn) (I := numbered) in E; [|intros k' r' s1 s2 [H1 H2] (K & _ & H3); destruct (H3 H1) as [B1 B2]; split; [exact B1|intros E'; destruct (H2 E'); auto]|apply numbered_stable|apply numbered_keep|exact A0|].
  - destruct E as [_ Sa]. destruct (Sa t z Hz) as [Fd _]. eapply Forall_forall in Fd; [|exact Hin]. apply Fd. reflexivity.
  - intros t' x' H. unfold cinit in H. cbn in H. rewrite nth_error_map in H. destruct (nth_error calls t') as [lc|] eqn:Ec; [|discriminate]. injection H as <-. cbn.
    apply Forall_forall. intros c' Hc. apply unreg_safe. eapply Ho; [eapply nth_error_In; exact Ec|exact Hc].
Qed.
End Unreg.
