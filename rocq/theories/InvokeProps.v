(** C67, C68, C69: calls from C++ code. *)
From Verif Require Import RefProps VmFine Base BaseProofs VmState VmModel VmStep VmSpec RefSpec CallSpec MemSpec ArrSpec HookSpec VmBase VmFrame VmWf VmPrim VmInv VmExact VmQuiet VmClass VmObj VmRef VmRef2 VmArr VmArr2 VmHook VmCall VmCall2 VmField VmHier VmMember VmThread MemberProps CallProps
  WrapModel CastModel CastSpec VmDemo ArrProps CastProps InvokeModel InvokeSpec.
Set Implicit Arguments.
Unset Strict Implicit.
Local Open Scope char_scope.

Lemma attached_after G t o s v s' : good G s -> attached s t -> o <> Detach_ -> step G t o s = Some (v, s') -> attached s' t.
Proof. intros Gs (e & Ge) No E. destruct (@envid_step G t t o s v s' e (good_wf Gs) Ge (or_introl No) E) as (e' & Ge' & _). exists e'. auto. Qed.

(** ** Signatures *)
Lemma find_last_none c l : ~ In c l -> find_last c l = None.
Proof.
  induction l as [|x l IH]; intros H; simpl; auto. rewrite IH by (intros K; apply H; right; exact K).
  destruct (Ascii.eqb_spec x c); auto. destruct H. left. auto.
Qed.
Lemma find_last_app c a b : ~ In c b -> find_last c (a ++ c :: b) = Some (length a).
Proof.
  intros H. induction a as [|x a IH]; simpl.
  - rewrite find_last_none by auto. rewrite Ascii.eqb_refl. reflexivity.
  - rewrite IH. reflexivity.
Qed.
Lemma result_letter_behind sig rest : behind_params sig rest -> result_letter sig = nth 0 rest "000".
Proof.
  intros (H & [->|(ps & ->)]); unfold result_letter.
  - rewrite find_last_none by auto. reflexivity.
  - rewrite find_last_app by auto. rewrite app_nth2 by lia. replace (S (length ps) - length ps) with 1 by lia. reflexivity.
Qed.
Definition type_of_letter (c : ascii) : option rty :=
  if Ascii.eqb c "V" then Some RVoid
  else if Ascii.eqb c "Z" then Some (RPrim PtZ)
  else if Ascii.eqb c "B" then Some (RPrim PtB)
  else if Ascii.eqb c "S" then Some (RPrim PtS)
  else if Ascii.eqb c "C" then Some (RPrim PtC)
  else if Ascii.eqb c "I" then Some (RPrim PtI)
  else if Ascii.eqb c "J" then Some (RPrim PtJ)
  else if Ascii.eqb c "F" then Some (RPrim PtF)
  else if Ascii.eqb c "D" then Some (RPrim PtD)
  else if Ascii.eqb c "[" || Ascii.eqb c "L" then Some RObj
  else None.
Lemma result_type_letter sig : result_type sig = type_of_letter (result_letter sig).
Proof. reflexivity. Qed.
Lemma type_of_letter_spec c T : type_of_letter c = Some T <-> letter c T.
Proof.
  split.
  - unfold type_of_letter. repeat match goal with |- context [Ascii.eqb c ?d] => destruct (Ascii.eqb_spec c d) as [->|]; [intros [= <-]; constructor|] end. discriminate.
  - intros []; reflexivity.
Qed.
Lemma returns_type sig T : returns sig T -> result_type sig = Some T /\ sig <> [].
Proof.
  intros (c & rest & B & L). split; [rewrite result_type_letter, (result_letter_behind B); apply type_of_letter_spec; exact L|].
  destruct B as (_ & [->|(ps & ->)]); [discriminate|]. destruct ps; discriminate.
Qed.
Lemma returns_unknown sig : returns_nothing_known sig -> result_type sig = None /\ sig <> [].
Proof.
  intros (Ne & rest & B & L). split; [|exact Ne]. rewrite result_type_letter, (result_letter_behind B). destruct rest as [|c r]; [reflexivity|].
  cbn [nth]. destruct (type_of_letter c) as [T|] eqn:E; auto. apply type_of_letter_spec in E. destruct (L c r T eq_refl E).
Qed.
(** Every signature has one or the other. *)
Lemma returns_total sig : sig <> [] -> (exists T, returns sig T) \/ returns_nothing_known sig.
Proof.
  intros Ne. assert (exists rest, behind_params sig rest) as (rest & B).
  { clear Ne. induction sig as [|x sig IH]; [exists []; split; auto|]. destruct IH as (rest & H & [->|(ps & ->)]).
    - destruct (Ascii.eqb_spec x ")") as [->|N].
      + exists rest. split; auto. right. exists []. reflexivity.
      + exists (x :: rest). split; auto. intros [->|K]; auto.
    - exists rest. split; auto. right. exists (x :: ps). reflexivity. }
  destruct rest as [|c rest]; [right; split; auto; exists []; split; auto; discriminate|].
  destruct (type_of_letter c) as [T|] eqn:E; [left; exists T, c, rest; split; auto; apply type_of_letter_spec; exact E|].
  right. split; auto. exists (c :: rest). split; auto. intros c' r T [= <- <-] L. apply type_of_letter_spec in L. congruence.
Qed.

(** ** Passing arguments *)
Definition plain (s : st) (i : oid) : Prop := exists p, contents s i = Some p /\ (forall j, p <> PWeak j) /\ (forall j, p <> PGlobal j).
Lemma plain_denotes s i : plain s i <-> denotes s i (Some i).
Proof.
  split.
  - intros (p & C & N1 & N2). apply contents_lookup in C. destruct C as (o & L & <-). econstructor; eauto.
  - intros D. apply denotes_target in D. destruct D as (o & L & N1 & N2). exists (o_pay o). split; auto. unfold contents. rewrite L. reflexivity.
Qed.
Definition typed (ps : list cparam) : list (ty * oid) := flat_map (fun p => match p with CObj Y (Some i) => [(Y, i)] | _ => [] end) ps.
Lemma typed_objects ps : map snd (typed ps) = objects ps.
Proof. induction ps as [|[z|Y [i|]] ps IH]; simpl; auto. rewrite IH. reflexivity. Qed.
Lemma kept_objects_eq ps : kept_objects ps = objects ps.
Proof. reflexivity. Qed.

Section Cfg.
Variable G : cfg.
Variable t : tid.
Hypothesis N : numbered G.

(** Whether an argument can be passed depends on the contents of objects only. *)
Lemma has_type_same s s' j Y : (forall k, contents s' k = contents s k) -> (forall k, live s' k = live s k) -> has_type G s j Y -> has_type G s' j Y.
Proof. intros C L H. destruct H; solve [apply ht_object; rewrite L; auto | econstructor; [rewrite C; eauto|auto] | econstructor; rewrite C; eauto]. Qed.
Lemma passable_same s s' p : (forall k, contents s' k = contents s k) -> (forall k, live s' k = live s k) -> passable G s p -> passable G s' p.
Proof.
  intros C L. destruct p as [z|Y [i|]]; simpl; auto. rewrite <- !plain_denotes. intros ((q & E & K) & H). split; [exists q; rewrite C; auto|].
  eapply has_type_same; eauto.
Qed.
Lemma keep_eq Y i s : good G s -> attached s t -> passable G s (CObj Y (Some i)) -> keep G t Y i s = Some (held_in s i) /\ good G (held_in s i).
Proof.
  intros Gs A (D & H). unfold keep. assert (resolves s Y (Some i) (Some i)) as Rs.
  { destruct Y; try exact D; split; auto; intros k [= <-]; eapply denotes_target_live; eauto. }
  destruct (@UHold_cases G t Y (Some i) (Some i) s N Gs A Rs) as (L & [(_ & -> & Gh)|(H' & _)]); [|tauto]. rewrite Nat.eqb_refl. auto.
Qed.
Definition with_kept (s : st) (l : list oid) : st := with_ext s (l ++ s_ext s).
Lemma with_kept_kept s a b : with_kept (with_kept s a) b = with_kept s (b ++ a).
Proof. unfold with_kept. simpl. rewrite app_assoc. destruct s; reflexivity. Qed.
Lemma with_kept_nil s : with_kept s [] = s.
Proof. unfold with_kept. simpl. apply ext_same. Qed.
Lemma keep_all_eq ps : forall s, good G s -> attached s t -> Forall (passable G s) ps ->
  keep_all G t ps s = Some (with_kept s (rev (objects ps))) /\ good G (with_kept s (rev (objects ps))).
Proof.
  induction ps as [|p ps IH]; intros s Gs A F; [cbn; rewrite with_kept_nil; auto|].
  inversion F as [|? ? Fp Fr]; subst. destruct p as [z|Y [i|]]; cbn [keep_all objects flat_map app]; try (apply IH; assumption).
  destruct (keep_eq Gs A Fp) as (-> & Gh). change (flat_map _ ps) with (objects ps). destruct (IH (held_in s i)) as (E & Gk); auto.
  { eapply Forall_impl; [|exact Fr]. intros q. apply passable_same; reflexivity. }
  cbn [rev]. change (held_in s i) with (with_kept s [i]) in *. rewrite with_kept_kept in E, Gk. auto.
Qed.
Lemma give_eq Y i s : good G s -> attached s t -> passable G s (CObj Y (Some i)) -> In i (s_ext s) -> give G t Y i s = Some (Some i, given s t Y i) /\ good G (given s t Y i).
Proof.
  intros Gs A (D & H) I. pose proof (denotes_target_live D) as L. pose proof L as L'. apply live_lookup in L'. destruct L' as (o & Lo).
  apply (isa_has_type Y N Lo) in H. unfold give.
  assert (step G t (UToJNI_ Y i) s = Some (OVal (RRef (Some i)), given s t Y i)) as ->; [|split; [reflexivity|apply given_good; auto]].
  apply step_tidy_ret; [exact A| |].
  - cbn [body]. unfold as_ref, UToJNI. unfold bind at 1 2, gets. unfold bind at 1, deref. rewrite Lo.
    assert (memb i (s_ext s) = true) as -> by (apply memb_In; exact I). rewrite H. cbn [andb]. rewrite given_eq; auto. exact (good_wf Gs).
  - eapply tidy_weaken; [|apply given_tidy; [exact (good_wf Gs)|exact A|apply Gs]]. simpl. tauto.
Qed.
Lemma marshal_eq ps : forall s, good G s -> attached s t -> Forall (passable G s) ps -> incl (objects ps) (s_ext s) ->
  marshal G t ps s = Some (map as_arg ps, gives t s (typed ps)) /\ good G (gives t s (typed ps)).
Proof.
  induction ps as [|p ps IH]; intros s Gs A F I; [cbn; auto|].
  inversion F as [|? ? Fp Fr]; subst. destruct p as [z|Y [i|]]; cbn [marshal map as_arg typed flat_map app] in *; try (change (flat_map _ ps) with (typed ps); destruct (IH s) as (-> & K); auto).
  assert (In i (s_ext s)) as Ii by (apply I; left; reflexivity). destruct (give_eq Gs A Fp Ii) as (-> & Gg).
  destruct (IH (given s t Y i)) as (-> & K); auto.
  - apply given_attached; auto.
  - eapply Forall_impl; [|exact Fr]. intros q. apply passable_same; intros k; [apply given_contents|apply given_live_eq].
  - rewrite (u_ext (given_undisturbed s t Y i)). intros k Hk. apply I. right. exact Hk.
Qed.

(** ** The end of an invocation *)
Lemma drop_released i s : good G s -> exists s', drop G t (Some i) s = Some s' /\ good G s' /\ released t (frames s t) (s_globals s) (remove_first i (s_ext s)) s s'.
Proof.
  intros Gs. set (s1 := with_ext s (remove_first i (s_ext s))).
  assert (step G t (UDrop_ i) s = Some (OVal RUnit, finish s1)) as St by reflexivity.
  exists (finish s1). unfold drop. rewrite St. split; auto. assert (good G (finish s1)) as G1 by (eapply step_good; eauto). split; auto.
  apply (@released_intro G); auto; [apply G1|apply calm_same; reflexivity].
Qed.
Lemma drop_all_let_go l : forall s, good G s -> exists s', drop_all G t l s = Some s' /\ good G s' /\ let_go t l s s'.
Proof.
  induction l as [|i l IH]; intros s Gs; [exists s; split; [reflexivity|split; [exact Gs|constructor]]|].
  destruct (@drop_released i s Gs) as (s1 & E1 & G1 & R1). destruct (IH s1 G1) as (s2 & E2 & G2 & L2).
  exists s2. cbn [drop_all]. rewrite E1. split; auto. split; auto. econstructor; eauto. apply remove_first_removed.
Qed.
Lemma let_go_calm l s s' : let_go t l s s' -> calm t s s' /\ frames s' t = frames s t /\ s_globals s' = s_globals s.
Proof.
  induction 1 as [s|i l s s1 s2 ex Rm Rl Lg (C & F & Gl)]; [repeat split|]. destruct Rl as [F1 G1 X1 C1 _ _]. split; [|split; congruence].
  destruct C, C1. constructor; intros; try congruence. rewrite cm_others by auto. auto.
Qed.
Lemma leave_eq held x s : good G s -> exists s', leave G t held x s = Some (x, s') /\ good G s' /\ let_go t held s s'.
Proof. intros Gs. destruct (@drop_all_let_go held s Gs) as (s' & E & Gs' & L). exists s'. unfold leave. rewrite E. auto. Qed.
Lemma invoke_end_eq held w s : good G s -> attached s t -> exists x s', invoke_end G t held w s = Some (x, s') /\ good G s' /\ outcome t w s x /\ let_go t held s s'.
Proof.
  intros Gs (e & Ge). unfold invoke_end. rewrite Ge. destruct (e_exc e) as [j|] eqn:Ex.
  - assert (is_throw s j = true) as It by (destruct (wf_env_ok (good_wf Gs) Ge) as [K _]; unfold env_ok in K; rewrite Ex in K; apply andb_prop in K; destruct K as [_ K]; simpl in K; apply andb_prop in K; apply K).
    unfold is_throw in It. destruct (lookup s j) as [o|] eqn:L; [|discriminate]. destruct (o_pay o) as [| | | | |x| | | | | |] eqn:P; try discriminate.
    destruct (@leave_eq held (inr x) s Gs) as (s' & E & Gs' & Lg). exists (inr x), s'. split; auto. split; auto. split; auto.
    apply oc_thrown with j; [unfold pending; rewrite Ge; auto|]. unfold contents. rewrite L. simpl. rewrite ?P. reflexivity.
  - destruct (@leave_eq held (inl w) s Gs) as (s' & E & Gs' & Lg). exists (inl w), s'. split; auto. split; auto. split; auto.
    constructor. unfold pending. rewrite Ge. auto.
Qed.

(** ** The beginning *)
Definition recv_type (isClass : bool) : ty := if isClass then TClass else TObject.
Definition before (Y : ty) (r : oid) (ps : list cparam) (s : st) : st := with_ext (gives t s ((Y, r) :: typed ps)) (held_by r ps ++ s_ext s).
Definition before0 (Y : ty) (r : oid) (ps : list cparam) (s : st) : st := with_ext (given s t Y r) (held_by r ps ++ s_ext s).
Lemma invoke_prep Y r ps s : good G s -> attached s t -> passable G s (CObj Y (Some r)) -> Forall (passable G s) ps ->
  exists s1 s2, keep_all G t ps s = Some s1 /\ keep G t Y r s1 = Some s2 /\ give G t Y r s2 = Some (Some r, before0 Y r ps s) /\
    marshal G t ps (before0 Y r ps s) = Some (map as_arg ps, before Y r ps s) /\ good G (before0 Y r ps s) /\ good G (before Y r ps s).
Proof.
  intros Gs A Pr F. destruct (@keep_all_eq ps s Gs A F) as (E1 & G1). set (s1 := with_kept s (rev (objects ps))) in *.
  assert (passable G s1 (CObj Y (Some r))) as Pr1 by (eapply passable_same; [| |exact Pr]; reflexivity).
  destruct (@keep_eq Y r s1 G1 A Pr1) as (E2 & G2). set (s2 := held_in s1 r) in *. exists s1, s2. split; auto. split; auto.
  assert (passable G s2 (CObj Y (Some r))) as Pr2 by (eapply passable_same; [| |exact Pr]; reflexivity).
  destruct (@give_eq Y r s2 G2 A Pr2) as (E3 & G3); [left; reflexivity|].
  assert (given s2 t Y r = before0 Y r ps s) as Eq.
  { unfold s2, s1, held_in, with_kept, before0, held_by. cbn [s_ext with_ext]. rewrite !given_ext. reflexivity. }
  rewrite Eq in *. split; auto.
  destruct (@marshal_eq ps (before0 Y r ps s) G3) as (E4 & G4); auto.
  - unfold before0. change (attached (given s t Y r) t). apply given_attached; auto.
  - eapply Forall_impl; [|exact F]. intros q. apply passable_same; intros k; [apply given_contents|apply given_live_eq].
  - intros k Hk. unfold before0. cbn [s_ext with_ext]. apply in_or_app. left. right. rewrite <- in_rev. exact Hk.
  - assert (gives t (before0 Y r ps s) (typed ps) = before Y r ps s) as Eq2 by (unfold before0, before; rewrite gives_ext; reflexivity).
    rewrite Eq2 in *. auto.
Qed.
Lemma before_gained Y r ps s : gained t (add_locals (frames s t) (r :: objects ps)) (s_globals s) (held_by r ps ++ s_ext s) s (before Y r ps s).
Proof. unfold before. rewrite <- typed_objects. apply (gives_gained t ((Y, r) :: typed ps)). Qed.
Lemma before_live Y r ps s j : live (before Y r ps s) j = live s j.
Proof. exact (gives_live t ((Y, r) :: typed ps) s j). Qed.
Lemma before_contents Y r ps s j : contents (before Y r ps s) j = contents s j.
Proof. exact (gives_contents t ((Y, r) :: typed ps) s j). Qed.
Lemma before_attached Y r ps s : attached s t -> attached (before Y r ps s) t.
Proof. intros A. exact (gives_attached ((Y, r) :: typed ps) A). Qed.
Lemma before_method Y r ps s i m : method_at s i = Some m -> method_at (before Y r ps s) i = Some m.
Proof. unfold method_at. rewrite before_contents. auto. Qed.

Lemma drop_undo l s : tidy s -> drop_all G t l (with_kept s l) = Some s.
Proof.
  revert s. induction l as [|i l IH]; intros s T; [cbn; rewrite with_kept_nil; reflexivity|]. cbn [drop_all].
  change (with_kept s (i :: l)) with (with_ext s (i :: (l ++ s_ext s))). rewrite drop_eq; [apply IH; auto|].
  change (tidy (with_kept s l)). clear IH. induction l as [|j l IH]; [rewrite with_kept_nil; auto|].
  change (with_kept s (j :: l)) with (held_in (with_kept s l) j). apply tidy_held. auto.
Qed.
End Cfg.

(** ** C67 Method::invoke *)
(** Every state during and after an invocation is one that the VM can reach. *)
Section Ran.
Variable G : cfg.
Variable t : tid.
Notation ran := (ran G).
Lemma ran_keep Y i s s' : keep G t Y i s = Some s' -> ran s s'.
Proof. unfold keep. destruct (step G t (UHold_ Y (Some i)) s) as [[[[]|] s1]|] eqn:E; try discriminate. destruct h as [j|]; [|discriminate]. destruct (Nat.eqb j i); [|discriminate]. intros [= <-]. eapply ran_step; eauto. Qed.
Lemma ran_keep_all ps : forall s s', keep_all G t ps s = Some s' -> ran s s'.
Proof.
  induction ps as [|[z|Y [i|]] ps IH]; intros s s'; cbn [keep_all]; auto.
  - intros [= <-]. apply ran_refl.
  - destruct (keep G t Y i s) as [s1|] eqn:E; [|discriminate]. intros H. eapply ran_trans; [eapply ran_keep; eauto|eauto].
Qed.
Lemma ran_give Y i s h s' : give G t Y i s = Some (h, s') -> ran s s'.
Proof. unfold give. destruct (step G t (UToJNI_ Y i) s) as [[[[]|] s1]|] eqn:E; try discriminate. intros [= <- <-]. eapply ran_step; eauto. Qed.
Lemma ran_marshal ps : forall s a s', marshal G t ps s = Some (a, s') -> ran s s'.
Proof.
  induction ps as [|[z|Y [i|]] ps IH]; intros s a s'; cbn [marshal].
  - intros [= <- <-]. apply ran_refl.
  - destruct (marshal G t ps s) as [[b s1]|] eqn:E; [|discriminate]. intros [= <- <-]. eauto.
  - destruct (give G t Y i s) as [[h s1]|] eqn:E1; [|discriminate]. destruct (marshal G t ps s1) as [[b s2]|] eqn:E; [|discriminate]. intros [= <- <-].
    eapply ran_trans; [eapply ran_give; eauto|eauto].
  - destruct (marshal G t ps s) as [[b s1]|] eqn:E; [|discriminate]. intros [= <- <-]. eauto.
Qed.
Lemma ran_drop_all l : forall s s', drop_all G t l s = Some s' -> ran s s'.
Proof.
  induction l as [|i l IH]; intros s s'; cbn [drop_all]; [intros [= <-]; apply ran_refl|].
  destruct (drop G t (Some i) s) as [s1|] eqn:E; [|discriminate]. intros H. eapply ran_trans; [eapply ran_drop; eauto|eauto].
Qed.
Lemma ran_leave held x s y s' : leave G t held x s = Some (y, s') -> ran s s' /\ y = x.
Proof. unfold leave. destruct (drop_all G t held s) as [s1|] eqn:E; [|discriminate]. intros [= <- <-]. split; auto. eapply ran_drop_all; eauto. Qed.
Lemma ran_invoke_end held w s y s' : invoke_end G t held w s = Some (y, s') -> ran s s'.
Proof.
  unfold invoke_end. destruct (get_env s t) as [e|]; [|discriminate]. destruct (e_exc e) as [j|]; [|intros H; apply ran_leave in H; tauto].
  destruct (lookup s j) as [o|]; [|discriminate]. destruct (o_pay o); try discriminate. intros H; apply ran_leave in H; tauto.
Qed.
Lemma ran_finished o p s s' : (forall y s1, o = Some (y, s1) -> ran s s1) -> finished o = Some (p, s') -> ran s s'.
Proof. unfold finished. intros H. destruct o as [[y s1]|]; [|discriminate]. intros [= <- <-]. eauto. Qed.
Lemma ran_invoke isClass r m ps s p s' : invoke G t isClass r m ps s = Some (p, s') -> ran s s'.
Proof.
  unfold invoke. destruct (keep_all G t ps s) as [s1|] eqn:E1; [|discriminate]. apply ran_keep_all in E1.
  destruct (keep G t (if isClass then TClass else TObject) r s1) as [s2|] eqn:E2; [|discriminate]. apply ran_keep in E2.
  destruct (give G t (if isClass then TClass else TObject) r s2) as [[h s3]|] eqn:E3; [|discriminate]. apply ran_give in E3.
  assert (ran s s3) as R3 by eauto using ran_trans. clear E1 E2 E3.
  assert (forall held x, finished (leave G t held x s3) = Some (p, s') -> ran s s') as K3 by (intros held x H; eapply ran_trans; [exact R3|eapply ran_finished; [|exact H]; intros y sy Hy; apply ran_leave in Hy; tauto]).
  destruct (mth_of s m) as [x|]; [|discriminate]. destruct (m_native x) as [fn|].
  - destruct (result_type (m_sig x)) as [T|]; [|apply K3].
    destruct (marshal G t ps s3) as [[a s4]|] eqn:E4; [|discriminate]. intros [= <- <-]. eapply ran_trans; [exact R3|]. eapply ran_marshal; eauto.
  - destruct (marshal G t ps s3) as [[a s4]|] eqn:E4; [|discriminate]. apply ran_marshal in E4. assert (ran s s4) as R4 by eauto using ran_trans.
    assert (forall held x, finished (leave G t held x s4) = Some (p, s') -> ran s s') as K4 by (intros held y H; eapply ran_trans; [exact R4|eapply ran_finished; [|exact H]; intros z sy Hy; apply ran_leave in Hy; tauto]).
    destruct (m_sig x) as [|c sg] eqn:Es; [apply K4|]. rewrite <- Es. destruct (result_type (m_sig x)) as [T|]; [|apply K4].
    destruct (step G t _ s4) as [[v s5]|] eqn:E5; [|discriminate]. apply ran_step in E5. assert (ran s s5) as R5 by eauto using ran_trans.
    destruct v as [[]|e]; try discriminate.
    + destruct c0 as [|f rv b]; [|intros [= <- <-]; exact R5]. intros H. eapply ran_trans; [exact R5|]. eapply ran_finished; [|exact H]. intros y sy Hy. eapply ran_invoke_end; eauto.
    + intros H. eapply ran_trans; [exact R5|]. eapply ran_finished; [|exact H]. intros y sy Hy. apply ran_leave in Hy. tauto.
Qed.
End Ran.

(** The receiver: a class for calls for a class, any object otherwise *)
Definition receiver (isClass : bool) (s : st) (r : oid) : Prop := if isClass then (exists c, contents s r = Some (PClass c)) else denotes s r (Some r).
Lemma receiver_passable G isClass s r : receiver isClass s r -> passable G s (CObj (if isClass then TClass else TObject) (Some r)).
Proof.
  destruct isClass; simpl.
  - intros (c & C). split; [|econstructor; eauto]. apply plain_denotes. exists (PClass c). repeat split; auto; discriminate.
  - intros D. split; auto. constructor. eapply denotes_target_live; eauto.
Qed.
Definition jni_call (isClass : bool) (T : rty) (r i : oid) (args : list arg) : op :=
  if isClass then CallStaticMethodA_ T (Some r) (Some i) args else CallMethodA_ T (Some r) (Some i) args.
Lemma jni_call_step G t isClass T r i m args s : good G s -> attached s t -> receiver isClass s r -> method_at s i = Some m ->
  exists c s', step G t (jni_call isClass T r i args) s = Some (OVal (RCall c), s').
Proof.
  intros Gs A Rc M. destruct (m_handle m) as [hh|] eqn:H.
  - destruct isClass; simpl in *.
    + destruct Rc as (c & C). assert (is_cls s r = true) as Ic by (apply is_cls_class_at; unfold class_at; rewrite C; eauto).
      assert (denotes_opt s (Some r) (Some r)) as D by (apply denotes_cls; exact Ic).
      destruct (@CallStaticMethodA_step G t T (Some r) (Some r) i hh args s Gs A D) as (v & s' & E & _ & En); [intros j [= <-]; auto|unfold handle_at; rewrite M; auto|].
      exists (match v with OVal (RCall x) => x | _ => Default end), s'. rewrite E. inversion En; subst; auto. discriminate.
    + destruct (@CallMethodA_step G t T r r i m hh args s Gs A Rc M H) as (s1 & j & hd & v & s' & _ & _ & _ & E & _ & En).
      exists (match v with OVal (RCall x) => x | _ => Default end), s'. rewrite E. inversion En; subst; auto. discriminate.
  - exists Default, s. destruct isClass; simpl in *.
    + destruct Rc as (c & C). assert (is_cls s r = true) as Ic by (apply is_cls_class_at; unfold class_at; rewrite C; eauto).
      assert (denotes_opt s (Some r) (Some r)) as D by (apply denotes_cls; exact Ic).
      apply (@CallStaticMethodA_unhooked G t T (Some r) (Some r) (Some i) args s Gs A D); eauto. intros j [= <-]. auto.
    + apply CallMethodA_unhooked; eauto.
Qed.

(** An invocation passes its receiver and arguments and is then the JNI call of the method with the result type of its signature.  Receiver and
    arguments are kept until the invocation ends; what the call ends with is what the caller gets. *)
Lemma call_good G t isClass r i m T ps s : good G s -> numbered G -> attached s t -> receiver isClass s r -> method_at s i = Some m ->
  m_native m = None -> returns (m_sig m) T -> Forall (passable G s) ps ->
  exists s1 c s2, ran G s s1 /\ (forall j, live s1 j = live s j) /\ (forall j, contents s1 j = contents s j) /\
    gained t (RefSpec.add_locals (frames s t) (r :: objects ps)) (s_globals s) (r :: rev (objects ps) ++ s_ext s) s s1 /\
    step G t (jni_call isClass T r i (map as_arg ps)) s1 = Some (OVal (RCall c), s2) /\
    match c with
    | Entered f rv args => invoke G t isClass r i ps s = Some (IHook T f rv args, s2)
    | Default => exists w x s3, zero_of T w /\ outcome t w s2 x /\ let_go t (r :: rev (objects ps)) s2 s3 /\ invoke G t isClass r i ps s = Some (IDone x, s3)
    end.
Proof.
  intros Gs N A Rc M Nn Rt F. set (Y := if isClass then TClass else TObject).
  assert (passable G s (CObj Y (Some r))) as Pr by (apply receiver_passable; exact Rc).
  destruct (@invoke_prep G t N Y r ps s Gs A Pr F) as (s1 & s2 & E1 & E2 & E3 & E4 & G3 & G4). set (sb := before t Y r ps s) in *.
  assert (receiver isClass sb r) as Rcb. { destruct isClass; simpl in *; [destruct Rc as (k & C); exists k; unfold sb; rewrite before_contents; auto|]. apply plain_denotes in Rc. apply plain_denotes. unfold plain, sb in *. rewrite before_contents. exact Rc. }
  destruct (@jni_call_step G t isClass T r i m (map as_arg ps) sb G4) as (c & s5 & E5); auto; [apply before_attached; auto|apply before_method; auto|].
  exists sb, c, s5. destruct (returns_type Rt) as (Ty & Ne).
  assert (ran G s sb) as Rn. { eapply ran_trans; [eapply ran_keep_all; eauto|]. eapply ran_trans; [eapply ran_keep; eauto|]. eapply ran_trans; [eapply ran_give; eauto|]. eapply ran_marshal; eauto. }
  split; [exact Rn|].
  split; [intros j; apply before_live|]. split; [intros j; apply before_contents|]. split; [exact (before_gained t Y r ps s)|]. split; auto.
  assert (mth_of s i = Some m) as Mo by (clear - M; unfold method_at, contents in M; unfold mth_of; destruct (lookup s i) as [o|]; [|discriminate]; simpl in M; destruct (o_pay o); try discriminate; exact M).
  assert (invoke G t isClass r i ps s = match c with Entered f rv b => Some (IHook T f rv b, s5) | Default => finished (invoke_end G t (held_by r ps) (default_val T) s5) end) as Eq.
  { unfold invoke. fold Y. rewrite E1, E2, E3, Mo, Nn, E4. destruct (m_sig m) as [|x sg] eqn:Es; [congruence|]. rewrite Ty. unfold jni_call in E5. rewrite E5. destruct c; reflexivity. }
  destruct c as [|f rv b]; [|exact Eq].
  assert (good G s5) as G5 by (eapply step_good; eauto).
  assert (attached s5 t) as A5. { eapply attached_after; [exact G4|apply before_attached; exact A| |exact E5]. destruct isClass; discriminate. }
  destruct (@invoke_end_eq G t (held_by r ps) (default_val T) s5 G5 A5) as (x & s6 & E6 & _ & Oc & Lg). rewrite E6 in Eq.
  exists (default_val T), x, s6. split; [destruct T; reflexivity|]. auto.
Qed.
Theorem C67_call G t0 t isClass r i m T ps s : reachable G t0 s -> numbered G -> attached s t -> receiver isClass s r -> method_at s i = Some m ->
  m_native m = None -> returns (m_sig m) T -> Forall (passable G s) ps ->
  exists s1 c s2, reachable G t0 s1 /\ (forall j, live s1 j = live s j) /\ (forall j, contents s1 j = contents s j) /\
    gained t (RefSpec.add_locals (frames s t) (r :: objects ps)) (s_globals s) (r :: rev (objects ps) ++ s_ext s) s s1 /\
    step G t (jni_call isClass T r i (map as_arg ps)) s1 = Some (OVal (RCall c), s2) /\
    match c with
    | Entered f rv args => invoke G t isClass r i ps s = Some (IHook T f rv args, s2)
    | Default => exists w x s3, zero_of T w /\ outcome t w s2 x /\ let_go t (r :: rev (objects ps)) s2 s3 /\ invoke G t isClass r i ps s = Some (IDone x, s3)
    end.
Proof.
  intros R N A Rc M Nn Rt F. destruct (call_good (reachable_good R) N A Rc M Nn Rt F) as (s1 & c & s2 & (l & vs & E) & H). exists s1, c, s2. split; [eapply reach_exec; eauto|exact H].
Qed.
Lemma mth_of_at s i m : method_at s i = Some m -> mth_of s i = Some m.
Proof. unfold method_at, contents, mth_of. destruct (lookup s i) as [o|]; [|discriminate]. simpl. destruct (o_pay o); try discriminate. auto. Qed.

(** The static hook of a class runs, with the class and the arguments. *)
Lemma static_good G t cl i m hd ps s : good G s -> numbered G -> attached s t -> receiver true s cl -> method_at s i = Some m ->
  m_native m = None -> m_handle m = Some hd -> h_kind hd = KStatic -> returns (m_sig m) (h_ret hd) -> Forall (passable G s) ps ->
  exists s1 s2, gained t (RefSpec.add_locals (frames s t) (cl :: objects ps)) (s_globals s) (cl :: rev (objects ps) ++ s_ext s) s s1 /\
    now_running t (mkCall (h_ret hd) true (h_id hd) [cl]) s1 s2 /\ frames s2 t = frames s1 t /\
    invoke G t true cl i ps s = Some (IHook (h_ret hd) (h_id hd) (Some cl) (map as_arg ps), s2).
Proof.
  intros Gs N A Rc M Nn H K Rt F. destruct (call_good Gs N A Rc M Nn Rt F) as (s1 & c & s2 & (l1 & vs1 & R1) & L1 & C1 & Gn & St & Rep). exists s1, s2. split; auto.
  assert (attached s1 t) as A1. { destruct A as (e & Ge). pose proof (cm_envid (gn_calm Gn)) as Ei. rewrite Ge in Ei. destruct (get_env s1 t) as [e'|] eqn:Ge'; [exists e'; auto|discriminate]. }
  destruct Rc as (k & Ck). assert (is_cls s1 cl = true) as Ic by (apply is_cls_class_at; unfold class_at; rewrite C1, Ck; eauto).
  assert (denotes_opt s1 (Some cl) (Some cl)) as D by (apply denotes_cls; exact Ic).
  destruct (@CallStaticMethodA_step G t (h_ret hd) (Some cl) (Some cl) i hd (map as_arg ps) s1 (exec_good Gs R1) A1 D) as (v & s' & E & _ & En).
  { intros j [= <-]. auto. }
  { unfold handle_at, method_at. rewrite C1. fold (method_at s i). rewrite M. auto. }
  simpl in St. rewrite St in E. injection E as <- <-.
  inversion En as [Ft Nv Nr Fr E1|mm Fl _ _ _ _ E1|]; subst.
  - split; auto.
  - exfalso. inversion Fl as [Nf|Ff Ab]; [apply Nf; split; auto|discriminate].
Qed.
Theorem C67_static G t0 t cl i m hd ps s : reachable G t0 s -> numbered G -> attached s t -> receiver true s cl -> method_at s i = Some m ->
  m_native m = None -> m_handle m = Some hd -> h_kind hd = KStatic -> returns (m_sig m) (h_ret hd) -> Forall (passable G s) ps ->
  exists s1 s2, gained t (RefSpec.add_locals (frames s t) (cl :: objects ps)) (s_globals s) (cl :: rev (objects ps) ++ s_ext s) s s1 /\
    now_running t (mkCall (h_ret hd) true (h_id hd) [cl]) s1 s2 /\ frames s2 t = frames s1 t /\
    invoke G t true cl i ps s = Some (IHook (h_ret hd) (h_id hd) (Some cl) (map as_arg ps), s2).
Proof. intros R. apply static_good. exact (reachable_good R). Qed.
(** The instance method that the class of the object has itself (or inherits) runs, with the object and the arguments. *)
Theorem C67_instance G t0 t r i m hd ps T s : reachable G t0 s -> numbered G -> attached s t -> receiver false s r -> method_at s i = Some m ->
  m_native m = None -> m_handle m = Some hd -> returns (m_sig m) T -> Forall (passable G s) ps ->
  exists s1 s2 j hj v s3, gained t (RefSpec.add_locals (frames s t) (r :: objects ps)) (s_globals s) (r :: rev (objects ps) ++ s_ext s) s s1 /\
    dispatched s1 (class_ptr s1 r) i j /\ handle_at s1 j = Some hj /\ class_passed t (class_ptr s1 r) s1 s2 /\
    entered t true hj KInst false T (Some r) (opt_list (class_ptr s1 r)) (map as_arg ps) s2 s3 v /\
    (CallSpec.fits hj KInst T -> invoke G t false r i ps s = Some (IHook T (h_id hj) (Some r) (map as_arg ps), s3)) /\
    (~ CallSpec.fits hj KInst T -> exists s4, invoke G t false r i ps s = Some (IDone (inr (Err (S_ "Mismatched MethodHandle!"))), s4) /\ let_go t (r :: rev (objects ps)) s3 s4).
Proof.
  intros R N A Rc M Nn H Rt F. destruct (C67_call R N A Rc M Nn Rt F) as (s1 & c & s3 & R1 & L1 & C1 & Gn & St & Rep).
  assert (attached s1 t) as A1. { destruct A as (e & Ge). pose proof (cm_envid (gn_calm Gn)) as Ei. rewrite Ge in Ei. destruct (get_env s1 t) as [e'|] eqn:Ge'; [exists e'; auto|discriminate]. }
  assert (denotes s1 r (Some r)) as D by (apply plain_denotes; apply plain_denotes in Rc; unfold plain in *; rewrite C1; exact Rc).
  assert (method_at s1 i = Some m) as M1 by (unfold method_at; rewrite C1; exact M).
  destruct (@CallMethodA_step G t T r r i m hd (map as_arg ps) s1 (reachable_good R1) A1 D M1 H) as (s2 & j & hj & v & s' & Cp & Dp & Hj & E & _ & En).
  simpl in St. rewrite St in E. injection E as <- <-. exists s1, s2, j, hj, (OVal (RCall c)), s3. repeat (split; [assumption|]).
  inversion En as [Ft Nv Nr Fr E1|mm Fl _ Pd Fr Ru E1|]; subst.
  - split; [auto|tauto].
  - destruct Rep as (w & x & s4 & Z & Oc & Lg & E2). inversion Fl as [Nf E3|Ff Ab]; subst; [|discriminate]. split; [tauto|]. intros _. exists s4. split; auto.
    destruct Pd as (jj & _ & Pj & Cj & _). inversion Oc as [Pn|j2 x2 P2 C2]; subst; congruence.
Qed.
(** A native function gets the receiver and the arguments. *)
Lemma native_good G t isClass r i m fn T ps s : good G s -> numbered G -> attached s t -> receiver isClass s r -> method_at s i = Some m ->
  m_native m = Some fn -> returns (m_sig m) T -> Forall (passable G s) ps ->
  exists s1, invoke G t isClass r i ps s = Some (INative fn T (Some r) (map as_arg ps), s1) /\ (forall j, live s1 j = live s j) /\
    gained t (RefSpec.add_locals (frames s t) (r :: objects ps)) (s_globals s) (r :: rev (objects ps) ++ s_ext s) s s1.
Proof.
  intros Gs N A Rc M Nn Rt F. set (Y := if isClass then TClass else TObject).
  assert (passable G s (CObj Y (Some r))) as Pr by (apply receiver_passable; exact Rc).
  destruct (@invoke_prep G t N Y r ps s Gs A Pr F) as (s1 & s2 & E1 & E2 & E3 & E4 & G3 & G4).
  exists (before t Y r ps s). destruct (returns_type Rt) as (Ty & Ne). split; [|split; [intros j; apply before_live|exact (before_gained t Y r ps s)]].
  unfold invoke. fold Y. rewrite E1, E2, E3, (mth_of_at M), Nn, Ty, E4. reflexivity.
Qed.
Theorem C67_native G t0 t isClass r i m fn T ps s : reachable G t0 s -> numbered G -> attached s t -> receiver isClass s r -> method_at s i = Some m ->
  m_native m = Some fn -> returns (m_sig m) T -> Forall (passable G s) ps ->
  exists s1, invoke G t isClass r i ps s = Some (INative fn T (Some r) (map as_arg ps), s1) /\ (forall j, live s1 j = live s j) /\
    gained t (RefSpec.add_locals (frames s t) (r :: objects ps)) (s_globals s) (r :: rev (objects ps) ++ s_ext s) s s1.
Proof. intros R. apply native_good. exact (reachable_good R). Qed.
(** A signature without a known result type, or an empty one: an exception, and no code of the method runs. *)
Theorem C67_unsupported G t0 t isClass r i m ps s : reachable G t0 s -> numbered G -> attached s t -> receiver isClass s r -> method_at s i = Some m ->
  Forall (passable G s) ps ->
  returns_nothing_known (m_sig m) \/ m_sig m = [] ->
  exists s1 msg, invoke G t isClass r i ps s = Some (IDone (inr (Err msg)), s1) /\ running s1 t = running s t /\ pending s1 t = pending s t /\
    (forall j, live s1 j = live s j) /\ (forall j, contents s1 j = contents s j) /\
    (msg = S_ "Unsupported signature" \/ (m_sig m = [] /\ m_native m = None /\ msg = S_ "jni signature is empty")).
Proof.
  intros R N A Rc M F Un. set (Y := if isClass then TClass else TObject). pose proof (reachable_good R) as Gs.
  assert (passable G s (CObj Y (Some r))) as Pr by (apply receiver_passable; exact Rc).
  destruct (@invoke_prep G t N Y r ps s Gs A Pr F) as (s1 & s2 & E1 & E2 & E3 & E4 & G3 & G4).
  assert (good G (gives t s ((Y, r) :: typed ps))) as Gg.
  { apply gives_good; auto. constructor; [eapply denotes_target_live; apply Pr|]. clear - F. induction F as [|p ps P F IH]; [constructor|]. destruct p as [z|X [i|]]; auto. constructor; auto. eapply denotes_target_live. apply P. }
  assert (good G (given s t Y r)) as G0 by (apply given_good; auto; eapply denotes_target_live; apply Pr).
  assert (forall x, leave G t (held_by r ps) x (before t Y r ps s) = Some (x, gives t s ((Y, r) :: typed ps))) as L4.
  { intros x. assert (before t Y r ps s = with_kept (gives t s ((Y, r) :: typed ps)) (held_by r ps)) as -> by (unfold with_kept; rewrite gives_s_ext; reflexivity). unfold leave. rewrite drop_undo; auto. apply Gg. }
  assert (forall x, leave G t (held_by r ps) x (before0 t Y r ps s) = Some (x, given s t Y r)) as L3.
  { intros x. assert (before0 t Y r ps s = with_kept (given s t Y r) (held_by r ps)) as -> by (unfold with_kept; rewrite (u_ext (given_undisturbed s t Y r)); reflexivity). unfold leave. rewrite drop_undo; auto. apply G0. }
  assert (result_type (m_sig m) = None) as Ty by (destruct Un as [Un| ->]; [apply returns_unknown in Un; tauto|reflexivity]).
  pose proof (gives_undisturbed t ((Y, r) :: typed ps) s) as U4. pose proof (given_undisturbed s t Y r) as U3.
  destruct (m_native m) as [fn|] eqn:Nn.
  - exists (given s t Y r), (S_ "Unsupported signature"). split; [unfold invoke; fold Y; rewrite E1, E2, E3, (mth_of_at M), Nn, Ty, L3; reflexivity|].
    split; [apply U3|]. split; [apply U3|]. split; [intros j; apply given_live_eq|]. split; [intros j; apply given_contents|]. auto.
  - exists (gives t s ((Y, r) :: typed ps)), (match m_sig m with [] => S_ "jni signature is empty" | _ => S_ "Unsupported signature" end).
    split; [unfold invoke; fold Y; rewrite E1, E2, E3, (mth_of_at M), Nn, E4; destruct (m_sig m) as [|c sg]; rewrite ?Ty, L4; reflexivity|].
    split; [apply U4|]. split; [apply U4|]. split; [intros j; apply (gives_live t ((Y, r) :: typed ps))|]. split; [intros j; apply (gives_contents t ((Y, r) :: typed ps))|].
    destruct (m_sig m); auto.
Qed.
(** The end: the caller gets the pending exception if there is one, else the result; the exception stays pending. *)
Theorem C67_end G t0 t held w s : reachable G t0 s -> attached s t ->
  exists x s', invoke_end G t held w s = Some (x, s') /\ reachable G t0 s' /\ outcome t w s x /\ let_go t held s s' /\ pending s' t = pending s t /\ frames s' t = frames s t.
Proof.
  intros R A. destruct (@invoke_end_eq G t held w s (reachable_good R) A) as (x & s' & E & _ & Oc & Lg). exists x, s'. split; auto.
  split; [apply ran_invoke_end in E; destruct E as (l & vs & E); eapply reach_exec; eauto|]. split; auto. split; auto. destruct (let_go_calm Lg) as (C & Fr & _). split; auto. apply C.
Qed.
(** The hook throws: the caller gets the same exception. *)
Theorem C67_thrown G t0 t k r n held s : reachable G t0 s -> running s t = k :: r -> k_catch k = true ->
  exists w s1 s2, step G t (HookThrow_ n) s = Some (OVal (RVal w), s1) /\ invoke_end G t held w s1 = Some (inr n, s2) /\ now_pending t n s s1 /\ pending s2 t = pending s1 t.
Proof.
  intros R K C. destruct (C24_throw n R K C) as (w & s1 & E & Z & Ru & Fr & P & _). exists w.
  assert (attached s t) as A by (unfold running in K; destruct (get_env s t) eqn:Ge; [eexists; eauto|discriminate]).
  assert (attached s1 t) as A1 by (eapply attached_after; [exact (reachable_good R)|exact A| |exact E]; discriminate).
  destruct (@C67_end G t0 t held w s1 (reach_step R E) A1) as (x & s2 & E2 & _ & Oc & _ & Pd & _). exists s1, s2. split; auto.
  destruct P as (j & P1 & P2 & P3 & P4). inversion Oc as [Pn|j2 x2 P5 C5]; subst; [congruence|]. assert (x2 = n) as -> by congruence. split; auto. split; auto. exists j. auto.
Qed.
(** The hook returns and no exception is pending: the caller gets its result. *)
Theorem C67_returned G t0 t k r v held s : reachable G t0 s -> running s t = k :: r -> result_ok G s (k_ret k) v -> pending s t = None ->
  exists w s1 s2, step G t (HookReturn_ v) s = Some (OVal (RVal w), s1) /\ hook_result t k s s1 v w /\ invoke_end G t held w s1 = Some (inl w, s2) /\ let_go t held s1 s2.
Proof.
  intros R K C P. destruct (C24_return R K C) as (w & s1 & E & D & H & Pd). exists w, s1.
  assert (attached s t) as A by (unfold running in K; destruct (get_env s t) eqn:Ge; [eexists; eauto|discriminate]).
  assert (attached s1 t) as A1 by (eapply attached_after; [exact (reachable_good R)|exact A| |exact E]; discriminate).
  destruct (@C67_end G t0 t held w s1 (reach_step R E) A1) as (x & s2 & E2 & _ & Oc & Lg & _). exists s2. split; auto. split; auto.
  inversion Oc as [Pn|j2 x2 P5 C5]; subst; [auto|congruence].
Qed.
(** ... but an exception that was pending hides the result: the caller gets that exception, however often it calls. *)
Theorem C67_stale G t0 t k r v j e held s : reachable G t0 s -> running s t = k :: r -> result_ok G s (k_ret k) v -> pending s t = Some j -> contents s j = Some (PThrow e) ->
  exists w s1 s2, step G t (HookReturn_ v) s = Some (OVal (RVal w), s1) /\ invoke_end G t held w s1 = Some (inr e, s2) /\ pending s2 t = Some j.
Proof.
  intros R K C P Cj. destruct (C24_return R K C) as (w & s1 & E & D & H & Pd). exists w, s1.
  assert (attached s t) as A by (unfold running in K; destruct (get_env s t) eqn:Ge; [eexists; eauto|discriminate]).
  assert (attached s1 t) as A1 by (eapply attached_after; [exact (reachable_good R)|exact A| |exact E]; discriminate).
  destruct (@C67_end G t0 t held w s1 (reach_step R E) A1) as (x & s2 & E2 & _ & Oc & Lg & Pe & _). exists s2. split; auto.
  assert (contents s1 j = Some (PThrow e)) as C1.
  { destruct D as (_ & Sp & _ & _). assert (live s j = true) as Lj by (unfold contents in Cj; apply live_lookup; destruct (lookup s j); [eauto|discriminate]).
    eapply VmArr2.intact_contents; [apply (sp_obj Sp Lj); auto|exact Cj|discriminate]. }
  inversion Oc as [Pn|j2 x2 P5 C5]; subst; [congruence|]. split; [congruence|congruence].
Qed.

(** ** What C++ code holds stays until it lets go *)
Definition holds (s s' : st) : Prop := forall i, count i (s_ext s) <= count i (s_ext s').
Lemma holds_ext s s' : s_ext s' = s_ext s -> holds s s'.
Proof. intros E i. rewrite E. auto. Qed.
Lemma holds_trans a b c : holds a b -> holds b c -> holds a c.
Proof. intros H K i. etransitivity; [apply H|apply K]. Qed.
Lemma holds_fine G t : fine G t (fun p => p <> PrExtDel) holds.
Proof.
  constructor; intros; try (apply holds_ext; reflexivity); try congruence.
  - eapply holds_trans; eauto.
  - apply (@find_fine G holds); auto; intros; try (apply holds_ext; reflexivity). eapply holds_trans; eauto.
  - intros j. simpl. unfold count. simpl. destruct (Nat.eq_dec i j); lia.
  - apply holds_ext. pose proof (collect_same s) as Sa. unfold same_but_heap in Sa. symmetry. apply Sa.
Qed.
Lemma count_remove i j l : count i l <= count i (remove_first j l) + (if Nat.eq_dec j i then 1 else 0).
Proof.
  unfold count. induction l as [|x l IH]; simpl; [lia|]. destruct (Nat.eqb_spec x j).
  - subst. destruct (Nat.eq_dec j i); lia.
  - simpl. destruct (Nat.eq_dec x i); lia.
Qed.
Lemma drop_count G t j s v s' i : step G t (UDrop_ j) s = Some (v, s') -> count i (s_ext s) <= count i (s_ext s') + (if Nat.eq_dec j i then 1 else 0).
Proof.
  intros E. assert (step G t (UDrop_ j) s = Some (OVal RUnit, finish (with_ext s (remove_first j (s_ext s))))) as St by reflexivity.
  rewrite St in E. injection E as <- <-. rewrite finish_ext. simpl.
  apply count_remove.
Qed.
Lemma exec_holds G l s vs s' i : wf s -> exec G l s = Some (vs, s') -> count i (s_ext s) <= count i (s_ext s') + drops i l.
Proof.
  revert s vs. induction l as [|[t o] l IH]; intros s vs W E; simpl in E; [injection E as <- <-; lia|].
  destruct (step G t o s) as [[v s1]|] eqn:E1; [|discriminate]. destruct (exec G l s1) as [[w s2]|] eqn:E2; [|discriminate]. injection E as <- <-.
  specialize (IH s1 w (proj1 (step_wf G t o W E1)) E2).
  assert (count i (s_ext s) <= count i (s_ext s1) + drops i [(t, o)]) as H.
  { assert ((exists j, o = UDrop_ j) \/ forall j, o <> UDrop_ j) as [(j & ->)|N] by (destruct o; eauto; right; discriminate).
    - pose proof (@drop_count G t j s v s1 i E1) as D. unfold drops, count at 3. simpl. exact D.
    - assert (holds s s1) as H; [|specialize (H i); lia]. eapply (@fine_step G t _ _ (holds_fine G t)); eauto.
      destruct o; try (exfalso; eapply N; reflexivity); simpl; intros pr H; repeat (destruct H as [<-|H]; [discriminate|]); destruct H. }
  unfold drops, count in *. simpl in *. rewrite app_nil_r in H. rewrite count_occ_app. eapply Nat.le_trans; [exact H|]. rewrite (Nat.add_comm (count_occ _ (match o with UDrop_ j => [j] | _ => [] end) _)), Nat.add_assoc. apply Nat.add_le_mono_r. exact IH.
Qed.

(** The receiver and the arguments of an invocation exist while its method runs, whatever the method and other threads do, as long as C++ code
    lets go of an object at most as often as it holds it. *)
Theorem C67_kept G t0 t isClass r i m T ps s p s1 l vs s2 j : reachable G t0 s -> numbered G -> attached s t -> receiver isClass s r -> method_at s i = Some m ->
  returns (m_sig m) T -> Forall (passable G s) ps -> invoke G t isClass r i ps s = Some (p, s1) -> (forall x, p <> IDone x) ->
  exec G l s1 = Some (vs, s2) -> drops j l <= count j (s_ext s) -> In j (r :: objects ps) -> live s2 j = true.
Proof.
  intros R N A Rc M Rt F E Nd Ex Dr Ij.
  assert (reachable G t0 s1 /\ count j (r :: rev (objects ps) ++ s_ext s) <= count j (s_ext s1)) as (R1 & C1).
  { destruct (m_native m) as [fn|] eqn:Nn.
    - destruct (C67_native R N A Rc M Nn Rt F) as (s' & E' & _ & Gn). rewrite E in E'. injection E' as -> <-. rewrite (gn_ext Gn). split; [|lia].
      apply ran_invoke in E. destruct E as (l0 & vs0 & E). eapply reach_exec; eauto.
    - destruct (C67_call R N A Rc M Nn Rt F) as (sb & c & s' & Rb & _ & _ & Gn & St & Rep). destruct c as [|f rv args].
      2: { rewrite E in Rep. injection Rep as -> <-. split; [eapply reach_step; eauto|]. rewrite <- (gn_ext Gn).
        assert (holds sb s1) as H; [|apply H]. eapply (@fine_step G t _ _ (holds_fine G t)); [|apply (good_wf (reachable_good Rb))|exact St].
        destruct isClass; simpl; intros pr H; repeat (destruct H as [<-|H]; [discriminate|]); destruct H. }
      destruct Rep as (w & x & s3 & _ & _ & _ & E'). rewrite E in E'. injection E' as -> <-. exfalso. eapply Nd. reflexivity. }
  pose proof (@exec_holds G l s1 vs s2 j (good_wf (reachable_good R1)) Ex) as H.
  assert (1 + count j (s_ext s) <= count j (r :: rev (objects ps) ++ s_ext s)) as H1.
  { change (r :: rev (objects ps) ++ s_ext s) with ((r :: rev (objects ps)) ++ s_ext s).
    assert (count j ((r :: rev (objects ps)) ++ s_ext s) = count j (r :: rev (objects ps)) + count j (s_ext s)) as -> by apply count_occ_app.
    assert (In j (r :: rev (objects ps))) as I by (destruct Ij as [<-|Ij]; [left; auto|right; apply in_rev in Ij; exact Ij]).
    assert (count j (r :: rev (objects ps)) > 0) by (apply (count_occ_In Nat.eq_dec); exact I). lia. }
  apply (@C35_referenced G t0 s2 j); [eapply reach_exec; eauto|]. apply sr_anchor, an_ext. assert (count j (s_ext s2) > 0) as P by lia. apply (count_occ_In Nat.eq_dec) in P. exact P.
Qed.

(** ** Cases *)
(** 9: class A; 10: its static method f(A, int), hooked; 11: an object of class A; 12: its method g(), hooked; 13: its native method h. *)
Definition ex_call : list event :=
  [(main, UBind_ 0 true (S_ "A")); (main, UHookMethod_ 9 true f_ (S_ "(LA;I)I") (mkHandle 7 KStatic (RPrim PtI) false)); (main, UNew_ 0 0);
   (main, UHookMethod_ 9 false (S_ "g") v_ (mkHandle 8 KInst RVoid false)); (main, RegisterNatives_ (Some 9) [(S_ "h", S_ "(I)J", Some 3)] 1)].
Example C67_ex_reachable : reachable Gd main (after Gd ex_call) /\ attached (after Gd ex_call) main /\ numbered Gd.
Proof. split; [apply after_reachable; vm_compute; reflexivity|]. split; [eexists; vm_compute; reflexivity|exact Gd_numbered]. Qed.
Example C67_ex_receivers : receiver true (after Gd ex_call) 9 /\ receiver false (after Gd ex_call) 11 /\
  Forall (passable Gd (after Gd ex_call)) [CObj (TUser 0) (Some 11); CNum 5].
Proof.
  assert (denotes (after Gd ex_call) 11 (Some 11)) as D by (eapply den_obj; [vm_compute; reflexivity|vm_compute; discriminate|vm_compute; discriminate]).
  split; [eexists; vm_compute; reflexivity|]. split; [exact D|]. constructor; [|constructor; [exact I|constructor]]. split; [exact D|].
  econstructor; [vm_compute; reflexivity|]. constructor.
Qed.
Example C67_ex_sigs : returns (S_ "(LA;I)I") (RPrim PtI) /\ returns v_ RVoid /\ returns (S_ "(I)[LA;") RObj /\ returns_nothing_known (S_ "(I)x") /\ returns_nothing_known (S_ "()") /\ returns (S_ "Jx") (RPrim PtJ).
Proof.
  assert (forall sig ps c rest T, sig = "(" :: ps ++ ")" :: c :: rest -> ~ In ")" (c :: rest) -> letter c T -> returns sig T) as K.
  { intros sig ps c rest T -> Nn L. exists c, rest. split; auto. split; auto. right. exists ("(" :: ps). reflexivity. }
  split; [apply (K _ (S_ "LA;I") "I" [] _ eq_refl); [vm_compute; intuition discriminate|constructor]|].
  split; [apply (K _ [] "V" [] _ eq_refl); [vm_compute; intuition discriminate|constructor]|].
  split; [apply (K _ (S_ "I") "[" (S_ "LA;") _ eq_refl); [vm_compute; intuition discriminate|constructor]|].
  split; [|split; [|exists "J", (S_ "x"); split; [split; [vm_compute; intuition discriminate|left; reflexivity]|constructor]]]; (split; [discriminate|]).
  - exists (S_ "x"). split; [split; [vm_compute; intuition discriminate|right; exists (S_ "(I"); reflexivity]|]. intros c r T [= <- <-] L. inversion L.
  - exists []. split; [split; [intros []|right; exists (S_ "("); reflexivity]|]. intros c r T [=].
Qed.
Definition of_run (o : option (progress * st)) : option progress := option_map fst o.
Example C67_ex_runs :
  of_run (invoke Gd main true 9 10 [CObj (TUser 0) (Some 11); CNum 5] (after Gd ex_call)) = Some (IHook (RPrim PtI) 7 (Some 9) [ArgL (Some 11); ArgZ 5]) /\
  of_run (invoke Gd main false 11 12 [] (after Gd ex_call)) = Some (IHook RVoid 8 (Some 11) []) /\
  of_run (invoke Gd main true 9 13 [CNum 1] (after Gd ex_call)) = Some (INative 3 (RPrim PtJ) (Some 9) [ArgZ 1]).
Proof. split; [|split]; vm_compute; reflexivity. Qed.
(** What a C++ caller sees of a call of f that returns or throws what [o] says, with the events of [l] before *)
Definition called (l : list event) (o : op) : option (rval + exn) :=
  match invoke Gd main true 9 10 [CObj (TUser 0) (Some 11); CNum 5] (after Gd (ex_call ++ l)) with
  | Some (IHook _ _ _ _, s1) =>
      match step Gd main o s1 with
      | Some (OVal (RVal w), s2) => option_map fst (invoke_end Gd main (held_by 9 [CObj (TUser 0) (Some 11); CNum 5]) w s2)
      | _ => None
      end
  | _ => None
  end.
Example C67_ex_returned : called [] (HookReturn_ (HPrim 42)) = Some (inl (VPrim 42)) /\ called [] (HookThrow_ (UserExn 3)) = Some (inr (UserExn 3)).
Proof. split; vm_compute; reflexivity. Qed.
(** ... only the invocation refers to its argument: after C++ code dropped its own pointer the object still exists while the method runs. *)
Example C67_ex_kept : forall s1 l vs s2, invoke Gd main true 9 10 [CObj (TUser 0) (Some 11); CNum 5] (after Gd ex_call) = Some (IHook (RPrim PtI) 7 (Some 9) [ArgL (Some 11); ArgZ 5], s1) ->
  l = [(main, DeleteLocalRef_ (Some 11)); (main, UDrop_ 11)] -> exec Gd l s1 = Some (vs, s2) -> live s2 11 = true.
Proof.
  intros s1 l vs s2 E -> Ex. destruct C67_ex_reachable as (R & A & N). destruct C67_ex_receivers as (R1 & _ & F). destruct C67_ex_sigs as (S1 & _).
  refine (@C67_kept Gd main main true 9 10 (mkMth f_ (S_ "(LA;I)I") true None (Some (mkHandle 7 KStatic (RPrim PtI) false))) (RPrim PtI) _ _ _ _ _ _ _ 11 R N A R1 _ S1 F E _ Ex _ _).
  - vm_compute. reflexivity.
  - discriminate.
  - vm_compute. constructor.
  - vm_compute. auto.
Qed.
(** "The caller gets the result of the method, or what the method throws" is false: an exception that is already pending is thrown although the
    method returned normally, and it stays pending after C++ code caught it. *)
Theorem C67_refuted : exists l, called l (HookReturn_ (HPrim 42)) = Some (inr (Err (S_ "old"))) /\
  called (l ++ [(main, CallStaticMethodA_ (RPrim PtI) (Some 9) (Some 10) []); (main, HookReturn_ (HPrim 1))]) (HookReturn_ (HPrim 42)) = Some (inr (Err (S_ "old"))).
Proof. exists [(main, ThrowNew_ None (Some (S_ "old")))]. split; vm_compute; reflexivity. Qed.
Print Assumptions C67_call.
Print Assumptions C67_static.
Print Assumptions C67_instance.
Print Assumptions C67_native.
Print Assumptions C67_unsupported.
Print Assumptions C67_end.
Print Assumptions C67_thrown.
Print Assumptions C67_returned.
Print Assumptions C67_stale.
Print Assumptions C67_kept.
Print Assumptions C67_refuted.
