(** References: exact effects of the reference functions. *)
From Verif Require Import Base BaseProofs SigModel VmState VmModel VmStep VmSpec MemSpec CallSpec RefSpec VmBase VmFrame VmWf VmPrim VmInv VmReg
  VmFine VmRegInv VmExact VmQuiet VmClass VmMember VmMember2 VmMember3 VmTables VmHook VmEnvInv VmMemHist VmCall VmCall2 VmThread.
From Coq Require Import ListDec Permutation.
Set Implicit Arguments.
Unset Strict Implicit.
Local Open Scope vm_scope.

(** ** Strong references are what reference counting follows *)
Lemma owns_refs p i : owns p i <-> In i (refs p).
Proof.
  split.
  - destruct 1; simpl; try (apply somes_In; auto); rewrite ?in_app_iff; auto.
  - destruct p; simpl; try tauto; intros H.
    + apply ow_var. apply somes_In. auto.
    + rewrite !in_app_iff in H. destruct H as [H|[H|H]]; [apply ow_inner|apply ow_field|apply ow_method]; auto.
    + destruct H as [->|[]]. constructor.
    + apply ow_elem. apply somes_In. auto.
Qed.
Lemma contents_lookup s k p : contents s k = Some p <-> exists o, lookup s k = Some o /\ o_pay o = p.
Proof.
  unfold contents. destruct (lookup s k) as [o|]; simpl.
  - split; [intros [= <-]; eauto|intros (x & [= <-] & <-); auto].
  - split; [discriminate|intros (x & H & _); discriminate].
Qed.
Lemma owner_refs s k i : owner s k i <-> exists o, lookup s k = Some o /\ In i (refs (o_pay o)).
Proof.
  unfold owner. split.
  - intros (p & H & O). apply contents_lookup in H. destruct H as (o & L & <-). exists o. rewrite <- owns_refs. auto.
  - intros (o & L & H). exists (o_pay o). rewrite contents_lookup, owns_refs. eauto.
Qed.
Section Cfg.
Variable G : cfg.
Lemma is_cls_named s i : is_cls s i = true <-> exists n, class_named s n i.
Proof.
  unfold is_cls, class_named. split.
  - destruct (lookup s i) as [o|] eqn:L; [|discriminate]. destruct (o_pay o) as [| |c| | | | | | | | | ] eqn:P; try discriminate. intros _. exists (c_prefix c), o, c. auto.
  - intros (n & o & c & L & P & _). rewrite L, P. reflexivity.
Qed.
Lemma anchor_root s i : inv G s -> anchor s i -> In i (roots s).
Proof.
  intros I [H|n H|t (f & Hf & H)|t H|t k Hk H|H].
  - apply In_roots. auto.
  - eapply class_root; eauto. apply is_cls_named. eauto.
  - unfold frames in Hf. destruct (get_env s t) as [e|] eqn:E; [|destruct Hf]. eapply local_root; eauto. apply in_concat. eauto.
  - unfold pending in H. destruct (get_env s t) as [e|] eqn:E; [|discriminate]. eapply env_root; eauto. unfold env_roots. rewrite H, !in_app_iff. simpl. auto.
  - unfold running in Hk. destruct (get_env s t) as [e|] eqn:E; [|destruct Hk]. eapply env_root; eauto. unfold env_roots. rewrite !in_app_iff, in_flat_map. eauto 10.
  - apply In_roots. auto 10.
Qed.
Lemma root_anchor s i : wf s -> einv s -> s_tmp s = [] -> In i (roots s) -> anchor s i.
Proof.
  intros W Ei T H. apply In_roots in H. destruct H as [H|[(n & H)|[(x & Hx & H)|[(Ty & H)|[(t & e & He & H)|[H|H]]]]]].
  - apply an_global. auto.
  - pose proof (@wf_classes s W n i H) as K. clear H. rename K into H. apply is_cls_named in H. destruct H. eapply an_class; eauto.
  - pose proof (@wf_nsc s W x i Hx H) as K. clear H. rename K into H. apply is_cls_named in H. destruct H. eapply an_class; eauto.
  - pose proof (@wf_types s W Ty i H) as K. clear H. rename K into H. apply is_cls_named in H. destruct H. eapply an_class; eauto.
  - assert (get_env s t = Some e) as E by (apply (NoDup_aget Nat.eqb Nat.eqb_spec); auto; apply W).
    unfold env_roots in H. rewrite !in_app_iff in H. destruct H as [H|[H|[H|H]]].
    + apply in_concat in H. destruct H as (f & Hf & H). apply (an_local (t := t)). exists f. unfold frames. rewrite E. auto.
    + apply in_concat in H. destruct H as (f & Hf & H). rewrite (ei_free (Ei t e E) Hf) in H. destruct H.
    + apply (an_pending (t := t)). unfold pending. rewrite E. apply opt_list_In. auto.
    + apply in_flat_map in H. destruct H as (k & Hk & H). apply (an_call (t := t) (k := k)); auto. unfold running. rewrite E. auto.
  - apply an_ext. auto.
  - rewrite T in H. destruct H.
Qed.
Lemma strong_reach s i : inv G s -> strong s i -> reach s i.
Proof.
  intros I. induction 1 as [i H|k i _ IH H].
  - apply reach_root. apply anchor_root; auto.
  - apply owner_refs in H. destruct H as (o & L & H). eapply reach_ref; eauto.
Qed.
Lemma reach_strong s i : wf s -> einv s -> s_tmp s = [] -> reach s i -> strong s i.
Proof.
  intros W Ei T. induction 1 as [i H|i k o _ IH L H].
  - apply sr_anchor. apply root_anchor; auto.
  - eapply sr_owner; eauto. apply owner_refs. eauto.
Qed.
Lemma strong_live s i : inv G s -> strong s i -> live s i = true.
Proof. intros I H. apply reach_live; [apply I|]. apply strong_reach; auto. Qed.

(** Everything that exists is referenced, or part of a cycle. *)
Lemma chain_app s i j k : chain_to s i j -> chain_to s j k -> chain_to s i k.
Proof. intros H. induction 1; eapply ch_more; eauto. Qed.
Lemma back_walk s : wf s -> einv s -> tidy s -> forall n i, live s i = true ->
  strong s i \/ exists l, length l = S n /\ (forall k, In k l -> live s k = true) /\ last l 0 = i /\
    forall a b c, l = a ++ b :: c -> forall k, In k c -> chain_to s b k.
Proof.
  intros W Ei [T Ti] n. induction n as [|n IH]; intros i L.
  - right. exists [i]. split; [auto|]. split; [intros k [<-|[]]; auto|]. split; [auto|].
    intros a b c E k Hk. destruct a as [|x a]; [injection E as <- <-; destruct Hk|]. injection E as _ E. destruct a; discriminate.
  - destruct (Ti i L) as [H|[]]. apply In_held in H. destruct H as [H|(k & o & Lk & H)].
    + left. apply sr_anchor. apply root_anchor; auto.
    + assert (owner s k i) as O by (apply owner_refs; eauto). destruct (IH k) as [S'|(l & Ll & Al & La & Ch)].
      { apply live_lookup. eauto. }
      { left. eapply sr_owner; eauto. }
      right. exists (l ++ [i]). rewrite app_length, Ll. split; [simpl; lia|]. split.
      { intros x Hx. apply in_app_iff in Hx. destruct Hx as [Hx|[<-|[]]]; auto. }
      split; [apply last_last|].
      intros a b c E x Hx. destruct c as [|y c _] using rev_ind; [destruct Hx|].
      rewrite app_comm_cons, app_assoc in E. apply app_inj_tail in E. destruct E as [E <-].
      assert (chain_to s b i) as Cb.
      { destruct c as [|z c _] using rev_ind.
        - assert (last l 0 = b) as Lb by (rewrite E; apply last_last). rewrite La in Lb. subst b. apply ch_one. auto.
        - assert (last l 0 = z) as Lz by (rewrite E, app_comm_cons, app_assoc; apply last_last). rewrite La in Lz. subst z.
          eapply ch_more; [|exact O]. apply (Ch a b (c ++ [k]) E). apply in_app_iff. simpl. auto. }
      apply in_app_iff in Hx. destruct Hx as [Hx|[<-|[]]]; [apply (Ch a b c E); auto|exact Cb].
Qed.
Lemma dup_split (l : list oid) : ~ NoDup l -> exists a x b c, l = a ++ x :: b ++ x :: c.
Proof.
  induction l as [|y l IH]; intros H; [destruct H; constructor|].
  destruct (in_dec Nat.eq_dec y l) as [I|I].
  - apply in_split in I. destruct I as (b & c & ->). exists [], y, b, c. auto.
  - destruct IH as (a & x & b & c & ->).
    + intros N. apply H. constructor; auto.
    + exists (y :: a), x, b, c. auto.
Qed.
Lemma tidy_strong s i : wf s -> einv s -> tidy s -> live s i = true -> strong s i \/ cyclic s i.
Proof.
  intros W Ei T L. destruct (@back_walk s W Ei T (length (s_heap s)) i L) as [H|(l & Ll & Al & La & Ch)]; [auto|]. right.
  destruct (dup_split (l := l)) as (a & x & b & c & E).
  - intros N. assert (length l <= length (seq 0 (length (s_heap s)))) as Q.
    { apply NoDup_incl_length; auto. intros k Hk. apply in_seq. pose proof (live_lt _ _ (Al k Hk)). lia. }
    rewrite seq_length in Q. lia.
  - exists x. split.
    + apply (Ch a x (b ++ x :: c)); auto. apply in_app_iff. simpl. auto.
    + destruct c as [|y c _] using rev_ind.
      * left. rewrite <- La, E, app_comm_cons, app_assoc. apply last_last.
      * right. assert (i = y) as ->.
        { rewrite <- La, E. replace (a ++ x :: b ++ x :: c ++ [y]) with ((a ++ x :: b ++ x :: c) ++ [y]); [apply last_last|].
          rewrite <- app_assoc. simpl. rewrite <- app_assoc. reflexivity. }
        apply (Ch (a ++ x :: b) x (c ++ [y])); [rewrite E, <- app_assoc; reflexivity|]. apply in_app_iff. simpl. auto.
Qed.

(** ** Dropping references *)
Definition reg_all (s : st) : Prop := forall c, is_cls s c = true -> exists n, In (n, c) (s_classes s).
Lemma inv_reg_all s : inv G s -> reg_all s.
Proof.
  intros I c H. apply is_cls_of in H. destruct H as (k & H). exists (c_prefix k).
  eapply (aget_In str_eqb str_eqb_spec). apply (r_all (inv_reg I)). auto.
Qed.
Lemma clazz_cls s i o c : wf s -> lookup s i = Some o -> o_clazz o = Some c -> live s c = true -> is_cls s c = true.
Proof.
  intros W L E Lc. pose proof (wf_obj W _ L) as O. unfold obj_ok in O. rewrite andb_true_iff in O. destruct O as [_ O].
  unfold clazz_ok in O. rewrite E, Lc, andb_true_iff in O. tauto.
Qed.
(** objects that survive are intact *)
Lemma collect_intact s s1 i : wf s -> reg_all s -> s_heap s1 = s_heap s -> s_classes s1 = s_classes s ->
  live (collect s1) i = true -> intact s (collect s1) i.
Proof.
  intros W R H C L. apply live_lookup in L. destruct L as (o & L). pose proof (collect_sub _ _ L) as L1. rewrite (lookup_heap (s := s)) in L1 by auto.
  exists o, o. split; [exact L1|]. split; [exact L|]. split; [auto|]. split; [auto|]. intros c. unfold class_ptr. rewrite L1, L.
  destruct (o_clazz o) as [d|] eqn:Ec; [|discriminate]. destruct (live s d) eqn:Ld; [|discriminate]. intros [= <-].
  destruct (R d (clazz_cls W L1 Ec Ld)) as (n & Hn).
  assert (live (collect s1) d = true) as ->; [|reflexivity]. apply live_lookup. apply live_lookup in Ld. destruct Ld as (x & Ld). exists x.
  rewrite collect_reach; [rewrite (lookup_heap (s := s)) by auto; auto|]. apply reach_root. apply In_roots. right. left. exists n. rewrite C. auto.
Qed.
Lemma finish_intact s s1 i : wf s -> reg_all s -> s_heap s1 = s_heap s -> s_classes s1 = s_classes s ->
  live (finish s1) i = true -> intact s (finish s1) i.
Proof. intros W R H C. unfold finish. apply collect_intact; auto. Qed.
Lemma calm_finish t s s1 : calm t s s1 -> calm t s (finish s1).
Proof.
  intros [A B C D E]. constructor; intros; unfold pending, running in *; rewrite ?finish_types_reg, ?finish_env; auto.
Qed.
Lemma frames_finish s t : frames (finish s) t = frames s t.
Proof. unfold frames. rewrite finish_env. reflexivity. Qed.
Lemma released_intro t s s1 fs gl ex : good G s -> inv G (finish s1) -> s_heap s1 = s_heap s -> s_classes s1 = s_classes s ->
  calm t s s1 -> frames s1 t = fs -> s_globals s1 = gl -> s_ext s1 = ex -> released t fs gl ex s (finish s1).
Proof.
  intros Gs I H C K Ff Fg Fx. constructor.
  - rewrite frames_finish. auto.
  - rewrite finish_globals. auto.
  - rewrite finish_ext. auto.
  - apply calm_finish. auto.
  - intros i _ S'. apply finish_intact; auto; [apply (good_wf Gs)|apply inv_reg_all, Gs|]. eapply strong_live; eauto.
  - intros i L. apply finish_live in L. rewrite (live_heap (s := s)) in L by auto. auto.
Qed.
Lemma calm_penv s t e e' : get_env s t = Some e -> e_id e' = e_id e -> e_exc e' = e_exc e -> e_calls e' = e_calls e -> calm t s (penv s t e').
Proof.
  intros E A B C. constructor; auto.
  - intros u N. rewrite get_env_penv. destruct (Nat.eqb_spec t u); congruence.
  - unfold pending. rewrite get_env_penv, Nat.eqb_refl, E. auto.
  - unfold running. rewrite get_env_penv, Nat.eqb_refl, E. auto.
  - rewrite get_env_penv, Nat.eqb_refl, E. simpl. congruence.
Qed.
Lemma calm_refl t s : calm t s s.
Proof. constructor; auto. Qed.
Lemma calm_trans t a b c : calm t a b -> calm t b c -> calm t a c.
Proof.
  intros A B. constructor.
  - intros T. rewrite (cm_types B). apply A.
  - intros u N. rewrite (cm_others B) by auto. apply A; auto.
  - rewrite (cm_pending B). apply A.
  - rewrite (cm_running B). apply A.
  - rewrite (cm_envid B). apply A.
Qed.
Lemma und_calm t s s' : undisturbed t s s' -> calm t s s'.
Proof. intros []. constructor; auto. Qed.
Lemma frames_env s t e : get_env s t = Some e -> frames s t = e_frames e.
Proof. intros E. unfold frames. rewrite E. reflexivity. Qed.

Lemma remove_first_split i a b : ~ In i a -> remove_first i (a ++ i :: b) = a ++ b.
Proof.
  intros N. induction a as [|x a IH]; simpl; [rewrite Nat.eqb_refl; auto|].
  destruct (Nat.eqb_spec x i); [destruct N; simpl; auto|]. f_equal. apply IH. intros H. apply N. simpl. auto.
Qed.
Lemma In_first_split (i : oid) l : In i l -> exists a b, l = a ++ i :: b /\ ~ In i a.
Proof.
  induction l as [|x l IH]; [intros []|]. intros H. destruct (Nat.eq_dec x i) as [->|N].
  - exists [], l. auto.
  - destruct IH as (a & b & -> & Na); [destruct H; congruence|]. exists (x :: a), b. split; auto. intros [|]; auto.
Qed.
Lemma remove_first_none i l : ~ In i l -> remove_first i l = l.
Proof. induction l as [|x l IH]; simpl; auto. intros N. destruct (Nat.eqb_spec x i); [tauto|]. f_equal. apply IH. tauto. Qed.
Lemma remove_first_removed i l : removed i l (remove_first i l).
Proof.
  destruct (in_dec Nat.eq_dec i l) as [H|H].
  - destruct (In_first_split H) as (a & b & -> & N). rewrite remove_first_split by auto. apply rm_here. auto.
  - rewrite remove_first_none by auto. apply rm_none. auto.
Qed.
Lemma del_frames_deleted i fs : deleted i fs (del_frames i fs).
Proof.
  induction fs as [|f r IH]; simpl; [constructor|]. destruct (memb i f) eqn:M.
  - apply memb_In in M. destruct (In_first_split M) as (a & b & -> & N). rewrite remove_first_split by auto. apply dl_here. auto.
  - apply memb_false in M. apply dl_later; auto.
Qed.
Lemma deleted_fun i fs a b : deleted i fs a -> deleted i fs b -> a = b.
Proof.
  intros D. revert b. induction D as [x y r N|f r r' N D IH|]; intros b E; inversion E; subst.
  - rewrite <- (remove_first_split (i := i) y N), <- (remove_first_split (i := i) b0) by auto. congruence.
  - exfalso. apply H1. apply in_app_iff. simpl. auto.
  - exfalso. apply N. apply in_app_iff. simpl. auto.
  - f_equal. auto.
  - auto.
Qed.

(** ** DeleteLocalRef *)
Lemma del_frames_In i j fs : In j (concat (del_frames i fs)) -> In j (concat fs).
Proof.
  induction fs as [|f r IH]; simpl; auto. destruct (memb i f); simpl; rewrite !in_app_iff; intuition eauto using remove_first_In.
Qed.
Lemma del_frames_nil i fs : fs <> [] -> del_frames i fs <> [].
Proof. destruct fs; simpl; auto. destruct (memb i l); discriminate. Qed.
Lemma env_frames_ok s t e fs : wf s -> get_env s t = Some e -> (forall i, In i (concat fs) -> live s i = true) -> env_ok s (env_frames e fs) = true.
Proof.
  intros W E H. apply env_ok_intro.
  - intros i Hi. unfold env_roots in Hi. simpl in Hi. rewrite !in_app_iff in Hi. destruct Hi as [Hi|Hi]; auto.
    eapply env_live; eauto. unfold env_roots. rewrite !in_app_iff. auto.
  - intros i Hi. eapply env_exc_throw; eauto.
Qed.
Lemma frames_live s t e i : wf s -> get_env s t = Some e -> In i (concat (e_frames e)) -> live s i = true.
Proof. intros W E H. eapply env_live; eauto. unfold env_roots. rewrite !in_app_iff. auto. Qed.
Theorem DeleteLocalRef_step t h r s : good G s -> attached s t -> denotes_opt s h r ->
  exists s', step G t (DeleteLocalRef_ h) s = Some (OVal RUnit, s') /\ good G s' /\
    match r with
    | None => s' = s
    | Some i => exists fs, deleted i (frames s t) fs /\ released t fs (s_globals s) (s_ext s) s s'
    end.
Proof.
  intros Gs A D. pose proof (good_wf Gs) as W. destruct A as (e & E). assert (attached s t) as A by (exists e; auto).
  destruct r as [i|].
  - set (e' := env_frames e (del_frames i (e_frames e))). set (s1 := penv s t e').
    assert (step G t (DeleteLocalRef_ h) s = Some (OVal RUnit, finish s1)) as St.
    { unfold step. rewrite run_attached by auto. simpl. unfold as_unit, bind at 1, DeleteLocalRef, bind at 1. rewrite (jnicast_obj G W D).
      unfold frame_del, upd_env, bind at 1, the_env. rewrite E. rewrite put_env_eq; [reflexivity|]. apply (env_frames_ok W E).
      intros j Hj. eapply frames_live; eauto. eapply del_frames_In; eauto. }
    exists (finish s1). split; [exact St|]. assert (good G (finish s1)) as G1 by (eapply step_good; eauto). split; [exact G1|].
    exists (del_frames i (frames s t)). split; [apply del_frames_deleted|]. apply released_intro; auto; [apply G1| |].
    + apply (calm_penv E); auto.
    + unfold s1. rewrite frames_penv. unfold e'. simpl. unfold frames. rewrite E. reflexivity.
  - exists s. split; [|auto]. unfold step. rewrite run_attached by auto. simpl. unfold as_unit, bind at 1, DeleteLocalRef, bind at 1.
    rewrite (jnicast_obj G W D). simpl. rewrite (tidy_finish_id (g_tidy Gs)). reflexivity.
Qed.

(** ** PushLocalFrame, PopLocalFrame *)
Lemma step_frames t o s e e' v : good G s -> get_env s t = Some e -> body G t o s = v (penv s t e') ->
  e_id e' = e_id e -> e_exc e' = e_exc e -> e_calls e' = e_calls e ->
  (forall i, In i (env_roots e) -> In i (env_roots e')) ->
  (exists r, v = Ret r) \/ (exists r, v = Thr r) ->
  exists w s', step G t o s = Some (w, s') /\ v (penv s t e') = match w with OVal x => Ret x s' | OExn x => Thr x s' end /\ good G s' /\
    gained t (e_frames e') (s_globals s) (s_ext s) s s' /\ forall i, live s' i = live s i.
Proof.
  intros Gs E B I1 I2 I3 R V. pose proof (good_wf Gs) as W. assert (attached s t) as A by (exists e; auto).
  assert (finish (penv s t e') = penv s t e') as F by (apply tidy_finish_id; apply (tidy_env W E R); apply Gs).
  assert (gained t (e_frames e') (s_globals s) (s_ext s) s (penv s t e')) as Gn.
  { constructor; auto; [apply frames_penv|apply (calm_penv E); auto|]. intros i L. apply intact_heap; auto. }
  destruct V as [(r & ->)|(r & ->)]; [exists (OVal r)|exists (OExn r)]; exists (penv s t e').
  - assert (step G t o s = Some (OVal r, penv s t e')) as St by (unfold step; rewrite run_attached, B, F by auto; reflexivity).
    split; [exact St|]. split; [reflexivity|]. split; [eapply step_good; eauto|]. auto.
  - assert (step G t o s = Some (OExn r, penv s t e')) as St by (unfold step; rewrite run_attached, B, F by auto; reflexivity).
    split; [exact St|]. split; [reflexivity|]. split; [eapply step_good; eauto|]. auto.
Qed.
Theorem PushLocalFrame_step t cap s : solid G s -> attached s t ->
  exists s', step G t (PushLocalFrame_ cap) s = Some (if (cap <? 0)%Z then OExn (Err (S_ "vector::reserve")) else OVal (RInt 0), s') /\
    good G s' /\ gained t ([] :: frames s t) (s_globals s) (s_ext s) s s' /\ forall i, live s' i = live s i.
Proof.
  intros So (e & E). pose proof (so_good So) as Gs. pose proof (good_wf Gs) as W.
  set (e' := match e_free e with [] => env_frames e ([] :: e_frames e) | f :: r => env_free (env_frames e (f :: e_frames e)) r end).
  assert (e_frames e' = [] :: e_frames e /\ e_id e' = e_id e /\ e_exc e' = e_exc e /\ e_calls e' = e_calls e /\ forall i, In i (env_roots e) <-> In i (env_roots e')) as (Ef & I1 & I2 & I3 & R).
  { unfold e', env_roots. destruct (e_free e) as [|f r] eqn:Fr; simpl; (split; [|split; [|split; [|split]]]); auto; try (intros i; rewrite ?Fr; simpl; tauto).
    2: assert (f = []) as -> by (apply (ei_free (so_env So E)); rewrite Fr; simpl; auto); intros i; rewrite ?Fr; simpl; tauto.
    assert (f = []) as -> by (apply (ei_free (so_env So E)); rewrite Fr; simpl; auto). reflexivity. }
  assert (frame_push t s = Ret tt (penv s t e')) as Fp.
  { unfold frame_push, upd_env, bind at 1, the_env. rewrite E. apply put_env_eq. apply env_ok_intro.
    - intros i Hi. eapply env_live; eauto. apply R. auto.
    - intros i. fold e'. rewrite I2. intros Hi. eapply env_exc_throw; eauto. }
  assert (body G t (PushLocalFrame_ cap) s = (if (cap <? 0)%Z then Thr (Err (S_ "vector::reserve")) else Ret (RInt 0)) (penv s t e')) as B.
  { simpl. unfold as_int, bind at 1, PushLocalFrame, bind at 1. rewrite Fp. destruct (cap <? 0)%Z; reflexivity. }
  destruct (step_frames Gs E B I1 I2 I3) as (w & s' & St & V & G' & Gn & Lv).
  - intros i. apply R.
  - destruct (cap <? 0)%Z; eauto.
  - exists s'. rewrite Ef in Gn. rewrite (frames_env E). split; [|auto].
    rewrite St. destruct (cap <? 0)%Z; destruct w; inversion V; subst; reflexivity.
Qed.

Lemma below_frames f r : below (f :: r) = match r with [] => [[]] | _ => r end.
Proof. destruct r; reflexivity. Qed.
Definition unframed (e : env) (r : list (list oid)) : env :=
  env_free (env_frames e (match r with [] => [[]] | _ => r end)) ([] :: e_free e).
Lemma unframed_roots e f r i : e_frames e = f :: r -> In i (env_roots (unframed e r)) -> In i (env_roots e).
Proof.
  intros E. unfold env_roots, unframed. rewrite E. simpl. rewrite !in_app_iff. destruct r; simpl; rewrite ?in_app_iff; tauto.
Qed.
Lemma unframed_ok s t e f r : wf s -> get_env s t = Some e -> e_frames e = f :: r -> env_ok s (unframed e r) = true.
Proof.
  intros W E Ef. apply env_ok_intro.
  - intros i Hi. eapply env_live; eauto. eapply unframed_roots; eauto.
  - intros i Hi. eapply env_exc_throw; eauto.
Qed.
Lemma frame_pop_eq s t e f r : wf s -> get_env s t = Some e -> e_frames e = f :: r -> frame_pop t s = Ret tt (collect (penv s t (unframed e r))).
Proof.
  intros W E Ef. unfold frame_pop, bind at 1. unfold bind at 1, the_env. rewrite E, Ef. fold (unframed e r).
  rewrite put_env_eq by (eapply unframed_ok; eauto). reflexivity.
Qed.
Lemma unframed_wf s t e f r : wf s -> get_env s t = Some e -> e_frames e = f :: r -> wf (penv s t (unframed e r)).
Proof.
  intros W E Ef. eapply penv_wf; eauto; [eapply unframed_ok; eauto|]. unfold unframed. simpl. destruct r; discriminate.
Qed.
Lemma with_tmp_same s : s_tmp s = [] -> with_tmp s [] = s.
Proof. destruct s. simpl. intros ->. reflexivity. Qed.
Lemma collect_same_env s t : get_env (collect s) t = get_env s t.
Proof. unfold get_env. pose proof (collect_same s) as (_ & _ & _ & _ & H & _). rewrite H. reflexivity. Qed.
Lemma calm_same t s s' : s_types s' = s_types s -> s_envs s' = s_envs s -> calm t s s'.
Proof.
  intros A B. assert (forall u, get_env s' u = get_env s u) as H by (intros; unfold get_env; rewrite B; auto).
  constructor; intros; unfold registered, get_type, pending, running; rewrite ?A, ?H; auto.
Qed.
Lemma intact_collect_trans s s2 s3 i : undisturbed 0 s2 s3 -> intact s s2 i -> intact s s3 i.
Proof. intros U I. eapply intact_trans; [exact I|]. apply (u_obj U). eapply intact_live; eauto. Qed.

Theorem PopLocalFrame_step t h r s : good G s -> attached s t -> denotes_opt s h r ->
  exists s', good G s' /\
    match r with
    | None => step G t (PopLocalFrame_ h) s = Some (OVal (RRef h), s') /\ released t (below (frames s t)) (s_globals s) (s_ext s) s s'
    | Some j => step G t (PopLocalFrame_ h) s = Some (OVal (RRef (Some j)), s') /\
        released t (add_local (below (frames s t)) j) (s_globals s) (s_ext s) s s' /\
        class_ptr s' j = match class_ptr s j with Some c => Some c | None => registered s TObject end
    end.
Proof.
  intros Gs (e & E) D. pose proof (good_wf Gs) as W. assert (attached s t) as A by (exists e; auto).
  destruct (e_frames e) as [|f r0] eqn:Ef; [destruct (wf_env_ok W E) as (_ & N & _); congruence|].
  assert (below (frames s t) = e_frames (unframed e r0)) as Eo by (rewrite (frames_env E), Ef, below_frames; reflexivity).
  destruct r as [j|].
  - assert (live s j = true) as Lj by (destruct h; [|discriminate]; simpl in D; eapply denotes_target_live; eauto).
    set (x := with_tmp s [j]). assert (wf x) as Wx by (apply wf_tmp_only; auto; intros i [<-|[]]; auto).
    assert (get_env x t = Some e) as Ex by exact E.
    set (s1 := penv x t (unframed e r0)). assert (wf s1) as W1 by (apply (unframed_wf Wx Ex Ef)).
    set (s2 := collect s1). assert (wf s2) as W2 by (apply collect_wf; auto).
    assert (get_env s2 t = Some (unframed e r0)) as E2 by (unfold s2; rewrite collect_same_env; unfold s1; rewrite get_env_penv, Nat.eqb_refl; reflexivity).
    assert (attached s2 t) as A2 by (eexists; eauto).
    assert (lookup s2 j = lookup s j) as Lk2.
    { unfold s2. rewrite collect_reach; [reflexivity|]. apply reach_root. apply In_roots. right. right. right. right. right. right. simpl. auto. }
    assert (live s2 j = true) as Lj2 by (unfold live in *; rewrite Lk2; auto).
    set (s3 := pushed (ensured s2 TObject j) t j). assert (wf s3) as W3 by (apply to_jni_wf; auto).
    assert (step G t (PopLocalFrame_ h) s = Some (OVal (RRef (Some j)), finish s3)) as St.
    { unfold step. rewrite run_attached by auto. simpl. unfold as_ref, bind at 1, PopLocalFrame, bind at 1. rewrite (jnicast_obj G W D).
      unfold bind at 1. unfold set_tmp, bind at 1, live_all, check. simpl. rewrite Lj. simpl.
      unfold bind at 1. fold x. rewrite (frame_pop_eq Wx Ex Ef). fold s1 s2. rewrite to_jni_eq by auto. reflexivity. }
    assert (good G (finish s3)) as G' by (eapply step_good; eauto). exists (finish s3). split; [exact G'|]. split; [exact St|].
    assert (undisturbed t s2 s3) as U by (eapply undisturbed_trans; [apply ensured_undisturbed|apply pushed_undisturbed]).
    pose proof (collect_same s1) as (Sg & Sc & Sn & St' & Se & Sne & Sx & Stmp & _). fold s2 in Sg, Sc, Sn, St', Se, Sne, Sx, Stmp.
    assert (reg_all s) as Ra by (apply inv_reg_all, Gs).
    assert (s_classes s3 = s_classes s) as C3.
    { unfold s3, pushed. assert (s_classes (ensured s2 TObject j) = s_classes s2) as Q.
      { unfold ensured. destruct (lookup s2 j); auto. destruct (o_clazz o); auto. destruct (live s2 o0); auto. }
      rewrite ensured_env, E2. destruct (e_frames (unframed e r0)); simpl; rewrite Q, <- Sc; reflexivity. }
    assert (forall i, live s3 i = live s2 i) as L3 by (intros i; unfold s3; rewrite pushed_live; apply ensured_live_eq).
    assert (forall i, live s2 i = true -> intact s s2 i) as I2 by (intros i L; apply collect_intact; auto).
    assert (reg_all s3) as Ra3.
    { intros c Hc. rewrite C3. apply Ra. assert (live s2 c = true) as Lc by (rewrite <- L3; apply is_cls_live; auto).
      destruct (I2 c Lc) as (o & o' & A1 & A2' & A3 & _). destruct (u_obj U Lc) as (p & p' & B1 & B2 & B3 & _).
      assert (p = o') as -> by congruence.
      unfold is_cls in *. rewrite A1. rewrite B2 in Hc. destruct (o_pay p'); try discriminate. destruct (o_pay o'); try discriminate. destruct (o_pay o); try discriminate. auto. }
    assert (forall i, live (finish s3) i = true -> intact s (finish s3) i) as If.
    { intros i L. assert (live s2 i = true) as L2 by (rewrite <- L3; apply finish_live; auto).
      eapply intact_trans; [apply (I2 i L2)|]. eapply intact_trans; [apply (u_obj U L2)|]. apply finish_intact; auto. }
    assert (calm t s s3) as K.
    { eapply calm_trans; [|apply und_calm; exact U]. eapply calm_trans; [|apply (@calm_same t s1 s2); auto].
      eapply calm_trans; [|apply (calm_penv Ex); auto]. apply calm_same; auto. }
    assert (In j (roots (with_tmp s3 []))) as Rj.
    { assert (exists e3, get_env s3 t = Some e3 /\ In j (concat (e_frames e3))) as (e3 & Q1 & Q2).
      { unfold s3. rewrite get_env_pushed, Nat.eqb_refl, ensured_env, E2. destruct (e_frames (unframed e r0)) as [|f1 r1] eqn:Eu.
        - unfold unframed in Eu. simpl in Eu. destruct r0; discriminate.
        - eexists. split; [reflexivity|]. simpl. rewrite !in_app_iff. simpl. auto. }
      eapply (local_root (t := t)); [exact Q1|exact Q2]. }
    split.
    + constructor.
      * rewrite frames_finish. unfold s3. rewrite frames_pushed, frames_ensured. f_equal. unfold frames at 1. rewrite E2. auto.
      * rewrite finish_globals, (u_globals U), <- Sg. reflexivity.
      * rewrite finish_ext, (u_ext U), <- Sx. reflexivity.
      * apply calm_finish. auto.
      * intros i _ S'. apply If. eapply strong_live; eauto. apply G'.
      * intros i L. apply finish_live in L. rewrite L3 in L. apply I2 in L. destruct L as (o & _ & L & _). apply live_lookup. eauto.
    + assert (class_ptr (finish s3) j = class_ptr s3 j) as ->.
      { assert (lookup (finish s3) j = lookup s3 j) as Q by (apply finish_lookup; auto). unfold class_ptr. rewrite Q. destruct (lookup s3 j) as [o|] eqn:Lo; auto. destruct (o_clazz o) as [c|] eqn:Oc; auto.
        destruct (live s3 c) eqn:Lc.
        - destruct (Ra3 c (clazz_cls W3 Lo Oc Lc)) as (n & Hn). assert (lookup (finish s3) c = lookup s3 c) as Qc by (apply finish_lookup; auto; apply In_roots; right; left; eauto).
          unfold live in *. rewrite Qc, Lc. auto.
        - destruct (live (finish s3) c) eqn:Lf; auto. apply finish_live in Lf. congruence. }
      assert (class_ptr s3 j = match class_ptr s2 j with Some c => Some c | None => registered s2 TObject end) as -> by (apply given_class_ptr; auto).
      assert (registered s2 TObject = registered s TObject) as -> by (unfold registered, get_type; rewrite <- St'; reflexivity).
      assert (class_ptr s2 j = class_ptr s j) as ->; [|reflexivity].
      unfold class_ptr. rewrite Lk2. destruct (lookup s j) as [o|] eqn:Lo; auto. destruct (o_clazz o) as [c|] eqn:Oc; auto.
      destruct (live s c) eqn:Lc.
      * destruct (Ra c (clazz_cls W Lo Oc Lc)) as (n & Hn). assert (live s2 c = true) as ->; auto.
        unfold live in *. unfold s2. rewrite collect_reach; [exact Lc|]. apply reach_root. apply In_roots. right. left. exists n. exact Hn.
      * destruct (live s2 c) eqn:Lf; auto. destruct (I2 c Lf) as (o' & _ & L' & _). unfold live in Lc. rewrite L' in Lc. discriminate.
  - set (s1 := penv s t (unframed e r0)). assert (with_tmp s [] = s) as Tm by (apply with_tmp_same; apply Gs).
    assert (collect s1 = finish s1) as Fc by (unfold finish; rewrite with_tmp_same; auto; apply Gs).
    assert (step G t (PopLocalFrame_ h) s = Some (OVal (RRef h), finish s1)) as St.
    { unfold step. rewrite run_attached by auto. simpl. unfold as_ref, bind at 1, PopLocalFrame, bind at 1. rewrite (jnicast_obj G W D).
      unfold bind at 1. unfold set_tmp, bind at 1, live_all, check. simpl. unfold bind at 1. rewrite Tm.
      rewrite (frame_pop_eq W E Ef). fold s1. rewrite Fc. unfold ret. rewrite (tidy_finish_id (finish_tidy s1)). reflexivity. }
    assert (good G (finish s1)) as G' by (eapply step_good; eauto). exists (finish s1). split; [exact G'|]. split; [exact St|].
    apply released_intro; auto; [apply G'|apply (calm_penv E); auto|]. unfold s1. rewrite frames_penv. auto.
Qed.

(** ** NewLocalRef and the read-only functions *)
Lemma step_read t o s v : good G s -> attached s t -> body G t o s = Ret v s -> step G t o s = Some (OVal v, s).
Proof. intros Gs A B. unfold step. rewrite run_attached, B by auto. rewrite (tidy_finish_id (g_tidy Gs)). reflexivity. Qed.
Lemma pushed_gained s t i : wf s -> attached s t -> gained t (add_local (frames s t) i) (s_globals s) (s_ext s) s (pushed s t i).
Proof.
  intros W A. pose proof (pushed_undisturbed s t i) as U. constructor; [apply frames_pushed|apply U|apply U|apply und_calm; auto|apply (u_obj U)].
Qed.
Theorem NewLocalRef_step t h r s : good G s -> attached s t -> denotes_opt s h r ->
  exists s', step G t (NewLocalRef_ h) s = Some (OVal (RRef r), s') /\ good G s' /\
    match r with
    | None => s' = s
    | Some i => gained t (add_local (frames s t) i) (s_globals s) (s_ext s) s s' /\ forall k, live s' k = live s k
    end.
Proof.
  intros Gs A D. pose proof (good_wf Gs) as W. destruct r as [i|].
  - assert (live s i = true) as L by (destruct h; [|discriminate]; simpl in D; eapply denotes_target_live; eauto).
    assert (finish (pushed s t i) = pushed s t i) as F.
    { apply tidy_finish_id. eapply tidy_weaken; [|apply (tidy_pushed i W A (g_tidy Gs))]. simpl. tauto. }
    assert (step G t (NewLocalRef_ h) s = Some (OVal (RRef (Some i)), pushed s t i)) as St.
    { unfold step. rewrite run_attached by auto. simpl. unfold as_ref, bind at 1, NewLocalRef, bind at 1. rewrite (jnicast_obj G W D).
      unfold bind at 1. rewrite push_eq by auto. simpl. rewrite F. reflexivity. }
    exists (pushed s t i). split; [exact St|]. split; [eapply step_good; eauto|]. split; [apply pushed_gained; auto|]. intros k. apply pushed_live.
  - exists s. split; [|auto]. apply step_read; auto. simpl. unfold as_ref, bind at 1, NewLocalRef, bind at 1. rewrite (jnicast_obj G W D). reflexivity.
Qed.
Theorem EnsureLocalCapacity_step t cap s : good G s -> attached s t ->
  step G t (EnsureLocalCapacity_ cap) s = Some (if (cap <? 0)%Z then OExn (Err (S_ "vector::reserve")) else OVal (RInt 0), s).
Proof.
  intros Gs (e & E). pose proof (good_wf Gs) as W. assert (attached s t) as A by (exists e; auto). unfold step. rewrite run_attached by auto. simpl. unfold as_int, bind at 1, EnsureLocalCapacity, bind at 1, the_env. rewrite E.
  destruct (e_frames e) eqn:Ef; [destruct (wf_env_ok W E) as (_ & N & _); congruence|]. destruct (cap <? 0)%Z; simpl; rewrite (tidy_finish_id (g_tidy Gs)); reflexivity.
Qed.
Lemma opt_eqb_spec a b : reflect (a = b) (opt_eqb a b).
Proof. destruct a, b; simpl; try (constructor; congruence). destruct (Nat.eqb_spec o o0); constructor; congruence. Qed.
Theorem IsSameObject_step t a b x y s : good G s -> attached s t -> denotes_opt s a x -> denotes_opt s b y ->
  exists r, step G t (IsSameObject_ a b) s = Some (OVal (RBool r), s) /\ (r = true <-> x = y).
Proof.
  intros Gs A D1 D2. pose proof (good_wf Gs) as W. exists (opt_eqb x y). split; [|destruct (opt_eqb_spec x y); split; congruence].
  apply step_read; auto. simpl. unfold as_bool, bind at 1, IsSameObject. destruct (opt_eqb_spec a b) as [->|N].
  - assert (x = y) as ->; [|destruct (opt_eqb_spec y y); [reflexivity|congruence]]. destruct b; simpl in *; [eapply denotes_fun; eauto|congruence].
  - unfold bind at 1. rewrite (jnicast_obj G W D1). unfold bind at 1. rewrite (jnicast_obj G W D2). reflexivity.
Qed.
Theorem IsSameObject_same t a s : good G s -> attached s t -> step G t (IsSameObject_ a a) s = Some (OVal (RBool true), s).
Proof. intros Gs A. apply step_read; auto. simpl. unfold as_bool, bind at 1, IsSameObject. destruct (opt_eqb_spec a a); [reflexivity|congruence]. Qed.
Theorem GetObjectRefType_step t h s : good G s -> attached s t -> (forall i, h = Some i -> live s i = true) ->
  exists r, step G t (GetObjectRefType_ h) s = Some (OVal (RRefType r), s) /\
    match h with
    | None => r = RefInvalid
    | Some i => match contents s i with Some (PWeak _) => r = RefWeak | Some (PGlobal _) => r = RefGlobal | _ => r = RefLocal end
    end.
Proof.
  intros Gs A L. destruct h as [i|].
  - specialize (L i eq_refl). apply live_lookup in L. destruct L as (o & L). unfold contents. rewrite L. simpl.
    eexists. split.
    + apply step_read; auto. simpl. unfold bind at 1, GetObjectRefType, bind, deref. rewrite L.
      instantiate (1 := match o_pay o with PWeak _ => RefWeak | PGlobal _ => RefGlobal | _ => RefLocal end). destruct (o_pay o); reflexivity.
    + destruct (o_pay o); reflexivity.
  - exists RefInvalid. split; [|auto]. apply step_read; auto.
Qed.

(** ** Global references *)
Lemma find_kept n s : good G s -> exists r s1, find_class G false n s = Ret (Some r) s1 /\ inv G s1 /\ quiet s s1 /\ kept s s1 /\ tidy s1 /\
  get_class s1 n = Some r.
Proof.
  intros Gs. destruct (@find_class_spec G false n s (g_inv Gs)) as (r & s1 & E & I1 & Q & K & R & _ & B). destruct (B eq_refl) as [N _].
  destruct r as [r|]; [|congruence]. exists r, s1. split; [exact E|]. split; [exact I1|]. split; [exact Q|]. split; [exact K|]. split; [|auto]. apply (@tidy_quiet _ G s s1 (g_inv Gs) I1 K Q). apply Gs.
Qed.
Definition handle_made (t : tid) (g : oid) (p : pay) (s s' : st) : Prop :=
  length (s_heap s) <= g /\ contents s' g = Some p /\
  gained t (frames s t) (s_globals s ++ [g]) (s_ext s) s s' /\
  forall i, live s' i = true -> live s i = true \/ i = g \/ is_cls s' i = true.
Lemma quiet_new s s1 i : quiet s s1 -> live s1 i = true -> live s i = true \/ is_cls s1 i = true.
Proof.
  intros Q L. destruct (live s i) eqn:Li; auto. right. apply live_lookup in L. destruct L as (o & L).
  destruct (Nat.lt_ge_cases i (length (s_heap s))) as [Lt|Ge].
  - rewrite (q_dead Q Lt) in L; [discriminate|]. unfold live in Li. destruct (lookup s i); [discriminate|auto].
  - destruct (q_new Q Ge L) as (_ & _ & n & p & l & P). unfold is_cls. rewrite L, P. reflexivity.
Qed.
Lemma new_handle_step t o h i n (w : oid -> pay) s : good G s -> attached s t -> denotes_opt s h (Some i) ->
  (forall j s0, live s0 j = true -> pay_ok s0 (w j) = true) ->
  body G t o s = (c <- find_class G false n ;; g <- alloc (new_obj c (w i)) ;; add_global g ;;; ret (RRef (Some g))) s ->
  exists g s', step G t o s = Some (OVal (RRef (Some g)), s') /\ good G s' /\ handle_made t g (w i) s s'.
Proof.
  intros Gs A D Hp B. pose proof (good_wf Gs) as W.
  assert (live s i = true) as L by (destruct h; [|discriminate]; simpl in D; eapply denotes_target_live; eauto).
  destruct (find_kept n Gs) as (c & s1 & Ef & I1 & Q & K & T1 & Gc). pose proof (inv_wf I1) as W1.
  assert (live s1 i = true) as L1 by (eapply quiet_live; eauto).
  assert (is_cls s1 c = true) as Cc.
  { eapply (wf_classes W1 n). apply (aget_In str_eqb str_eqb_spec). exact Gc. }
  set (x := new_obj (Some c) (w i)). assert (obj_ok s1 x = true) as Ox.
  { unfold obj_ok, x. simpl. rewrite Hp by auto. simpl. rewrite (is_cls_live _ _ Cc), Cc, andb_true_r. apply Nat.ltb_lt. apply live_lt. apply is_cls_live. auto. }
  set (s2 := add s1 x). assert (wf s2) as W2 by (apply add_wf; auto). set (g := length (s_heap s1)).
  assert (lookup s2 g = Some x) as Lg by apply lookup_add_new.
  assert (live s2 g = true) as Lvg by (apply live_lookup; eauto).
  set (s3 := with_globals s2 (s_globals s2 ++ [g])).
  assert (tidy s3) as T3.
  { eapply tidy_weaken; [|apply (@tidy_gadd (fun j => False \/ j = g)); apply tidy_add; exact T1]. simpl. unfold g. intros j [[[]|Q1] N]; subst. congruence. }
  assert (step G t o s = Some (OVal (RRef (Some g)), s3)) as St.
  { unfold step. rewrite run_attached by auto. rewrite B. unfold bind at 1. rewrite Ef. unfold bind at 1. rewrite alloc_eq by exact Ox. fold x s2 g.
    unfold bind at 1. unfold add_global, bind at 1, live_all, check. cbn [forallb]. rewrite Lvg.
    change (Some (OVal (RRef (Some g)), finish s3) = Some (OVal (RRef (Some g)), s3)). rewrite (tidy_finish_id T3). reflexivity. }
  exists g, s3. split; [exact St|]. split; [eapply step_good; eauto|].
  assert (undisturbed t s s2) as U by (eapply undisturbed_trans; [apply quiet_undisturbed; exact Q|apply add_undisturbed]).
  split; [|split; [|split]].
  - apply (q_len Q).
  - unfold contents. change (lookup s3 g) with (lookup s2 g). rewrite Lg. reflexivity.
  - constructor.
    + change (frames s3 t) with (frames s2 t). unfold frames. change (get_env s2 t) with (get_env s1 t). rewrite (quiet_env t Q). reflexivity.
    + simpl. rewrite (q_globals Q). reflexivity.
    + change (s_ext s3) with (s_ext s2). apply U.
    + eapply calm_trans; [apply und_calm; exact U|]. apply calm_same; reflexivity.
    + intros k Lk. eapply intact_trans; [apply (u_obj U Lk)|]. apply intact_heap; [reflexivity|]. eapply intact_live. apply (u_obj U Lk).
  - intros k Lk. change (live s2 k = true) in Lk. apply live_add in Lk. destruct Lk as [Lk|Lk]; auto.
    destruct (quiet_new Q Lk) as [H|H]; auto. right. right. change (is_cls s2 k = true). unfold is_cls in *. unfold s2. rewrite lookup_add_old; auto. eapply live_lt; eauto.
Qed.

Theorem NewGlobalRef_step t h r s : good G s -> attached s t -> denotes_opt s h r ->
  match r with
  | None => step G t (NewGlobalRef_ h) s = Some (OVal (RRef None), s)
  | Some i => exists g s', step G t (NewGlobalRef_ h) s = Some (OVal (RRef (Some g)), s') /\ good G s' /\ handle_made t g (PGlobal i) s s'
  end.
Proof.
  intros Gs A D. pose proof (good_wf Gs) as W. destruct r as [i|].
  - apply (@new_handle_step t (NewGlobalRef_ h) h i (S_ "internal/lang/Global") PGlobal s); auto.
    + intros j s0 L. simpl. rewrite L. reflexivity.
    + cbn [body]. unfold as_ref, NewGlobalRef. unfold bind at 1. unfold bind at 1. rewrite (jnicast_obj G W D). unfold bind.
      destruct (find_class G false (S_ "internal/lang/Global") s); auto. destruct (alloc _ _); auto. destruct (add_global _ _); auto.
  - apply step_read; auto. cbn [body]. unfold as_ref, NewGlobalRef. unfold bind at 1. unfold bind at 1. rewrite (jnicast_obj G W D). reflexivity.
Qed.
Theorem NewWeakGlobalRef_step t h r s : good G s -> attached s t -> denotes_opt s h r ->
  match r with
  | None => step G t (NewWeakGlobalRef_ h) s = Some (OVal (RRef None), s)
  | Some i => exists g s', step G t (NewWeakGlobalRef_ h) s = Some (OVal (RRef (Some g)), s') /\ good G s' /\ handle_made t g (PWeak i) s s'
  end.
Proof.
  intros Gs A D. pose proof (good_wf Gs) as W. destruct r as [i|].
  - apply (@new_handle_step t (NewWeakGlobalRef_ h) h i (S_ "java/lang/ref/WeakReference") PWeak s); auto.
    + intros j s0 L. simpl. apply Nat.ltb_lt. eapply live_lt; eauto.
    + cbn [body]. unfold as_ref, NewWeakGlobalRef. unfold bind at 1. unfold bind at 1. rewrite (jnicast_obj G W D). unfold bind.
      destruct (find_class G false (S_ "java/lang/ref/WeakReference") s); auto. destruct (alloc _ _); auto. destruct (add_global _ _); auto.
  - apply step_read; auto. cbn [body]. unfold as_ref, NewWeakGlobalRef. unfold bind at 1. unfold bind at 1. rewrite (jnicast_obj G W D). reflexivity.
Qed.

(** Deleting a global reference: the handle must be of the right kind, otherwise there is a C++ exception. *)
Definition del_kind (weak : bool) (p : pay) : bool :=
  match p with PWeak _ => weak | PGlobal _ => negb weak | _ => false end.
Definition del_op (weak : bool) (h : option oid) : op := if weak then DeleteWeakGlobalRef_ h else DeleteGlobalRef_ h.
Theorem del_global_step (weak : bool) t g p s : good G s -> attached s t -> contents s g = Some p ->
  if del_kind weak p then
    exists s' gl, step G t (del_op weak (Some g)) s = Some (OVal RUnit, s') /\ good G s' /\
      removed g (s_globals s) gl /\ released t (frames s t) gl (s_ext s) s s'
  else exists m, step G t (del_op weak (Some g)) s = Some (OExn (Err m), s).
Proof.
  intros Gs A P. pose proof (good_wf Gs) as W. apply contents_lookup in P. destruct P as (o & L & P).
  assert (body G t (del_op weak (Some g)) s =
    if del_kind weak p then Ret RUnit (with_globals s (remove_first g (s_globals s)))
    else Thr (Err (if weak then S_ "Invalid Reference, not a WeakGlobal Reference" else S_ "Invalid Reference, not a Global Reference")) s) as B.
  { destruct weak; cbn [del_op body]; unfold as_unit, DeleteGlobalRef, DeleteWeakGlobalRef, jnicast_global, jnicast_weak, bind, deref; rewrite L, P; destruct p; reflexivity. }
  destruct (del_kind weak p).
  - set (s1 := with_globals s (remove_first g (s_globals s))) in *.
    assert (step G t (del_op weak (Some g)) s = Some (OVal RUnit, finish s1)) as St by (unfold step; rewrite run_attached, B by auto; reflexivity).
    assert (good G (finish s1)) as G' by (eapply step_good; eauto).
    exists (finish s1), (remove_first g (s_globals s)). split; [exact St|]. split; [exact G'|]. split; [apply remove_first_removed|].
    apply released_intro; auto; [apply G'|apply calm_same; reflexivity].
  - eexists. unfold step. rewrite run_attached, B by auto. rewrite (tidy_finish_id (g_tidy Gs)). reflexivity.
Qed.
Lemma del_global_null (weak : bool) t s : good G s -> attached s t -> step G t (del_op weak None) s = Some (OVal RUnit, s).
Proof. intros Gs A. apply step_read; auto. destruct weak; reflexivity. Qed.

(** ** Threads *)
Theorem Attach_step t s : good G s ->
  match get_env s t with
  | Some e => step G t Attach_ s = Some (OVal (REnv (e_id e)), s)
  | None => exists k s', step G t Attach_ s = Some (OVal (REnv k), s') /\ good G s' /\
      (forall u e, get_env s u = Some e -> e_id e <> k) /\
      get_env s' t = Some (mkEnv k [[]] [] None []) /\ (forall u, u <> t -> get_env s' u = get_env s u) /\
      s_globals s' = s_globals s /\ s_ext s' = s_ext s /\ (forall T, registered s' T = registered s T) /\
      (forall i, live s i = true -> intact s s' i) /\ (forall i, live s' i = live s i)
  end.
Proof.
  intros Gs. pose proof (good_wf Gs) as W. destruct (get_env s t) as [e|] eqn:E.
  - unfold step, run, bind. cbn [needs_env body]. unfold ret, bind, Attach. rewrite E. unfold ret. rewrite (tidy_finish_id (g_tidy Gs)). reflexivity.
  - set (k := s_nextenv s). set (s1 := with_nextenv (penv s t (new_env k)) (S k)).
    assert (forall u, u <> t -> get_env s1 u = get_env s u) as Ou.
    { intros u N. unfold get_env, s1. simpl. rewrite (aget_aset Nat.eqb Nat.eqb_spec). destruct (Nat.eqb_spec t u); congruence. }
    assert (get_env s1 t = Some (new_env k)) as Ot.
    { unfold get_env, s1. simpl. rewrite (aget_aset Nat.eqb Nat.eqb_spec), Nat.eqb_refl. reflexivity. }
    assert (tidy s1) as T1.
    { destruct (g_tidy Gs) as [Tm Ti]. split; [exact Tm|]. intros i Li. rewrite (live_heap (s := s)) in Li by auto. left.
      apply (held_le_In (s := s)); [|destruct (Ti i Li); tauto]. apply held_le_roots; auto. intros j. rewrite !In_roots.
      intros [H|[H|[H|[H|[(u & e0 & H & H')|H]]]]]; auto 10. right. right. right. right. left.
      assert (get_env s u = Some e0) as E0 by (apply (NoDup_aget Nat.eqb Nat.eqb_spec); auto; apply W).
      exists u, e0. split; auto. apply (aget_In Nat.eqb Nat.eqb_spec). fold (get_env s1 u). rewrite Ou; [auto|congruence]. }
    assert (step G t Attach_ s = Some (OVal (REnv k), s1)) as St.
    { unfold step, run, bind. cbn [needs_env body]. unfold ret, bind, Attach. rewrite E. unfold ret. change (Some (OVal (REnv k), finish s1) = Some (OVal (REnv k), s1)). rewrite (tidy_finish_id T1). reflexivity. }
    exists k, s1. split; [exact St|]. split; [eapply step_good; eauto|]. split.
    { intros u e Eu. destruct (wf_env_ok W Eu) as (_ & _ & Lt). unfold k. lia. }
    split; [exact Ot|]. split; [exact Ou|]. split; [auto|]. split; [auto|]. split; [auto|]. split; [intros; apply intact_heap; auto|auto].
Qed.
Theorem Detach_step t s : solid G s -> running s t = [] ->
  exists s', step G t Detach_ s = Some (OVal (RInt 0), s') /\ good G s' /\ get_env s' t = None /\
    (forall u, u <> t -> get_env s' u = get_env s u) /\ s_globals s' = s_globals s /\ s_ext s' = s_ext s /\
    (forall T, registered s' T = registered s T) /\
    (forall i, live s i = true -> strong s' i -> intact s s' i) /\ (forall i, live s' i = true -> live s i = true).
Proof.
  intros So R. pose proof (so_good So) as Gs. pose proof (good_wf Gs) as W. destruct (get_env s t) as [e|] eqn:E.
  - unfold running in R. rewrite E in R. set (s1 := with_envs s (adel Nat.eqb (s_envs s) t)).
    assert (step G t Detach_ s = Some (OVal (RInt 0), finish s1)) as St.
    { unfold step, run, bind. cbn [needs_env body]. unfold ret, as_int, bind, Detach. rewrite E, R. reflexivity. }
    assert (good G (finish s1)) as G' by (eapply step_good; eauto).
    exists (finish s1). split; [exact St|]. split; [exact G'|]. rewrite finish_env, finish_globals, finish_ext. split; [|split; [|split; [|split; [|split; [|split]]]]]; auto.
    + unfold get_env, s1. simpl. rewrite (aget_adel Nat.eqb Nat.eqb_spec), Nat.eqb_refl. reflexivity.
    + intros u N. rewrite finish_env. unfold get_env, s1. simpl. rewrite (aget_adel Nat.eqb Nat.eqb_spec). destruct (Nat.eqb_spec t u); congruence.
    + intros T. rewrite finish_types_reg. reflexivity.
    + intros i _ S'. apply finish_intact; auto; [apply inv_reg_all, Gs|]. eapply strong_live; eauto. apply G'.
    + intros i L. apply finish_live in L. exact L.
  - exists s. split.
    + unfold step, run, bind. cbn [needs_env body]. unfold ret, as_int, bind, Detach. rewrite E. unfold ret. rewrite (tidy_finish_id (g_tidy Gs)). reflexivity.
    + split; [auto|]. split; [auto|]. split; [auto|]. split; [auto|]. split; [auto|]. split; [auto|]. split; [|auto]. intros i Li _. apply intact_heap; auto.
Qed.
Theorem Detach_running t s : running s t <> [] -> step G t Detach_ s = None.
Proof.
  unfold running. intros R. unfold step, run, bind. cbn [needs_env body]. unfold ret, as_int, bind, Detach.
  destruct (get_env s t) as [e|]; [|congruence]. destruct (e_calls e); [congruence|reflexivity].
Qed.
End Cfg.
