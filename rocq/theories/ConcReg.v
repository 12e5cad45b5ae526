(** The registry under concurrent calls: proofs. *)
From Coq Require Import Permutation.
From Verif Require Import Base BaseProofs SigModel VmState VmModel VmBase VmReg ConcModel ConcLogic ConcSpec ConcDisc.
Set Implicit Arguments.
Unset Strict Implicit.

Local Open Scope char_scope.
Lemma rev_case A (l : list A) : l = [] \/ exists x a, l = a ++ [x].
Proof. induction l as [|y l [->|(x & a & ->)]]; [auto|right; exists y, []; reflexivity|right; exists x, (y :: a); reflexivity]. Qed.
(** ** Nodes *)
Lemma node_eqb_spec a b : reflect (a = b) (node_eqb a b).
Proof.
  unfold node_eqb. destruct a as [p k n], b as [q l m]. cbn. destruct (opt_eqb_spec p q) as [->|N]; cbn; [|constructor; congruence].
  assert (reflect (k = l) (kind_eqb k l)) as R by (destruct k, l; constructor; congruence). destruct R as [->|N]; cbn; [|constructor; congruence].
  destruct (str_eqb_spec n m) as [->|N]; constructor; congruence.
Qed.
Lemma child_from_some l : forall k x i, child_from k l x = Some i -> exists j, i = k + j /\ nth_error l j = Some x.
Proof.
  induction l as [|y l IH]; intros k x i H; cbn in H; [discriminate|]. destruct (node_eqb_spec y x) as [->|].
  - injection H as <-. exists 0. split; [lia|reflexivity].
  - apply IH in H. destruct H as (j & -> & Hj). exists (S j). split; [lia|exact Hj].
Qed.
Lemma child_from_none l : forall k x, child_from k l x = None -> ~ In x l.
Proof.
  induction l as [|y l IH]; intros k x H; cbn in *; [auto|]. destruct (node_eqb_spec y x) as [->|N]; [discriminate|]. intros [Q|Q]; [contradiction|]. eapply IH; eauto.
Qed.
Lemma child_some l x i : child l x = Some i -> nth_error l i = Some x.
Proof. intros H. apply child_from_some in H. destruct H as (j & -> & Hj). exact Hj. Qed.
Lemma child_none l x : child l x = None -> ~ In x l.
Proof. apply child_from_none. Qed.
Lemma child_in l x i : NoDup l -> nth_error l i = Some x -> child l x = Some i.
Proof.
  intros Nd H. destruct (child l x) as [j|] eqn:E.
  - apply child_some in E. f_equal. eapply NoDup_nth_error; [exact Nd|apply nth_error_Some; congruence|congruence].
  - apply child_none in E. apply nth_error_In in H. contradiction.
Qed.

(** ** Paths *)
Lemma leads_grow l m : forall p path q, leads l p path q -> leads (l ++ m) p path q.
Proof. intros p path q H. induction H; [constructor|]. econstructor; [|eassumption]. rewrite nth_error_app1; [exact H|]. apply nth_error_Some. congruence. Qed.
Lemma leads_snoc l p path q w n j : leads l p path q -> nth_error l j = Some (mkNode q w n) -> leads l p (path ++ [(w, n)]) (Some j).
Proof. intros H Hj. induction H; cbn; [econstructor; [exact Hj|constructor]|econstructor; eauto]. Qed.
Lemma leads_split l a b : forall p q, leads l p (a ++ b) q -> exists m, leads l p a m /\ leads l m b q.
Proof.
  induction a as [|[w n] a IH]; intros p q H; cbn in H; [exists p; split; [constructor|exact H]|]. inversion H; subst. apply IH in H6. destruct H6 as (m & A & B). exists m. split; [econstructor; eauto|exact B].
Qed.
Lemma leads_det l path : NoDup l -> forall p q r, leads l p path q -> leads l p path r -> q = r.
Proof.
  intros Nd. induction path as [|[w n] path IH]; intros p q r A B; inversion A; inversion B; subst; [reflexivity|].
  assert (i = i0) as -> by (eapply NoDup_nth_error; [exact Nd|apply nth_error_Some; congruence|congruence]). eapply IH; eauto.
Qed.
Lemma leads_end l p path w n q : leads l p (path ++ [(w, n)]) q -> exists m j, q = Some j /\ leads l p path m /\ nth_error l j = Some (mkNode m w n).
Proof.
  intros H. apply leads_split in H. destruct H as (m & A & B). inversion B; subst. inversion H5; subst. eauto.
Qed.
Lemma leads_inj l (Ht : forall i x j, nth_error l i = Some x -> n_par x = Some j -> j < i) : forall i a b, leads l None a (Some i) -> leads l None b (Some i) -> a = b.
Proof.
  induction i as [i IH] using lt_wf_ind. intros a b A B. destruct (rev_case a) as [->|([w n] & a' & ->)]; [inversion A|]. destruct (rev_case b) as [->|([w2 n2] & b' & ->)]; [inversion B|].
  apply leads_end in A. apply leads_end in B. destruct A as (m & j & E1 & A & Nj). destruct B as (m2 & j2 & E2 & B & Nj2). injection E1 as <-. injection E2 as <-. rewrite Nj in Nj2. injection Nj2 as -> -> ->.
  f_equal. destruct m2 as [m2|]; [eapply IH; eauto; eapply Ht; [exact Nj|reflexivity]|].
  assert (forall c, leads l None c None -> c = []) as Z.
  { intros c Hc. destruct (rev_case c) as [->|([w0 n0] & c' & ->)]; [reflexivity|]. apply leads_end in Hc. destruct Hc as (? & ? & Q & _). discriminate. }
  rewrite (Z _ A), (Z _ B). reflexivity.
Qed.
Lemma path_some debug name l r : leads l None (path_of debug name) r -> exists i, r = Some i.
Proof.
  intros H. assert (exists a w n, path_of debug name = a ++ [(w, n)]) as (a & w & n & E).
  { unfold path_of. destruct (debug && _); [|exists [], KMap, name; reflexivity]. pose proof (split_ne "$" (last (split_on "/" name) [])) as N.
    destruct (split_on "$" (last (split_on "/" name) [])) as [|x y] using rev_ind; [congruence|]. rewrite map_app. eexists _, _, _. rewrite app_assoc. reflexivity. }
  rewrite E in H. apply leads_end in H. destruct H as (m & j & -> & _). eauto.
Qed.
(** Names have different paths. *)
Lemma map_pair_inj A B (k : A) : forall (a b : list B), map (pair k) a = map (pair k) b -> a = b.
Proof. induction a as [|x a IH]; intros [|y b] H; cbn in H; try discriminate; [reflexivity|]. injection H as -> H. f_equal. auto. Qed.
Lemma kinds_split (a b c d : list str) : map (pair KNs) a ++ map (pair KCl) b = map (pair KNs) c ++ map (pair KCl) d -> a = c /\ b = d.
Proof.
  revert c; induction a as [|x a IH]; intros [|y c] H; cbn in H.
  - split; [reflexivity|]. eapply map_pair_inj; eauto.
  - destruct b; discriminate.
  - destruct d; discriminate.
  - injection H as -> H. apply IH in H. destruct H as [-> ->]. auto.
Qed.
Lemma path_inj debug a b : path_of debug a = path_of debug b -> a = b.
Proof.
  unfold path_of. destruct (debug && negb match a with "[" :: _ => true | _ => false end); destruct (debug && negb match b with "[" :: _ => true | _ => false end); intros H.
  - apply kinds_split in H. destruct H as [H1 H2]. apply (f_equal (join "$")) in H2. rewrite !join_split in H2.
    rewrite <- (@join_split "/" a), <- (@join_split "/" b). f_equal.
    rewrite (@app_removelast_last _ (split_on "/" a) []) by apply split_ne. rewrite (@app_removelast_last _ (split_on "/" b) []) by apply split_ne. congruence.
  - destruct (removelast (split_on "/" a)); [|discriminate]. destruct (split_on "$" _); discriminate.
  - destruct (removelast (split_on "/" b)); [|discriminate]. destruct (split_on "$" _); discriminate.
  - injection H as ->. reflexivity.
Qed.

(** ** Allowed steps *)
Section Reg.
Variable G : ccfg.
Variable height : nat -> nat.
Hypothesis Hr : ranked G height.
Variable s0 : shared.
Hypothesis H0 : tidy_reg s0.

Definition par_ok (l : list node) (x : node) : Prop := forall j, n_par x = Some j -> j < length l.
Definition GReg (H : list lock) (s s' : shared) : Prop := reg s' = reg s \/ (In LVm H /\ exists x, reg s' = reg s ++ [x] /\ ~ In x (reg s) /\ par_ok (reg s) x).
Definition IReg (s : shared) : Prop := tidy_reg s /\ exists m, reg s = reg s0 ++ m.
Lemma IReg_keep H s s' : IReg s -> GReg H s s' -> IReg s'.
Proof.
  intros [[Nd Pp] (m & E)] [Q|(_ & x & Q & Nin & Px)]; unfold IReg, tidy_reg; rewrite Q; [eauto|]. split; [split|].
  - apply Permutation_NoDup with (x :: reg s); [apply Permutation_cons_append|constructor; assumption].
  - intros i y j Hy Hj. destruct (Nat.lt_ge_cases i (length (reg s))) as [Lt|Ge].
    + rewrite nth_error_app1 in Hy by exact Lt. eauto.
    + rewrite nth_error_app2 in Hy by exact Ge. destruct (i - length (reg s)) as [|z] eqn:Ez; [|destruct z; discriminate]. injection Hy as <-. apply Px in Hj. lia.
  - exists (m ++ [x]). rewrite E, app_assoc. reflexivity.
Qed.
Lemma GReg_grow H s s' : GReg H s s' -> exists m, reg s' = reg s ++ m.
Proof. intros [Q|(_ & x & Q & _)]; rewrite Q; [exists []; rewrite app_nil_r; reflexivity|eauto]. Qed.
Lemma stable_all H (L : shared -> Prop) : (forall K s s', L s -> GReg K s s' -> L s') -> stable GReg H L.
Proof. intros Hk s s' Ls (K & _ & Gs). eauto. Qed.
Definition at_path (done : list (kind * str)) (cur : option nat) (s : shared) : Prop := IReg s /\ leads (reg s) None done cur.
Lemma at_path_keep done cur K s s' : at_path done cur s -> GReg K s s' -> at_path done cur s'.
Proof. intros [Hi Hl] Gs. split; [eapply IReg_keep; eauto|]. destruct (GReg_grow Gs) as (m & E). rewrite E. apply leads_grow. exact Hl. Qed.

Lemma safe_weak Gt (q : option nat -> shared -> Prop) H (L L' : shared -> Prop) p : (forall s, L' s -> L s) -> safe Gt q H L p -> safe Gt q H L' p.
Proof.
  intros Hs Sf. revert L' Hs. induction Sf as [L r Hq|H L m k Sf IH|H L M m k Im Hm St Sf IH|H L x f Hf|H L x u f Hf]; intros L' Hs.
  - constructor. auto.
  - constructor. auto.
  - econstructor; [exact Im| |exact St|exact Sf]. auto.
  - constructor. intros s Ls. apply Hf. auto.
  - constructor. intros s Ls. apply Hf. auto.
Qed.
(** A search with the mutex held *)
Lemma safe_walk (q : option nat -> shared -> Prop) H zero k full : In LVm H -> full <> [] ->
  (forall i, safe GReg q H (at_path full (Some i)) (k (Some i))) ->
  (zero = true -> safe GReg q H (fun s => IReg s /\ forall j, ~ leads (reg s0) None full (Some j)) (k None)) ->
  forall path done cur, full = done ++ path -> (cur = None -> done = []) -> safe GReg q H (at_path done cur) (walk zero cur path k).
Proof.
  intros Hv Fn Hs Hn. induction path as [|[w n] r IH]; intros done cur Hf Hc; cbn [walk].
  - rewrite app_nil_r in Hf. subst done. destruct cur as [i|]; [apply Hs|]. exfalso. apply Fn, Hc. reflexivity.
  - constructor. intros s [Is Ls]. destruct (child (reg s) (mkNode cur w n)) as [i|] eqn:Ec.
    + exists (at_path (done ++ [(w, n)]) (Some i)). split; [split; [exact Is|]|split].
      * eapply leads_snoc; [exact Ls|]. apply child_some. exact Ec.
      * apply stable_all. intros K t t'. apply at_path_keep.
      * apply IH; [|discriminate]. rewrite <- app_assoc. exact Hf.
    + destruct zero.
      * exists (fun s => IReg s /\ forall j, ~ leads (reg s0) None full (Some j)). split; [split; [exact Is|]|split; [|apply Hn; reflexivity]].
        -- intros j Q. destruct Is as [[Nd Pp] (m & E)]. apply (leads_grow m) in Q. rewrite <- E in Q. rewrite Hf in Q. apply leads_split in Q. destruct Q as (z & A & B).
           assert (z = cur) as -> by (eapply leads_det; eauto). inversion B; subst. apply child_none in Ec. apply nth_error_In in H6. contradiction.
        -- apply stable_all. intros K t t' [It Nt] Gs. split; [eapply IReg_keep; eauto|exact Nt].
      * exists (fun t => reg t = reg s /\ IReg t). split; [split; [reflexivity|exact Is]|]. split.
        { intros t t' [Et It] (K & Dj & Gs). split; [|eapply IReg_keep; eauto]. destruct Gs as [Q|(Hk & _)]; [congruence|]. exfalso. eapply Dj; eauto. }
        constructor. intros t [Et It]. assert (GReg H t (add_node (mkNode cur w n) t)) as Gt.
        { right. split; [exact Hv|]. exists (mkNode cur w n). split; [reflexivity|]. rewrite Et. split; [apply child_none; exact Ec|]. intros j Hj. cbn in Hj. subst cur.
          destruct (rev_case done) as [->|([w' n'] & d & ->)]; [inversion Ls|]. apply leads_end in Ls. destruct Ls as (m & z & Q & _ & Nz). injection Q as <-. apply nth_error_Some. congruence. }
        split; [exact Gt|]. exists (at_path (done ++ [(w, n)]) (Some (length (reg t)))). split; [split; [eapply IReg_keep; eauto|]|split].
        -- cbn. eapply leads_snoc; [rewrite Et; apply leads_grow; exact Ls|]. rewrite nth_error_app2 by lia. rewrite Nat.sub_diag. reflexivity.
        -- apply stable_all. intros K u u'. apply at_path_keep.
        -- apply IH; [|discriminate]. rewrite <- app_assoc. exact Hf.
Qed.
(** Results of calls that ask for a class *)
Definition QReg (c : call) (r : option nat) (s : shared) : Prop := IReg s /\ forall name, asks c name ->
  match r with
  | Some i => has_class (c_debug G) s name i
  | None => c_retnull G = true /\ c = CFindClass name /\ forall j, ~ has_class (c_debug G) s0 name j
  end.
Lemma QReg_keep c r K s s' : QReg c r s -> GReg K s s' -> QReg c r s'.
Proof.
  intros [Is Hq] Gs. split; [eapply IReg_keep; eauto|]. intros name Ha. specialize (Hq name Ha). destruct r as [i|]; [|exact Hq]. destruct (GReg_grow Gs) as (m & E). unfold has_class. rewrite E. apply leads_grow. exact Hq.
Qed.
Lemma path_ne debug name : path_of debug name <> [].
Proof. intros E. assert (leads [] None (path_of debug name) None) as Q by (rewrite E; constructor). apply path_some in Q. destruct Q. discriminate. Qed.
Lemma safe_FindClass name : safe_call G height GReg QReg IReg (CFindClass name).
Proof.
  unfold safe_call. cbn [prog_of]. unfold FindClass, InternalFindClass. constructor. apply safe_weak with (at_path [] None); [intros s Is; split; [exact Is|constructor]|].
  eapply safe_walk with (full := path_of (c_debug G) name); [left; reflexivity|apply path_ne| | |reflexivity|auto].
  - intros i. eapply sf_rel with (M := at_path (path_of (c_debug G) name) (Some i)); [left; reflexivity|auto| |].
    + apply stable_all. intros K t t'. apply at_path_keep.
    + rewrite drop_cons by (intros []). constructor. intros s [Is Hl]. split; [exact Is|]. intros n Ha; cbn in Ha; subst n. exact Hl.
  - intros Hz. eapply sf_rel with (M := fun s => IReg s /\ forall j, ~ leads (reg s0) None (path_of (c_debug G) name) (Some j)); [left; reflexivity|auto| |].
    + apply stable_all. intros K t t' [It Nt] Gs. split; [eapply IReg_keep; eauto|exact Nt].
    + rewrite drop_cons by (intros []). constructor. intros s [Is Hl]. split; [exact Is|]. intros n Ha; cbn in Ha; subst n. split; [exact Hz|split; [reflexivity|exact Hl]].
Qed.
Lemma safe_GetClassT T name : safe_call G height GReg QReg IReg (CGetClassT T name).
Proof.
  unfold safe_call. cbn [prog_of]. unfold GetClassT, InternalFindClass. constructor. apply safe_weak with (at_path [] None); [intros s Is; split; [exact Is|constructor]|].
  eapply safe_walk with (full := path_of (c_debug G) name); [left; reflexivity|apply path_ne| |discriminate|reflexivity|auto].
  intros i. constructor. intros s Hs. split; [left; reflexivity|]. exists (at_path (path_of (c_debug G) name) (Some i)). split; [exact Hs|]. split; [apply stable_all; intros K t t'; apply at_path_keep|].
  eapply sf_rel with (M := at_path (path_of (c_debug G) name) (Some i)); [left; reflexivity|auto| |].
  - apply stable_all. intros K t t'. apply at_path_keep.
  - rewrite drop_cons by (intros []). constructor. intros t [It Hl]. split; [exact It|]. intros n Ha; cbn in Ha; subst n. exact Hl.
Qed.
(** A search for something that is there *)
Notation ord := (in_order (rank height)).
Notation perm := (permitted GReg IReg).
Lemma disc_known zero H k : (forall r, disc IReg ord perm H (k r)) -> forall path cur q, leads (reg s0) cur path q -> disc IReg ord perm H (walk zero cur path k).
Proof.
  intros Hk. induction path as [|[w n] r IH]; intros cur q Hl; cbn [walk]; [apply Hk|]. inversion Hl; subst. apply dc_rd; [exact I|]. intros s [[Nd Pp] (m & E)].
  erewrite child_in; [eapply IH; eauto|exact Nd|]. rewrite E, nth_error_app1; [eassumption|]. apply nth_error_Some. congruence.
Qed.
Lemma disc_known_decl x : settled (c_debug G) s0 (CGetFieldID 0 x) -> decl_ok G height IReg perm (k_type x).
Proof.
  intros Hs H k Hk. unfold declare. unfold settled in Hs. cbn [adds_unlocked] in Hs. destruct (c_debug G) eqn:Ed; [|exact Hk]. destruct (Declare_names (k_type x)) as [l| | | |]; try exact Hk.
  induction l as [|n r IH]; cbn [declare_all]; [exact Hk|]. destruct (Hs n (or_introl eq_refl)) as (i & Hi). unfold InternalFindClass. rewrite Ed. eapply disc_known; [|exact Hi].
  intros _. apply IH. intros z Hz. apply Hs. right. exact Hz.
Qed.
Lemma safe_other c : (forall n, ~ asks c n) -> disc IReg ord perm [] (prog_of G height c) -> safe_call G height GReg QReg IReg c.
Proof.
  intros Hn Hd. unfold safe_call. eapply disc_safe; [| |apply IReg_keep|exact Hd].
  - apply stable_all. apply IReg_keep.
  - intros r s Is. split; [exact Is|]. intros n Ha. destruct (Hn n Ha).
Qed.
Ltac rel := apply dc_rel; [left; reflexivity|]; rewrite drop_cons by (intros []); constructor.
Lemma settled_safe c : settled (c_debug G) s0 c -> safe_call G height GReg QReg IReg c.
Proof.
  intros Hs. destruct c as [n|c x|c x| | |T n|T|T|c x|g|c x|c x|t|t|t|cu].
  - apply safe_FindClass.
  - apply safe_other; [intros n []|]. cbn [prog_of]. apply disc_field; try (intros; exact I); auto; try (intros; left; reflexivity); [apply disc_known_decl; exact Hs|intros h []|constructor].
  - apply safe_other; [intros n []|]. cbn [prog_of]. apply disc_method; try (intros; exact I); auto; try (intros; left; reflexivity); [apply disc_known_decl; exact Hs|constructor].
  - apply safe_other; [intros n []|]. destruct (Hs _ (or_introl eq_refl)) as (i & Hi). cbn [prog_of]. unfold NewGlobalRef, NewRef, InternalFindClass. eapply disc_known; [|exact Hi].
    intros _. apply dc_acq; [intros h []|]. apply dc_wr; [intros s _; left; reflexivity|]. intros s _. rel.
  - apply safe_other; [intros n []|]. destruct (Hs _ (or_introl eq_refl)) as (i & Hi). cbn [prog_of]. unfold NewWeakGlobalRef, NewRef, InternalFindClass. eapply disc_known; [|exact Hi].
    intros _. apply dc_acq; [intros h []|]. apply dc_wr; [intros s _; left; reflexivity|]. intros s _. rel.
  - apply safe_GetClassT.
  - apply safe_other; [intros n []|]. cbn [prog_of]. unfold ClassOf. apply dc_rd; [exact I|]. intros s _. constructor.
  - apply safe_other; [intros n []|]. cbn [prog_of]. unfold SignatureOf. apply dc_acq; [intros h []|]. apply dc_rd; [exact I|]. intros s _. rel.
  - apply safe_other; [intros n []|]. cbn [prog_of]. unfold RegisterNatives. apply dc_acq; [intros h []|]. apply disc_register. intros y _ s _. left. reflexivity.
  - apply safe_other; [intros n []|]. cbn [prog_of]. unfold DeleteRef. apply dc_acq; [intros h []|]. apply dc_rd; [exact I|]. intros s _. destruct (existsb _ _); [apply dc_wr; [intros u _; left; reflexivity|]; intros u _|]; rel_end.
  - apply safe_other; [intros n []|]. cbn [prog_of]. unfold HookMethod. apply dc_rd; [exact I|]. intros s _. destruct (find_key _ _); [constructor|]. apply dc_wr; [intros u _; left; reflexivity|]; intros u _. constructor.
  - apply safe_other; [intros n []|]. cbn [prog_of]. unfold HookField. apply dc_rd; [exact I|]. intros s _. destruct (find_key _ _); [constructor|]. apply dc_wr; [intros u _; left; reflexivity|]; intros u _. constructor.
  - apply safe_other; [intros n []|]. cbn [prog_of]. unfold Attach. apply dc_acq; [intros h []|]. apply dc_rd; [exact I|]. intros s _. destruct (envs s t) as [[e|]|]; [|apply dc_wr; [intros u _; left; reflexivity|]; intros u _..]; rel_end.
  - apply safe_other; [intros n []|]. cbn [prog_of]. unfold Detach. apply dc_acq; [intros h []|]. apply dc_rd; [exact I|]. intros s _. destruct (envs s t) as [e|]; [apply dc_wr; [intros u _; left; reflexivity|]; intros u _|]; rel_end.
  - apply safe_other; [intros n []|]. cbn [prog_of]. unfold CurrentEnv. apply dc_rd; [exact I|]. intros s _. destruct (envs s t) as [e|]; [constructor|]. apply dc_wr; [intros u _; left; reflexivity|]; intros u _. constructor.
  - apply safe_other; [intros n []|]. cbn [prog_of]. unfold UnregisterNatives. apply dc_acq; [intros h []|]. apply dc_wr; [intros u _; left; reflexivity|]; intros u _. rel_end.
Qed.
Theorem registry_results calls D c r : every (settled (c_debug G) s0) calls -> reaches G height s0 calls D -> returned D c r -> QReg c r (sh D).
Proof.
  intros He (l & E) (t & x & Hx & Hin). assert (all_safe GReg QReg IReg (cinit s0 calls)) as A0.
  { apply safe_init. split; [exact H0|]. exists []. rewrite app_nil_r. reflexivity. }
  eapply safe_run in E; [|intros c' r'; apply stable_all; apply QReg_keep|apply stable_all; apply IReg_keep|apply IReg_keep|exact A0|].
  - destruct E as [_ Sa]. destruct (Sa t x Hx) as [Fd _]. eapply Forall_forall in Fd; [|exact Hin]. exact Fd.
  - intros t' x' H. unfold cinit in H. cbn in H. rewrite nth_error_map in H. destruct (nth_error calls t') eqn:Ec; [|discriminate]. injection H as <-. cbn.
    apply Forall_forall. intros c' Hc. apply settled_safe. eapply He; eauto. eapply nth_error_In; eauto.
Qed.
End Reg.
