(** Signatures of hooks: C59. *)
From Verif Require Import Base SigSpec VmState WrapModel WrapSpec.
Set Implicit Arguments.
Unset Strict Implicit.

Lemma descr_prim p : descr (prim_ty p) = [letter p]. Proof. destruct p; reflexivity. Qed.
Lemma object_class N c s : is_array c = false -> (object_sig N c = Ok s <-> exists n, class_name N c n /\ s = descr (JObj n)).
Proof.
  intros H. unfold object_sig, class_name. split.
  - destruct (n_reg N c) as [n|] eqn:E; [intros [= <-]; exists n; auto|]. destruct (n_own N c) as [n|] eqn:E2; [|discriminate]. intros [= <-]. exists n; auto.
  - intros (n & [E|[E E2]] & ->); rewrite E, ?E2; reflexivity.
Qed.
Lemma object_total N c : (exists s, object_sig N c = Ok s) \/ object_sig N c = Thrown (Err (S_ "Unknown class")).
Proof. unfold object_sig. destruct (n_reg N c); [left; eauto|]. destruct (n_own N c); [left; eauto|right; auto]. Qed.
Lemma value_class N c s : snd (value_sig N c) = Ok s <-> exists j, class_type N c j /\ s = descr j.
Proof.
  revert s; induction c; intros s; cbn [value_sig snd oret];
    try (rewrite object_class by reflexivity; split; [intros (n' & H & ->); eexists; split; [apply ct_class; eauto|reflexivity]|
         intros (j & H & ->); inversion H; subst; eauto]).
  - split; [intros [= <-]; eexists; split; [constructor|cbn; rewrite descr_prim; reflexivity]|]. intros (j & H & ->). inversion H; subst; [discriminate|]. cbn. rewrite descr_prim. reflexivity.
  - split; [intros [= <-]; eexists; split; [constructor|reflexivity]|]. intros (j & H & ->). inversion H; subst; [discriminate|]. reflexivity.
  - unfold obind. destruct (snd (value_sig N c)) as [v|e| | |] eqn:E.
    + cbn. split.
      * intros [= <-]. destruct (proj1 (IHc v) eq_refl) as (j & Hj & ->). exists (JArr j). split; [constructor; auto|reflexivity].
      * intros (j & H & ->). inversion H; subst; [discriminate|]. assert (Ok v = Ok (descr j0)) as [= ->] by (apply IHc; eauto). reflexivity.
    + cbn; split; [discriminate|]. intros (j & H & ->). inversion H; subst; [discriminate|]. exfalso. assert (@Thrown str e = Ok (descr j0)) by (apply IHc; eauto). discriminate.
    + cbn; split; [discriminate|]. intros (j & H & ->). inversion H; subst; [discriminate|]. exfalso. assert (@UB str = Ok (descr j0)) by (apply IHc; eauto). discriminate.
    + cbn; split; [discriminate|]. intros (j & H & ->). inversion H; subst; [discriminate|]. exfalso. assert (@Abort str = Ok (descr j0)) by (apply IHc; eauto). discriminate.
    + cbn; split; [discriminate|]. intros (j & H & ->). inversion H; subst; [discriminate|]. exfalso. assert (@Fuel str = Ok (descr j0)) by (apply IHc; eauto). discriminate.
Qed.
Lemma class_type_object N c j : is_array c = false -> (class_type N c j <-> exists n, class_name N c n /\ j = JObj n).
Proof. intros H. split; [intros Q; inversion Q; subst; try discriminate; eauto|]. intros (n & Q & ->). constructor; auto. Qed.
(** The signature of a type exists iff the type stands for a Java type, and is the descriptor of that type. *)
Theorem C59_type N T s : direct T = true -> T <> Cvoid -> (snd (GetJNISignature N T) = Ok s <-> exists j, java N T j /\ s = descr j).
Proof.
  intros D V.
  assert (forall c, is_array c = false -> (object_sig N c = Ok s <-> exists j, class_type N c j /\ s = descr j)) as Ob.
  { intros c H. rewrite object_class by auto. split.
    - intros (n & Q & ->). exists (JObj n). split; [constructor; auto|reflexivity].
    - intros (j & Q & ->). apply class_type_object in Q; auto. destruct Q as (n & Q & ->). eauto. }
  destruct T; cbn [GetJNISignature snd oret direct] in *; try congruence;
    try (rewrite Ob by (try reflexivity; now apply negb_true_iff); split; intros (j & H & ->); exists j; split; auto; [constructor; auto|inversion H; auto]);
    try (rewrite value_class; split; intros (j & H & ->); exists j; split; auto; [constructor; auto|inversion H; auto]).
  - split; [intros [= <-]; eexists; split; [constructor|rewrite descr_prim; reflexivity]|]. intros (j & H & ->). inversion H; subst. rewrite descr_prim; reflexivity.
  - split; [intros [= <-]; eexists; split; [constructor|reflexivity]|]. intros (j & H & ->). inversion H; subst. reflexivity.
  - split; [discriminate|]. intros (j & H & _). inversion H.
  - split; [discriminate|]. intros (j & H & _). inversion H.
Qed.
(** Otherwise hooking throws "Unknown class". *)
Theorem C59_unknown N T : snd (GetJNISignature N T) = Thrown (Err (S_ "Unknown class")) \/ exists s, snd (GetJNISignature N T) = Ok s.
Proof.
  assert (forall c, snd (value_sig N c) = Thrown (Err (S_ "Unknown class")) \/ exists s, snd (value_sig N c) = Ok s) as Hv.
  { induction c; cbn [value_sig snd oret]; eauto; try (match goal with |- context [object_sig N ?c] => destruct (object_total N c) as [H|H]; auto end).
    unfold obind. destruct IHc as [->|(s & ->)]; cbn; eauto. }
  destruct T; cbn [GetJNISignature snd oret]; eauto;
    match goal with |- context [object_sig N ?c] => destruct (object_total N c) as [H|H]; auto end.
Qed.
(** The array classes looked up on the way *)
Theorem C59_arrays N T j : java N T j -> direct T = true -> fst (GetJNISignature N T) = array_classes j.
Proof.
  assert (forall c j, class_type N c j -> fst (value_sig N c) = array_classes j) as Hv.
  { intros c k H. induction H; cbn [value_sig fst oret array_classes].
    - destruct c; try discriminate; reflexivity.
    - destruct p; reflexivity.
    - reflexivity.
    - unfold obind. assert (snd (value_sig N c) = Ok (descr j0)) as E by (apply value_class; eauto). rewrite E. cbn [fst]. rewrite IHclass_type. f_equal.
      assert (match j0 with JObj _ | JArr _ => true | _ => false end = true) as B by (destruct H; reflexivity).
      destruct j0; try discriminate; reflexivity. }
  intros H D. inversion H; subst; cbn [GetJNISignature fst oret direct] in *; auto;
    try (inversion H0; subst; try discriminate; reflexivity). destruct p; reflexivity.
Qed.
(** False of pointers and references to arrays: hooking a function with such a parameter throws. *)
Theorem C59_refuted_array : exists N T j, java N T j /\ names_ok N /\ castable T = true /\ snd (GetJNISignature N T) = Thrown (Err (S_ "Unknown class")).
Proof.
  exists (mkNames (fun _ => None) (fun _ => None)), (Cptr (ClPrims PtI)), (JArr JInt). split; [repeat constructor|]. split; [|split; reflexivity].
  intros c n [H|[_ H]]; discriminate.
Qed.

Lemma obind_ok A B (m : out A) (f : A -> out B) b : snd (obind m f) = Ok b <-> exists a, snd m = Ok a /\ snd (f a) = Ok b.
Proof. unfold obind. destruct (snd m) as [a|e| | |] eqn:E; cbn; (split; [intros H; try discriminate; eauto|intros (x & Q & H); try discriminate; injection Q as <-; auto]). Qed.
Lemma unfold_sig N P s : forallb direct P = true -> ~ In Cvoid P -> (snd (UnfoldJNISignature N P) = Ok s <-> exists js, Forall2 (java N) P js /\ s = flat_map descr js).
Proof.
  revert s; induction P as [|T P IH]; intros s D V; cbn [UnfoldJNISignature].
  - cbn. split; [intros [= <-]; exists []; auto|]. intros (js & H & ->). inversion H. reflexivity.
  - simpl in D. apply andb_true_iff in D as [D1 D2]. assert (T <> Cvoid) as V1 by (intros ->; apply V; left; auto). assert (~ In Cvoid P) as V2 by (intros H; apply V; right; auto).
    rewrite obind_ok. split.
    + intros (a & Ha & H). apply obind_ok in H. destruct H as (b & Hb & [= <-]). apply C59_type in Ha; auto. apply IH in Hb; auto.
      destruct Ha as (j & Hj & ->), Hb as (js & Hjs & ->). exists (j :: js). split; [constructor; auto|reflexivity].
    + intros (js & H & ->). inversion H; subst. eexists. split; [apply C59_type; eauto|]. apply obind_ok. eexists. split; [apply IH; eauto|reflexivity].
Qed.
Lemma ret_sig N R s : direct R = true -> (snd (GetJNISignature N R) = Ok s <-> exists r, java_ret N R r /\ s = ret_descr r).
Proof.
  intros D. destruct (match R with Cvoid => true | _ => false end) eqn:V.
  - destruct R; try discriminate. cbn. split; [intros [= <-]; eexists; split; [constructor|reflexivity]|]. intros (r & H & ->). inversion H; subst; [reflexivity|]. inversion H0.
  - assert (R <> Cvoid) as V1 by (destruct R; congruence). rewrite C59_type by auto. split.
    + intros (j & H & ->). exists (Some j). split; [constructor; auto|reflexivity].
    + intros (r & H & ->). inversion H; subst; [congruence|]. exists j. auto.
Qed.
(** The signature of a function: the parameters in order, then the result. *)
Theorem C59_signature N P R s : forallb direct P = true -> ~ In Cvoid P -> direct R = true ->
  (snd (invoke_sig N P R) = Ok s <-> exists js r, Forall2 (java N) P js /\ java_ret N R r /\ s = msig js r).
Proof.
  intros D V DR. unfold invoke_sig. rewrite obind_ok. split.
  - intros (a & Ha & H). apply obind_ok in H. destruct H as (b & Hb & [= <-]). apply unfold_sig in Ha; auto. apply ret_sig in Hb; auto.
    destruct Ha as (js & Hj & ->), Hb as (r & Hr & ->). exists js, r. auto.
  - intros (js & r & Hj & Hr & ->). eexists. split; [apply unfold_sig; eauto|]. apply obind_ok. eexists. split; [apply ret_sig; eauto|reflexivity].
Qed.
(** Well formed, if the names of classes are *)
Theorem C59_well_formed N T j : names_ok N -> java N T j -> ty_ok j.
Proof.
  intros Ok. assert (forall c k, class_type N c k -> ty_ok k) as Hc by (intros c k H; induction H; [eapply Ok; eauto|destruct p; exact I|exact I|exact IHclass_type]).
  intros H. inversion H; subst; eauto. destruct p; exact I. exact I.
Qed.

Lemma tag_java N R r t : java_ret N R r -> tag R = Some t -> t = result_tag r.
Proof.
  intros H Ht. inversion H as [|T j Hj]; subst; [cbn in *; congruence|].
  assert (forall c k, class_type N c k -> result_tag (Some k) = RObj) as Hc by (intros c k Q; destruct Q; reflexivity).
  inversion Hj; subst; cbn in Ht; try discriminate; injection Ht as <-; try (symmetry; eapply Hc; eauto; fail); [destruct p; reflexivity|reflexivity].
Qed.
Definition direct_fn (f : callable) : bool := forallb direct (params f) && direct (Return f).
Lemma castable_not_void P : forallb castable P = true -> ~ In Cvoid P.
Proof. intros H Q. rewrite forallb_forall in H. specialize (H _ Q). discriminate. Qed.
Lemma forallb_skipn A (p : A -> bool) n l : forallb p l = true -> forallb p (skipn n l) = true.
Proof. revert n; induction l; intros [|n] H; simpl in *; auto. apply andb_true_iff in H. apply IHl. tauto. Qed.
Lemma skipn_single A (d : A) k l : length l = k + 1 -> skipn k l = [nth k l d].
Proof.
  revert k; induction l as [|x l IH]; intros k H; simpl in *; [lia|]. destruct k; simpl in *.
  - destruct l; [reflexivity|simpl in H; lia].
  - apply IH. lia.
Qed.
Ltac some_inj H := injection H as H.

Lemma method_hooks N id inst f k o hs : direct_fn f = true -> install_method N id inst f k = Some o -> snd o = Ok hs -> exists h, hs = [h] /\ k_implicit h = k /\ hook_of N id f h.
Proof.
  intros D H Ho. apply andb_true_iff in D as [D1 D2]. unfold install_method in H.
  assert (forall R P t, Return f = R -> params f = P -> tag R = Some t ->
    (if forallb castable (skipn k P) && (inst || negb (isMemFn f)) then Some (obind (invoke_sig N (skipn k P) R) (fun s => oret [mkHook WMethod (negb inst) s (mkHandle id (if inst then KInst else KStatic) t (isMemFn f)) k])) else None) = Some o ->
    exists h, hs = [h] /\ k_implicit h = k /\ hook_of N id f h) as K.
  { intros R P t <- <- Ht. destruct (forallb castable (skipn k (params f))) eqn:C; [|discriminate]. destruct (inst || negb (isMemFn f)); [|discriminate]. cbn [andb].
    intros [= <-]. apply obind_ok in Ho. destruct Ho as (s & Hs & [= <-]). apply C59_signature in Hs; auto using forallb_skipn, castable_not_void.
    destruct Hs as (js & r & Hj & Hr & ->). eexists. split; [reflexivity|]. split; [reflexivity|]. rewrite (tag_java Hr Ht). econstructor; eauto. }
  destruct f; cbn [Return params isMemFn] in *; try discriminate; destruct (tag R) eqn:T; try discriminate; eapply K; eauto.
Qed.
Lemma getter_hooks N id inst f k o hs : direct_fn f = true -> install_getter N id inst f k = Some o -> snd o = Ok hs -> exists h, hs = [h] /\ k_implicit h = k /\ hook_of N id f h.
Proof.
  intros D H Ho. apply andb_true_iff in D as [D1 D2]. unfold install_getter in H.
  assert (match tag (Return f) with None | Some RVoid => None | Some t => Some (obind (GetJNISignature N (Return f)) (fun s => oret [mkHook WGet (negb inst) s (mkHandle id (if inst then KInstGet else KStaticGet) t false) k])) end = Some o /\
    (length (params f) = k \/ params f = [])) as [K Lk].
  { destruct f; cbn [params] in *.
    - destruct (Nat.eqb_spec (length P) k); [|discriminate]. auto.
    - discriminate.
    - auto.
    - destruct inst; [|discriminate]. auto. }
  clear H. destruct (tag (Return f)) as [t|] eqn:T; [|discriminate]. assert (t <> RVoid) as Tv by (destruct t; congruence).
  assert (o = obind (GetJNISignature N (Return f)) (fun s => oret [mkHook WGet (negb inst) s (mkHandle id (if inst then KInstGet else KStaticGet) t false) k])) as -> by (destruct t; congruence).
  apply obind_ok in Ho. destruct Ho as (s & Hs & [= <-]). apply ret_sig in Hs; auto. destruct Hs as (r & Hr & ->).
  eexists. split; [reflexivity|]. split; [reflexivity|]. rewrite (tag_java Hr T). destruct r as [j|]; [|exfalso; apply Tv; exact (tag_java Hr T)]. assert (java N (Return f) j) as Hj by (inversion Hr; auto). cbn [ret_descr]. econstructor; eauto.
Qed.
Lemma setter_hooks N id inst f k o hs : direct_fn f = true -> install_setter N id inst f k = Some o -> snd o = Ok hs -> exists h, hs = [h] /\ k_implicit h = k /\ hook_of N id f h.
Proof.
  intros D H Ho. apply andb_true_iff in D as [D1 D2]. unfold install_setter in H.
  assert (exists T t, tag T = Some t /\ castable T = true /\ direct T = true /\ (skipn k (params f) = [T] \/ T = Return f /\ b_set (type f) = true /\ isMemFn f = false) /\
    o = obind (GetJNISignature N T) (fun s => oret [mkHook WSet (negb inst) s (mkHandle id (if inst then KInstSet else KStaticSet) t (isMemFn f)) k])) as (T & t & Ht & Hc & Hd & Hp & ->).
  { assert (forall P, params f = P -> length P = k + 1 ->
      match tag (ParameterAt f (length P - 1)) with None => None | Some t => if castable (ParameterAt f k) then
        Some (obind (GetJNISignature N (ParameterAt f k)) (fun s => oret [mkHook WSet (negb inst) s (mkHandle id (if inst then KInstSet else KStaticSet) t (isMemFn f)) k])) else None end = Some o ->
      exists T t, tag T = Some t /\ castable T = true /\ direct T = true /\ (skipn k (params f) = [T] \/ T = Return f /\ b_set (type f) = true /\ isMemFn f = false) /\
        o = obind (GetJNISignature N T) (fun s => oret [mkHook WSet (negb inst) s (mkHandle id (if inst then KInstSet else KStaticSet) t (isMemFn f)) k])) as K.
    { intros P HP L. replace (length P - 1) with k by lia. destruct (tag (ParameterAt f k)) as [t|] eqn:T; [|discriminate]. destruct (castable (ParameterAt f k)) eqn:C; [|discriminate].
      intros [= <-]. pose proof (skipn_single Cvoid (l := params f) (k := k) ltac:(rewrite HP; exact L)) as Sk. exists (ParameterAt f k), t. repeat (split; [auto|]); auto.
      pose proof (forallb_skipn k D1) as D3. rewrite Sk in D3. simpl in D3. unfold ParameterAt. apply andb_true_iff in D3. tauto. }
    destruct f; cbn [params isMemFn Return type] in *.
    - destruct (Nat.eqb_spec (length P) (k + 1)); [|discriminate]. simpl in H. destruct (inst || _); [|discriminate]. eapply K; eauto.
    - destruct (Nat.eqb_spec (length P) (k + 1)); [|discriminate]. simpl in H. destruct inst; [|discriminate]. eapply K; eauto.
    - destruct (tag R) as [t|] eqn:T; [|discriminate]. destruct (castable R) eqn:C; [|discriminate]. injection H as <-. exists R, t. repeat (split; [auto|]); auto.
    - destruct inst; [|discriminate]. destruct (tag R) as [t|] eqn:T; [|discriminate]. destruct (castable R) eqn:Cc; [|discriminate]. injection H as <-. exists R, t. repeat (split; [auto|]); auto. }
  apply obind_ok in Ho. destruct Ho as (s & Hs & [= <-]). assert (T <> Cvoid) as V by (intros ->; discriminate). apply C59_type in Hs; auto. destruct Hs as (j & Hj & ->).
  eexists. split; [reflexivity|]. split; [reflexivity|]. rewrite (tag_java (jr_some Hj) Ht). destruct Hp as [Hp|(-> & Hp & ->)]; econstructor; eauto.
Qed.
(** How many hooks one installation makes *)
Definition times (b : ftype) : nat := if b_get b && b_set b then 2 else 1.
Lemma manager_hooks N id b f k o hs : direct_fn f = true -> HookManager N id b f k = Some o -> snd o = Ok hs ->
  map k_implicit hs = repeat k (times b) /\ Forall (hook_of N id f) hs.
Proof.
  intros D H Ho. unfold HookManager in H. unfold times. destruct (b_get b), (b_set b); cbn [andb].
  - unfold andthen in H. destruct (install_getter N id (b_inst b) f k) as [o1|] eqn:E1; [|discriminate]. destruct (install_setter N id (b_inst b) f k) as [o2|] eqn:E2; [|discriminate].
    injection H as <-. apply obind_ok in Ho. destruct Ho as (h1 & H1 & H). apply obind_ok in H. destruct H as (h2 & H2 & [= <-]).
    destruct (getter_hooks D E1 H1) as (x & -> & K1 & O1). destruct (setter_hooks D E2 H2) as (y & -> & K2 & O2). simpl. rewrite K1, K2. auto.
  - destruct (getter_hooks D H Ho) as (x & -> & K1 & O1). simpl. rewrite K1. auto.
  - destruct (setter_hooks D H Ho) as (x & -> & K1 & O1). simpl. rewrite K1. auto.
  - destruct (method_hooks D H Ho) as (x & -> & K1 & O1). simpl. rewrite K1. auto.
Qed.
Definition env_args (f : callable) : nat := if is_env (ParameterAt f 0) then 1 else 0.
Lemma receives_iff mine inst T : receives mine inst T <-> receiver inst T = true /\ accepts mine inst T = true.
Proof.
  split.
  - intros H. destruct H; cbn; auto; destruct c; auto.
  - intros [R A]. destruct inst, T; cbn in *; try discriminate; try (constructor; auto; fail); destruct c; try discriminate; try (apply rc_object); try (apply rc_class); try (apply rc_ptr; exact A).
Qed.
Lemma helper_hooks N mine id b f k o hs : direct_fn f = true -> HookManagerHelper N mine id b f k = Some o -> snd o = Ok hs ->
  Forall (hook_of N id f) hs /\
  (receives mine (b_inst b) (ParameterAt f k) /\ (exists R P, f = Fn R P) -> map k_implicit hs = repeat (k + 1) (times b)) /\
  (~ (receives mine (b_inst b) (ParameterAt f k) /\ exists R P, f = Fn R P) -> hs = []).
Proof.
  intros D H Ho. unfold HookManagerHelper in H.
  destruct f as [R P|C R P|R|C R]; try (injection H as <-; injection Ho as <-; split; [constructor|split; [intros (_ & ? & ? & ?); discriminate|auto]]).
  rewrite receives_iff. destruct (receiver (b_inst b) (ParameterAt (Fn R P) k)) eqn:Rc.
  - destruct (negb (receivable (b_inst b) (ParameterAt (Fn R P) k))); [discriminate|].
    destruct (HookManager N id b (Fn R P) (k + 1)) as [o1|] eqn:E; [|discriminate]. destruct (accepts mine (b_inst b) (ParameterAt (Fn R P) k)); injection H as <-.
    + destruct (manager_hooks D E Ho) as [K F]. split; [exact F|]. split; [intros _; exact K|]. intros Q. exfalso. apply Q. eauto.
    + injection Ho as <-. split; [constructor|]. split; [intros ((_ & Q) & _); discriminate|reflexivity].
  - injection H as <-. injection Ho as <-. split; [constructor|]. split; [intros ((Q & _) & _); discriminate|reflexivity].
Qed.
(** Every hook that is installed, whichever function of Class is used, is one of [f] with its signature, the handle's kind and result type right;
    parameters are implicit up to the environment, or up to the receiver behind it. *)
Theorem C59_hooks N mine id b f o hs : direct_fn f = true -> HookManagerHelper2 N mine id b f = Some o -> snd o = Ok hs ->
  Forall (hook_of N id f) hs /\
  forall h, In h hs -> k_implicit h = env_args f \/ k_implicit h = env_args f + 1 /\ receives mine (b_inst b) (ParameterAt f (env_args f)).
Proof.
  intros D H Ho. unfold HookManagerHelper2 in H. fold (env_args f) in H.
  assert (forall o hs, HookManagerHelper N mine id b f (env_args f) = Some o -> snd o = Ok hs -> Forall (hook_of N id f) hs /\
    forall h, In h hs -> k_implicit h = env_args f + 1 /\ receives mine (b_inst b) (ParameterAt f (env_args f))) as Hh.
  { intros o1 l1 E1 O1. destruct (helper_hooks D E1 O1) as (F & K & Z). split; [exact F|]. intros h Hin.
    assert (receives mine (b_inst b) (ParameterAt f (env_args f)) /\ (exists R P, f = Fn R P) \/ ~ (receives mine (b_inst b) (ParameterAt f (env_args f)) /\ exists R P, f = Fn R P)) as [Q|Q].
    { rewrite receives_iff. destruct (receiver _ _), (accepts _ _ _); destruct f; try (left; eauto; fail); right; intros ((? & ?) & ? & ? & ?); discriminate. }
    - split; [|tauto]. specialize (K Q). apply (in_map k_implicit) in Hin. rewrite K in Hin. apply repeat_spec in Hin. exact Hin.
    - rewrite (Z Q) in Hin. destruct Hin. }
  destruct (_ || _).
  - destruct (Hh _ _ H Ho) as [F K]. split; [exact F|]. intros h Hin. right. auto.
  - unfold andthen in H. destruct (HookManager N id b f (env_args f)) as [o1|] eqn:E1; [|discriminate]. destruct (HookManagerHelper N mine id b f (env_args f)) as [o2|] eqn:E2; [|discriminate].
    injection H as <-. apply obind_ok in Ho. destruct Ho as (h1 & H1 & H). apply obind_ok in H. destruct H as (h2 & H2 & [= <-]).
    destruct (manager_hooks D E1 H1) as [K1 F1]. destruct (Hh _ _ eq_refl H2) as [F2 K2]. split; [apply Forall_app; auto|].
    intros h Hin. apply in_app_or in Hin. destruct Hin as [Hin|Hin]; [|right; auto]. left. apply (in_map k_implicit) in Hin. rewrite K1 in Hin. apply repeat_spec in Hin. exact Hin.
Qed.
(** Which hooks: functions become a method for the parameters behind the environment, and another without the receiver if there is one. *)
Theorem C59_methods N mine id inst R P o hs : direct_fn (Fn R P) = true -> HookManagerHelper2 N mine id (mkFt inst false false) (Fn R P) = Some o -> snd o = Ok hs ->
  (receives mine inst (nth (env_args (Fn R P)) P Cvoid) -> map k_implicit hs = [env_args (Fn R P); env_args (Fn R P) + 1]) /\
  (~ receives mine inst (nth (env_args (Fn R P)) P Cvoid) -> map k_implicit hs = [env_args (Fn R P)]).
Proof.
  intros D H Ho. unfold HookManagerHelper2 in H. cbn [b_get b_set andb orb] in H. fold (env_args (Fn R P)) in H.
  unfold andthen in H. destruct (HookManager _ _ _ _ _) as [o1|] eqn:E1; [|discriminate]. destruct (HookManagerHelper _ _ _ _ _ _) as [o2|] eqn:E2; [|discriminate].
  injection H as <-. apply obind_ok in Ho. destruct Ho as (h1 & H1 & H). apply obind_ok in H. destruct H as (h2 & H2 & [= <-]).
  destruct (manager_hooks D E1 H1) as [K1 F1]. destruct (helper_hooks D E2 H2) as (_ & K & Z). rewrite map_app, K1. cbn [b_inst] in *. unfold ParameterAt, params in *. split; intros Q.
  - rewrite K by eauto. reflexivity.
  - rewrite Z by tauto. reflexivity.
Qed.
(** Member functions, variables and data members *)
Theorem C59_members N mine id b f o hs : direct_fn f = true -> (forall R P, f <> Fn R P) -> (b_get b = true -> params f = []) -> (b_set b = true -> length (params f) <= env_args f + 1) ->
  HookManagerHelper2 N mine id b f = Some o -> snd o = Ok hs -> map k_implicit hs = repeat (env_args f) (times b).
Proof.
  intros D Nf G St H Ho. unfold HookManagerHelper2 in H. fold (env_args f) in H.
  replace ((b_get b && _) || (b_set b && _)) with false in H.
  2:{ symmetry. apply orb_false_iff. split.
      - destruct (b_get b); [|reflexivity]. rewrite G by auto. apply Nat.ltb_ge. simpl. lia.
      - destruct (b_set b); [|reflexivity]. apply Nat.ltb_ge. auto. }
  unfold andthen in H. destruct (HookManager _ _ _ _ _) as [o1|] eqn:E1; [|discriminate]. destruct (HookManagerHelper _ _ _ _ _ _) as [o2|] eqn:E2; [|discriminate].
  injection H as <-. apply obind_ok in Ho. destruct Ho as (h1 & H1 & H). apply obind_ok in H. destruct H as (h2 & H2 & [= <-]).
  destruct (manager_hooks D E1 H1) as [K1 F1]. destruct (helper_hooks D E2 H2) as (_ & K & Z). rewrite map_app, K1, Z; [apply app_nil_r|]. intros (_ & R & P & ->). eapply Nf; reflexivity.
Qed.
(** Getter functions *)
Theorem C59_getters N mine id inst R P o hs : direct_fn (Fn R P) = true -> HookManagerHelper2 N mine id (mkFt inst true false) (Fn R P) = Some o -> snd o = Ok hs ->
  let e := env_args (Fn R P) in
  (length P = e -> map k_implicit hs = [e]) /\
  (length P <> e -> receives mine inst (nth e P Cvoid) -> map k_implicit hs = [e + 1]) /\
  (length P <> e -> ~ receives mine inst (nth e P Cvoid) -> hs = []).
Proof.
  intros D H Ho e. unfold HookManagerHelper2 in H. cbn [b_get b_set andb orb] in H. fold (env_args (Fn R P)) in H. fold e in H.
  rewrite orb_false_r in H. change (params (Fn R P)) with P in H.
  assert (e <= length P) as Le by (unfold e, env_args, ParameterAt, params; destruct P; simpl; [lia|]; destruct (is_env c); lia).
  destruct (Nat.ltb_spec e (length P)) as [Lt|Ge].
  - destruct (helper_hooks D H Ho) as (_ & K & Z). cbn [b_inst] in *. unfold ParameterAt, params in *. split; [intros; lia|]. split; intros _ Q; [rewrite K by eauto; reflexivity|apply Z; tauto].
  - assert (length P = e) as L by lia. split; [|split; intros Q; contradiction]. intros _.
    unfold andthen in H. destruct (HookManager _ _ _ _ _) as [o1|] eqn:E1; [|discriminate]. destruct (HookManagerHelper _ _ _ _ _ _) as [o2|] eqn:E2; [|discriminate].
    injection H as <-. apply obind_ok in Ho. destruct Ho as (h1 & H1 & H). apply obind_ok in H. destruct H as (h2 & H2 & [= <-]).
    destruct (manager_hooks D E1 H1) as [K1 F1]. destruct (helper_hooks D E2 H2) as (_ & K & Z). rewrite map_app, K1. rewrite Z; [reflexivity|].
    intros (Q & _). unfold ParameterAt, params in Q. rewrite nth_overflow in Q by lia. inversion Q.
Qed.
(** Setter functions *)
Theorem C59_setters N mine id inst R P o hs : direct_fn (Fn R P) = true -> HookManagerHelper2 N mine id (mkFt inst false true) (Fn R P) = Some o -> snd o = Ok hs ->
  let e := env_args (Fn R P) in
  (length P = e + 1 /\ map k_implicit hs = [e] \/
   length P <> e + 1 /\ receives mine inst (nth e P Cvoid) /\ map k_implicit hs = [e + 1] \/
   length P <> e + 1 /\ ~ receives mine inst (nth e P Cvoid) /\ hs = []).
Proof.
  intros D H Ho e. unfold HookManagerHelper2 in H. cbn [b_get b_set andb orb] in H. fold (env_args (Fn R P)) in H. fold e in H. change (params (Fn R P)) with P in H.
  destruct (Nat.ltb_spec (e + 1) (length P)) as [Lt|Ge].
  - destruct (helper_hooks D H Ho) as (_ & K & Z). cbn [b_inst] in *. unfold ParameterAt, params in *. right.
    assert (receives mine inst (nth e P Cvoid) \/ ~ receives mine inst (nth e P Cvoid)) as [Q|Q] by (rewrite receives_iff; destruct (receiver _ _), (accepts _ _ _); intuition congruence).
    + left. split; [lia|]. split; [exact Q|]. rewrite K by eauto. reflexivity.
    + right. split; [lia|]. split; [exact Q|]. apply Z. tauto.
  - unfold andthen in H. destruct (HookManager _ _ _ _ _) as [o1|] eqn:E1; [|discriminate]. destruct (HookManagerHelper _ _ _ _ _ _) as [o2|] eqn:E2; [|discriminate].
    injection H as <-. apply obind_ok in Ho. destruct Ho as (h1 & H1 & H). apply obind_ok in H. destruct H as (h2 & H2 & [= <-]).
    assert (length P = e + 1) as L. { unfold HookManager, install_setter in E1. cbn [b_get b_set b_inst] in E1. destruct (Nat.eqb_spec (length P) (e + 1)); [auto|discriminate]. }
    left. split; [exact L|]. destruct (manager_hooks D E1 H1) as [K1 F1]. destruct (helper_hooks D E2 H2) as (_ & K & Z). rewrite map_app, K1. rewrite Z; [reflexivity|].
    intros (Q & _). apply receives_iff in Q. destruct Q as [Q _]. unfold HookManagerHelper in E2. cbn [b_inst] in *. rewrite Q in E2.
    destruct (negb (receivable inst (ParameterAt (Fn R P) e))); [discriminate|].
    unfold HookManager, install_setter in E2. cbn [b_get b_set b_inst] in E2. destruct (Nat.eqb_spec (length P) (e + 1 + 1)); [lia|discriminate].
Qed.
(** What is installed, by the function of Class that is used: only methods, getters or setters, static or not, and parameters that are passed
    have types that JNICast can make: no jstring, no const std::shared_ptr&, no arrays or classes by value, no environments. *)
Definition unpassable (T : cty) : Prop :=
  T = Cvoid \/ T = Cjstring \/ is_env T = true \/ (exists c, T = Ccshared c) \/ T = Cval ClClass \/ exists c, T = Cval c /\ (c = ClBools \/ (exists p, c = ClPrims p) \/ exists e, c = ClArr e).
Definition made_by (b : ftype) (f : callable) (h : hook) : Prop :=
  k_static h = negb (b_inst b) /\ h_kind (k_handle h) = (match k_what h with WMethod => if b_inst b then KInst else KStatic | WGet => if b_inst b then KInstGet else KStaticGet | WSet => if b_inst b then KInstSet else KStaticSet end) /\
  match k_what h with
  | WMethod => b_get b = false /\ b_set b = false /\ forall T, In T (skipn (k_implicit h) (params f)) -> ~ unpassable T
  | WGet => b_get b = true
  | WSet => b_set b = true
  end.
Lemma castable_passable T : castable T = true -> ~ unpassable T.
Proof.
  intros C [->|[->|[E|[(c & ->)|[->|(c & -> & [->|[(p & ->)|(e & ->)]])]]]]]; try discriminate. destruct T; discriminate.
Qed.
Lemma method_made N id inst f k o hs : install_method N id inst f k = Some o -> snd o = Ok hs -> Forall (made_by (mkFt inst false false) f) hs.
Proof.
  intros H Ho. unfold install_method in H.
  assert (forall t R, (if forallb castable (skipn k (params f)) && (inst || negb (isMemFn f)) then Some (obind (invoke_sig N (skipn k (params f)) R) (fun s => oret [mkHook WMethod (negb inst) s (mkHandle id (if inst then KInst else KStatic) t (isMemFn f)) k])) else None) = Some o ->
    Forall (made_by (mkFt inst false false) f) hs) as K.
  { intros t R. destruct (forallb castable (skipn k (params f))) eqn:C; [|discriminate]. destruct (inst || negb (isMemFn f)); [|discriminate]. cbn [andb]. intros [= <-].
    apply obind_ok in Ho. destruct Ho as (s & Hs & [= <-]). constructor; [|constructor]. split; [reflexivity|]. split; [reflexivity|]. cbn [k_what k_implicit]. split; [reflexivity|]. split; [reflexivity|].
    intros T HT. apply castable_passable. rewrite forallb_forall in C. auto. }
  destruct f; cbn [Return params isMemFn] in *; try discriminate; destruct (tag R) eqn:T; try discriminate; eapply K; eauto.
Qed.
Lemma getter_made N id inst f k o hs b : b_inst b = inst -> b_get b = true -> install_getter N id inst f k = Some o -> snd o = Ok hs -> Forall (made_by b f) hs.
Proof.
  intros Hi Hg H Ho. unfold install_getter in H.
  assert (match tag (Return f) with None | Some RVoid => None | Some t => Some (obind (GetJNISignature N (Return f)) (fun s => oret [mkHook WGet (negb inst) s (mkHandle id (if inst then KInstGet else KStaticGet) t false) k])) end = Some o) as K.
  { destruct f; [destruct (Nat.eqb _ _)|discriminate| |destruct inst]; congruence. }
  clear H. destruct (tag (Return f)) as [t|]; [|discriminate].
  assert (o = obind (GetJNISignature N (Return f)) (fun s => oret [mkHook WGet (negb inst) s (mkHandle id (if inst then KInstGet else KStaticGet) t false) k])) as -> by (destruct t; congruence).
  apply obind_ok in Ho. destruct Ho as (s & Hs & [= <-]). constructor; [|constructor]. subst inst. split; [reflexivity|]. split; [reflexivity|exact Hg].
Qed.
Lemma setter_made N id inst f k o hs b : b_inst b = inst -> b_set b = true -> install_setter N id inst f k = Some o -> snd o = Ok hs -> Forall (made_by b f) hs.
Proof.
  intros Hi Hg H Ho. unfold install_setter in H.
  assert (exists T t, o = obind (GetJNISignature N T) (fun s => oret [mkHook WSet (negb inst) s (mkHandle id (if inst then KInstSet else KStaticSet) t (isMemFn f)) k])) as (T & t & ->).
  { destruct f; cbn [params isMemFn Return] in *.
    - destruct (_ && _); [|discriminate]. destruct (tag _) as [t|]; [|discriminate]. destruct (castable _); [|discriminate]. injection H as <-. eauto.
    - destruct (_ && _); [|discriminate]. destruct (tag _) as [t|]; [|discriminate]. destruct (castable _); [|discriminate]. injection H as <-. eauto.
    - destruct (tag _) as [t|]; [|discriminate]. destruct (castable _); [|discriminate]. injection H as <-. eauto.
    - destruct inst; [|discriminate]. destruct (tag _) as [t|]; [|discriminate]. destruct (castable _); [|discriminate]. injection H as <-. eauto. }
  apply obind_ok in Ho. destruct Ho as (s & Hs & [= <-]). constructor; [|constructor]. subst inst. split; [reflexivity|]. split; [reflexivity|exact Hg].
Qed.
Lemma manager_made N id b f k o hs : HookManager N id b f k = Some o -> snd o = Ok hs -> Forall (made_by b f) hs.
Proof.
  intros H Ho. unfold HookManager in H. destruct b as [i g st]. cbn [b_inst b_get b_set] in H. destruct g, st.
  - unfold andthen in H. destruct (install_getter N id i f k) as [o1|] eqn:E1; [|discriminate]. destruct (install_setter N id i f k) as [o2|] eqn:E2; [|discriminate].
    injection H as <-. apply obind_ok in Ho. destruct Ho as (h1 & H1 & H). apply obind_ok in H. destruct H as (h2 & H2 & [= <-]). apply Forall_app. split; [eapply getter_made|eapply setter_made]; eauto.
  - eapply getter_made; eauto.
  - eapply setter_made; eauto.
  - eapply method_made; eauto.
Qed.
Theorem C59_made N mine id b f o hs : HookManagerHelper2 N mine id b f = Some o -> snd o = Ok hs -> Forall (made_by b f) hs.
Proof.
  intros H Ho. unfold HookManagerHelper2 in H. fold (env_args f) in H.
  assert (forall o hs, HookManagerHelper N mine id b f (env_args f) = Some o -> snd o = Ok hs -> Forall (made_by b f) hs) as Hh.
  { clear. intros o hs H Ho. unfold HookManagerHelper in H. destruct f; try (injection H as <-; injection Ho as <-; constructor).
    destruct (receiver _ _); [|injection H as <-; injection Ho as <-; constructor]. destruct (negb (receivable _ _)); [discriminate|].
    destruct (HookManager _ _ _ _ _) as [o1|] eqn:E; [|discriminate]. destruct (accepts _ _ _); injection H as <-; [eapply manager_made; eauto|injection Ho as <-; constructor]. }
  destruct (_ || _); [eapply Hh; eauto|]. unfold andthen in H. destruct (HookManager _ _ _ _ _) as [o1|] eqn:E1; [|discriminate]. destruct (HookManagerHelper _ _ _ _ _ _) as [o2|] eqn:E2; [|discriminate].
  injection H as <-. apply obind_ok in Ho. destruct Ho as (h1 & H1 & H). apply obind_ok in H. destruct H as (h2 & H2 & [= <-]). apply Forall_app. split; [eapply manager_made; eauto|eapply Hh; eauto].
Qed.
(** What the functions of Class are for *)
Definition installs (w : list what) (static : bool) (m : option (out (list hook))) : Prop :=
  forall o hs, m = Some o -> snd o = Ok hs -> Forall (fun h => In (k_what h) w /\ k_static h = static) hs.
Theorem C59_functions N mine id f :
  installs [WMethod] false (HookInstanceFunction N mine id f) /\ installs [WGet] false (HookInstanceGetterFunction N mine id f) /\ installs [WSet] false (HookInstanceSetterFunction N mine id f) /\
  installs [WGet] true (HookGetterFunction N mine id f) /\ installs [WSet] true (HookSetterFunction N mine id f) /\ installs [WGet; WSet] false (HookInstanceProperty N mine id f) /\
  installs (match f with Fn _ _ | MemFn _ _ _ => [WMethod] | _ => [WGet; WSet] end) (match f with Fn _ _ | Var _ => true | _ => false end) (Hook N mine id f) /\
  installs (match f with Fn _ _ | MemFn _ _ _ => [WMethod] | _ => [WGet; WSet] end) false (HookInstance N mine id f).
Proof.
  assert (forall b w st, (forall h, made_by b f h -> In (k_what h) w /\ k_static h = st) -> installs w st (HookManagerHelper2 N mine id b f)) as K.
  { intros b w st Hh o hs H Ho. eapply Forall_impl; [exact Hh|]. eapply C59_made; eauto. }
  split; [|split; [|split; [|split; [|split; [|split; [|split]]]]]]; apply K; intros h (Hs & _ & Hw); destruct f; destruct (k_what h); cbn in *; split; auto; try discriminate Hw; try (destruct Hw as (? & ? & _); discriminate).
Qed.
(** A variable is hooked with a getter and a setter, both with the type of the variable. *)
Definition both_accessors (m : option (out (list hook))) : Prop :=
  forall o hs, m = Some o -> snd o = Ok hs -> exists g s, hs = [g; s] /\ k_what g = WGet /\ k_what s = WSet /\ k_sig g = k_sig s /\ k_implicit g = 0 /\ k_implicit s = 0.
Theorem C59_property N mine id f : (match f with Var _ | MemVar _ _ => True | _ => False end) ->
  both_accessors (HookInstanceProperty N mine id f) /\ both_accessors (Hook N mine id f) /\ both_accessors (HookInstance N mine id f).
Proof.
  intros Hf.
  assert (forall i, both_accessors (HookManagerHelper2 N mine id (mkFt i true true) f)) as K.
  { intros i o hs H Ho. unfold HookManagerHelper2, andthen, HookManager, HookManagerHelper in H. cbn [b_inst b_get b_set] in H.
    destruct f as [| |R|C R]; try contradiction; cbn [params ParameterAt nth is_env length Nat.ltb Nat.leb Nat.add andb orb] in H; unfold ParameterAt, andthen, install_getter, install_setter in H; cbn [params nth is_env isMemFn Return] in H.
    - destruct (tag R) as [t|]; [|discriminate]. destruct t; try discriminate; (destruct (castable R); [|discriminate]); injection H as <-; cbn in Ho; destruct (snd (GetJNISignature N R)) eqn:E;
        unfold obind, oret in Ho; destruct (GetJNISignature N R) as [l r]; cbn in *; subst; cbn in Ho; try discriminate; injection Ho as <-; eexists _, _; cbn; repeat (split; [reflexivity|]); reflexivity.
    - destruct i; [|discriminate]. destruct (tag R) as [t|]; [|discriminate]. destruct t; try discriminate; (destruct (castable R); [|discriminate]); injection H as <-; cbn in Ho; destruct (snd (GetJNISignature N R)) eqn:E;
        unfold obind, oret in Ho; destruct (GetJNISignature N R) as [l r]; cbn in *; subst; cbn in Ho; try discriminate; injection Ho as <-; eexists _, _; cbn; repeat (split; [reflexivity|]); reflexivity. }
  split; [apply K|]. split; [|destruct f; try contradiction; apply K]. unfold Hook. destruct f; try contradiction; apply K.
Qed.
(** A call converts value number i with the member of jvalue for type number i of the signature. *)
Theorem C59_reads N id f h : hook_of N id f h -> k_what h = WMethod ->
  exists js r, k_sig h = msig js r /\ Forall2 (java N) (skipn (k_implicit h) (params f)) js /\ reads f (k_implicit h) = map member_of js.
Proof.
  intros H W. destruct H as [inst k js r F Hr| | |]; cbn in W; try discriminate. exists js, r. cbn [k_sig k_implicit]. split; [reflexivity|]. split; [exact F|].
  unfold reads. clear Hr. induction F as [|T j l l' Hj F IH]; [reflexivity|]. simpl. f_equal; [|exact IH].
  assert (forall c k, class_type N c k -> member_of k = Ml) as Hc by (intros c q Q; destruct Q; reflexivity).
  inversion Hj; subst; cbn; try (symmetry; eapply Hc; eauto; fail); [destruct p; reflexivity|reflexivity].
Qed.
(** The environment is never part of a signature: it has no Java type. *)
Theorem C59_environment N mine id b f o hs h : direct_fn f = true -> HookManagerHelper2 N mine id b f = Some o -> snd o = Ok hs -> In h hs -> k_what h = WMethod ->
  ~ In CJNIEnv (skipn (k_implicit h) (params f)) /\ ~ In CENV (skipn (k_implicit h) (params f)).
Proof.
  intros D H Ho Hin W. destruct (C59_hooks D H Ho) as [F _]. rewrite Forall_forall in F. specialize (F h Hin). destruct F; cbn in *; try discriminate.
  split; intros Q; apply In_nth_error in Q; destruct Q as (i & Q); revert i Q; clear -H0; induction H0; intros [|i] Q; simpl in Q; try discriminate; eauto; injection Q as ->; inversion H.
Qed.
(** The receiver does appear in the first of the two methods made from a function that has one. *)
Definition demo_names : names := mkNames (fun c => match c with ClObject => Some (S_ "java/lang/Object") | ClClass => Some (S_ "java/lang/Class") | ClUser 0 => Some (S_ "A") | _ => None end) (fun _ => None).
Theorem C59_refuted_receiver : exists N f o, Hook N (fun _ => false) 0 f = Some o /\ direct_fn f = true /\
  exists h1 h2, snd o = Ok [h1; h2] /\ k_sig h1 = S_ "(Ljava/lang/Class;I)V" /\ k_sig h2 = S_ "(I)V".
Proof. exists demo_names, (Fn Cvoid [CJNIEnv; Cjclass; Cprim PtI]). eexists. split; [reflexivity|]. split; [reflexivity|]. eexists _, _. repeat split. Qed.
(** ** Which functions can be hooked at all *)
Lemma castable_iff T : castable T = true <-> passable T.
Proof. split; [destruct T as [| | | | | | | | |[]| | | | |]; simpl; try discriminate; constructor|intros []; reflexivity]. Qed.
Lemma castable_all l : forallb castable l = true <-> Forall passable l.
Proof. rewrite forallb_forall, Forall_forall. split; intros H x Hx; apply castable_iff; auto. Qed.
Lemma receiver_tried inst T : WrapModel.receiver inst T = true <-> tried inst T.
Proof. split; [destruct inst, T as [| | | | | | | | |c|[]| | | |]; simpl; try discriminate; constructor|intros []; reflexivity]. Qed.
Lemma receivable_ok inst T : tried inst T -> (receivable inst T = true <-> receiver_ok inst T).
Proof.
  intros Tr. destruct Tr as [|c|c| |]; cbn [receivable].
  - split; [discriminate|inversion 1].
  - rewrite castable_iff. split; [constructor; auto|]. inversion 1; auto.
  - split; [destruct c; try discriminate; intros _; constructor; discriminate|]. inversion 1; subst. destruct c; try reflexivity. contradiction.
  - split; [constructor|reflexivity].
  - split; [constructor|reflexivity].
Qed.
Lemma tag_value T : (exists t, tag T = Some t /\ t <> RVoid) <-> returnable T.
Proof. split; [intros (t & H & N); destruct T; simpl in H; try discriminate; try constructor; congruence|intros []; simpl; eexists; (split; [reflexivity|discriminate])]. Qed.
Lemma tag_result T : (exists t, tag T = Some t) <-> T = Cvoid \/ returnable T.
Proof. split; [intros (t & H); destruct T; simpl in H; try discriminate; auto; right; constructor|]. intros [->|[]]; simpl; eauto. Qed.
Lemma method_compiles N id inst R P k : install_method N id inst (Fn R P) k <> None <-> (R = Cvoid \/ returnable R) /\ Forall passable (skipn k P).
Proof.
  unfold install_method. cbn [Return isMemFn negb]. rewrite orb_true_r, andb_true_r, <- tag_result, <- castable_all. destruct (tag R) as [t|].
  - destruct (forallb castable (skipn k P)); split; try congruence; eauto. intros [_ H]. discriminate.
  - split; [congruence|]. intros [(t & H) _]. discriminate.
Qed.
Lemma getter_compiles N id inst R P k : install_getter N id inst (Fn R P) k <> None <-> length P = k /\ returnable R.
Proof.
  unfold install_getter. cbn [Return]. destruct (Nat.eqb_spec (length P) k) as [E|E]; [|split; [congruence|tauto]]. rewrite <- tag_value. destruct (tag R) as [[|p|]|].
  - split; [intros _; split; auto; eexists; split; [reflexivity|discriminate]|discriminate].
  - split; [intros _; split; auto; eexists; split; [reflexivity|discriminate]|discriminate].
  - split; [congruence|intros (_ & t & [= <-] & H); contradiction].
  - split; [congruence|intros (_ & t & H & _); discriminate].
Qed.
Lemma setter_compiles N id inst R P k : install_setter N id inst (Fn R P) k <> None <->
  length P = k + 1 /\ (inst = true \/ R = Cvoid) /\ passable (nth k P Cvoid) /\ returnable (nth k P Cvoid).
Proof.
  unfold install_setter, ParameterAt. cbn [params]. destruct (Nat.eqb_spec (length P) (k + 1)) as [E|E]; [|simpl; split; [congruence|tauto]]. rewrite E. replace (k + 1 - 1) with k by lia. cbn [andb].
  assert ((inst || match R with Cvoid => true | _ => false end) = true <-> inst = true \/ R = Cvoid) as Hi.
  { rewrite orb_true_iff. destruct R; intuition (try discriminate; auto). }
  rewrite <- castable_iff. destruct (inst || _).
  - destruct (tag (nth k P Cvoid)) as [t|] eqn:Et.
    + destruct (castable (nth k P Cvoid)) eqn:C.
      * split; [|discriminate]. intros _. split; [reflexivity|]. split; [apply Hi; reflexivity|]. split; [reflexivity|]. apply tag_value. exists t. split; [exact Et|]. intros ->. destruct (nth k P Cvoid); discriminate.
      * split; [congruence|]. intros (_ & _ & H & _). discriminate.
    + split; [congruence|]. intros (_ & _ & _ & H). apply tag_value in H. destruct H as (t & H & _). congruence.
  - split; [congruence|]. intros (_ & H & _). apply Hi in H. discriminate.
Qed.
Lemma helper_compiles N mine id b R P k : HookManagerHelper N mine id b (Fn R P) k <> None <->
  (tried (b_inst b) (nth k P Cvoid) -> receiver_ok (b_inst b) (nth k P Cvoid) /\ HookManager N id b (Fn R P) (k + 1) <> None).
Proof.
  unfold HookManagerHelper, ParameterAt. cbn [params]. destruct (WrapModel.receiver (b_inst b) (nth k P Cvoid)) eqn:Er.
  - apply receiver_tried in Er. rewrite <- (receivable_ok Er). destruct (receivable (b_inst b) (nth k P Cvoid)); cbn [negb].
    + destruct (HookManager N id b (Fn R P) (k + 1)) as [o|]; [|split; [congruence|tauto]]. split; [intros _ _; split; congruence|]. intros _. destruct (accepts _ _ _); discriminate.
    + split; [congruence|]. intros H. destruct (H Er). discriminate.
  - split; [|discriminate]. intros _ Tr. apply receiver_tried in Tr. congruence.
Qed.
Lemma andthen_some A (m n : option (out (list A))) : andthen m n <> None <-> m <> None /\ n <> None.
Proof. unfold andthen. destruct m, n; intuition congruence. Qed.
Lemma env_args_le R P : env_args (Fn R P) <= length P.
Proof. unfold env_args. destruct P as [|T P]; cbn; [lia|]. destruct (is_env _); simpl; lia. Qed.
Lemma tried_inside inst k P : tried inst (nth k P Cvoid) -> k < length P.
Proof. intros H. destruct (Nat.lt_ge_cases k (length P)) as [L|L]; auto. rewrite nth_overflow in H by auto. inversion H. Qed.
Lemma Forall_skipn_add (X : Type) (Q : X -> Prop) l e k : Forall Q (skipn e l) -> Forall Q (skipn (e + k) l).
Proof. revert e. induction l as [|x l IH]; intros e H; [rewrite skipn_nil; constructor|]. destruct e; simpl in *; [|auto]. destruct k; [exact H|]. inversion H; subst. simpl. apply (IH 0) in H3 as H4. clear - H3. revert k. induction H3; intros [|k]; simpl; auto. Qed.
Theorem C59_compiles N mine id inst R P : let e := env_args (Fn R P) in let T := nth e P Cvoid in let U := nth (e + 1) P Cvoid in
  (HookManagerHelper2 N mine id (mkFt inst false false) (Fn R P) <> None <->
     (R = Cvoid \/ returnable R) /\ Forall passable (skipn e P) /\ (tried inst T -> receiver_ok inst T)) /\
  (HookManagerHelper2 N mine id (mkFt inst true false) (Fn R P) <> None <->
     (length P = e -> returnable R) /\ (tried inst T -> receiver_ok inst T /\ length P = e + 1 /\ returnable R)) /\
  (HookManagerHelper2 N mine id (mkFt inst false true) (Fn R P) <> None <->
     length P <> e /\ (length P = e + 1 -> ~ tried inst T /\ (inst = true \/ R = Cvoid) /\ passable T /\ returnable T) /\
     (length P <> e + 1 -> tried inst T -> receiver_ok inst T /\ length P = e + 2 /\ (inst = true \/ R = Cvoid) /\ passable U /\ returnable U)).
Proof.
  intros e T U. pose proof (env_args_le R P) as Le. fold e in Le. unfold HookManagerHelper2. cbn [b_get b_set andb orb]. fold (env_args (Fn R P)). fold e. change (params (Fn R P)) with P. split; [|split].
  - rewrite andthen_some, helper_compiles. unfold HookManager. cbn [b_get b_set b_inst]. rewrite !method_compiles. fold T. split.
    + intros ((H1 & H2) & H3). split; [exact H1|]. split; [exact H2|]. intros Q. apply H3. exact Q.
    + intros (H1 & H2 & H3). split; [auto|]. intros Q. split; [auto|]. split; [exact H1|]. apply Forall_skipn_add; exact H2.
  - destruct (Nat.ltb_spec e (length P)) as [L|L].
    + cbn [orb]. rewrite helper_compiles. unfold HookManager. cbn [b_get b_set b_inst]. rewrite getter_compiles. fold T. split; [|tauto]. intros H. split; [lia|]. exact H.
    + cbn [orb]. rewrite andthen_some, helper_compiles. unfold HookManager. cbn [b_get b_set b_inst]. rewrite !getter_compiles. fold T.
      assert (~ tried inst T) as Nt by (intros Q; apply tried_inside in Q; lia). split; [tauto|]. intros (H & _). split; [split; [lia|apply H; lia]|tauto].
  - destruct (Nat.ltb_spec (e + 1) (length P)) as [L|L].
    + rewrite helper_compiles. unfold HookManager. cbn [b_get b_set b_inst]. rewrite setter_compiles. fold T U. replace (e + 1 + 1) with (e + 2) by lia. split.
      * intros H. split; [lia|]. split; [lia|]. intros _. exact H.
      * intros (_ & _ & H). apply H. lia.
    + rewrite andthen_some, helper_compiles. unfold HookManager. cbn [b_get b_set b_inst]. rewrite !setter_compiles. fold T U. split.
      * intros ((H1 & H2) & H3). split; [lia|]. split; [|lia]. intros _. split; [|exact H2]. intros Q. destruct (H3 Q) as (_ & H4 & _). lia.
      * intros (H1 & H2 & _). assert (length P = e + 1) as E by lia. destruct (H2 E) as (Nt & H3). split; [split; [exact E|exact H3]|]. intros Q. contradiction.
Qed.
Example C59_compiles_ex : let ok b f := match HookManagerHelper2 (mkNames (fun _ => None) (fun _ => None)) (fun _ => true) 0 b f with Some _ => true | None => false end in
  ok (mkFt true false false) (Fn Cvoid [Cjobject; Cprim PtI]) = false /\ ok (mkFt true false false) (Fn Cvoid [Cptr ClObject; Cprim PtI]) = true /\
  ok (mkFt true false false) (Fn Cvoid [CENV; Cval (ClUser 0)]) = true /\ ok (mkFt true false false) (Fn Cvoid [Cval (ClArr ClObject)]) = false /\
  ok (mkFt false false false) (Fn Cjstring [Cprim PtI]) = false /\ ok (mkFt false false false) (Fn Cvoid [Cjobject]) = true /\
  ok (mkFt true true false) (Fn (Cprim PtI) [Cval ClClass]) = false /\ ok (mkFt true false true) (Fn Cvoid [Cval (ClUser 0)]) = false /\ ok (mkFt true false true) (Fn Cvoid [Cptr (ClUser 0); Cprim PtI]) = true.
Proof. repeat split; reflexivity. Qed.

(** Examples *)
Definition demo_fn := Fn (Cshared (ClArr (ClArr (ClUser 0)))) [CENV; Cptr (ClUser 0); Cbool; Cshared (ClPrims PtJ); Cref (ClUser 0); Cprim PtD].
Example C59_case : direct_fn demo_fn = true /\ exists h1 h2, HookInstanceFunction demo_names (fun c => match c with ClUser 0 => true | _ => false end) 7 demo_fn =
  Some ([S_ "[LA;"; S_ "[[LA;"; S_ "[LA;"; S_ "[[LA;"], Ok [h1; h2]) /\ k_sig h1 = S_ "(LA;Z[JLA;D)[[LA;" /\ k_sig h2 = S_ "(Z[JLA;D)[[LA;" /\
  k_handle h2 = mkHandle 7 KInst RObj false /\ k_implicit h2 = 2 /\ reads demo_fn 2 = [Mz; Ml; Ml; Md].
Proof. split; [reflexivity|]. eexists _, _. repeat split. Qed.
Example C59_case_names : names_ok demo_names.
Proof.
  intros c n H. unfold class_name in H. cbn [n_reg n_own demo_names] in H.
  assert (n = S_ "java/lang/Object" \/ n = S_ "java/lang/Class" \/ n = S_ "A") as Q by (destruct c as [| | | |[|m]| | |]; cbv beta iota in H; destruct H as [H|[H1 H2]]; try discriminate; injection H as <-; auto).
  destruct Q as [->|[->| ->]]; split; intros Q; simpl in Q; repeat (destruct Q as [Q|Q]; [discriminate|]); exact Q.
Qed.
Example C59_case_property : exists h1 h2, Hook demo_names (fun _ => false) 3 (MemVar (ClUser 0) (Cprim PtI)) = Some ([], Ok [h1; h2]) /\ k_what h1 = WGet /\ k_what h2 = WSet /\
  k_sig h1 = S_ "I" /\ k_sig h2 = S_ "I" /\ k_static h1 = false /\ k_handle h2 = mkHandle 3 KInstSet (RPrim PtI) false.
Proof. eexists _, _. repeat split. Qed.
Example C59_case_setter : exists h, HookInstanceSetterFunction demo_names (fun c => match c with ClUser 0 => true | _ => false end) 3 (Fn Cvoid [Cptr (ClUser 0); Cprim PtI]) = Some ([], Ok [h]) /\
  k_what h = WSet /\ k_sig h = S_ "I" /\ k_implicit h = 1.
Proof. eexists. repeat split. Qed.
Example C59_case_getter : exists h, HookGetterFunction demo_names (fun _ => false) 3 (Fn Cbool [CJNIEnv; Cjclass]) = Some ([], Ok [h]) /\ k_what h = WGet /\ k_sig h = S_ "Z" /\ k_static h = true /\ k_implicit h = 2.
Proof. eexists. repeat split. Qed.
Print Assumptions C59_hooks.
Print Assumptions C59_methods.
Print Assumptions C59_made. Print Assumptions C59_functions. Print Assumptions C59_property. Print Assumptions C59_compiles.
