(** Which mutexes the calls hold when they access shared data: proofs. *)
From Verif Require Import Base BaseProofs SigModel VmState VmModel ConcModel ConcLogic ConcSpec.
Set Implicit Arguments.
Unset Strict Implicit.

Definition rank (height : nat -> nat) (m : lock) : nat := match m with LVm => 0 | LCls c => S (height c) end.
Lemma drop_cons m H : ~ In m H -> drop m (m :: H) = H.
Proof. intros N. unfold drop. cbn. destruct (lock_eq_dec m m); [|congruence]. apply notin_remove. exact N. Qed.

Section Disc.
Variable G : ccfg.
Variable height : nat -> nat.
Hypothesis Hr : ranked G height.
Variable J : shared -> Prop.
Variable P : list lock -> loc -> option (shared -> shared) -> Prop.
Notation dsc := (disc J (in_order (rank height)) P).

Lemma disc_walk zero path : forall cur H k, P H XReg None -> (forall x, P H XReg (Some (add_node x))) -> (forall r, dsc H (k r)) -> dsc H (walk zero cur path k).
Proof.
  induction path as [|[w n] r IH]; intros cur H k Hp Hw Hk; cbn [walk]; [apply Hk|]. apply dc_rd; [exact Hp|]. intros s Js. destruct (child (reg s) _); [apply IH; assumption|].
  destruct zero; [apply Hk|]. apply dc_wr; [apply Hw|]. intros s' Js'. apply IH; assumption.
Qed.
(** A program that declares the classes of type [ty] and goes on with [k] *)
Definition decl_ok (ty : str) : Prop := forall H k, dsc H k -> dsc H (declare G ty k).
Lemma disc_declare ty : (c_debug G = true -> forall H, P H XReg None /\ forall x, P H XReg (Some (add_node x))) -> decl_ok ty.
Proof.
  intros Hp H k Hk. unfold declare. destruct (c_debug G); [|exact Hk]. destruct (Declare_names ty) as [l| | | |]; try exact Hk.
  induction l as [|n r IH]; cbn [declare_all]; [exact Hk|]. apply disc_walk; try apply Hp; auto.
Qed.
Lemma disc_field x : decl_ok (k_type x) -> (forall H c, In (LCls c) H -> P H (XFields c) None) -> (forall H, P H XTypes None) ->
  forall n c rn k H, height c < n -> (rn = false -> forall H, In (LCls c) H -> P H (XFields c) (Some (add_field c x))) -> in_order (rank height) H (LCls c) -> (forall r, dsc H (k r)) -> dsc H (field_prog G n c x rn k).
Proof.
  intros Hd Hf Ht. induction n as [|n IH]; intros c rn k H Lt Hw Ho Hk; [lia|]. cbn [field_prog].
  assert (~ In (LCls c) H) as Nin by (intros Q; specialize (Ho _ Q); lia).
  assert (forall r, dsc (LCls c :: H) (Rel (LCls c) (k r))) as Hrel by (intros r; apply dc_rel; [left; reflexivity|rewrite drop_cons by exact Nin; apply Hk]).
  apply dc_acq; [exact Ho|]. apply dc_rd; [apply Hf; left; reflexivity|]. intros s Js. destruct (find_key _ _); [apply Hrel|]. apply dc_rd; [apply Ht|]. intros s' Js'.
  assert (forall b, In b (c_bases G c) -> height b < height c) as Hb by (intros b; apply Hr). induction (c_bases G c) as [|b r IHl].
  - destruct rn; [apply Hrel|]. apply dc_wr; [apply Hw; [reflexivity|left; reflexivity]|]. intros s2 J2. apply Hd. apply Hrel.
  - apply IH; [specialize (Hb b (or_introl eq_refl)); lia|discriminate| |].
    + intros h [<-|Hin]; cbn; [specialize (Hb b (or_introl eq_refl)); lia|]. specialize (Ho _ Hin). specialize (Hb b (or_introl eq_refl)). cbn in *. lia.
    + intros [i|]; [apply Hrel|]. apply IHl. intros d Hd'. apply Hb. right. exact Hd'.
Qed.
Lemma disc_method x : decl_ok (k_type x) -> (forall H c, In (LCls c) H -> P H (XMethods c) None) -> (forall H, P H XTypes None) ->
  forall n c rn k, height c < n -> (rn = false -> forall H, P H (XMethods c) (Some (add_method c x))) -> (forall r, dsc [] (k r)) -> dsc [] (method_prog G n c x rn k).
Proof.
  intros Hd Hf Ht. induction n as [|n IH]; intros c rn k Lt Hw Hk; [lia|]. cbn [method_prog].
  apply dc_acq; [intros h []|]. apply dc_rd; [apply Hf; left; reflexivity|]. intros s Js. apply dc_rel; [left; reflexivity|]. rewrite drop_cons by (intros []).
  destruct (find_key _ _); [apply Hk|]. apply dc_rd; [apply Ht|]. intros s' Js'.
  assert (forall b, In b (c_bases G c) -> height b < height c) as Hb by (intros b; apply Hr). induction (c_bases G c) as [|b r IHl].
  - destruct rn; [apply Hk|]. apply dc_wr; [apply Hw; reflexivity|]. intros s2 J2. apply Hd. apply Hk.
  - apply IH; [specialize (Hb b (or_introl eq_refl)); lia|discriminate|]. intros [i|]; [apply Hk|]. apply IHl. intros d Hd'. apply Hb. right. exact Hd'.
Qed.
End Disc.

Ltac rel_end := apply dc_rel; [left; reflexivity|]; rewrite drop_cons by (intros []); constructor.
Ltac locked_walk := apply dc_acq; [intros ? []|]; apply disc_walk.
Section Calls.
Variable G : ccfg.
Variable height : nat -> nat.
Hypothesis Hr : ranked G height.
Notation dsc P := (disc any_state (in_order (rank height)) P).
Notation good P := (good_call G height (in_order (rank height)) P).
Lemma disc_register J (P : list lock -> loc -> option (shared -> shared) -> Prop) c l : (forall y, In y l -> P [LCls c] (XMethods c) (Some (add_native c y))) -> disc J (in_order (rank height)) P [LCls c] (register_loop c l).
Proof.
  intros Hp. induction l as [|y l IH]; cbn [register_loop].
  - apply dc_rel; [left; reflexivity|]. rewrite drop_cons by (intros []). constructor.
  - apply dc_wr; [apply Hp; left; reflexivity|]. intros s Js. apply IH. intros z Hz. apply Hp. right. exact Hz.
Qed.
(** Every call takes mutexes in order. *)
Lemma ordered_call c : good anything c.
Proof.
  unfold good_call. assert (forall ty, @decl_ok G height any_state anything ty) as Dc by (intros ty; apply disc_declare; intros _ H; split; [exact I|intros y; exact I]).
  destruct c as [n|c x|c x| | |T n|T|T|c x|g|c x|c x|t|t|t|cu]; cbn [prog_of].
  - unfold FindClass, InternalFindClass. locked_walk; try (intros; exact I). intros r. apply dc_rel; [left; reflexivity|]. rewrite drop_cons by (intros []). constructor.
  - apply disc_field; try (intros; exact I); auto; [intros h []|constructor].
  - apply disc_method; try (intros; exact I); auto; constructor.
  - unfold NewGlobalRef, NewRef, InternalFindClass. apply disc_walk; try (intros; exact I). intros r. apply dc_acq; [intros ? []|]. apply dc_wr; [exact I|]. intros s Js. apply dc_rel; [left; reflexivity|]. rewrite drop_cons by (intros []). constructor.
  - unfold NewWeakGlobalRef, NewRef, InternalFindClass. apply disc_walk; try (intros; exact I). intros r. apply dc_acq; [intros ? []|]. apply dc_wr; [exact I|]. intros s Js. apply dc_rel; [left; reflexivity|]. rewrite drop_cons by (intros []). constructor.
  - unfold GetClassT, InternalFindClass. locked_walk; try (intros; exact I). intros r. apply dc_wr; [exact I|]. intros s Js. apply dc_rel; [left; reflexivity|]. rewrite drop_cons by (intros []). constructor.
  - unfold ClassOf. apply dc_rd; [exact I|]. intros s Js. constructor.
  - unfold SignatureOf. apply dc_acq; [intros ? []|]. apply dc_rd; [exact I|]. intros s Js. apply dc_rel; [left; reflexivity|]. rewrite drop_cons by (intros []). constructor.
  - unfold RegisterNatives. apply dc_acq; [intros ? []|]. apply disc_register. intros; exact I.
  - unfold DeleteRef. apply dc_acq; [intros ? []|]. apply dc_rd; [exact I|]. intros s Js. destruct (existsb _ _); [apply dc_wr; [exact I|]; intros s' Js'|]; rel_end.
  - unfold HookMethod. apply dc_rd; [exact I|]. intros s Js. destruct (find_key _ _); [constructor|]. apply dc_wr; [exact I|]. intros s' Js'. constructor.
  - unfold HookField. apply dc_rd; [exact I|]. intros s Js. destruct (find_key _ _); [constructor|]. apply dc_wr; [exact I|]. intros s' Js'. constructor.
  - unfold Attach. apply dc_acq; [intros ? []|]. apply dc_rd; [exact I|]. intros s Js. destruct (envs s t) as [[e|]|]; [|apply dc_wr; [exact I|]; intros s' Js'..]; rel_end.
  - unfold Detach. apply dc_acq; [intros ? []|]. apply dc_rd; [exact I|]. intros s Js. destruct (envs s t) as [e|]; [apply dc_wr; [exact I|]; intros s' Js'|]; rel_end.
  - unfold CurrentEnv. apply dc_rd; [exact I|]. intros s Js. destruct (envs s t) as [e|]; [constructor|]. apply dc_wr; [exact I|]. intros s' Js'. constructor.
  - unfold UnregisterNatives. apply dc_acq; [intros ? []|]. apply dc_wr; [exact I|]. intros s Js. rel_end.
Qed.
(** Accesses to the registry *)
Ltac gd := let Q := fresh in intros; intros Q; try discriminate Q; try (left; reflexivity); auto.
Lemma registry_call c : adds_unlocked (c_debug G) c = [] -> good (guarded XReg LVm) c.
Proof.
  intros Hn. unfold good_call.
  assert (forall x, (if c_debug G then match Declare_names (k_type x) with Ok l => l | _ => [] end else []) = [] -> @decl_ok G height any_state (guarded XReg LVm) (k_type x)) as Dc.
  { intros x Hx H k Hk. unfold declare. destruct (c_debug G); [|exact Hk]. destruct (Declare_names (k_type x)) as [l| | | |]; try exact Hk. subst l. exact Hk. }
  destruct c as [n|c x|c x| | |T n|T|T|c x|g|c x|c x|t|t|t|cu]; cbn [adds_unlocked] in Hn; try discriminate Hn; cbn [prog_of].
  - unfold FindClass, InternalFindClass. locked_walk; try gd. intros r. apply dc_rel; [left; reflexivity|]. rewrite drop_cons by (intros []). constructor.
  - apply disc_field; [exact Hr|exact (Dc x Hn)|intros ? ? ? Q; discriminate Q|intros ? Q; discriminate Q|lia|intros ? ? ? Q; discriminate Q|intros ? []|constructor].
  - apply disc_method; [exact Hr|exact (Dc x Hn)|intros ? ? ? Q; discriminate Q|intros ? Q; discriminate Q|lia|intros ? ? Q; discriminate Q|constructor].
  - unfold GetClassT, InternalFindClass. locked_walk; try gd. intros r. apply dc_wr; [gd|]. intros s Js. apply dc_rel; [left; reflexivity|]. rewrite drop_cons by (intros []). constructor.
  - unfold ClassOf. apply dc_rd; [gd|]. intros s Js. constructor.
  - unfold SignatureOf. apply dc_acq; [intros ? []|]. apply dc_rd; [gd|]. intros s Js. apply dc_rel; [left; reflexivity|]. rewrite drop_cons by (intros []). constructor.
  - unfold RegisterNatives. apply dc_acq; [intros ? []|]. apply disc_register. intros; gd.
  - unfold DeleteRef. apply dc_acq; [intros ? []|]. apply dc_rd; [gd|]. intros s Js. destruct (existsb _ _); [apply dc_wr; [gd|]; intros s' Js'|]; rel_end.
  - unfold HookMethod. apply dc_rd; [gd|]. intros s Js. destruct (find_key _ _); [constructor|]. apply dc_wr; [gd|]. intros s' Js'. constructor.
  - unfold HookField. apply dc_rd; [gd|]. intros s Js. destruct (find_key _ _); [constructor|]. apply dc_wr; [gd|]. intros s' Js'. constructor.
  - unfold Attach. apply dc_acq; [intros ? []|]. apply dc_rd; [gd|]. intros s Js. destruct (envs s t) as [[e|]|]; [|apply dc_wr; [gd|]; intros s' Js'..]; rel_end.
  - unfold Detach. apply dc_acq; [intros ? []|]. apply dc_rd; [gd|]. intros s Js. destruct (envs s t) as [e|]; [apply dc_wr; [gd|]; intros s' Js'|]; rel_end.
  - unfold CurrentEnv. apply dc_rd; [gd|]. intros s Js. destruct (envs s t) as [e|]; [constructor|]. apply dc_wr; [gd|]. intros s' Js'. constructor.
  - unfold UnregisterNatives. apply dc_acq; [intros ? []|]. apply dc_wr; [gd|]. intros s Js. rel_end.
Qed.
(** Accesses to the fields of a class, to the global references: every call *)
Ltac other := try (intros ? ? ?); try intros ?; cbn in *; congruence.
Definition heeds (c : call) (x : loc) (m : lock) : Prop :=
  (exists d, x = XFields d /\ m = LCls d /\ forall y, c <> CHookField d y) \/ (x = XGlobals /\ m = LVm) \/ (x = XEnvs /\ m = LVm /\ forall t, c <> CCurrentEnv t) \/
  (exists d, x = XMethods d /\ m = LCls d /\ (forall y, c <> CHookMethod d y) /\ (c_retnull G = false -> forall y, c <> CGetMethodID d y)).
Ltac gg := first [solve [auto]|match goal with H : _ |- _ => apply H; left; reflexivity end|match goal with H : _ |- _ => eapply H; reflexivity end].
Lemma guarded_call c x m : heeds c x m -> good (guarded x m) c.
Proof.
  intros Hx. unfold good_call.
  assert (forall H u, guarded x m H XReg u) as N1 by (intros H u Q; destruct Hx as [(d & -> & _)|[[-> _]|[[-> _]|(d & -> & _)]]]; discriminate).
  assert (forall H u, guarded x m H XTypes u) as N3 by (intros H u Q; destruct Hx as [(d & -> & _)|[[-> _]|[[-> _]|(d & -> & _)]]]; discriminate).
  assert (forall H d u, In (LCls d) H -> guarded x m H (XMethods d) u) as N4.
  { intros H y u Hi Q. destruct Hx as [(d & -> & _)|[[-> _]|[[-> _]|(d & -> & -> & _)]]]; try discriminate. injection Q as <-. exact Hi. }
  assert (forall H d u, In (LCls d) H -> guarded x m H (XFields d) u) as N5.
  { intros H y u Hi Q. destruct Hx as [(d & -> & -> & _)|[[-> _]|[[-> _]|(d & -> & _)]]]; try discriminate. injection Q as <-. exact Hi. }
  assert (forall H u, In LVm H -> guarded x m H XGlobals u) as N6 by (intros H u Hi Q; destruct Hx as [(d & -> & _)|[[-> ->]|[[-> _]|(d & -> & _)]]]; try discriminate; exact Hi).
  assert (forall H u, In LVm H -> guarded x m H XEnvs u) as N7 by (intros H u Hi Q; destruct Hx as [(d & -> & _)|[[-> _]|[(-> & -> & _)|(d & -> & _)]]]; try discriminate; exact Hi).
  assert (forall H d y u, c = CHookField d y -> guarded x m H (XFields d) u) as N8.
  { intros H e y u -> Q. exfalso. destruct Hx as [(d & -> & -> & N)|[[-> _]|[[-> _]|(d & -> & _)]]]; try discriminate. injection Q as ->. eapply N; reflexivity. }
  assert (forall H d y u, c = CHookMethod d y -> guarded x m H (XMethods d) u) as N9.
  { intros H e y u -> Q. exfalso. destruct Hx as [(d & -> & _)|[[-> _]|[[-> _]|(d & -> & -> & N & _)]]]; try discriminate. injection Q as ->. eapply N; reflexivity. }
  assert (forall H t u, c = CCurrentEnv t -> guarded x m H XEnvs u) as N10.
  { intros H t u -> Q. exfalso. destruct Hx as [(d & -> & _)|[[-> _]|[(-> & -> & N)|(d & -> & _)]]]; try discriminate. eapply N; reflexivity. }
  assert (forall H d y u, c = CGetMethodID d y -> c_retnull G = false -> guarded x m H (XMethods d) u) as N11.
  { intros H e y u -> Er Q. exfalso. destruct Hx as [(d & -> & _)|[[-> _]|[[-> _]|(d & -> & -> & _ & N)]]]; try discriminate. injection Q as ->. eapply N; [exact Er|reflexivity]. }
  assert (forall ty, @decl_ok G height any_state (guarded x m) ty) as Dc by (intros ty; apply disc_declare; intros _ H; auto).
  destruct c as [n|c y|c y| | |T n|T|T|c y|g|c y|c y|t|t|t|cu]; cbn [prog_of].
  - unfold FindClass, InternalFindClass. locked_walk; auto. intros r. apply dc_rel; [left; reflexivity|]. rewrite drop_cons by (intros []). constructor.
  - apply disc_field; auto; [intros h []|constructor].
  - apply disc_method; auto; [intros Er H; eapply N11; eauto|constructor].
  - unfold NewGlobalRef, NewRef, InternalFindClass. apply disc_walk; auto. intros r. apply dc_acq; [intros ? []|]. apply dc_wr; [gg|]. intros s Js. apply dc_rel; [left; reflexivity|]. rewrite drop_cons by (intros []). constructor.
  - unfold NewWeakGlobalRef, NewRef, InternalFindClass. apply disc_walk; auto. intros r. apply dc_acq; [intros ? []|]. apply dc_wr; [gg|]. intros s Js. apply dc_rel; [left; reflexivity|]. rewrite drop_cons by (intros []). constructor.
  - unfold GetClassT, InternalFindClass. locked_walk; auto. intros r. apply dc_wr; [gg|]. intros s Js. apply dc_rel; [left; reflexivity|]. rewrite drop_cons by (intros []). constructor.
  - unfold ClassOf. apply dc_rd; [gg|]. intros s Js. constructor.
  - unfold SignatureOf. apply dc_acq; [intros ? []|]. apply dc_rd; [gg|]. intros s Js. apply dc_rel; [left; reflexivity|]. rewrite drop_cons by (intros []). constructor.
  - unfold RegisterNatives. apply dc_acq; [intros ? []|]. apply disc_register. intros; gg.
  - unfold DeleteRef. apply dc_acq; [intros ? []|]. apply dc_rd; [gg|]. intros s Js. destruct (existsb _ _); [apply dc_wr; [gg|]; intros s' Js'|]; rel_end.
  - unfold HookMethod. apply dc_rd; [gg|]. intros s Js. destruct (find_key _ _); [constructor|]. apply dc_wr; [gg|]. intros s' Js'. constructor.
  - unfold HookField. apply dc_rd; [gg|]. intros s Js. destruct (find_key _ _); [constructor|]. apply dc_wr; [gg|]. intros s' Js'. constructor.
  - unfold Attach. apply dc_acq; [intros ? []|]. apply dc_rd; [gg|]. intros s Js. destruct (envs s t) as [[e|]|]; [|apply dc_wr; [gg|]; intros s' Js'..]; rel_end.
  - unfold Detach. apply dc_acq; [intros ? []|]. apply dc_rd; [gg|]. intros s Js. destruct (envs s t) as [e|]; [apply dc_wr; [gg|]; intros s' Js'|]; rel_end.
  - unfold CurrentEnv. apply dc_rd; [gg|]. intros s Js. destruct (envs s t) as [e|]; [constructor|]. apply dc_wr; [gg|]. intros s' Js'. constructor.
  - unfold UnregisterNatives. apply dc_acq; [intros ? []|]. apply dc_wr; [gg|]. intros s Js. rel_end.
Qed.

Lemma reach_disc P s calls D : every (good P) calls -> reaches G height s calls D -> disciplined (in_order (rank height)) P D.
Proof.
  intros He (l & E). destruct (@disc_init (in_order (rank height)) P s calls) as [Di Tk]. eapply disc_run; [exact Di| |exact E]. apply Tk. intros k Hk. apply Forall_forall. intros c Hc. eapply He; eauto.
Qed.
Lemma guarded_protected A x m D : disciplined A (guarded x m) D -> ~ unprotected D x m.
Proof.
  intros [_ Di] (t & y & c & p & w & Hy & Ec & Ac & No). specialize (Di t y Hy). unfold thread_disc in Di. rewrite Ec in Di. destruct Di as (H & Hh & Hd). apply No, Hh.
  destruct Hd; try discriminate; injection Ac as -> _; auto.
Qed.
End Calls.
