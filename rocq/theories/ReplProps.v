(** C101: hooks replaced while they run. *)
From Verif Require Import Base BaseProofs SigModel VmState VmModel VmStep VmSpec MemSpec HookSpec CallSpec ReplModel ReplSpec VmBase VmFrame VmWf VmPrim VmInv VmReg
  VmFine VmRegInv VmExact VmQuiet VmClass VmEnvInv VmMember VmMember2 VmMember3 VmTables VmHook VmMemHist VmCall VmCall2 VmCall3 VmDemo.
Set Implicit Arguments.
Unset Strict Implicit.
Local Open Scope vm_scope.
Local Opaque after.

(** *** Which function object a call runs *)
Lemma enter_inv t c hd want nv T recv held args s h rv a s' : wf s -> tidy s ->
  enter t c hd want nv T recv held args s = Ret (Entered h rv a) s' -> h_id hd = h /\ forall i, live s i = true -> lookup (finish s') i = lookup s i.
Proof.
  intros W Ti. unfold enter. destruct (hkind_eqb _ _ && _).
  - destruct (nv && h_memfn hd).
    + destruct c; unfold err, throw; [|discriminate]. unfold bind. destruct (set_pending t _ s); discriminate.
    + unfold call_push, bind, check, upd_env, the_env, put_env, bind, check, ret. destruct (forallb _ _); [|discriminate].
      destruct (get_env s t) as [e|] eqn:E; [|discriminate]. destruct (env_ok _ _); [|discriminate]. intros [= <- <- <- <-]. split; auto. intros i L.
      match goal with |- context[env_calls e ?k] => apply (@finish_penv (fun _ => False) (fun _ => False) s t e (env_calls e k) W Ti E) end; auto; try (intros; contradiction).
      intros j. unfold env_roots. simpl. rewrite !in_app_iff. tauto.
  - destruct c; unfold err, throw; [|discriminate]. unfold bind. destruct (set_pending t _ s); discriminate.
Qed.
Lemma get_mth_inv i s m s' : get_mth i s = Ret m s' -> s' = s /\ method_at s i = Some m.
Proof.
  unfold get_mth, bind, deref, method_at, contents. destruct (lookup s i) as [o|]; [|discriminate]. simpl. destruct (o_pay o); try discriminate. intros [= <- <-]. auto.
Qed.
Lemma get_fld_inv i s m s' : get_fld i s = Ret m s' -> s' = s /\ field_at s i = Some m.
Proof.
  unfold get_fld, bind, deref, field_at, contents. destruct (lookup s i) as [o|]; [|discriminate]. simpl. destruct (o_pay o); try discriminate. intros [= <- <-]. auto.
Qed.
Lemma overload_inv cl i s j s' : findNonVirtualOverload cl i s = Ret (Some j) s' -> s' = s /\ stands_for s i j.
Proof.
  destruct cl as [c|]; simpl; [|intros [= <- <-]; split; auto; left; auto]. unfold bind at 1. pose proof (reads_get_cls c s) as R. destruct (get_cls c s) as [k s1| | | | | ]; try discriminate. subst s1.
  unfold bind at 1. destruct (get_mth i s) as [m s1| | | | | ] eqn:E; try discriminate. apply get_mth_inv in E. destruct E as [-> Hm]. unfold bind, gets, ret. intros [= F <-]. split; auto.
  unfold find_mth in F. apply find_some in F. destruct F as [_ F]. rewrite <- method_at_of in F. destruct (method_at s j) as [x|] eqn:Hx; [|discriminate].
  unfold overload_match in F. rewrite !andb_true_iff in F. destruct F as [[[A B] C] _]. right. exists m, x. repeat split; auto.
  - destruct (str_eqb_spec (m_name m) (m_name x)); congruence.
  - destruct (str_eqb_spec (m_sig m) (m_sig x)); congruence.
  - destruct (m_static x); auto; discriminate.
Qed.
Lemma virtual_inv cl i s j s' : findVirtualOverload cl i s = Ret j s' -> s' = s /\ stands_for s i j.
Proof.
  unfold findVirtualOverload, bind. pose proof (reads_nonvirtual cl i s) as R. destruct (findNonVirtualOverload cl i s) as [[k|] s1| | | | | ] eqn:E; try discriminate; subst s1.
  - intros [= <- <-]. split; auto. apply overload_inv in E. tauto.
  - simpl. intros [= <- <-]. split; auto. left. auto.
Qed.
(** *** Which results operations have *)
Lemma run_body G t o s v s' : run G t o s = Ret v s' -> body G t o s = Ret v s'.
Proof.
  unfold run, bind. destruct (needs_env o); [|auto]. unfold the_env. destruct (get_env s t); [auto|discriminate].
Qed.

Lemma method_back s s' i m : intact s s' i -> method_at s' i = Some m -> method_at s i = Some m.
Proof.
  intros (o & o' & L & L' & V & _). unfold method_at, contents. rewrite L, L'. simpl. destruct (o_pay o'); try discriminate. intros [= ->]. destruct (o_pay o); simpl in V; try discriminate. congruence.
Qed.
(** The state with the class of the receiver passed to the client *)
Lemma object_class_inv G t h r s k s1 : good G s -> attached s t -> denotes s h (Some r) -> GetObjectClass G t (Some h) s = Ret k s1 ->
  wf s1 /\ tidy s1 /\ forall i m, method_at s1 i = Some m -> method_at s i = Some m.
Proof.
  intros Gs A D E. pose proof (good_wf Gs) as W. rewrite (GetObjectClass_eq G W A D) in E. injection E as _ <-. destruct (class_ptr s r) as [c|] eqn:C.
  - assert (live s c = true) as Lc by (apply is_cls_live; eapply class_ptr_cls; eauto). split; [apply to_jni_wf; auto|]. split.
    + eapply tidy_weaken; [|apply given_tidy; auto; apply Gs]. simpl. tauto.
    + intros i m Hm. eapply method_back; [|exact Hm]. apply (u_obj (given_undisturbed s t TClass c)). rewrite <- (given_live_eq s t TClass c). destruct (method_at_lookup Hm) as (o & L & _). unfold live. rewrite L. auto.
  - split; auto. split; [apply Gs|auto].
Qed.
Lemma function_keep s s' j sl : lookup s' j = lookup s j -> function_of s' j sl = function_of s j sl.
Proof. intros E. unfold function_of, method_at, field_at, contents. rewrite E. reflexivity. Qed.
Lemma function_live s j sl hd : function_of s j sl = Some hd -> live s j = true.
Proof.
  unfold function_of, method_at, field_at, contents, live. destruct (lookup s j); auto. destruct sl; discriminate.
Qed.
Lemma entered_here t c hd want nv T recv held args s h rv a s1 j sl : wf s -> tidy s -> function_of s j sl = Some hd ->
  enter t c hd want nv T recv held args s = Ret (Entered h rv a) s1 -> exists hd, function_of (finish s1) j sl = Some hd /\ h_id hd = h.
Proof.
  intros W Ti F E. apply enter_inv in E; auto. destruct E as [<- K]. exists hd. split; auto. rewrite (@function_keep s); auto. apply K. eapply function_live; eauto.
Qed.
Ltac step1 H := match type of H with match ?x with _ => _ end = _ => let E := fresh "E" in destruct x eqn:E; try discriminate H end.
Lemma member_called G t o s h rv a s' : good G s -> step G t o s = Some (OVal (RCall (Entered h rv a)), s') -> receiver_ok s o ->
  exists i j sl hd, calls o i sl /\ called_member G t o s = Some (j, sl) /\ stands_for s i j /\ function_of s' j sl = Some hd /\ h_id hd = h.
Proof.
  intros Gs E R. unfold step in E. destruct (run G t o s) as [v s1| | | | | ] eqn:B; try discriminate. injection E as -> <-.
  assert (needs_env o = true -> attached s t) as A.
  { intros Ne. unfold run in B. rewrite Ne in B. unfold bind, the_env in B. destruct (get_env s t) eqn:Ee; [|discriminate]. eexists; eauto. }
  apply run_body in B. pose proof (good_wf Gs) as W. pose proof (g_tidy Gs) as Ti.
  destruct o; cbn [body] in B; unfold as_unit, as_bool, as_int, as_ref, as_oid, as_val, as_ints, as_bytes in B;
    try (unfold bind, ret, abrt in B; repeat step1 B; discriminate B); try (unfold ret, abrt in B; discriminate B);
    unfold as_call, bind at 1 in B.
  - specialize (A eq_refl). destruct R as (hh & r & -> & D). match type of B with match ?x with _ => _ end = _ => destruct x as [c s2| | | | | ] eqn:C; try discriminate B end. injection B as -> ->.
    unfold CallMethodA in C. destruct id as [i|]; [|discriminate]. unfold bind at 1 in C. destruct (get_mth i s) as [m s2| | | | | ] eqn:Em; try discriminate. apply get_mth_inv in Em. destruct Em as [-> Hm].
    destruct (m_handle m) as [h0|]; [|discriminate]. unfold bind at 1 in C. destruct (GetObjectClass G t (Some hh) s) as [k s2| | | | | ] eqn:Ek; try discriminate.
    destruct (object_class_inv Gs A D Ek) as (W2 & T2 & Bk). unfold bind at 1 in C. pose proof (reads_jnicast G TClass k s2) as Rj. destruct (jnicast G TClass k s2) as [cl s3| | | | | ] eqn:Ej; try discriminate. subst s3.
    unfold bind at 1 in C. destruct (findVirtualOverload cl i s2) as [j s3| | | | | ] eqn:Ev; try discriminate. pose proof Ev as Ev'. apply virtual_inv in Ev'. destruct Ev' as [-> St].
    unfold bind at 1 in C. destruct (get_mth j s2) as [x s3| | | | | ] eqn:Ex; try discriminate. apply get_mth_inv in Ex. destruct Ex as [-> Hx]. destruct (m_handle x) as [hd|] eqn:Eh; [|discriminate].
    assert (function_of s2 j OnCall = Some hd) as F by (simpl; rewrite Hx; auto). destruct (entered_here W2 T2 F C) as (hd' & F' & Hd).
    exists i, j, OnCall, hd'. split; [constructor|]. split.
    { unfold called_member, bind. rewrite Ek, Ej, Ev. reflexivity. }
    split; auto. destruct St as [->|(m1 & m2 & H1 & H2 & N)]; [left; auto|right]. exists m1, m2. auto.
  - match type of B with match ?x with _ => _ end = _ => destruct x as [r0 s2| | | | | ] eqn:C; try discriminate B end. injection B as -> ->.
    unfold CallNonvirtualMethodA in C. destruct id as [i|]; [|discriminate]. unfold bind at 1 in C. destruct (get_mth i s) as [m s2| | | | | ] eqn:Em; try discriminate. apply get_mth_inv in Em. destruct Em as [-> Hm].
    destruct (m_handle m) as [h0|]; [|discriminate]. unfold bind at 1 in C. pose proof (reads_jnicast G TClass c s) as Rj. destruct (jnicast G TClass c s) as [cl s3| | | | | ] eqn:Ej; try discriminate. subst s3.
    unfold bind at 1 in C. pose proof (reads_nonvirtual cl i s) as Rn. destruct (findNonVirtualOverload cl i s) as [oj s3| | | | | ] eqn:Ev; try discriminate. subst s3. unfold bind at 1 in C. destruct oj as [j|]; [|discriminate].
    cbn [nonnull] in C. unfold ret at 1 in C. pose proof Ev as Ev'. apply overload_inv in Ev'. destruct Ev' as [_ St].
    unfold bind at 1 in C. destruct (get_mth j s) as [x s3| | | | | ] eqn:Ex; try discriminate. apply get_mth_inv in Ex. destruct Ex as [-> Hx]. destruct (m_handle x) as [hd|] eqn:Eh; [|discriminate].
    assert (function_of s j OnCall = Some hd) as F by (simpl; rewrite Hx; auto). destruct (entered_here W Ti F C) as (hd' & F' & Hd).
    exists i, j, OnCall, hd'. split; [constructor|]. split; [unfold called_member, bind; rewrite Ej, Ev; reflexivity|]. auto.
  - match type of B with match ?x with _ => _ end = _ => destruct x as [r0 s2| | | | | ] eqn:C; try discriminate B end. injection B as -> ->.
    unfold CallStaticMethodA in C. unfold bind at 1 in C. pose proof (reads_jnicast G TClass c s) as Rj. destruct (jnicast G TClass c s) as [cl s3| | | | | ]; try discriminate. subst s3. destruct id as [i|]; [|discriminate].
    unfold bind at 1 in C. destruct (get_mth i s) as [m s2| | | | | ] eqn:Em; try discriminate. apply get_mth_inv in Em. destruct Em as [-> Hm]. destruct (m_handle m) as [hd|] eqn:Eh; [|discriminate].
    assert (function_of s i OnCall = Some hd) as F by (simpl; rewrite Hm; auto). destruct (entered_here W Ti F C) as (hd' & F' & Hd).
    exists i, i, OnCall, hd'. split; [constructor|]. split; [reflexivity|]. split; [left; auto|auto].
  - match type of B with match ?x with _ => _ end = _ => destruct x as [r0 s2| | | | | ] eqn:C; try discriminate B end. injection B as -> ->.
    unfold GetField in C. destruct id as [i|]; [|discriminate]. unfold bind at 1 in C. destruct (get_fld i s) as [f s2| | | | | ] eqn:Em; try discriminate. apply get_fld_inv in Em. destruct Em as [-> Hf].
    destruct (f_get f) as [hd|] eqn:Eh; [|discriminate]. destruct (negb _); [discriminate|].
    assert (function_of s i OnGet = Some hd) as F by (simpl; rewrite Hf; auto).
    assert (exists hd', function_of (finish s1) i OnGet = Some hd' /\ h_id hd' = h) as (hd' & F' & Hd).
    { destruct isStatic; [|exact (entered_here W Ti F C)]. unfold bind at 1 in C. pose proof (reads_jnicast G TClass obj s) as Rj. destruct (jnicast G TClass obj s); try discriminate. subst. exact (entered_here W Ti F C). }
    exists i, i, OnGet, hd'. split; [constructor|]. split; [reflexivity|]. split; [left; auto|auto].
  - match type of B with match ?x with _ => _ end = _ => destruct x as [r0 s2| | | | | ] eqn:C; try discriminate B end. injection B as -> ->.
    unfold SetField in C. destruct obj as [oo|]; [|discriminate]. destruct id as [i|]; [|discriminate]. unfold bind at 1 in C. destruct (get_fld i s) as [f s2| | | | | ] eqn:Em; try discriminate. apply get_fld_inv in Em. destruct Em as [-> Hf].
    destruct (f_set f) as [hd|] eqn:Eh; [|discriminate]. destruct (negb _); [discriminate|].
    assert (function_of s i OnSet = Some hd) as F by (simpl; rewrite Hf; auto).
    assert (exists hd', function_of (finish s1) i OnSet = Some hd' /\ h_id hd' = h) as (hd' & F' & Hd).
    { destruct isStatic; [|exact (entered_here W Ti F C)]. unfold bind at 1 in C. pose proof (reads_jnicast G TClass (Some oo) s) as Rj. destruct (jnicast G TClass (Some oo) s); try discriminate. subst. exact (entered_here W Ti F C). }
    exists i, i, OnSet, hd'. split; [constructor|]. split; [reflexivity|]. split; [left; auto|auto].
  - match type of B with match ?x with _ => _ end = _ => destruct x as [[[? ?] ?] ?| | | | | ]; discriminate B end.
Qed.

(** *** The state of the calls *)
Definition mine (t : tid) (l : list rcall) : list rcall := filter (fun r => Nat.eqb (r_thread r) t) l.
Lemma innermost_mine t l : innermost t l = hd_error (mine t l).
Proof. induction l as [|r l IH]; simpl; auto. destruct (Nat.eqb (r_thread r) t); auto. Qed.
Lemma leave_mine t l : mine t (leave t l) = tl (mine t l).
Proof. induction l as [|r l IH]; simpl; auto. destruct (Nat.eqb (r_thread r) t) eqn:E; auto. simpl. rewrite E. auto. Qed.
Lemma leave_other t u l : u <> t -> mine u (leave t l) = mine u l.
Proof.
  intros N. induction l as [|r l IH]; simpl; auto. destruct (Nat.eqb_spec (r_thread r) t) as [E|E].
  - destruct (Nat.eqb_spec (r_thread r) u); [congruence|auto].
  - simpl. rewrite IH. auto.
Qed.
Lemma track_other G t u o s v g l : u <> t -> mine u (track G t o s v g l) = mine u l.
Proof.
  intros N. assert (forall i sl, mine u (mkRc t i sl (g i sl) :: l) = mine u l) as K.
  { intros i sl. simpl. destruct (Nat.eqb_spec t u); [congruence|auto]. }
  unfold track. destruct o; try (apply leave_other; auto);
    (destruct v as [[| | | |[|? ? ?]| | | | | | | ]|]; auto; destruct (called_member G t _ s) as [[i sl]|]; auto).
Qed.
Lemma track_plain G t o s v g l : ~ begins (ROp o) (Some v) -> ~ leaves (ROp o) -> track G t o s v g l = l.
Proof.
  intros B E. unfold track. assert (forall h r a, v = OVal (RCall (Entered h r a)) -> False) as K.
  { intros h r a ->. apply B. exists o, h, r, a. split; auto. split; [intros n ->; apply E; left; eauto|]. split; [intros n ->; apply E; right; eauto|]. reflexivity. }
  destruct o; try (exfalso; apply E; unfold leaves; eauto; fail);
    (destruct v as [[| | | |[|? ? ?]| | | | | | | ]|]; auto; exfalso; eapply K; reflexivity).
Qed.
Lemma track_ends G t o s v g l : leaves (ROp o) -> track G t o s v g l = leave t l.
Proof. intros [(n & E)|(n & E)]; injection E as ->; reflexivity. Qed.
Lemma rstep_op G t o p v p' : rstep G t (ROp o) p = Some (v, p') -> exists w, v = Some w /\ step G t o (p_vm p) = Some (w, p_vm p') /\
  p_gen p' = bump o w (p_gen p) /\ p_run p' = track G t o (p_vm p) w (p_gen p) (p_run p).
Proof.
  simpl. destruct (match o with HookThrow_ _ => _ | _ => _ end); [|discriminate]. destruct (step G t o (p_vm p)) as [[w s']|] eqn:E; [|discriminate].
  intros [= <- <-]. exists w. auto.
Qed.
Lemma rstep_use G t p v p' : rstep G t RUse p = Some (v, p') -> v = None /\ p' = p.
Proof. simpl. destruct (innermost _ _) as [r|]; [|discriminate]. destruct (function_alive p r); [|discriminate]. intros [= <- <-]. auto. Qed.
Lemma rexec_app G l l' p vs p' : rexec G (l ++ l') p = Some (vs, p') -> exists vs1 p1 vs2, rexec G l p = Some (vs1, p1) /\ rexec G l' p1 = Some (vs2, p') /\ vs = vs1 ++ vs2.
Proof.
  revert p vs. induction l as [|[t x] l IH]; simpl; intros p vs E.
  - exists [], p, vs. auto.
  - destruct (rstep G t x p) as [[v q]|]; [|discriminate]. destruct (rexec G (l ++ l') q) as [[ws q']|] eqn:Eq; [|discriminate]. injection E as <- <-.
    destruct (IH _ _ Eq) as (v1 & p1 & v2 & E1 & E2 & ->). rewrite E1. exists (v :: v1), p1, v2. auto.
Qed.
Lemma rexec_length G l p vs p' : rexec G l p = Some (vs, p') -> length vs = length l.
Proof.
  revert p vs. induction l as [|[t x] l IH]; simpl; intros p vs E; [injection E as <- <-; auto|].
  destruct (rstep G t x p) as [[v q]|]; [|discriminate]. destruct (rexec G l q) as [[ws q']|] eqn:Eq; [|discriminate]. injection E as <- <-. simpl. f_equal. eauto.
Qed.
Lemma app_split A (a b c d : list A) : a ++ b = c ++ d -> length a = length c -> a = c /\ b = d.
Proof.
  revert c. induction a; intros [|x c]; simpl; intros E L; try discriminate; auto. injection E as -> E. destruct (IHa _ E) as [-> ->]; auto.
Qed.
(** The history of the VM itself *)
Fixpoint vm_part (l : list revent) : list event :=
  match l with [] => [] | (t, ROp o) :: l => (t, o) :: vm_part l | (_, RUse) :: l => vm_part l end.
Lemma rexec_vm G l p vs p' : rexec G l p = Some (vs, p') -> exists ws, exec G (vm_part l) (p_vm p) = Some (ws, p_vm p').
Proof.
  revert p vs. induction l as [|[t x] l IH]; intros p vs E; [injection E as <- <-; exists []; auto|]. cbn [rexec] in E.
  destruct (rstep G t x p) as [[v q]|] eqn:Es; [|discriminate]. destruct (rexec G l q) as [[ws q']|] eqn:Eq; [|discriminate]. injection E as <- <-. destruct (IH _ _ Eq) as (us & Eu).
  destruct x as [o|].
  - destruct (rstep_op Es) as (w & -> & Eo & _). exists (w :: us). cbn [vm_part exec]. rewrite Eo, Eu. auto.
  - apply rstep_use in Es. destruct Es as [-> ->]. exists us. auto.
Qed.
Lemma rreachable_vm G t0 p : rreachable G t0 p -> reachable G t0 (p_vm p).
Proof. intros (l & vs & E). destruct (rexec_vm E) as (ws & E'). exists (vm_part l), ws. exact E'. Qed.
(** An operation that enters a hook has a member. *)
Lemma begins_member G t o s h rv a s' : step G t o s = Some (OVal (RCall (Entered h rv a)), s') -> exists i sl, called_member G t o s = Some (i, sl).
Proof.
  intros E. unfold step in E. destruct (run G t o s) as [v s1| | | | | ] eqn:B; try discriminate. injection E as -> <-. apply run_body in B.
  destruct o; cbn [body] in B; unfold as_unit, as_bool, as_int, as_ref, as_oid, as_val, as_ints, as_bytes in B;
    try (unfold bind, ret, abrt in B; repeat step1 B; discriminate B); try (unfold ret, abrt in B; discriminate B);
    unfold as_call, bind at 1 in B; match type of B with match ?x with _ => _ end = _ => destruct x as [c0 s2| | | | | ] eqn:C; try discriminate B end.
  - injection B as -> ->. unfold CallMethodA in C. destruct id as [i|]; [|discriminate]. unfold bind at 1 in C. destruct (get_mth i s) as [m s2| | | | | ] eqn:Em; try discriminate. apply get_mth_inv in Em. destruct Em as [-> Hm].
    destruct (m_handle m) as [h0|]; [|discriminate]. unfold called_member. unfold bind in *. destruct (GetObjectClass G t obj s) as [k s2| | | | | ]; try discriminate.
    destruct (jnicast G TClass k s2) as [cl s3| | | | | ]; try discriminate. destruct (findVirtualOverload cl i s3) as [j s4| | | | | ]; try discriminate. eauto.
  - injection B as -> ->. unfold CallNonvirtualMethodA in C. destruct id as [i|]; [|discriminate]. unfold bind at 1 in C. destruct (get_mth i s) as [m s2| | | | | ] eqn:Em; try discriminate. apply get_mth_inv in Em. destruct Em as [-> Hm].
    destruct (m_handle m) as [h0|]; [|discriminate]. unfold called_member. unfold bind in *.
    destruct (jnicast G TClass c s) as [cl s3| | | | | ]; try discriminate. destruct (findNonVirtualOverload cl i s3) as [j s4| | | | | ]; try discriminate. destruct (nonnull j s4); try discriminate. eauto.
  - injection B as -> ->. unfold CallStaticMethodA, bind in C. destruct (jnicast G TClass c s); try discriminate. destruct id as [i|]; [|discriminate]. simpl. eauto.
  - injection B as -> ->. destruct id as [i|]; [|discriminate]. simpl. eauto.
  - injection B as -> ->. unfold SetField in C. destruct obj; [|discriminate]. destruct id as [i|]; [|discriminate]. simpl. eauto.
  - destruct c0 as [[? ?] ?]. discriminate B.
Qed.
Lemma track_begins G t o s h rv a s' g l : step G t o s = Some (OVal (RCall (Entered h rv a)), s') -> ~ leaves (ROp o) -> exists i sl,
  called_member G t o s = Some (i, sl) /\ track G t o s (OVal (RCall (Entered h rv a))) g l = mkRc t i sl (g i sl) :: l.
Proof.
  intros E N. destruct (begins_member E) as (i & sl & C). exists i, sl. split; auto. unfold track. rewrite C. destruct o; auto; exfalso; apply N; unfold leaves; eauto.
Qed.
Lemma begins_not_ends x v : begins x v -> ~ leaves x.
Proof. intros (o & h & r & a & -> & N1 & N2 & _) [(n & E)|(n & E)]; injection E as ->; [eapply N1|eapply N2]; reflexivity. Qed.
Lemma meanwhile_mine G t l vs : meanwhile t l vs -> forall p p', rexec G l p = Some (vs, p') -> mine t (p_run p') = mine t (p_run p).
Proof.
  induction 1 as [|u x v l vs N M IH|x v l vs B E M IH|x v l vs y w l' vs' B M IH L Y M' IH']; intros p p' Ex.
  - injection Ex as <-. auto.
  - cbn [rexec] in Ex. destruct (rstep G u x p) as [[v' q]|] eqn:Es; [|discriminate]. destruct (rexec G l q) as [[ws q']|] eqn:Eq; [|discriminate]. injection Ex as -> -> ->.
    rewrite (IH _ _ Eq). destruct x as [o|].
    + destruct (rstep_op Es) as (w & _ & _ & _ & ->). apply track_other. auto.
    + apply rstep_use in Es. destruct Es as [_ ->]. auto.
  - cbn [rexec] in Ex. destruct (rstep G t x p) as [[v' q]|] eqn:Es; [|discriminate]. destruct (rexec G l q) as [[ws q']|] eqn:Eq; [|discriminate]. injection Ex as -> -> ->.
    rewrite (IH _ _ Eq). destruct x as [o|].
    + destruct (rstep_op Es) as (w & -> & _ & _ & ->). rewrite track_plain; auto.
    + apply rstep_use in Es. destruct Es as [_ ->]. auto.
  - cbn [rexec] in Ex. destruct (rstep G t x p) as [[v' q]|] eqn:Es; [|discriminate]. destruct (rexec G (l ++ _) q) as [[ws q']|] eqn:Eq; [|discriminate]. injection Ex as -> -> ->.
    destruct (rexec_app Eq) as (vs1 & q1 & vs2 & E1 & E2 & Ev). apply app_split in Ev; [|rewrite (rexec_length E1); auto]. destruct Ev as [<- <-].
    cbn [rexec] in E2. destruct (rstep G t y q1) as [[w' q2]|] eqn:Ey; [|discriminate]. destruct (rexec G l' q2) as [[ws q3]|] eqn:E3; [|discriminate]. injection E2 as -> -> ->.
    rewrite (IH' _ _ E3). destruct y as [oy|]; [|destruct Y as [(n & K)|(n & K)]; discriminate]. destruct (rstep_op Ey) as (wy & _ & _ & _ & ->). rewrite track_ends, leave_mine, (IH _ _ E1) by auto.
    pose proof (begins_not_ends B) as NE. destruct B as (o & h & r & a & -> & _ & _ & ->). destruct (rstep_op Es) as (wx & Ew & So & _ & ->). injection Ew as <-.
    destruct (track_begins (p_gen p) (p_run p) So NE) as (i & sl & _ & ->). simpl. rewrite Nat.eqb_refl. reflexivity.
Qed.
(** *** How often slots are assigned *)
Lemma bump_spec o v g i sl : (hooks i sl (ROp o) (Some v) /\ bump o v g i sl = S (g i sl)) \/ (~ hooks i sl (ROp o) (Some v) /\ bump o v g i sl = g i sl).
Proof.
  unfold bump. destruct (assigned o v) as [[j sj]|] eqn:A.
  - destruct (Nat.eqb_spec j i) as [->|N].
    + destruct (slot_eqb sj sl) eqn:Es; simpl; [left|right].
      * split; auto. assert (sj = sl) as -> by (destruct sj, sl; auto; discriminate). destruct o; try discriminate; destruct v as [[| | |[k|]| | | | | | | | ]|]; try discriminate; injection A as -> <-; try constructor. destruct getter; constructor.
      * split; auto. intros H. inversion H; subst; simpl in A; injection A as <-; discriminate.
    + right. split; auto. intros H. inversion H; subst; simpl in A; injection A as <- _; congruence.
  - right. split; auto. intros H. inversion H; subst; discriminate.
Qed.
Lemma replaced_cons i sl t x v l vs : replaced i sl ((t, x) :: l) (v :: vs) <-> hooks i sl x v \/ replaced i sl l vs.
Proof.
  split.
  - intros ([|n] & u & y & w & A & B & H); simpl in A, B; [injection A as <- <-; injection B as <-; auto|]. right. exists n, u, y, w. auto.
  - intros [H|(n & u & y & w & A & B & H)]; [exists 0, t, x, v; auto|exists (S n), u, y, w; auto].
Qed.
Lemma gen_history G l : forall p vs p' i sl, rexec G l p = Some (vs, p') -> p_gen p i sl <= p_gen p' i sl /\ (p_gen p' i sl = p_gen p i sl <-> ~ replaced i sl l vs).
Proof.
  induction l as [|[t x] l IH]; intros p vs p' i sl E.
  - injection E as <- <-. split; [lia|]. split; auto. intros _ (n & u & y & w & A & _). destruct n; discriminate.
  - cbn [rexec] in E. destruct (rstep G t x p) as [[v q]|] eqn:Es; [|discriminate]. destruct (rexec G l q) as [[ws q']|] eqn:Eq; [|discriminate]. injection E as <- <-.
    destruct (IH _ _ _ i sl Eq) as [L K]. rewrite replaced_cons. destruct x as [o|].
    + destruct (rstep_op Es) as (w & -> & _ & Eg & _). rewrite Eg in L, K. destruct (bump_spec o w (p_gen p) i sl) as [[H B]|[H B]]; rewrite B in L, K.
      * split; [lia|]. split; [lia|tauto].
      * split; [lia|]. rewrite K. tauto.
    + apply rstep_use in Es. destruct Es as [-> ->]. split; auto. rewrite K. split; [|tauto]. intros N [H|H]; [inversion H|tauto].
Qed.
Lemma began_innermost G t o i sl p p' l vs q : just_began G t o i sl p p' -> meanwhile t l vs -> rexec G l p' = Some (vs, q) ->
  exists g, innermost t (p_run q) = Some (mkRc t i sl g) /\ g = p_gen p' i sl.
Proof.
  intros (h & r & a & g & Es & Er) M E. exists g. split.
  - rewrite innermost_mine, (meanwhile_mine M E), Er. simpl. rewrite Nat.eqb_refl. reflexivity.
  - destruct (rstep_op Es) as (w & Ew & So & Eg & Et). injection Ew as <-. rewrite Er in Et.
    assert (~ leaves (ROp o)) as NE.
    { intros Y. rewrite track_ends in Et by auto. apply (f_equal (@length _)) in Et. simpl in Et. assert (forall l, length (leave t l) <= length l) as Ll.
      { induction l0 as [|x l0 IHl]; simpl; auto. destruct (Nat.eqb _ _); simpl; lia. } specialize (Ll (p_run p)). lia. }
    destruct (track_begins (p_gen p) (p_run p) So NE) as (j & sj & _ & T). rewrite T in Et. injection Et as -> -> ->. rewrite Eg.
    destruct (bump_spec o (OVal (RCall (Entered h r a))) (p_gen p) j sj) as [[H _]|[_ ->]]; auto. inversion H.
Qed.

(** ** Theorems *)
(** A call runs the function that its member, or for instance methods one of the same name and signature, has. *)
Theorem C101_member G t0 t o p h rv a p' : rreachable G t0 p -> receiver_ok (p_vm p) o -> rstep G t (ROp o) p = Some (Some (OVal (RCall (Entered h rv a))), p') ->
  exists i j sl hd, calls o i sl /\ stands_for (p_vm p) i j /\ just_began G t o j sl p p' /\ function_of (p_vm p') j sl = Some hd /\ h_id hd = h.
Proof.
  intros R Ro E. pose proof (reachable_good (rreachable_vm R)) as Gs. destruct (rstep_op E) as (w & Ew & So & Eg & Et). injection Ew as <-.
  destruct (member_called Gs So Ro) as (i & j & sl & hd & C & Cm & St & F & Hd). exists i, j, sl, hd. split; auto. split; auto. split; auto.
  assert (~ leaves (ROp o)) as NE by (intros [(n & K)|(n & K)]; injection K as ->; inversion C).
  destruct (track_begins (p_gen p) (p_run p) So NE) as (j' & sl' & Cm' & T). rewrite Cm in Cm'. injection Cm' as <- <-. exists h, rv, a, (p_gen p j sl). rewrite Et. auto.
Qed.
(** While a hook runs, its function object exists exactly as long as its member does and no other function is hooked there. *)
Theorem C101_exact G t o i sl p p' l vs q : just_began G t o i sl p p' -> meanwhile t l vs -> rexec G l p' = Some (vs, q) ->
  (rstep G t RUse q <> None <-> live (p_vm q) i = true /\ ~ replaced i sl l vs) /\
  (forall v q', rstep G t RUse q = Some (v, q') -> q' = q).
Proof.
  intros J M E. destruct (began_innermost J M E) as (g & I & Eg). destruct (gen_history i sl E) as [_ K]. split; [|intros v q' H; apply rstep_use in H; tauto].
  rewrite <- K. simpl. rewrite I. unfold function_alive. simpl. rewrite <- Eg. destruct (live (p_vm q) i); simpl.
  - destruct (Nat.eqb_spec (p_gen q i sl) g); split; intros H; auto; try congruence; try discriminate. destruct H; congruence.
  - split; [congruence|intros [H _]; discriminate].
Qed.
(** Throwing from a hook needs the method, if it is the hook of one; everything else does what it does in the VM. *)
Theorem C101_throw G t o i sl p p' l vs q n : just_began G t o i sl p p' -> meanwhile t l vs -> rexec G l p' = Some (vs, q) ->
  (sl = OnCall /\ live (p_vm q) i = false -> rstep G t (ROp (HookThrow_ n)) q = None) /\
  (sl <> OnCall \/ live (p_vm q) i = true -> match step G t (HookThrow_ n) (p_vm q) with
     | Some (v, s') => exists q', rstep G t (ROp (HookThrow_ n)) q = Some (Some v, q') /\ p_vm q' = s'
     | None => rstep G t (ROp (HookThrow_ n)) q = None end).
Proof.
  intros J M E. destruct (began_innermost J M E) as (g & I & _). cbn [rstep]. unfold can_throw. rewrite I. cbn [r_slot r_member]. split.
  - intros (-> & ->). reflexivity.
  - intros H. assert (match sl with OnCall => live (p_vm q) i | _ => true end = true) as -> by (destruct sl; tauto || (destruct H; congruence)).
    destruct (step G t (HookThrow_ n) (p_vm q)) as [[v s']|]; [eexists; split; reflexivity|reflexivity].
Qed.
Theorem C101_vm G t o p : (forall n, o <> HookThrow_ n) -> match step G t o (p_vm p) with
  | Some (v, s') => exists p', rstep G t (ROp o) p = Some (Some v, p') /\ p_vm p' = s'
  | None => rstep G t (ROp o) p = None end.
Proof.
  intros H. cbn [rstep]. assert (match o with HookThrow_ _ => can_throw t p | _ => true end = true) as -> by (destruct o; try reflexivity; destruct (H n); reflexivity).
  destruct (step G t o (p_vm p)) as [[v s']|]; [eexists; split; reflexivity|reflexivity].
Qed.
Lemma lasting_live G l s vs s' i sl : good G s -> exec G l s = Some (vs, s') -> lasting s i sl -> live s' i = true.
Proof.
  intros Gs E (cl & C & H). destruct (tables_history Gs E C) as (Id & ms & fs & Ep & Ef). pose proof (good_wf (exec_good Gs E)) as W'.
  assert (forall j, is_mth s' j = true -> live s' j = true) as Lm by (intros j; unfold is_mth, live; destruct (lookup s' j); auto).
  assert (forall j, is_fld s' j = true -> live s' j = true) as Lf by (intros j; unfold is_fld, live; destruct (lookup s' j); auto).
  destruct sl.
  - destruct H as [Hi (m & Hm & Hn)]. apply Lm. eapply methods_wf; [exact W'|]. apply (plain_In (cl := cl)). rewrite Ep, in_app_iff. left. unfold plain. apply filter_In. split; auto.
    unfold nonnative. rewrite is_native_eq, Hm, Hn. auto.
  - apply Lf. eapply fields_wf; [exact W'|]. rewrite Ef, in_app_iff. eauto.
  - apply Lf. eapply fields_wf; [exact W'|]. rewrite Ef, in_app_iff. eauto.
Qed.
Theorem C101_partial G t0 t o i sl p p' l vs q : rreachable G t0 p' -> just_began G t o i sl p p' -> lasting (p_vm p') i sl ->
  meanwhile t l vs -> rexec G l p' = Some (vs, q) ->
  (rstep G t RUse q <> None <-> ~ replaced i sl l vs) /\
  (forall n v s', step G t (HookThrow_ n) (p_vm q) = Some (v, s') -> exists q', rstep G t (ROp (HookThrow_ n)) q = Some (Some v, q') /\ p_vm q' = s').
Proof.
  intros R J La M E. destruct (rexec_vm E) as (ws & Ev). pose proof (lasting_live (reachable_good (rreachable_vm R)) Ev La) as Li. split.
  - destruct (C101_exact J M E) as [-> _]. tauto.
  - intros n v s' St. destruct (began_innermost J M E) as (g & I & _). cbn [rstep]. unfold can_throw. rewrite I. cbn [r_slot r_member]. rewrite Li, St. destruct sl; eexists; split; reflexivity.
Qed.

(** ** The claim is false of the code *)
(** Hooks may use what they captured, and throw, as long as they run. *)
Definition C101_claim (G : cfg) : Prop := forall t0 t o i sl p p' l vs q, rreachable G t0 p' -> just_began G t o i sl p p' -> meanwhile t l vs -> rexec G l p' = Some (vs, q) ->
  rstep G t RUse q <> None /\ (forall n, step G t (HookThrow_ n) (p_vm q) <> None -> rstep G t (ROp (HookThrow_ n)) q <> None).

Definition rlook (l : list revent) : option (list (option obs) * list rcall) :=
  match rexec Gd l (rinit Gd main) with Some (vs, p) => Some (vs, p_run p) | None => None end.
Definition rruns (l : list revent) : bool := match rexec Gd l (rinit Gd main) with Some _ => true | None => false end.
Lemma rexec_snoc G l p vs q t x : rexec G l p = Some (vs, q) -> rexec G (l ++ [(t, x)]) p = match rstep G t x q with Some (v, q') => Some (vs ++ [v], q') | None => None end.
Proof.
  revert p vs. induction l as [|[u y] l IH]; simpl; intros p vs E.
  - injection E as <- <-. destruct (rstep G t x p) as [[v q']|]; reflexivity.
  - destruct (rstep G u y p) as [[v p1]|]; [|discriminate]. destruct (rexec G l p1) as [[ws q1]|] eqn:E1; [|discriminate]. injection E as <- <-. rewrite (IH _ _ E1).
    destruct (rstep G t x q1) as [[v' q']|]; reflexivity.
Qed.
Ltac rw_in X H := match type of X with ?A = _ => match type of H with context[rexec ?g ?l ?p] => change (rexec g l p) with A in H; rewrite X in H end end.
Lemma scenario (pre : list revent) o (l : list revent) vs0 h r a ws i sl g rr : rlook pre = Some (vs0, []) ->
  rlook (pre ++ [(main, ROp o)]) = Some (vs0 ++ [Some (OVal (RCall (Entered h r a)))], [mkRc main i sl g]) ->
  rlook (pre ++ (main, ROp o) :: l) = Some (vs0 ++ Some (OVal (RCall (Entered h r a))) :: ws, rr) ->
  exists p p' vs q, rreachable Gd main p /\ rreachable Gd main p' /\ just_began Gd main o i sl p p' /\ rexec Gd l p' = Some (ws, q) /\
    rexec Gd (pre ++ (main, ROp o) :: l) (rinit Gd main) = Some (vs, q) /\ exists us, rexec Gd (pre ++ [(main, ROp o)]) (rinit Gd main) = Some (us, p').
Proof.
  unfold rlook. intros H1 H2 H3.
  destruct (rexec Gd pre (rinit Gd main)) as [[v1 p]|] eqn:E1; [|discriminate]. injection H1 as -> R1.
  pose proof (rexec_snoc main (ROp o) E1) as X. rw_in X H2. destruct (rstep Gd main (ROp o) p) as [[v p']|] eqn:Es; [|discriminate]. injection H2 as Ev R2. apply app_inj_tail in Ev. destruct Ev as [_ ->].
  destruct (rexec Gd (pre ++ (main, ROp o) :: l) (rinit Gd main)) as [[v3 q]|] eqn:E3; [|discriminate]. injection H3 as Hv Hr.
  exists p, p', v3, q. split; [exists pre, vs0; exact E1|]. split; [exists (pre ++ [(main, ROp o)]), (vs0 ++ [Some (OVal (RCall (Entered h r a)))]); exact X|].
  split; [exists h, r, a, g; rewrite R1; auto|]. split; [|split; [first [exact E3|reflexivity]|eauto]].
  destruct (rexec_app E3) as (w1 & p1 & w2 & A & B & C). rewrite E1 in A. injection A as <- <-. cbn [rexec] in B. rewrite Es in B. destruct (rexec Gd l p') as [[w q']|]; [|discriminate]. injection B as <- ->.
  rewrite Hv in C. apply app_inv_head in C. injection C as ->. reflexivity.
Qed.
Lemma scenario_none l vs q t x : rexec Gd l (rinit Gd main) = Some (vs, q) -> rruns (l ++ [(t, x)]) = false -> rstep Gd t x q = None.
Proof. unfold rruns. intros E H. pose proof (rexec_snoc t x E) as X. rw_in X H. revert H. destruct (rstep Gd t x q) as [[v q']|]; [discriminate|auto]. Qed.

(** A hooked static method that hooks itself anew while it runs (after a nested call of itself) *)
Definition ex_repl : list revent := [(main, ROp (FindClass_ (S_ "A"))); (main, ROp (UHookMethod_ 9 true (S_ "f") (S_ "()V") (mkHandle 7 KStatic RVoid false)))].
Definition ex_call := CallStaticMethodA_ RVoid (Some 9) (Some 10) [].
Definition ex_rehook : list revent := [(main, RUse); (main, ROp ex_call); (main, ROp (HookReturn_ HUnit)); (main, ROp (UHookMethod_ 9 true (S_ "f") (S_ "()V") (mkHandle 8 KStatic RVoid false)))].
Definition ex_rehook_vs : list (option obs) := [None; Some (OVal (RCall (Entered 7 (Some 9) []))); Some (OVal (RVal VUnit)); Some (OVal (RRef (Some 10)))].
Lemma ex_rehook_meanwhile : meanwhile main ex_rehook ex_rehook_vs.
Proof.
  apply mw_plain; [intros (o & h & r & a & K & _); discriminate|intros [(n & K)|(n & K)]; discriminate|].
  apply (@mw_call main (ROp ex_call) _ [] [] (ROp (HookReturn_ HUnit)) _ [_] [_]); [|constructor|reflexivity|left; eauto|].
  - exists ex_call, 7, (Some 9), []. repeat split; discriminate.
  - apply mw_plain; [intros (o & h & r & a & _ & _ & _ & K); discriminate|intros [(n & K)|(n & K)]; discriminate|constructor].
Qed.
Lemma lasting_fun s cl i m : class_at s cl <> None -> In i (methods_of s cl) -> method_at s i = Some m -> m_native m = None -> lasting s i OnCall.
Proof. intros C Hi Hm Hn. exists cl. split; [apply class_at_is_cls; auto|]. split; auto. exists m. auto. Qed.
Theorem C101_refuted_replaced : exists p p' q vs l, rreachable Gd main p' /\ just_began Gd main ex_call 10 OnCall p p' /\ meanwhile main l vs /\ rexec Gd l p' = Some (vs, q) /\
  replaced 10 OnCall l vs /\ live (p_vm q) 10 = true /\ rstep Gd main RUse q = None.
Proof.
  destruct (@scenario ex_repl ex_call ex_rehook [Some (OVal (RRef (Some 9))); Some (OVal (RRef (Some 10)))] 7 (Some 9) [] ex_rehook_vs 10 OnCall 1 [mkRc main 10 OnCall 1]) as (p & p' & vs & q & _ & R & J & E & F & us & Fu);
    [vm_compute; reflexivity|vm_compute; reflexivity|vm_compute; reflexivity|].
  exists p, p', q, ex_rehook_vs, ex_rehook. split; [exact R|]. split; [exact J|]. split; [apply ex_rehook_meanwhile|]. split; [exact E|].
  split; [exists 3; do 3 eexists; split; [reflexivity|split; [reflexivity|constructor]]|]. split; [|apply (scenario_none (t := main) (x := RUse) F); vm_compute; reflexivity].
  assert (match rexec Gd (ex_repl ++ (main, ROp ex_call) :: ex_rehook) (rinit Gd main) with Some (_, x) => live (p_vm x) 10 | None => false end = true) as K by (vm_compute; reflexivity).
  rw_in F K. exact K.
Qed.
(** A hooked native method whose class is unregistered while it runs *)
Definition ex_native : list revent := [(main, ROp (FindClass_ (S_ "A"))); (main, ROp (RegisterNatives_ (Some 9) [(S_ "f", S_ "()V", Some 3)] 1));
  (main, ROp (UHookMethod_ 9 false (S_ "f") (S_ "()V") (mkHandle 7 KInst RVoid false))); (main, ROp (UGetMethod_ 9 (S_ "()V") (S_ "f")))].
Definition ex_ncall := CallNonvirtualMethodA_ RVoid (Some 9) (Some 9) (Some 10) [].
Definition ex_unreg : list revent := [(main, ROp (UnregisterNatives_ (Some 9)))].
Theorem C101_refuted_unregistered : exists p p' q vs l, rreachable Gd main p' /\ just_began Gd main ex_ncall 10 OnCall p p' /\ meanwhile main l vs /\ rexec Gd l p' = Some (vs, q) /\
  ~ replaced 10 OnCall l vs /\ rstep Gd main RUse q = None /\ step Gd main (HookThrow_ (UserExn 1)) (p_vm q) <> None /\ rstep Gd main (ROp (HookThrow_ (UserExn 1))) q = None.
Proof.
  destruct (@scenario ex_native ex_ncall ex_unreg [Some (OVal (RRef (Some 9))); Some (OVal (RInt 0)); Some (OVal (RRef (Some 10))); Some (OVal (RTriple None None (Some 10)))] 7 (Some 9) [] [Some (OVal (RInt 0))] 10 OnCall 1
    [mkRc main 10 OnCall 1]) as (p & p' & vs & q & _ & R & J & E & F & us & Fu); [vm_compute; reflexivity|vm_compute; reflexivity|vm_compute; reflexivity|].
  exists p, p', q, [Some (OVal (RInt 0))], ex_unreg. split; [exact R|]. split; [exact J|]. split.
  { apply mw_plain; [intros (o & h & r & a & _ & _ & _ & K); discriminate|intros [(n & K)|(n & K)]; discriminate|constructor]. }
  split; [exact E|]. split. { intros (n & t & x & v & A & B & H). clear - A B H. destruct n as [|[|n]]; try discriminate A. injection A as <- <-. injection B as <-. inversion H. }
  split; [apply (scenario_none (t := main) (x := RUse) F); vm_compute; reflexivity|].
  split; [|apply (scenario_none (t := main) (x := ROp (HookThrow_ (UserExn 1))) F); vm_compute; reflexivity].
  assert (match rexec Gd (ex_native ++ (main, ROp ex_ncall) :: ex_unreg) (rinit Gd main) with Some (_, x) => match step Gd main (HookThrow_ (UserExn 1)) (p_vm x) with Some _ => true | None => false end | None => false end = true) as K
    by (vm_compute; reflexivity).
  rw_in F K. clear - K. destruct (step Gd main (HookThrow_ (UserExn 1)) (p_vm q)); [discriminate|discriminate K].
Qed.
Theorem C101_refuted : ~ C101_claim Gd.
Proof.
  intros C. destruct C101_refuted_replaced as (p & p' & q & vs & l & R & J & M & E & _ & _ & N). destruct (C _ _ _ _ _ _ _ _ _ _ R J M E) as [K _]. apply K, N.
Qed.
(** The hypotheses of the theorems are met: a hook that runs, calls itself and still exists then. *)
Definition ex_quiet : list revent := [(main, RUse); (main, ROp ex_call); (main, ROp (HookReturn_ HUnit))].
Example C101_case : exists p p' q vs, rreachable Gd main p /\ receiver_ok (p_vm p) ex_call /\ rreachable Gd main p' /\ just_began Gd main ex_call 10 OnCall p p' /\ lasting (p_vm p') 10 OnCall /\
  meanwhile main ex_quiet vs /\ rexec Gd ex_quiet p' = Some (vs, q) /\ ~ replaced 10 OnCall ex_quiet vs.
Proof.
  destruct (@scenario ex_repl ex_call ex_quiet [Some (OVal (RRef (Some 9))); Some (OVal (RRef (Some 10)))] 7 (Some 9) [] [None; Some (OVal (RCall (Entered 7 (Some 9) []))); Some (OVal (RVal VUnit))] 10 OnCall 1 [mkRc main 10 OnCall 1])
    as (p & p' & vs & q & R0 & R & J & E & F & us & Fu); [vm_compute; reflexivity|vm_compute; reflexivity|vm_compute; reflexivity|].
  exists p, p', q, [None; Some (OVal (RCall (Entered 7 (Some 9) []))); Some (OVal (RVal VUnit))]. split; [exact R0|]. split; [exact I|]. split; [exact R|]. split; [exact J|]. split.
  { assert (match rexec Gd (ex_repl ++ [(main, ROp ex_call)]) (rinit Gd main) with Some (_, x) => match class_at (p_vm x) 9 with Some _ => true | None => false end = true /\ methods_of (p_vm x) 9 = [10] /\
      method_at (p_vm x) 10 = Some (mkMth (S_ "f") (S_ "()V") true None (Some (mkHandle 7 KStatic RVoid false))) | None => False end) as K by (vm_compute; repeat split).
    rw_in Fu K. destruct K as (C & Em & Hm). apply (@lasting_fun _ 9 10 _) with (3 := Hm); [clear - C; destruct (class_at (p_vm p') 9); [discriminate|discriminate C]|rewrite Em; simpl; auto|reflexivity]. }
  split.
  { apply mw_plain; [intros (o & h & r & a & K & _); discriminate|intros [(n & K)|(n & K)]; discriminate|].
    apply (@mw_call main (ROp ex_call) _ [] [] (ROp (HookReturn_ HUnit)) _ [] []); [|constructor|reflexivity|left; eauto|constructor].
    exists ex_call, 7, (Some 9), []. repeat split; discriminate. }
  split; [exact E|]. intros (n & t & x & v & A & B & H). clear - A B H. destruct n as [|[|[|[|n]]]]; try discriminate A; injection A as <- <-; injection B as <-; inversion H.
Qed.
Print Assumptions C101_member. Print Assumptions C101_exact. Print Assumptions C101_throw. Print Assumptions C101_vm. Print Assumptions C101_partial. Print Assumptions C101_refuted. Print Assumptions C101_refuted_replaced. Print Assumptions C101_refuted_unregistered.
