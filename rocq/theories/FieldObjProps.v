(** Field values: C58 for members that hold objects. *)
From Verif Require Import Base BaseProofs VmState VmModel VmStep VmBase VmWf VmPrim VmInv VmReg VmRegInv VmFrame VmFine VmSpec MemSpec HookSpec CallSpec RefSpec ArrSpec
  VmExact VmQuiet VmClass VmMember VmMember2 VmMember3 VmTables VmHook VmMemHist VmEnvInv VmCall VmCall2 VmThread VmRef VmRef2 VmRef3 VmObj VmArr VmArr2 VmField VmDemo CallProps MemberProps.
Set Implicit Arguments.
Unset Strict Implicit.
Local Open Scope vm_scope.

(** SetObjectField hands the reference to the setter unchanged; GetObjectField runs the getter on the object. *)
Theorem C58_object_setter G t0 t h i f hd x s : reachable G t0 s -> attached s t -> field_at s i = Some f -> f_set f = Some hd -> f_static f = false ->
  h_kind hd = KInstSet -> h_ret hd = RObj ->
  exists s', step G t (SetField_ false RObj (Some h) (Some i) (ArgL x)) s = Some (OVal (RCall (Entered (h_id hd) (Some h) [ArgL x])), s') /\
    now_running t (mkCall RVoid false (h_id hd) []) s s' /\ frames s' t = frames s t.
Proof.
  intros R A Hf Hs St K T. destruct (@SetField_step G t false RObj h None i f hd (ArgL x) s (reachable_good R) A Hf Hs St) as (v & s' & E & _ & En); [discriminate|].
  inversion En as [F N Nr Fr|m F C|m F C]; subst.
  - exists s'. cbn in Nr. auto.
  - discriminate.
  - inversion F as [Nf|]; [|discriminate]. exfalso. apply Nf. split; assumption.
Qed.
Theorem C58_object_getter G t0 t h i f hd s : reachable G t0 s -> attached s t -> field_at s i = Some f -> f_get f = Some hd -> f_static f = false ->
  h_kind hd = KInstGet -> h_ret hd = RObj ->
  exists s', step G t (GetField_ false RObj h (Some i)) s = Some (OVal (RCall (Entered (h_id hd) h [])), s') /\
    now_running t (mkCall RObj false (h_id hd) []) s s' /\ frames s' t = frames s t.
Proof.
  intros R A Hf Hs St K T. destruct (@GetField_step G t false RObj h None i f hd s (reachable_good R) A Hf Hs St) as (v & s' & E & _ & En); [discriminate|].
  inversion En as [F N Nr Fr|m F C|m F C]; subst.
  - exists s'. cbn in Nr. auto.
  - discriminate.
  - inversion F as [Nf|]; [|discriminate]. exfalso. apply Nf. split; assumption.
Qed.
(** wrap.h 181-191 [InstanceSet]: resolve the object and the value, assign. *)
Definition setter (t : tid) (h : oid) (x : option oid) (a : oid) (k : nat) (v : option oid) : list event :=
  [(t, UHold_ TObject (Some h)); (t, UHold_ TObject x); (t, USetVar_ a k v)].
Lemma denotes_heap s s' i r : s_heap s' = s_heap s -> denotes s i r -> denotes s' i r.
Proof.
  intros H D. assert (forall j, lookup s' j = lookup s j) as L by (intros; unfold lookup; rewrite H; reflexivity).
  assert (forall j, live s' j = live s j) as V by (intros; unfold live; rewrite L; reflexivity).
  induction D; [eapply den_obj|eapply den_global|eapply den_weak|eapply den_dead]; rewrite ?L, ?V; eauto.
Qed.
Theorem C58_object_set G t0 t h x a k v n l s : reachable G t0 s -> attached s t -> denotes s h (Some a) -> denotes_opt s x v -> contents s a = Some (PUser n l) ->
  exists s', exec G (setter t h x a k v) s = Some ([OVal (RRef (Some a)); OVal (RRef v); OVal RUnit], s') /\
    contents s' a = Some (PUser n (list_set l k v)) /\ frames s' t = frames s t.
Proof.
  intros R A D Dx C. pose proof (reachable_good R) as Gs.
  destruct (@UHold_step G t (Some h) (Some a) s Gs A D) as (s1 & E1 & G1 & Q1).
  assert (denotes_opt s1 x v) as Dx1 by (destruct x as [x|]; [refine (denotes_heap _ Dx); subst s1; reflexivity|exact Dx]).
  destruct (@UHold_step G t x v s1 G1 ltac:(subst s1; exact A) Dx1) as (s2 & E2 & G2 & Q2).
  assert (In a (s_ext s2)) as Ha by (subst s2; subst s1; destruct v; simpl; auto).
  destruct (@USetVar_step G t a k v n l s2 G2) as (s3 & E3 & G3 & Sd); auto.
  - subst s2; subst s1; destruct v; exact A.
  - intros i ->. subst s2. simpl. auto.
  - subst s2; subst s1; destruct v; exact C.
  - exists s3. split; [cbn [setter exec]; rewrite E1, E2, E3; reflexivity|]. split.
    + apply (sd_contents Sd). apply (wf_ext (good_wf G3)). rewrite (sd_ext Sd). exact Ha.
    + rewrite (sd_frames Sd). subst s2; subst s1; destruct v; reflexivity.
Qed.
(** Then any history: whatever happens meanwhile, on any thread and through other references, the getter returns a new local reference to the
    object (null for null), as long as the object exists and nothing else is assigned to the member. *)
Theorem C58_object_round_trip G t0 t u h x a k v n l s ob s1 hist w s2 c r Y : reachable G t0 s -> attached s t -> denotes s h (Some a) -> denotes_opt s x v ->
  contents s a = Some (PUser n l) -> k < length l ->
  exec G (setter t h x a k v) s = Some (ob, s1) -> assigning G a hist s1 w s2 -> (forall z, ~ In (k, z) w) -> live s2 a = true ->
  running s2 u = c :: r -> k_ret c = RObj -> (forall i o, v = Some i -> lookup s i = Some o -> isa G (o_pay o) Y = true) ->
  exists s3, step G u (HookReturn_ (HObj Y v)) s2 = Some (OVal (RVal (VRef v)), s3) /\
    frames s3 u = match v with Some i => add_local (frames s2 u) i | None => frames s2 u end /\ hook_done u r s2 s3.
Proof.
  intros R A D Dx C K Ex As Nw Lv Ru Kr Is. destruct (C58_object_set k R A D Dx C) as (s1' & E & C1 & _). rewrite E in Ex. injection Ex as <- <-.
  assert (reachable G t0 s1') as R1 by (eapply reach_exec; eauto). pose proof (reachable_good R1) as G1.
  destruct (assigning_contents G1 As C1 Lv) as (l2 & C2 & Ll & Nt). destruct (assigning_exec As) as (vs & Exh).
  assert (reachable G t0 s2) as R2 by (eapply reach_exec; eauto).
  assert (last_stored w k = None) as Ln.
  { clear -Nw. induction w as [|[j z] w IH]; [reflexivity|]. simpl. rewrite IH by (intros z' Hz; apply (Nw z'); right; exact Hz).
    destruct (Nat.eqb_spec k j); [|reflexivity]. exfalso. apply (Nw z). left. congruence. }
  assert (nth_error l2 k = Some v) as N2.
  { rewrite Nt by (rewrite list_set_length; exact K). rewrite Ln, nth_list_set, Nat.eqb_refl. apply nth_error_Some in K. destruct (nth_error l k); [reflexivity|congruence]. }
  assert (result_ok G s2 (k_ret c) (HObj Y v)) as Ok.
  { rewrite Kr. simpl. destruct v as [i|]; [|exact I]. pose proof (good_wf (reachable_good R2)) as W2. pose proof (good_wf (reachable_good R)) as W.
    apply contents_lookup in C2. destruct C2 as (o2 & L2 & P2).
    assert (live s2 i = true) as Li by (apply (@wf_refs s2 a o2 i W2 L2); rewrite P2; simpl; apply somes_In; eapply nth_error_In; eauto).
    apply live_lookup in Li. destruct Li as (o & Lo). exists o. split; [exact Lo|].
    destruct x as [x|]; [|discriminate]. simpl in Dx. destruct (denotes_target Dx) as (o0 & L0 & _).
    assert (exec G (setter t h (Some x) a k (Some i) ++ hist) s = Some ([OVal (RRef (Some a)); OVal (RRef (Some i)); OVal RUnit] ++ vs, s2)) as Et by (apply exec_app; eexists _, _, _; repeat (split; [try exact E; try exact Exh; reflexivity|]); try exact E; try exact Exh; try reflexivity).
    destruct (exec_ident W Et) as [_ Id]. specialize (Id i (lookup_lt _ _ L0)). rewrite L0, Lo in Id. rewrite <- (isa_kind G Y Id). exact (Is i o0 eq_refl L0). }
  destruct (@HookReturn_step G u c r (HObj Y v) s2 (reachable_solid R2) Ru Ok) as (y & s3 & St & _ & Hd & Hr).
  inversion Hr; subst; exists s3; auto.
Qed.

(** Example: the value's local reference and the C++ references to it are dropped between the assignment and the read. *)
Definition ex_objf : list event :=
  [(main, UBind_ 0 true (S_ "A")); (main, UHookField_ 9 false true (S_ "f") (S_ "LA;") (mkHandle 5 KInstGet RObj false));
   (main, UHookField_ 9 false false (S_ "f") (S_ "LA;") (mkHandle 6 KInstSet RObj false)); (main, GetFieldID_ false (Some 9) (S_ "f") (S_ "LA;"));
   (main, UNew_ 0 1); (main, UToJNI_ (TUser 0) 11); (main, UNew_ 0 0); (main, UToJNI_ (TUser 0) 12); (main, SetField_ false RObj (Some 11) (Some 10) (ArgL (Some 12)))].
Definition ex_objf2 : list event :=
  [(main, HookReturn_ HUnit); (main, UDrop_ 12); (main, UDrop_ 12); (main, DeleteLocalRef_ (Some 12)); (main, GetField_ false RObj (Some 11) (Some 10))].
Definition ex_objf1 := ex_objf ++ setter main 11 (Some 12) 11 0 (Some 12).
Example C58_object_case : runs Gd ex_objf = true /\ runs Gd ex_objf1 = true /\ runs Gd (ex_objf1 ++ ex_objf2) = true /\
  denotes (after Gd ex_objf) 11 (Some 11) /\ denotes_opt (after Gd ex_objf) (Some 12) (Some 12) /\ contents (after Gd ex_objf) 11 = Some (PUser 0 [None]) /\
  assigning Gd 11 ex_objf2 (after Gd ex_objf1) [] (after Gd (ex_objf1 ++ ex_objf2)) /\
  live (after Gd (ex_objf1 ++ ex_objf2)) 11 = true /\ running (after Gd (ex_objf1 ++ ex_objf2)) main = [mkCall RObj false 5 []] /\
  frames (after Gd (ex_objf1 ++ ex_objf2)) main = [[11]].
Proof.
  split; [vm_compute; reflexivity|]. split; [vm_compute; reflexivity|]. split; [vm_compute; reflexivity|].
  split; [eapply den_obj; [vm_compute; reflexivity|discriminate..]|]. split; [eapply den_obj; [vm_compute; reflexivity|discriminate..]|].
  split; [vm_compute; reflexivity|]. split; [|repeat split; vm_compute; reflexivity].
  repeat (eapply as_other; [discriminate|vm_compute; reflexivity|]).
  match goal with |- assigning _ _ [] ?a [] ?b => let x := eval vm_compute in b in change b with x || (replace b with x by (vm_compute; reflexivity)) end. apply as_nil.
Qed.
Print Assumptions C58_object_round_trip.
