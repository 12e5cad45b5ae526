(** C102: histories of a build with JNIVM_ENABLE_RETURN_NON_ZERO. *)
From Verif Require Import Base BaseProofs SigModel VmState VmModel VmStep VmSpec MemSpec HookSpec CallSpec RefSpec ArrSpec ReplModel ReplSpec VmBase VmFrame VmWf VmPrim VmInv VmReg
  VmFine VmRegInv VmExact VmQuiet VmClass VmEnvInv VmThread VmMember VmTables VmCall VmCall2 MemberProps CallProps VmDemo NonZeroModel NonZeroProps ReplProps NzHistModel.
Set Implicit Arguments.
Unset Strict Implicit.
Local Opaque after.

(** ** Specification *)
(** Operations that find classes and make objects and references to them *)
Inductive making : op -> Prop :=
| mk_find n : making (FindClass_ n) | mk_class z n : making (UFindClass_ z n)
| mk_numbers p n : making (NewArray_ p n) | mk_objects n c x : making (NewObjectArray_ n c x)
| mk_instance c n : making (UInstantiate_ c n) | mk_plain c : making (UPlain_ c)
| mk_give Y i : making (UToJNI_ Y i) | mk_drop i : making (UDrop_ i).

(** ** The default is made by such operations *)
Definition of (t : tid) (l : list op) : list event := map (fun o => (t, o)) l.
Definition by_making (G : cfg) (t : tid) (s : st) (v : obs) (s' : st) : Prop :=
  (exists r, v = OVal (RRef r) \/ exists e, v = OExn e) /\ exists l vs, Forall making l /\ exec G (of t l) s = Some (vs, s').
Lemma by_none G t r s : by_making G t s (OVal (RRef r)) s.
Proof. split; [eauto|]. exists [], []. split; [constructor|reflexivity]. Qed.
Lemma by_step G t o s w s1 v s' : making o -> step G t o s = Some (w, s1) -> by_making G t s1 v s' -> by_making G t s v s'.
Proof.
  intros M E (Hv & l & vs & F & X). split; auto. exists (o :: l), (w :: vs). split; [constructor; auto|]. cbn [of map exec]. rewrite E. fold (of t l). rewrite X. reflexivity.
Qed.
Lemma by_last G t o s v s' : making o -> step G t o s = Some (v, s') -> (exists r, v = OVal (RRef r) \/ exists e, v = OExn e) -> by_making G t s v s'.
Proof.
  intros M E Hv. split; auto. exists [o], [v]. split; [constructor; auto|]. cbn [of map exec]. rewrite E. reflexivity.
Qed.
Lemma as_ref_result G t o s v s' : step G t o s = Some (v, s') -> (exists m, body G t o = as_ref m) -> needs_env o = true -> exists r, v = OVal (RRef r) \/ exists e, v = OExn e.
Proof.
  intros E (m & B) N. unfold step, run in E. rewrite N, B in E. unfold bind, as_ref, ret in E. destruct (the_env t s) as [a0 s0|e0 s0| | | |]; cbv beta iota in E; try discriminate E; [|injection E as <- <-; eauto].
  unfold bind in E. destruct (m s0) as [a1 s1|e s1| | | |]; cbv beta iota in E; try discriminate E; injection E as <- <-; eauto.
  Unshelve. all: exact None.
Qed.
Lemma hand_making G t i s v s' : hand_out G t i s = Some (v, s') -> by_making G t s v s'.
Proof.
  unfold hand_out. destruct (step G t (UToJNI_ TObject i) s) as [[w s1]|] eqn:E; [|discriminate]. destruct (step G t (UDrop_ i) s1) as [[w' s2]|] eqn:E2; [|discriminate].
  intros [= <- <-]. split; [apply (as_ref_result E); [eexists; reflexivity|reflexivity]|].
  exists [UToJNI_ TObject i; UDrop_ i], [w; w']. split; [repeat constructor|]. cbn [of map exec]. rewrite E, E2. reflexivity.
Qed.
Lemma default_making G t n sg s v s' : defaultVal G t n sg s = Some (v, s') -> by_making G t s v s'.
Proof.
  unfold defaultVal. assert (forall s', Some (OVal (RRef None), s) = Some (v, s') -> by_making G t s v s') as Nu by (intros s2 [= <- <-]; apply by_none).
  assert (forall nm s', empty_array G t nm s = Some (v, s') -> by_making G t s v s') as Ar.
  { intros nm s2. unfold empty_array. destruct (step G t (FindClass_ nm) s) as [[[[]|] s1]|] eqn:E; try discriminate. intros H. refine (by_step _ E _); [constructor|].
    refine (by_last _ H _); [constructor|]. apply (as_ref_result H); [eexists; reflexivity|reflexivity]. }
  assert (forall nm s', new_object G t n nm s = Some (v, s') -> by_making G t s v s') as Ob.
  { intros nm s2. unfold new_object. destruct (step G t (UFindClass_ false nm) s) as [[[[| | |[c|]| | | | | | | |]|] s1]|] eqn:E; try discriminate.
    destruct (get_cls c s1) as [k sk| | | | |]; try discriminate. destruct (c_inst k).
    - destruct (step G t (UInstantiate_ c n) s1) as [[[[| | |[i|]| | | | | | | |]|] s3]|] eqn:E2; try discriminate. intros H. refine (by_step _ E _); [constructor|]. refine (by_step _ E2 _); [constructor|]. exact (hand_making H).
    - destruct (has_type_entry c s1); [intros [= <- <-]; refine (by_step _ E _); [constructor|]; apply by_none|].
      destruct (step G t (UPlain_ (Some c)) s1) as [[[[| | |[i|]| | | | | | | |]|] s3]|] eqn:E2; try discriminate. intros H. refine (by_step _ E _); [constructor|]. refine (by_step _ E2 _); [constructor|]. exact (hand_making H). }
  destruct sg as [|a sg]; [intros H; exact (Nu _ H)|]. cbv zeta. set (x := result_text (a :: sg)). clearbody x. intros H.
  assert (match class_text x with Some m => new_object G t n m s | None => Some (OVal (RRef None), s) end = Some (v, s') -> by_making G t s v s') as K.
  { destruct (class_text x); [apply Ob|intros E; exact (Nu _ E)]. }
  destruct x as [|c r]; [exact (K H)|]. destruct (ascii_dec c "["%char) as [->|Nc].
  - clear K. destruct r as [|d q]; [exact (Nu _ H)|]. cbv beta iota in H. destruct (array_pty d) as [p|].
    + refine (by_last _ H _); [constructor|]. apply (as_ref_result H); [eexists; reflexivity|reflexivity].
    + destruct (Ascii.eqb d "L" || Ascii.eqb d "[")%bool; [|exact (Nu _ H)]. apply Ar in H. exact H.
  - apply K. rewrite <- H. destruct c as [[] [] [] [] [] [] [] []]; try reflexivity. destruct (Nc eq_refl).
Qed.
(** They leave the calls and function objects alone. *)
Lemma making_rexec G t l : Forall making l -> forall p vs s', exec G (of t l) (p_vm p) = Some (vs, s') ->
  rexec G (map (fun o => (t, ROp o)) l) p = Some (map Some vs, mkRst s' (p_gen p) (p_run p)).
Proof.
  induction 1 as [|o l M F IH]; intros p vs s' E; cbn [of map exec] in E.
  - injection E as <- <-. destruct p. reflexivity.
  - destruct (step G t o (p_vm p)) as [[v s1]|] eqn:E1; [|discriminate]. fold (of t l) in E. destruct (exec G (of t l) s1) as [[ws s2]|] eqn:E2; [|discriminate]. injection E as <- <-.
    assert (rstep G t (ROp o) p = Some (Some v, mkRst s1 (p_gen p) (p_run p))) as St.
    { cbn [rstep]. assert (match o with HookThrow_ _ => can_throw t p | _ => true end = true) as -> by (destruct M; reflexivity). rewrite E1. f_equal. f_equal. f_equal.
      - unfold bump, assigned. destruct M; reflexivity.
      - unfold track. destruct M; cbn [called_member]; destruct v as [[| | | |[|? ? ?]| | | | | | | ]|]; reflexivity. }
    cbn [map rexec]. rewrite St. rewrite (IH (mkRst s1 (p_gen p) (p_run p)) ws s2 E2). reflexivity.
Qed.
Section Cfg.
Variables (G : cfg) (vars : st -> str -> nat).
Lemma instead_inv t sg p v p' : instead G vars t sg p = Some (v, p') -> exists w, v = Some w /\ by_making G t (p_vm p) w (p_vm p') /\ p_gen p' = p_gen p /\ p_run p' = p_run p.
Proof.
  unfold instead. destruct (defaultVal _ _ _ _ _) as [[w s]|] eqn:E; [|discriminate]. intros [= <- <-]. exists w. split; auto. split; [exact (default_making E)|auto].
Qed.
(** Each operation does what it does without the option, except that it may then make an object. *)
Lemma nzstep_inv t x p v p' : nzstep G vars t x p = Some (v, p') -> exists w p1, rstep G t x p = Some (w, p1) /\ p_gen p' = p_gen p1 /\ p_run p' = p_run p1 /\
  ((v = w /\ p' = p1) \/ exists a, v = Some a /\ by_making G t (p_vm p1) a (p_vm p') /\ forall h r b, w <> Some (OVal (RCall (Entered h r b)))).
Proof.
  unfold nzstep. destruct (rstep G t x p) as [[w p1]|] eqn:E; [|discriminate]. destruct (lacking t x w p p1) as [sg|] eqn:L.
  - intros H. destruct (instead_inv H) as (a & -> & B & Hg & Hr). exists w, p1. split; auto. split; auto. split; auto. right. exists a. split; auto. split; auto.
    intros h r b ->. unfold lacking in L. destruct x as [o|]; [|discriminate L]. destruct o; discriminate L.
  - intros [= <- <-]. exists w, p1. auto 10.
Qed.
Lemma nzstep_rexec t x p v p' : nzstep G vars t x p = Some (v, p') -> exists l vs w, Forall making l /\ rexec G ((t, x) :: map (fun o => (t, ROp o)) l) p = Some (w :: vs, p').
Proof.
  intros H. destruct (nzstep_inv H) as (w & p1 & E & Hg & Hr & C). destruct C as [[-> ->]|(a & -> & (_ & l & vs & F & X) & _)].
  - exists [], [], w. split; [constructor|]. cbn [rexec map]. rewrite E. reflexivity.
  - exists l, (map Some vs), w. split; auto. cbn [rexec]. rewrite E, (making_rexec F X), <- Hg, <- Hr. destruct p'. reflexivity.
Qed.
Lemma rexec_join l l' p vs q vs' r : rexec G l p = Some (vs, q) -> rexec G l' q = Some (vs', r) -> rexec G (l ++ l') p = Some (vs ++ vs', r).
Proof.
  revert p vs. induction l as [|[t x] l IH]; intros p vs E E'; cbn [rexec app] in *; [injection E as <- <-; exact E'|].
  destruct (rstep G t x p) as [[v p1]|]; [|discriminate]. destruct (rexec G l p1) as [[ws p2]|] eqn:E1; [|discriminate]. injection E as <- <-. rewrite (IH _ _ E1 E'). reflexivity.
Qed.

(** ** C102 *)
(** [padded l l']: history [l'] is [l] with operations added that make objects, by threads that have just done something. *)
Inductive padded : list revent -> list revent -> Prop :=
| pd_nil : padded [] []
| pd_one t x os l l' : Forall making os -> padded l l' -> padded ((t, x) :: l) ((t, x) :: map (fun o => (t, ROp o)) os ++ l').
(** Every history of a program is, with such operations added, a history without the option that ends in the same state; *)
Theorem C102_history l p vs q : nzexec G vars l p = Some (vs, q) -> exists l' vs', padded l l' /\ rexec G l' p = Some (vs', q).
Proof.
  revert p vs. induction l as [|[t x] l IH]; intros p vs E; cbn [nzexec] in E.
  - injection E as <- <-. exists [], []. split; [constructor|reflexivity].
  - destruct (nzstep G vars t x p) as [[v p1]|] eqn:E1; [|discriminate]. destruct (nzexec G vars l p1) as [[ws p2]|] eqn:E2; [|discriminate]. injection E as <- <-.
    destruct (nzstep_rexec E1) as (os & us & w & F & R). destruct (IH _ _ E2) as (l' & vs' & P & R'). exists ((t, x) :: map (fun o => (t, ROp o)) os ++ l'), ((w :: us) ++ vs').
    split; [constructor; auto|]. exact (rexec_join R R').
Qed.
(** so what holds of all states of VMs also holds with the option. *)
Theorem C102_reachable t0 p : nzreachable G vars t0 p -> rreachable G t0 p /\ reachable G t0 (p_vm p).
Proof.
  intros (l & vs & E). destruct (C102_history E) as (l' & vs' & _ & R). assert (rreachable G t0 p) as Rr by (exists l', vs'; exact R). split; [exact Rr|exact (rreachable_vm Rr)].
Qed.
(** Calls and accesses with nothing to run give what [step_nz] of C91 says. *)
Theorem C102_default t o p w p1 id : rstep G t (ROp o) p = Some (Some w, p1) -> object_result o = Some id -> w = OVal (RCall Default) ->
  nzstep G vars t (ROp o) p = match step_nz G t (vars (p_vm p1) (signature_of id (p_vm p1))) o (p_vm p) with
    | Some (v, s') => Some (Some v, mkRst s' (p_gen p1) (p_run p1)) | None => None end.
Proof.
  intros E Ob ->. unfold nzstep. rewrite E. destruct (rstep_op E) as (w & [= <-] & Es & _). unfold step_nz. rewrite Es, Ob.
  assert (lacking t (ROp o) (Some (OVal (RCall Default))) p p1 = Some (signature_of id (p_vm p1))) as ->.
  { unfold lacking. destruct o; try discriminate Ob; rewrite Ob; reflexivity. }
  reflexivity.
Qed.
(** All other operations are as without the option. *)
Theorem C102_other t x p : (forall n p1, x = ROp (HookThrow_ n) -> rstep G t x p <> Some (Some (OVal (RVal (VRef None))), p1)) -> (forall o id p1, x = ROp o -> object_result o = Some id -> rstep G t x p <> Some (Some (OVal (RCall Default)), p1)) ->
  nzstep G vars t x p = rstep G t x p.
Proof.
  intros N1 N2. unfold nzstep. destruct (rstep G t x p) as [[v p1]|] eqn:E; auto. assert (lacking t x v p p1 = None) as ->; auto.
  unfold lacking. destruct x as [o|]; [|reflexivity]. destruct v as [[[| | | |[|? ? ?]| | | | | | |]|]|];
    try (destruct o; reflexivity).
  - destruct (object_result o) as [id|] eqn:Ob; [exfalso; exact (N2 _ _ _ eq_refl Ob eq_refl)|]. destruct o; reflexivity.
  - destruct o; try reflexivity. destruct v as [| |[h|]]; try reflexivity. destruct (N1 _ _ eq_refl eq_refl).
Qed.
(** *** The running calls *)
Lemma nz_begins t x p v p' w p1 : nzstep G vars t x p = Some (v, p') -> rstep G t x p = Some (w, p1) -> begins x v <-> begins x w.
Proof.
  intros H E. destruct (nzstep_inv H) as (w' & p2 & E' & _ & _ & C). rewrite E in E'. injection E' as <- <-. destruct C as [[-> _]|(a & -> & ((r & Ha) & _) & N)]; [tauto|].
  split; intros (o & h & r' & b & _ & _ & _ & K).
  - exfalso. injection K as ->. destruct Ha as [Ha|(e & Ha)]; discriminate Ha.
  - destruct (N _ _ _ K).
Qed.
Lemma nz_track t x p v p' u : nzstep G vars t x p = Some (v, p') ->
  (u <> t -> mine u (p_run p') = mine u (p_run p)) /\
  (~ begins x v -> ~ leaves x -> p_run p' = p_run p) /\
  (leaves x -> p_run p' = leave t (p_run p)) /\
  (begins x v -> exists i sl, p_run p' = mkRc t i sl (p_gen p i sl) :: p_run p).
Proof.
  intros H. destruct (nzstep_inv H) as (w & p1 & E & _ & -> & _). rewrite (nz_begins H E). clear H. destruct x as [o|].
  - destruct (rstep_op E) as (a & -> & Es & _ & ->). split; [intros N; apply track_other; auto|]. split; [apply track_plain|]. split; [apply track_ends|].
    intros B. pose proof (begins_not_ends B) as NE. destruct B as (o' & h & r & b & [= <-] & _ & _ & [= ->]). destruct (track_begins (p_gen p) (p_run p) Es NE) as (i & sl & _ & ->). eauto.
  - apply rstep_use in E. destruct E as [-> ->]. split; [auto|]. split; [auto|]. split; [intros [(n & K)|(n & K)]; discriminate K|]. intros (o & h & r & a & K & _). discriminate K.
Qed.
Lemma nzexec_app l l' p vs p' : nzexec G vars (l ++ l') p = Some (vs, p') -> exists vs1 p1 vs2, nzexec G vars l p = Some (vs1, p1) /\ nzexec G vars l' p1 = Some (vs2, p') /\ vs = vs1 ++ vs2.
Proof.
  revert p vs. induction l as [|[t x] l IH]; simpl; intros p vs E.
  - exists [], p, vs. auto.
  - destruct (nzstep G vars t x p) as [[v q]|]; [|discriminate]. destruct (nzexec G vars (l ++ l') q) as [[ws q']|] eqn:Eq; [|discriminate]. injection E as <- <-.
    destruct (IH _ _ Eq) as (v1 & p1 & v2 & E1 & E2 & ->). rewrite E1. exists (v :: v1), p1, v2. auto.
Qed.
Lemma nzexec_length l p vs p' : nzexec G vars l p = Some (vs, p') -> length vs = length l.
Proof.
  revert p vs. induction l as [|[t x] l IH]; simpl; intros p vs E; [injection E as <- <-; auto|].
  destruct (nzstep G vars t x p) as [[v q]|]; [|discriminate]. destruct (nzexec G vars l q) as [[ws q']|] eqn:Eq; [|discriminate]. injection E as <- <-. simpl. f_equal. eauto.
Qed.
Lemma nz_mine t l vs : meanwhile t l vs -> forall p p', nzexec G vars l p = Some (vs, p') -> mine t (p_run p') = mine t (p_run p).
Proof.
  induction 1 as [|u x v l vs N M IH|x v l vs B E M IH|x v l vs y w l' vs' B M IH L Y M' IH']; intros p p' Ex.
  - injection Ex as <-. auto.
  - cbn [nzexec] in Ex. destruct (nzstep G vars u x p) as [[v' q]|] eqn:Es; [|discriminate]. destruct (nzexec G vars l q) as [[ws q']|] eqn:Eq; [|discriminate]. injection Ex as -> -> ->.
    rewrite (IH _ _ Eq). apply (nz_track t Es). auto.
  - cbn [nzexec] in Ex. destruct (nzstep G vars t x p) as [[v' q]|] eqn:Es; [|discriminate]. destruct (nzexec G vars l q) as [[ws q']|] eqn:Eq; [|discriminate]. injection Ex as -> -> ->.
    rewrite (IH _ _ Eq). f_equal. apply (nz_track t Es); auto.
  - cbn [nzexec] in Ex. destruct (nzstep G vars t x p) as [[v' q]|] eqn:Es; [|discriminate]. destruct (nzexec G vars (l ++ _) q) as [[ws q']|] eqn:Eq; [|discriminate]. injection Ex as -> -> ->.
    destruct (nzexec_app Eq) as (vs1 & q1 & vs2 & E1 & E2 & Ev). apply app_split in Ev; [|rewrite (nzexec_length E1); auto]. destruct Ev as [<- <-].
    cbn [nzexec] in E2. destruct (nzstep G vars t y q1) as [[w' q2]|] eqn:Ey; [|discriminate]. destruct (nzexec G vars l' q2) as [[ws q3]|] eqn:E3; [|discriminate]. injection E2 as -> -> ->.
    rewrite (IH' _ _ E3). destruct (nz_track t Ey) as (_ & _ & Hl & _). rewrite (Hl Y), leave_mine, (IH _ _ E1). destruct (nz_track t Es) as (_ & _ & _ & Hb). destruct (Hb B) as (i & sl & ->).
    simpl. rewrite Nat.eqb_refl. reflexivity.
Qed.
(** A call of a method has run; while its function has not ended, [t] ends what it begins, and then the function throws.  The exception is pending;
    the call gives the default for the signature of the method that ran (C91 says which), made in the state after the call. *)
Theorem C102_thrown t0 t i g p0 p l vs q k r n m : p_run p = mkRc t i OnCall g :: p_run p0 -> meanwhile t l vs -> nzexec G vars l p = Some (vs, q) -> nzreachable G vars t0 q ->
  method_at (p_vm q) i = Some m -> running (p_vm q) t = k :: r -> k_catch k = true -> k_ret k = RObj ->
  exists s1, step G t (HookThrow_ n) (p_vm q) = Some (OVal (RVal (VRef None)), s1) /\ reachable G t0 s1 /\ attached s1 t /\ now_pending t n (p_vm q) s1 /\ running s1 t = r /\
    match defaultVal G t (vars s1 (m_sig m)) (m_sig m) s1 with
    | Some (v, s2) => exists q', nzstep G vars t (ROp (HookThrow_ n)) q = Some (Some v, q') /\ p_vm q' = s2 /\ pending s2 t = pending s1 t /\ mine t (p_run q') = mine t (p_run p0)
    | None => nzstep G vars t (ROp (HookThrow_ n)) q = None
    end.
Proof.
  intros Hp M E Rq Hm K Kc Kr. destruct (C102_reachable Rq) as [_ R]. destruct (C24_throw n R K Kc) as (w & s1 & St & Z & Ru & _ & Pe & Ck).
  assert (w = VRef None) as -> by (clear - Z Kr; rewrite Kr in Z; inversion Z; reflexivity).
  assert (reachable G t0 s1) as R1 by (apply (@reachable_exec G t0 (p_vm q) [(t, HookThrow_ n)] [OVal (RVal (VRef None))] s1 R); cbn [exec]; rewrite St; reflexivity).
  assert (attached s1 t) as A1 by (apply (step_attached Ck); reflexivity).
  assert (mine t (p_run q) = mkRc t i OnCall g :: mine t (p_run p0)) as Hq by (rewrite (nz_mine M E), Hp; simpl; rewrite Nat.eqb_refl; reflexivity).
  assert (innermost t (p_run q) = Some (mkRc t i OnCall g)) as In by (rewrite innermost_mine, Hq; reflexivity).
  assert (live (p_vm q) i = true) as Lv by (unfold method_at, contents in Hm; unfold live; destruct (lookup (p_vm q) i); [reflexivity|discriminate Hm]).
  assert (signature_of (Some i) (p_vm q) = m_sig m) as Sg.
  { clear - Hm. unfold signature_of, method_at, contents in *. destruct (lookup (p_vm q) i) as [o|]; [|discriminate Hm]. simpl in Hm. destruct (o_pay o); try discriminate Hm. injection Hm as ->. reflexivity. }
  exists s1. split; [exact St|]. split; [exact R1|]. split; [exact A1|]. split; [exact Pe|]. split; [exact Ru|].
  assert (rstep G t (ROp (HookThrow_ n)) q = Some (Some (OVal (RVal (VRef None))), mkRst s1 (p_gen q) (leave t (p_run q)))) as Er.
  { cbn [rstep]. unfold can_throw. rewrite In. cbn [r_slot r_member]. rewrite Lv, St. reflexivity. }
  assert (nzstep G vars t (ROp (HookThrow_ n)) q = instead G vars t (m_sig m) (mkRst s1 (p_gen q) (leave t (p_run q)))) as ->.
  { unfold nzstep. rewrite Er. cbn [lacking]. rewrite In. cbn [option_map r_member]. rewrite Sg. reflexivity. }
  unfold instead. cbn [p_vm p_gen p_run]. destruct (defaultVal G t (vars s1 (m_sig m)) (m_sig m) s1) as [[v s2]|] eqn:Ed; [|reflexivity].
  eexists. split; [reflexivity|]. cbn [p_vm p_run]. split; [reflexivity|]. split; [|rewrite leave_mine, Hq; reflexivity].
  destruct (default_making Ed) as (_ & os & us & F & X). clear Ed Er R St Pe Ck Ru. assert (good G s1) as Gs by exact (reachable_good R1). clear R1 A1. revert s1 us Gs X.
  induction F as [|o os Mk F IH]; intros s1 us Gs X; cbn [of map exec] in X; [injection X as _ <-; reflexivity|].
  destruct (step G t o s1) as [[v1 s3]|] eqn:E1; [|discriminate]. fold (of t os) in X. destruct (exec G (of t os) s3) as [[ws s4]|] eqn:E2; [|discriminate]. injection X as _ <-.
  rewrite (IH s3 ws (step_good Gs E1) E2). apply (fun W X => @pending_step G t o s1 v1 s3 W X E1); [exact (good_wf Gs)|destruct Mk; reflexivity].
Qed.
(** The function of a method with another result, or a getter or setter, throws: as without the option. *)
Theorem C102_zero t0 t k r n p : nzreachable G vars t0 p -> running (p_vm p) t = k :: r -> k_catch k = false \/ k_ret k <> RObj ->
  nzstep G vars t (ROp (HookThrow_ n)) p = rstep G t (ROp (HookThrow_ n)) p.
Proof.
  intros R K N. destruct (C102_reachable R) as [_ R']. apply C102_other; [|intros o id p1 [= <-] Ob; discriminate Ob].
  intros n' p1 [= <-] E. destruct (rstep_op E) as (w & [= <-] & Es & _). destruct (HookThrow_step n (reachable_solid R') K) as (v & s' & E' & _ & _ & _ & H). rewrite Es in E'. injection E' as <- <-.
  destruct (k_catch k); [|destruct H as [H _]; discriminate H]. destruct H as ((w & [= <-] & Z) & _). destruct N as [N|N]; [discriminate N|]. clear - N Z. unfold zero_of in Z. destruct (k_ret k); first [discriminate Z | destruct (N eq_refl)].
Qed.
(** If the method is gone, the behaviour is undefined, as without the option. *)
Theorem C102_undefined t x p : rstep G t x p = None -> nzstep G vars t x p = None.
Proof. intros E. unfold nzstep. rewrite E. reflexivity. Qed.
End Cfg.
(** A static method of the signature ()[I that throws: an empty array is returned and the exception is pending. *)
Definition ex_nz : list revent := [(main, ROp (FindClass_ (S_ "A"))); (main, ROp (UHookMethod_ 9 true (S_ "f") (S_ "()[I") (mkHandle 7 KStatic RObj false)));
  (main, ROp (CallStaticMethodA_ RObj (Some 9) (Some 10) []))].
Example C102_case : match nzexec Gd (fun _ _ => 0) ex_nz (rinit Gd main) with
  | Some (_, q) => p_run q = [mkRc main 10 OnCall 1] /\ method_at (p_vm q) 10 = Some (mkMth (S_ "f") (S_ "()[I") true None (Some (mkHandle 7 KStatic RObj false))) /\
      map (fun k => (k_ret k, k_catch k)) (running (p_vm q) main) = [(RObj, true)]
  | None => False end.
Proof. vm_compute. repeat split. Qed.
Example C102_ex : option_map fst (nzexec Gd (fun _ _ => 0) (ex_nz ++ [(main, ROp (HookThrow_ (UserExn 5))); (main, ROp ExceptionCheck_); (main, ROp (GetArrayLength_ (Some 13)))]) (rinit Gd main)) =
  Some [Some (OVal (RRef (Some 9))); Some (OVal (RRef (Some 10))); Some (OVal (RCall (Entered 7 (Some 9) []))); Some (OVal (RRef (Some 13))); Some (OVal (RBool true)); Some (OVal (RInt 0))].
Proof. vm_compute. reflexivity. Qed.
Print Assumptions C102_history. Print Assumptions C102_reachable. Print Assumptions C102_default. Print Assumptions C102_other. Print Assumptions C102_thrown. Print Assumptions C102_zero. Print Assumptions C102_undefined.
