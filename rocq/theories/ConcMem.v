(** Members under concurrent calls: proofs. *)
From Verif Require Import Base BaseProofs SigModel VmState VmModel ConcModel ConcLogic ConcSpec ConcDisc ConcReg.
Set Implicit Arguments.
Unset Strict Implicit.

Lemma key_eqb_spec a b : reflect (a = b) (key_eqb a b).
Proof.
  unfold key_eqb. destruct a as [p k n], b as [q l m]. cbn. destruct (Bool.eqb_spec p q) as [->|N]; cbn; [|constructor; congruence].
  destruct (str_eqb_spec k l) as [->|N]; cbn; [|constructor; congruence]. destruct (str_eqb_spec n m) as [->|N]; constructor; congruence.
Qed.
Lemma find_app l y i x : find_key (l ++ [(y, i)]) x = match find_key l x with Some j => Some j | None => if key_eqb y x then Some i else None end.
Proof. induction l as [|[z j] l IH]; cbn; [reflexivity|]. destruct (key_eqb z x); auto. Qed.
Lemma find_fields c y d x s : find_key (fields (add_field c y s) d) x = match find_key (fields s d) x with Some j => Some j | None => if Nat.eqb d c && key_eqb y x then Some (next s) else None end.
Proof. cbn. unfold upd. destruct (Nat.eqb_spec d c) as [->|]; cbn; [apply find_app|]. destruct (find_key (fields s d) x); reflexivity. Qed.
Lemma find_methods c y d x s : find_key (methods (add_method c y s) d) x = match find_key (methods s d) x with Some j => Some j | None => if Nat.eqb d c && key_eqb y x then Some (next s) else None end.
Proof. cbn. unfold upd. destruct (Nat.eqb_spec d c) as [->|]; cbn; [apply find_app|]. destruct (find_key (methods s d) x); reflexivity. Qed.
Lemma find_natives c y d x s : find_key (methods (add_native c y s) d) x = find_key (methods (add_method c y s) d) x.
Proof. reflexivity. Qed.
Lemma drop_other c d s : d <> c -> methods (drop_natives c s) d = methods s d.
Proof. intros N. cbn. unfold upd. destruct (Nat.eqb_spec d c); [congruence|reflexivity]. Qed.

Section Mem.
Variable G : ccfg.
Variable height : nat -> nat.
Hypothesis Hr : ranked G height.
Variable s0 : shared.
Variable c : nat.
Variable x : key.

Lemma base_height d : base_of G c d -> height d < height c.
Proof. intros H. induction H as [b Hb|b d _ IH Hd]; [auto|]. specialize (Hr Hd). lia. Qed.

(** *** Fields *)
Definition own0 : option nat := find_key (fields s0 c) x.
Definition base0 : option nat := first (inherited G (fields s0) x (height c)) (c_bases G c).
Definition same_bases (s s' : shared) : Prop := forall d, base_of G c d -> find_key (fields s' d) x = find_key (fields s d) x.
Definition may_create : Prop := c_retnull G = false /\ own0 = None /\ base0 = None.
Definition GFld (H : list lock) (s s' : shared) : Prop :=
  same_bases s s' /\ (find_key (fields s' c) x = find_key (fields s c) x \/ (In (LCls c) H /\ find_key (fields s c) x = None /\ may_create)).
Definition IFld (s : shared) : Prop := same_bases s0 s /\ (find_key (fields s c) x = own0 \/ may_create).
Lemma IFld_keep H s s' : IFld s -> GFld H s s' -> IFld s'.
Proof.
  intros [Hb Hc] [Kb Kc]. split; [intros d Hd; rewrite (Kb d Hd); auto|]. destruct Kc as [Q|(_ & _ & Q)]; [|auto]. rewrite Q. exact Hc.
Qed.
Lemma GFld_same H s s' : fields s' = fields s -> GFld H s s'.
Proof. intros E. split; [intros d _; rewrite E; reflexivity|left; rewrite E; reflexivity]. Qed.
Definition owns (i : nat) (s : shared) : Prop := IFld s /\ find_key (fields s c) x = Some i.
Lemma owns_keep i H s s' : owns i s -> GFld H s s' -> owns i s'.
Proof. intros [Is Hf] Gs. split; [eapply IFld_keep; eauto|]. destruct Gs as [_ [Q|(_ & Q & _)]]; congruence. Qed.
Lemma stable_fld H (L : shared -> Prop) : (forall K s s', L s -> GFld K s s' -> L s') -> stable GFld H L.
Proof. intros Hk s s' Ls (K & _ & Gs). eauto. Qed.
Definition lacks (s : shared) : Prop := IFld s /\ find_key (fields s c) x = None.
Lemma lacks_stable H : In (LCls c) H -> stable GFld H lacks.
Proof.
  intros Hi s s' [Is Hf] (K & Dj & Gs). split; [eapply IFld_keep; eauto|]. destruct Gs as [_ [Q|(Q & _)]]; [congruence|]. exfalso. eapply Dj; eauto.
Qed.
(** The search in the base classes *)
Lemma safe_inherit q (L : shared -> Prop) : (forall s, L s -> IFld s) ->
  forall n b H k, base_of G c b -> height b < n -> in_order (rank height) H (LCls b) -> stable GFld H L -> safe GFld q H L (k (inherited G (fields s0) x n b)) ->
  safe GFld q H L (field_prog G n b x true k).
Proof.
  intros Hi. induction n as [|n IH]; intros b H k Hb Lt Ho St Sf; [lia|]. cbn [field_prog inherited] in *.
  assert (~ In (LCls b) H) as Nin by (intros Q; specialize (Ho _ Q); lia).
  assert (stable GFld (LCls b :: H) L) as St' by (eapply stable_sub; [|exact St]; simpl; auto).
  assert (forall r, safe GFld q H L (k r) -> safe GFld q (LCls b :: H) L (Rel (LCls b) (k r))) as Hrel.
  { intros r Hk. eapply sf_rel with (M := L); [left; reflexivity|auto| |]; rewrite drop_cons by exact Nin; assumption. }
  constructor. constructor. intros s Ls. exists L. split; [exact Ls|]. split; [exact St'|]. destruct (Hi s Ls) as [Sb _]. rewrite (Sb b Hb).
  destruct (find_key (fields s0 b) x) as [i|]; [apply Hrel; exact Sf|]. constructor. intros s' Ls'. exists L. split; [exact Ls'|]. split; [exact St'|].
  assert (forall d, In d (c_bases G b) -> base_of G c d /\ height d < height b) as Hd by (intros d Hd; split; [eapply bo_further; eauto|apply Hr; exact Hd]).
  induction (c_bases G b) as [|d r IHl]; cbn [first] in Sf; [apply Hrel; exact Sf|].
  destruct (Hd d (or_introl eq_refl)) as [Hd1 Hd2]. apply IH; [exact Hd1|lia| |exact St'|].
  - intros h [<-|Hin]; cbn; [lia|]. specialize (Ho _ Hin). cbn in *. lia.
  - destruct (inherited G (fields s0) x n d) as [i|]; [apply Hrel; exact Sf|]. apply IHl; [exact Sf|]. intros z Hz. apply Hd. right. exact Hz.
Qed.
Lemma safe_walk_any q H (L : shared -> Prop) zero k : (forall s y, L s -> L (add_node y s)) -> stable GFld H L -> (forall r, safe GFld q H L (k r)) ->
  forall path cur, safe GFld q H L (walk zero cur path k).
Proof.
  intros Hl St Hk. induction path as [|[w n] r IH]; intros cur; cbn [walk]; [apply Hk|]. constructor. intros s Ls. exists L. split; [exact Ls|]. split; [exact St|].
  destruct (child (reg s) _); [apply IH|]. destruct zero; [apply Hk|]. constructor. intros t Lt. split; [apply GFld_same; reflexivity|]. exists L. split; [auto|]. split; [exact St|apply IH].
Qed.
Lemma safe_declare q H (L : shared -> Prop) ty k : (forall s y, L s -> L (add_node y s)) -> stable GFld H L -> safe GFld q H L k -> safe GFld q H L (declare G ty k).
Proof.
  intros Hl St Hk. unfold declare. destruct (c_debug G); [|exact Hk]. destruct (Declare_names ty) as [l| | | |]; try exact Hk.
  induction l as [|n r IH]; cbn [declare_all]; [exact Hk|]. apply safe_walk_any; auto.
Qed.
Definition QFld (k : call) (r : option nat) (s : shared) : Prop := IFld s /\ (k = CGetFieldID c x ->
  match own0 with
  | Some i => r = Some i
  | None => match base0 with Some i => r = Some i | None => if c_retnull G then r = None else exists i, r = Some i /\ find_key (fields s c) x = Some i end
  end).
Lemma QFld_keep k r H s s' : QFld k r s -> GFld H s s' -> QFld k r s'.
Proof.
  intros [Is Hq] Gs. split; [eapply IFld_keep; eauto|]. intros E. specialize (Hq E). destruct own0; [exact Hq|]. destruct base0; [exact Hq|]. destruct (c_retnull G); [exact Hq|].
  destruct Hq as (i & -> & Hf). exists i. split; [reflexivity|]. eapply owns_keep; [split; [exact Is|exact Hf]|exact Gs].
Qed.
Lemma safe_target : safe_call G height GFld QFld IFld (CGetFieldID c x).
Proof.
  unfold safe_call. cbn [prog_of field_prog].
  assert (forall r (L : shared -> Prop), (forall K, stable GFld K L) -> (forall s, L s -> QFld (CGetFieldID c x) r s) -> safe GFld (QFld (CGetFieldID c x)) [LCls c] L (Rel (LCls c) (Done r))) as Hrel.
  { intros r L Hk HL. eapply sf_rel with (M := L); [left; reflexivity|auto|apply Hk|]. rewrite drop_cons by (intros []). constructor. exact HL. }
  constructor. constructor. intros s Is. destruct (find_key (fields s c) x) as [i|] eqn:Ef.
  - exists (owns i). split; [split; assumption|]. split; [apply stable_fld; apply owns_keep|]. apply Hrel; [intros K; apply stable_fld; apply owns_keep|]. intros t [It Ft]. split; [exact It|]. intros _.
    destruct It as [_ [Q|(A & B & D)]].
    + rewrite <- Q, Ft. reflexivity.
    + rewrite A, B, D. eauto.
  - assert (own0 = None) as E0 by (destruct Is as [_ [Q|(_ & Q & _)]]; congruence).
    exists lacks. split; [split; assumption|]. split; [apply lacks_stable; left; reflexivity|]. constructor. intros s' Ls'. exists lacks. split; [exact Ls'|]. split; [apply lacks_stable; left; reflexivity|].
    assert (forall l, (forall b, In b l -> In b (c_bases G c)) -> first (inherited G (fields s0) x (height c)) l = base0 ->
      safe GFld (QFld (CGetFieldID c x)) [LCls c] lacks
       ((fix loop (l : list nat) : prog :=
               match l with
               | [] => if c_retnull G then Rel (LCls c) (Done None)
                       else Wr (XFields c) (add_field c x) (fun s => declare G (k_type x) (Rel (LCls c) (Done (Some (next s)))))
               | b :: r => field_prog G (height c) b x true (fun o => match o with Some i => Rel (LCls c) (Done (Some i)) | None => loop r end)
               end) l)) as K; [|apply K; [auto|reflexivity]].
    induction l as [|b l IHl]; intros Hl Hf; cbn [first] in Hf.
    + destruct (c_retnull G) eqn:Er.
      * apply safe_weak with IFld; [intros t Lt; apply Lt|]. apply Hrel; [intros K; apply stable_fld; apply IFld_keep|]. intros t It. split; [exact It|]. intros _. rewrite E0, <- Hf, Er. reflexivity.
      * constructor. intros t [It Ft]. assert (GFld [LCls c] t (add_field c x t)) as Gt.
        { split.
          - intros d Hd. rewrite find_fields. destruct (Nat.eqb_spec d c) as [->|]; cbn; [apply base_height in Hd; lia|]. destruct (find_key (fields t d) x); reflexivity.
          - right. split; [left; reflexivity|]. split; [exact Ft|]. split; [exact Er|]. split; [exact E0|auto]. }
        split; [exact Gt|]. exists (owns (next t)). split; [split; [eapply IFld_keep; eauto|]|split; [apply stable_fld; apply owns_keep|]].
        { rewrite find_fields, Ft, Nat.eqb_refl. destruct (key_eqb_spec x x); [reflexivity|congruence]. }
        apply safe_declare; [intros u y [Iu Fu]; split; [|exact Fu]; eapply IFld_keep; [exact Iu|apply GFld_same with (H := []); reflexivity]|apply stable_fld; apply owns_keep|].
        apply Hrel; [intros K; apply stable_fld; apply owns_keep|]. intros u [Iu Fu]. split; [exact Iu|]. intros _. rewrite E0, <- Hf, Er. eauto.
    + assert (In b (c_bases G c)) as Hb by (apply Hl; left; reflexivity). apply safe_inherit.
      * intros t Lt. apply Lt.
      * apply bo_direct. exact Hb.
      * apply Hr. exact Hb.
      * intros h [<-|[]]. cbn. specialize (Hr Hb). lia.
      * apply lacks_stable. left. reflexivity.
      * destruct (inherited G (fields s0) x (height c) b) as [i|].
        -- apply safe_weak with IFld; [intros t Lt; apply Lt|]. apply Hrel; [intros K; apply stable_fld; apply IFld_keep|]. intros t It. split; [exact It|]. intros _. rewrite E0, <- Hf. reflexivity.
        -- apply IHl; [intros z Hz; apply Hl; right; exact Hz|exact Hf].
Qed.
Notation ord := (in_order (rank height)).
Ltac rel := apply dc_rel; [left; reflexivity|]; rewrite drop_cons by (intros []); constructor.
(** Any call only makes allowed steps, given that it may add its member. *)
Lemma disc_call J (P : list lock -> loc -> option (shared -> shared) -> Prop) k :
  (forall H y, P H y None) -> (forall H z, P H XReg (Some (add_node z))) -> (k = CNewGlobalRef \/ k = CNewWeakGlobalRef -> forall H, P H XGlobals (Some new_global)) -> (forall H T i, P H XTypes (Some (set_type T i))) ->
  (forall g, k = CDeleteGlobalRef g -> forall H, P H XGlobals (Some (del_global g))) -> (forall t, k = CAttach t -> forall H, P H XEnvs (Some (add_env t))) ->
  (forall t, k = CDetach t -> forall H, P H XEnvs (Some (set_env t None))) -> (forall t, k = CCurrentEnv t -> forall H, P H XEnvs (Some (set_env t (Some None)))) ->
  (forall d y, k = CGetFieldID d y -> c_retnull G = false -> forall H, In (LCls d) H -> P H (XFields d) (Some (add_field d y))) ->
  (forall d y, k = CHookField d y -> forall H, P H (XFields d) (Some (add_field d y))) ->
  (forall d y, k = CHookMethod d y \/ (k = CGetMethodID d y /\ c_retnull G = false) -> forall H, P H (XMethods d) (Some (add_method d y))) ->
  (forall d y, registers k d y -> forall H, P H (XMethods d) (Some (add_native d y))) -> (forall d, k = CUnregisterNatives d -> forall H, P H (XMethods d) (Some (drop_natives d))) ->
  disc J ord P [] (prog_of G height k).
Proof.
  intros P1 P2 P3 P4 P7 P8 P9 P11 P5 P10 P6 P12 P13. assert (forall ty, decl_ok G height J P ty) as Dc by (intros ty; apply disc_declare; intros _ H; auto).
  destruct k as [n|d y|d y| | |T' n|T'|T'|d y|g|d y|d y|t|t|t|cu]; cbn [prog_of].
  - unfold FindClass, InternalFindClass. locked_walk; auto. intros r. rel.
  - apply disc_field; auto; [intros h []|constructor].
  - apply disc_method; auto; constructor.
  - unfold NewGlobalRef, NewRef, InternalFindClass. apply disc_walk; auto. intros r. apply dc_acq; [intros ? []|]. apply dc_wr; [auto|]. intros s Js. rel.
  - unfold NewWeakGlobalRef, NewRef, InternalFindClass. apply disc_walk; auto. intros r. apply dc_acq; [intros ? []|]. apply dc_wr; [auto|]. intros s Js. rel.
  - unfold GetClassT, InternalFindClass. locked_walk; auto. intros r. apply dc_wr; [auto|]. intros s Js. rel.
  - unfold ClassOf. apply dc_rd; [auto|]. intros s Js. constructor.
  - unfold SignatureOf. apply dc_acq; [intros ? []|]. apply dc_rd; [auto|]. intros s Js. rel.
  - unfold RegisterNatives. apply dc_acq; [intros ? []|]. apply disc_register. intros z Hz. apply P12. exists y. auto.
  - unfold DeleteRef. apply dc_acq; [intros ? []|]. apply dc_rd; [auto|]. intros s Js. destruct (existsb _ _); [apply dc_wr; [auto|]; intros s' Js'|]; rel_end.
  - unfold HookMethod. apply dc_rd; [auto|]. intros s Js. destruct (find_key _ _); [constructor|]. apply dc_wr; [apply P6; left; reflexivity|]; intros s' Js'. constructor.
  - unfold HookField. apply dc_rd; [auto|]. intros s Js. destruct (find_key _ _); [constructor|]. apply dc_wr; [apply P10; reflexivity|]; intros s' Js'. constructor.
  - unfold Attach. apply dc_acq; [intros ? []|]. apply dc_rd; [auto|]. intros s Js. destruct (envs s t) as [[e|]|]; [|apply dc_wr; [auto|]; intros s' Js'..]; rel_end.
  - unfold Detach. apply dc_acq; [intros ? []|]. apply dc_rd; [auto|]. intros s Js. destruct (envs s t) as [e|]; [apply dc_wr; [auto|]; intros s' Js'|]; rel_end.
  - unfold CurrentEnv. apply dc_rd; [auto|]. intros s Js. destruct (envs s t) as [e|]; [constructor|]. apply dc_wr; [auto|]; intros s' Js'. constructor.
  - unfold UnregisterNatives. apply dc_acq; [intros ? []|]. apply dc_wr; [apply P13; reflexivity|]. intros s Js. rel.
Qed.
Lemma call_eq_field (k : call) : {k = CGetFieldID c x} + {k <> CGetFieldID c x}.
Proof.
  destruct k as [n|d y|d y| | |T n|T|T|d y|g|d y|d y|t|t|t|cu]; try (right; discriminate). destruct (Nat.eq_dec d c) as [->|]; [|right; congruence].
  destruct (key_eqb_spec y x) as [->|]; [left; reflexivity|right; congruence].
Qed.
Lemma other_field H d y s : (forall e, in_reach G c e -> Nat.eqb e d && key_eqb y x = false) -> GFld H s (add_field d y s).
Proof.
  intros Hn. assert (forall e, in_reach G c e -> find_key (fields (add_field d y s) e) x = find_key (fields s e) x) as K.
  { intros e He. rewrite find_fields, (Hn e He). destruct (find_key (fields s e) x); reflexivity. }
  split; [intros e He; apply K; right; exact He|left; apply K; left; reflexivity].
Qed.
Lemma field_call k : leaves_bases G c x k -> safe_call G height GFld QFld IFld k.
Proof.
  intros Hk. destruct (call_eq_field k) as [->|Ne]; [apply safe_target|]. unfold safe_call. eapply disc_safe; [apply stable_fld; apply IFld_keep| |apply IFld_keep|].
  - intros r s Is. split; [exact Is|]. intros ->. congruence.
  - apply disc_call; cbn [permitted]; auto; try (intros; apply GFld_same; reflexivity).
    + intros d y -> _ H _ s _. apply other_field. intros e He. destruct (Nat.eqb_spec e d) as [->|]; [|reflexivity]. destruct (key_eqb_spec y x) as [->|]; [|reflexivity].
      exfalso. destruct He as [->|He]; [congruence|]. eapply (proj1 Hk); eauto.
    + intros d y -> H s _. apply other_field. intros e He. destruct (Nat.eqb_spec e d) as [->|]; [|reflexivity]. destruct (key_eqb_spec y x) as [->|]; [|reflexivity].
      exfalso. eapply (proj2 Hk); eauto.
Qed.
Theorem field_results calls D r : every (leaves_bases G c x) calls -> reaches G height s0 calls D -> returned D (CGetFieldID c x) r -> QFld (CGetFieldID c x) r (sh D).
Proof.
  intros He (l & E) (t & z & Hz & Hin). assert (all_safe GFld QFld IFld (cinit s0 calls)) as A0 by (apply safe_init; split; [intros d _; reflexivity|left; reflexivity]).
  eapply safe_run in E; [|intros c' r'; apply stable_fld; apply QFld_keep|apply stable_fld; apply IFld_keep|apply IFld_keep|exact A0|].
  - destruct E as [_ Sa]. destruct (Sa t z Hz) as [Fd _]. eapply Forall_forall in Fd; [|exact Hin]. exact Fd.
  - intros t' x' H. unfold cinit in H. cbn in H. rewrite nth_error_map in H. destruct (nth_error calls t') eqn:Ec; [|discriminate]. injection H as <-. cbn.
    apply Forall_forall. intros c' Hc. apply field_call. eapply He; eauto. eapply nth_error_In; eauto.
Qed.

(** *** Methods that the class has or inherits *)
Variable i : nat.
Hypothesis Hi : inherited G (methods s0) x (S (height c)) c = Some i.
Definition IMeth (s : shared) : Prop := forall d, d = c \/ (find_key (methods s0 c) x = None /\ base_of G c d) -> find_key (methods s d) x = find_key (methods s0 d) x.
Definition GMeth (H : list lock) (s s' : shared) : Prop := IMeth s -> IMeth s'.
Lemma stable_meth H : stable GMeth H IMeth.
Proof. intros s s' Is (K & _ & Gs). auto. Qed.
Definition QMeth (k : call) (r : option nat) (s : shared) : Prop := k = CGetMethodID c x -> r = Some i.
Lemma safe_method : find_key (methods s0 c) x = None ->
  forall n b k, in_reach G c b -> height b < n -> (forall r, inherited G (methods s0) x n b = r -> safe GMeth (QMeth (CGetMethodID c x)) [] IMeth (k r)) ->
  safe GMeth (QMeth (CGetMethodID c x)) [] IMeth (method_prog G n b x true k).
Proof.
  intros Hn. induction n as [|n IH]; intros b k Hb Lt Sf; [lia|]. cbn [method_prog inherited] in *. constructor. constructor. intros s Is. exists IMeth. split; [exact Is|]. split; [apply stable_meth|].
  eapply sf_rel with (M := IMeth); [left; reflexivity|auto|apply stable_meth|]. rewrite drop_cons by (intros []).
  assert (find_key (methods s b) x = find_key (methods s0 b) x) as E by (apply Is; destruct Hb; auto). rewrite E. destruct (find_key (methods s0 b) x) as [j|]; [apply Sf; reflexivity|].
  constructor. intros s' Is'. exists IMeth. split; [exact Is'|]. split; [apply stable_meth|].
  assert (forall d, In d (c_bases G b) -> in_reach G c d /\ height d < height b) as Hd.
  { intros d Hd. split; [right; destruct Hb as [->|Hb]; [apply bo_direct; exact Hd|eapply bo_further; eauto]|apply Hr; exact Hd]. }
  induction (c_bases G b) as [|d r IHl]; cbn [first] in Sf; [apply Sf; reflexivity|]. destruct (Hd d (or_introl eq_refl)) as [Hd1 Hd2]. apply IH; [exact Hd1|lia|].
  intros o Eo. rewrite Eo in Sf. destruct o as [j|]; [apply Sf; reflexivity|]. apply IHl; [exact Sf|]. intros z Hz. apply Hd. right. exact Hz.
Qed.
Lemma safe_method_target : safe_call G height GMeth QMeth IMeth (CGetMethodID c x).
Proof.
  unfold safe_call. cbn [prog_of method_prog]. constructor. constructor. intros s Is. exists IMeth. split; [exact Is|]. split; [apply stable_meth|].
  eapply sf_rel with (M := IMeth); [left; reflexivity|auto|apply stable_meth|]. rewrite drop_cons by (intros []). rewrite (Is c (or_introl eq_refl)). cbn [inherited] in Hi.
  destruct (find_key (methods s0 c) x) as [j|] eqn:Ec; [injection Hi as ->; constructor; intros t _ _; reflexivity|].
  constructor. intros s' Is'. exists IMeth. split; [exact Is'|]. split; [apply stable_meth|].
  assert (forall l, (forall b, In b l -> In b (c_bases G c)) -> first (inherited G (methods s0) x (height c)) l = Some i ->
      safe GMeth (QMeth (CGetMethodID c x)) [] IMeth
       ((fix loop (l : list nat) : prog :=
               match l with
               | [] => if c_retnull G then Done None else Wr (XMethods c) (add_method c x) (fun s => declare G (k_type x) (Done (Some (next s))))
               | b :: r => method_prog G (height c) b x true (fun o => match o with Some i => Done (Some i) | None => loop r end)
               end) l)) as K; [|apply K; [auto|exact Hi]].
  induction l as [|b l IHl]; intros Hl Hf; cbn [first] in Hf; [discriminate|]. assert (In b (c_bases G c)) as Hb by (apply Hl; left; reflexivity). apply safe_method; [exact Ec|right; apply bo_direct; exact Hb|apply Hr; exact Hb|].
  intros o Eo. rewrite Eo in Hf. destruct o as [j|]; [injection Hf as ->; constructor; intros t _ _; reflexivity|]. apply IHl; [intros z Hz; apply Hl; right; exact Hz|exact Hf].
Qed.
Lemma call_eq_method (k : call) : {k = CGetMethodID c x} + {k <> CGetMethodID c x}.
Proof.
  destruct k as [n|d y|d y| | |T n|T|T|d y|g|d y|d y|t|t|t|cu]; try (right; discriminate). destruct (Nat.eq_dec d c) as [->|]; [|right; congruence].
  destruct (key_eqb_spec y x) as [->|]; [left; reflexivity|right; congruence].
Qed.
Lemma method_call k : leaves_methods G s0 c x k -> safe_call G height GMeth QMeth IMeth k.
Proof.
  intros Hk. destruct (call_eq_method k) as [->|Ne]; [apply safe_method_target|]. unfold safe_call. eapply disc_safe; [apply stable_meth| | |].
  - intros r s _ ->. congruence.
  - intros K s s' Is Gs. auto.
  - apply disc_call; cbn [permitted]; auto; try (intros; intros Is; exact Is).
    + intros d y Hd H s _ Is e He. rewrite find_methods. rewrite <- (Is e He). destruct (find_key (methods s e) x) eqn:Ee; [reflexivity|]. destruct (Nat.eqb_spec e d) as [->|]; [|reflexivity].
      destruct (key_eqb_spec y x) as [->|]; [|reflexivity]. exfalso. destruct Hk as [_ [(i' & Hk)|(_ & K1 & K2 & K3)]].
      * destruct He as [->|[Q _]]; [rewrite (Is c (or_introl eq_refl)) in Ee|]; congruence.
      * assert (in_reach G c d) as Rd by (destruct He as [->|[_ He]]; [left; reflexivity|right; exact He]). destruct Hd as [->|[-> _]]; [eapply K3; eauto|]. destruct Rd as [->|Rd]; [congruence|eapply K2; eauto].
    + intros d y Hd H s _ Is e He. rewrite find_natives, find_methods. rewrite <- (Is e He). destruct (find_key (methods s e) x) eqn:Ee; [reflexivity|]. destruct (Nat.eqb_spec e d) as [->|]; [|reflexivity].
      destruct (key_eqb_spec y x) as [->|]; [|reflexivity]. exfalso. destruct Hk as [_ [(i' & Hk)|(_ & K1 & K2 & K3)]].
      * destruct He as [->|[Q _]]; [rewrite (Is c (or_introl eq_refl)) in Ee|]; congruence.
      * assert (in_reach G c d) as Rd by (destruct He as [->|[_ He]]; [left; reflexivity|right; exact He]). eapply K1; eauto.
    + intros d -> H s _ Is e He. rewrite drop_other; [apply Is; exact He|]. intros ->. destruct Hk as [Nc [(i' & Hk)|(K0 & _)]].
      * destruct He as [->|[Q _]]; congruence.
      * destruct He as [->|[_ He]]; [congruence|]. eapply K0; eauto.
Qed.
Theorem method_results calls D r : every (leaves_methods G s0 c x) calls -> reaches G height s0 calls D -> returned D (CGetMethodID c x) r -> r = Some i.
Proof.
  intros He (l & E) (t & z & Hz & Hin). assert (all_safe GMeth QMeth IMeth (cinit s0 calls)) as A0 by (apply safe_init; intros d _; reflexivity).
  eapply safe_run with (Q := QMeth) in E; [|intros c' r' s s' Qs _; exact Qs|apply stable_meth|intros K s s' Is Gs; auto|exact A0|].
  - destruct E as [_ Sa]. destruct (Sa t z Hz) as [Fd _]. eapply Forall_forall in Fd; [|exact Hin]. apply Fd. reflexivity.
  - intros t' x' H. unfold cinit in H. cbn in H. rewrite nth_error_map in H. destruct (nth_error calls t') eqn:Ec; [|discriminate]. injection H as <-. cbn.
    apply Forall_forall. intros c' Hc. apply method_call. eapply He; eauto. eapply nth_error_In; eauto.
Qed.
End Mem.
