(** Raw memory handed to native code: C78 - C80. *)
From Verif Require Import Base BaseProofs SigModel UtfModel UtfSpec UtfProps VmState VmModel VmStep VmSpec MemSpec CallSpec RefSpec ArrSpec VmBase VmFrame VmWf VmPrim VmInv VmReg
  VmFine VmRegInv VmExact VmQuiet VmClass VmEnvInv VmMember VmMember2 VmMember3 VmTables VmHook VmMemHist VmCall VmCall2 VmThread VmDemo VmRef VmRef2 VmRef3 VmObj VmArr VmArr2 MemberProps ArrProps RawModel.
Set Implicit Arguments.
Unset Strict Implicit.
Local Open Scope vm_scope.
Local Opaque after.

(** ** Specification *)
(** Block [b] is there and holds [l]. *)
Definition buffer (r : rst) (b : nat) (l : list Z) : Prop := nth_error (r_mem r) b = Some (Some (BChars l)).
(** No block was ever at address [b]. *)
Definition unused (r : rst) (b : nat) : Prop := nth_error (r_mem r) b = None.
(** All blocks but [b] are the same. *)
Definition others (b : nat) (r r' : rst) : Prop := forall c, c <> b -> nth_error (r_mem r') c = nth_error (r_mem r) c.
(** Operations that name the block at [b] *)
Definition aims (b : nat) (o : rop) : Prop :=
  (exists h, o = RReleaseStringChars h (PHeap b)) \/ (exists k z, o = RWrite (PHeap b) k z).

(** ** Histories of the memory are histories of the machine *)
Definition vm_op (o : rop) : list op :=
  match o with
  | RVm o => [o]
  | RRead (PElems a) k => [ElementsRead_ a k]
  | RWrite (PElems a) k z => [ElementsWrite_ a k z]
  | _ => []
  end.
Definition vm_events (l : list revent) : list event := flat_map (fun e => map (pair (fst e)) (vm_op (snd e))) l.

Lemma exec_app G l1 : forall l2 s vs s1 ws s2, exec G l1 s = Some (vs, s1) -> exec G l2 s1 = Some (ws, s2) -> exec G (l1 ++ l2) s = Some (vs ++ ws, s2).
Proof.
  induction l1 as [|[t o] l1 IH]; intros l2 s vs s1 ws s2 E1 E2; simpl in *.
  - injection E1 as <- <-. exact E2.
  - destruct (step G t o s) as [[v s3]|]; [|discriminate]. destruct (exec G l1 s3) as [[xs s4]|] eqn:E; [|discriminate]. injection E1 as <- <-.
    rewrite (IH _ _ _ _ _ _ E E2). reflexivity.
Qed.
Lemma rstep_vm G t o r v r' : rstep G t o r = Some (v, r') -> exists vs, exec G (map (pair t) (vm_op o)) (r_vm r) = Some (vs, r_vm r').
Proof.
  intros E. destruct o as [o|h p|h p|h p mode|p k|p k z]; cbn [rstep vm_op map] in *.
  - cbn [exec]. destruct (step G t o (r_vm r)) as [[x s']|]; [|discriminate]. destruct (native G o (r_vm r) x (r_mem r)) as [y m]. injection E as <- <-. eauto.
  - destruct p as [|b| | |]; try discriminate; [injection E as <- <-; simpl; eauto|]. destruct (nth_error (r_mem r) b) as [[[l|]|]|]; try discriminate. injection E as <- <-. simpl. eauto.
  - injection E as <- <-. simpl. eauto.
  - injection E as <- <-. simpl. eauto.
  - destruct p as [|b|i| |a]; try discriminate; cbn [vm_op map].
    + destruct (nth_error (r_mem r) b) as [[x|]|]; try discriminate. destruct (nth_error (cells x) k); try discriminate. injection E as <- <-. simpl. eauto.
    + destruct (lookup (r_vm r) i) as [x|]; try discriminate. destruct (o_pay x); try discriminate. destruct (nth_error (map byte _ ++ _) k); try discriminate. injection E as <- <-. simpl. eauto.
    + destruct k; try discriminate. injection E as <- <-. simpl. eauto.
    + cbn [exec]. destruct (step G t (ElementsRead_ a k) (r_vm r)) as [[[[]|] s']|]; try discriminate. injection E as <- <-. eauto.
  - destruct p as [|b|i| |a]; try discriminate; cbn [vm_op map].
    + destruct (nth_error (r_mem r) b) as [[x|]|]; try discriminate. destruct (k <? length (cells x))%nat; try discriminate. injection E as <- <-. simpl. eauto.
    + cbn [exec]. destruct (step G t (ElementsWrite_ a k z) (r_vm r)) as [[[y|] s']|]; try discriminate. injection E as <- <-. eauto.
Qed.
Theorem rexec_vm G l : forall r vs r', rexec G l r = Some (vs, r') -> exists ws, exec G (vm_events l) (r_vm r) = Some (ws, r_vm r').
Proof.
  induction l as [|[t o] l IH]; intros r vs r' E; cbn [rexec] in E.
  - injection E as <- <-. simpl. eauto.
  - destruct (rstep G t o r) as [[v r1]|] eqn:S1; [|discriminate]. destruct (rexec G l r1) as [[xs r2]|] eqn:E2; [|discriminate]. injection E as <- <-.
    destruct (rstep_vm S1) as (w1 & X1). destruct (IH _ _ _ E2) as (w2 & X2). exists (w1 ++ w2). exact (exec_app X1 X2).
Qed.
Lemma rreachable_step G t0 t o r v r' : rreachable G t0 r -> rstep G t o r = Some (v, r') -> rreachable G t0 r'.
Proof.
  intros (l & vs & Ex) E1. exists (l ++ [(t, o)]), (vs ++ [v]).
  revert Ex. generalize (rinit G t0). revert vs. induction l as [|[u p] l IH]; intros vs q Ex; simpl in Ex.
  - injection Ex as <- <-. cbn [app rexec]. rewrite E1. reflexivity.
  - cbn [app rexec]. destruct (rstep G u p q) as [[w q1]|]; [|discriminate]. destruct (rexec G l q1) as [[xs q2]|] eqn:Eq; [|discriminate]. injection Ex as <- <-.
    rewrite (IH xs q1 Eq). reflexivity.
Qed.
Lemma rreachable_exec G t0 l : forall r vs r', rreachable G t0 r -> rexec G l r = Some (vs, r') -> rreachable G t0 r'.
Proof.
  induction l as [|[t o] l IH]; intros r vs r' R E; cbn [rexec] in E; [injection E as <- <-; exact R|].
  destruct (rstep G t o r) as [[v r1]|] eqn:S1; [|discriminate]. destruct (rexec G l r1) as [[xs r2]|] eqn:E2; [|discriminate]. injection E as <- <-.
  eapply IH; [eapply rreachable_step; eauto|exact E2].
Qed.
Lemma rreachable_vm G t0 r : rreachable G t0 r -> reachable G t0 (r_vm r).
Proof. intros (l & vs & E). destruct (rexec_vm E) as (ws & X). exists (vm_events l), ws. exact X. Qed.

(** Elementary changes of the memory *)
Inductive mchg (o : rop) (m : mem) : mem -> Prop :=
| mc_same : mchg o m m
| mc_new x : mchg o m (m ++ [Some x])
| mc_free h b l : o = RReleaseStringChars h (PHeap b) -> nth_error m b = Some (Some (BChars l)) -> mchg o m (list_set m b None)
| mc_write b k z x : o = RWrite (PHeap b) k z -> nth_error m b = Some (Some x) -> mchg o m (list_set m b (Some (set_cells x k z))).
Lemma native_chg G o s v m : mchg (RVm o) m (snd (native G o s v m)).
Proof.
  unfold native. destruct o; try apply mc_same; destruct v as [v|]; try apply mc_same.
  - destruct v; first [apply mc_same|apply mc_new].
  - destruct (nonzero _); first [apply mc_same|apply mc_new].
  - destruct v as [| | |[a|]| | | | | | | |]; apply mc_same.
Qed.
Lemma rstep_chg G t o r v r' : rstep G t o r = Some (v, r') -> mchg o (r_mem r) (r_mem r').
Proof.
  intros E. destruct o as [o|h p|h p|h p mode|p k|p k z]; cbn [rstep] in E.
  - destruct (step G t o (r_vm r)) as [[x s']|]; [|discriminate]. pose proof (native_chg G o (r_vm r) x (r_mem r)) as H.
    destruct (native G o (r_vm r) x (r_mem r)) as [y m]. injection E as <- <-. exact H.
  - destruct p as [|b| | |]; try discriminate; [injection E as <- <-; apply mc_same|]. destruct (nth_error (r_mem r) b) as [[[l|]|]|] eqn:N; try discriminate. injection E as <- <-.
    eapply mc_free; eauto.
  - injection E as <- <-. apply mc_same.
  - injection E as <- <-. apply mc_same.
  - destruct p as [|b|i| |a]; try discriminate.
    + destruct (nth_error (r_mem r) b) as [[x|]|]; try discriminate. destruct (nth_error (cells x) k); try discriminate. injection E as <- <-. apply mc_same.
    + destruct (lookup (r_vm r) i) as [x|]; try discriminate. destruct (o_pay x); try discriminate. destruct (nth_error (map byte _ ++ _) k); try discriminate. injection E as <- <-. apply mc_same.
    + destruct k; try discriminate. injection E as <- <-. apply mc_same.
    + destruct (step G t (ElementsRead_ a k) (r_vm r)) as [[[[]|] s']|]; try discriminate. injection E as <- <-. apply mc_same.
  - destruct p as [|b|i| |a]; try discriminate.
    + destruct (nth_error (r_mem r) b) as [[x|]|] eqn:N; try discriminate. destruct (k <? length (cells x))%nat; try discriminate. injection E as <- <-. eapply mc_write; eauto.
    + destruct (step G t (ElementsWrite_ a k z) (r_vm r)) as [[[y|] s']|]; try discriminate. injection E as <- <-. apply mc_same.
Qed.
Lemma nth_app A (l m : list A) b x : nth_error l b = Some x -> nth_error (l ++ m) b = Some x.
Proof. intros H. rewrite nth_error_app1; auto. apply nth_error_Some. congruence. Qed.
Lemma chg_kept o m m' b x : mchg o m m' -> ~ aims b o -> nth_error m b = Some x -> nth_error m' b = Some x.
Proof.
  intros H N E. destruct H as [|y|h c l -> E1|c k z y -> E1]; auto.
  - apply nth_app, E.
  - rewrite nth_list_set. destruct (Nat.eqb_spec c b); auto. subst. exfalso. apply N. left. eauto.
  - rewrite nth_list_set. destruct (Nat.eqb_spec c b); auto. subst. exfalso. apply N. right. eauto.
Qed.
Lemma chg_freed o m m' b : mchg o m m' -> nth_error m b = Some None -> nth_error m' b = Some None.
Proof.
  intros H E. destruct H as [|y|h c l -> E1|c k z y -> E1]; auto.
  - apply nth_app, E.
  - rewrite nth_list_set. destruct (Nat.eqb_spec c b); auto. subst. congruence.
  - rewrite nth_list_set. destruct (Nat.eqb_spec c b); auto. subst. congruence.
Qed.

Lemma fresh_block r l : let r' := mkRst (r_vm r) (r_mem r ++ [Some (BChars l)]) in
  unused r (length (r_mem r)) /\ buffer r' (length (r_mem r)) l /\ others (length (r_mem r)) r r' /\ r_vm r' = r_vm r.
Proof.
  unfold unused, buffer, others. cbn [r_mem r_vm].
  split; [apply nth_error_None; lia|]. split; [rewrite nth_error_app2, Nat.sub_diag by lia; reflexivity|]. split; auto.
  intros c Nc. destruct (Nat.lt_ge_cases c (length (r_mem r))) as [L|L]; [rewrite nth_error_app1; auto|].
  rewrite nth_error_app2 by auto. destruct (c - length (r_mem r)) as [|x] eqn:Q; [lia|]. simpl. rewrite (proj2 (nth_error_None (r_mem r) c)) by auto. destruct x; reflexivity.
Qed.

(** ** C78 The buffers of GetStringChars *)
(** The buffer is new, belongs to the caller, holds the units of the string and nothing else changes. *)
Theorem C78_get G t0 t h i b l r : rreachable G t0 r -> attached (r_vm r) t -> denotes_opt (r_vm r) h (Some i) -> contents (r_vm r) i = Some (PString b) ->
  UtfModel.GetStringChars (csigned G) (Some b) = Ok l ->
  exists p r', rstep G t (RVm (GetStringChars_ h)) r = Some (RPtr (PHeap p) (Some true), r') /\ unused r p /\ buffer r' p l /\ others p r r' /\ r_vm r' = r_vm r.
Proof.
  intros R A D C U. pose proof (rreachable_vm R) as Rv.
  destruct (C61_reads (l := []) Rv C eq_refl A D) as (_ & _ & E & _). rewrite U in E. cbn [out] in E.
  cbn [rstep]. rewrite E. cbn [native]. destruct h as [h|]; [|discriminate]. eexists. eexists. split; [reflexivity|]. apply fresh_block.
Qed.
(** For the null string the buffer is one zero; the caller is not told that it is a copy. *)
Theorem C78_get_null G t0 t r : rreachable G t0 r -> attached (r_vm r) t ->
  exists p r', rstep G t (RVm (GetStringChars_ None)) r = Some (RPtr (PHeap p) None, r') /\ unused r p /\ buffer r' p [0%Z] /\ others p r r' /\ r_vm r' = r_vm r.
Proof.
  intros R A. pose proof (@string_reads G t None (Some None) (r_vm r) (reachable_good (rreachable_vm R)) A I) as H. destruct H as (_ & _ & E & _).
  cbn [rstep]. rewrite E. cbn. eexists. eexists. split; [reflexivity|]. apply fresh_block.
Qed.
(** From UTF-16 units to a string and back *)
Theorem C78_round_trip G t0 t cs r : rreachable G t0 r -> attached (r_vm r) t -> Forall is_unit cs -> (Z.of_nat (length cs) <= 2147483647)%Z ->
  exists i r1 p r2, rstep G t (RVm (NewString_ cs (Z.of_nat (length cs)))) r = Some (ROut (OVal (RRef (Some i))), r1) /\
    rstep G t (RVm (GetStringChars_ (Some i))) r1 = Some (RPtr (PHeap p) (Some true), r2) /\ buffer r2 p cs.
Proof.
  intros R A F M. destruct (C01_chars (csigned G) F M) as (b & N & Ch). pose proof (rreachable_vm R) as Rv.
  pose proof (C61_new cs (Z.of_nat (length cs)) Rv A) as H. rewrite N in H. destruct H as (i & s' & E & Md & _).
  set (r1 := mkRst s' (r_mem r)).
  assert (rstep G t (RVm (NewString_ cs (Z.of_nat (length cs)))) r = Some (ROut (OVal (RRef (Some i))), r1)) as E1 by (cbn [rstep]; rewrite E; reflexivity).
  assert (rreachable G t0 r1) as R1 by (eapply rreachable_step; eauto).
  assert (attached (r_vm r1) t) as A1 by exact (gained_attached (md_gained Md) A).
  destruct (@C78_get G t0 t (Some i) i b cs r1 R1 A1) as (p & r2 & E2 & _ & B & _); auto.
  - pose proof (md_contents Md) as C. apply contents_lookup in C. destruct C as (o & L & P). simpl. eapply den_obj; [exact L| |]; intros; congruence.
  - exact (md_contents Md).
  - exists i, r1, p, r2. auto.
Qed.
(** What is read from the buffer; reading behind its end is undefined. *)
Theorem C78_read G t r b l k : buffer r b l ->
  rstep G t (RRead (PHeap b) k) r = match nth_error l k with Some z => Some (RCell z, r) | None => None end.
Proof. intros B. cbn [rstep]. rewrite B. cbn [cells]. reflexivity. Qed.
(** Writing changes that element of that buffer; behind its end it is undefined. *)
Theorem C78_write G t r b l k z : buffer r b l ->
  (length l <= k -> rstep G t (RWrite (PHeap b) k z) r = None) /\
  (k < length l -> exists l' r', rstep G t (RWrite (PHeap b) k z) r = Some (RDone, r') /\ buffer r' b l' /\ is_written l k [z] l' /\ others b r r' /\ r_vm r' = r_vm r).
Proof.
  intros B. split; intros L.
  - cbn [rstep]. rewrite B. cbn [cells set_cells]. rewrite (proj2 (Nat.ltb_ge k (length l))) by auto. reflexivity.
  - eexists (list_set l k z). eexists. split; [cbn [rstep]; rewrite B; cbn [cells set_cells]; rewrite (proj2 (Nat.ltb_lt k (length l))) by auto; reflexivity|]. split; [|split; [|split; [|reflexivity]]].
    + unfold buffer. cbn [r_mem]. rewrite nth_list_set, Nat.eqb_refl, B. reflexivity.
    + unfold is_written. cbn [length]. split; [apply list_set_length|]. intros j. rewrite nth_list_set. destruct (Nat.eqb_spec k j) as [<-|N].
      * rewrite Nat.leb_refl, Nat.sub_diag, (proj2 (Nat.ltb_lt k (k + 1))) by lia. cbn. destruct (nth_error l k) eqn:Q; auto. apply nth_error_None in Q. lia.
      * destruct (Nat.leb_spec k j), (Nat.ltb_spec j (k + 1)); cbn [andb]; auto; lia.
    + intros c N. cbn [r_mem]. rewrite nth_list_set. destruct (Nat.eqb_spec b c); congruence.
Qed.
(** The buffer keeps its contents whatever else any thread does, whatever becomes of the string, until it is released. *)
Theorem C78_kept G l : forall r vs r' b x, rexec G l r = Some (vs, r') -> Forall (fun e => ~ aims b (snd e)) l -> buffer r b x -> buffer r' b x.
Proof.
  induction l as [|[t o] l IH]; intros r vs r' b x E F B; cbn [rexec] in E; [injection E as <- <-; exact B|].
  destruct (rstep G t o r) as [[v r1]|] eqn:S1; [|discriminate]. destruct (rexec G l r1) as [[xs r2]|] eqn:E2; [|discriminate]. injection E as <- <-.
  inversion F as [|? ? F1 F2]; subst. eapply IH; [exact E2|exact F2|]. exact (chg_kept (rstep_chg S1) F1 B).
Qed.
(** Releasing frees that buffer and nothing else, whatever string is named. *)
Theorem C78_release G t r h b l : buffer r b l ->
  exists r', rstep G t (RReleaseStringChars h (PHeap b)) r = Some (RDone, r') /\ nth_error (r_mem r') b = Some None /\ others b r r' /\ r_vm r' = r_vm r.
Proof.
  intros B. cbn [rstep]. rewrite B. eexists. split; [reflexivity|]. cbn [r_mem r_vm]. split; [rewrite nth_list_set, Nat.eqb_refl, B; reflexivity|]. split; auto.
  intros c N. cbn [r_mem]. rewrite nth_list_set. destruct (Nat.eqb_spec b c); congruence.
Qed.
(** Only null and the buffers of GetStringChars can be released. *)
Theorem C78_release_only G t r h p v r' : rstep G t (RReleaseStringChars h p) r = Some (v, r') -> (p = PNull /\ r' = r) \/ exists b l, p = PHeap b /\ buffer r b l.
Proof.
  intros E. cbn [rstep] in E. destruct p as [|b| | |]; try discriminate; [injection E as <- <-; auto|].
  destruct (nth_error (r_mem r) b) as [[[l|]|]|] eqn:N; try discriminate. right. exists b, l. auto.
Qed.
Theorem C78_release_null G t r h : rstep G t (RReleaseStringChars h PNull) r = Some (RDone, r).
Proof. reflexivity. Qed.
(** A released buffer is gone for good: it must not be read, written or released again, at any later time by any thread. *)
Theorem C78_once G l : forall r vs r' b t h k z, rexec G l r = Some (vs, r') -> nth_error (r_mem r) b = Some None ->
  rstep G t (RReleaseStringChars h (PHeap b)) r' = None /\ rstep G t (RRead (PHeap b) k) r' = None /\ rstep G t (RWrite (PHeap b) k z) r' = None.
Proof.
  induction l as [|[u o] l IH]; intros r vs r' b t h k z E F; cbn [rexec] in E.
  - injection E as <- <-. cbn [rstep]. rewrite F. auto.
  - destruct (rstep G u o r) as [[v r1]|] eqn:S1; [|discriminate]. destruct (rexec G l r1) as [[xs r2]|] eqn:E2; [|discriminate]. injection E as <- <-.
    eapply IH; [exact E2|]. exact (chg_freed (rstep_chg S1) F).
Qed.
(** A function that gives the caller a pointer to a block says that it is a copy; pointers into objects are not. *)
Theorem C78_is_copy G t0 t o r p c r' : rreachable G t0 r -> rstep G t (RVm o) r = Some (RPtr p c, r') ->
  match p with
  | PHeap b => unused r b /\ (exists l, buffer r' b l) /\ (c = Some true \/ c = None /\ o = GetStringChars_ None)
  | _ => c = Some false /\ r_mem r' = r_mem r
  end.
Proof.
  intros R E. cbn [rstep] in E. destruct (step G t o (r_vm r)) as [[v s']|]; [|discriminate].
  destruct o; cbn [native] in E; try discriminate E; destruct v as [v|e]; try discriminate E.
  - destruct v; try discriminate E. injection E as <- <- <-. destruct (fresh_block r l) as (U & _ & _). split; [exact U|]. split.
    + exists l. unfold buffer. cbn [r_mem]. rewrite nth_error_app2, Nat.sub_diag by lia. reflexivity.
    + destruct h; auto.
  - injection E as <- <- <-. unfold text_ptr. destruct h as [h|]; [|auto]. destruct (jnicast G TString (Some h) (r_vm r)) as [[i|]| | | | |]; auto.
  - destruct v as [| | |[a|]| | | | | | | |]; injection E as <- <- <-; auto.
Qed.
Definition ex_chars : list revent :=
  [(main, RVm (NewString_ [104; 105]%Z 2)); (main, RVm (GetStringChars_ (Some 9)))].
Definition ex_chars_later : list revent :=
  [(main, RVm (DeleteLocalRef_ (Some 9))); (2, RVm Attach_); (2, RVm (NewStringUTF_ (Some (S_ "x")))); (2, RVm (GetStringChars_ (Some 10))); (2, RWrite (PHeap 1) 0 7%Z); (2, RReleaseStringChars None (PHeap 1)); (main, RRead (PHeap 0) 1)].
Example C78_ex : exists vs r, rexec Gd ex_chars (rinit Gd main) = Some (vs, r) /\ buffer r 0 [104; 105]%Z /\
  exists ws r', rexec Gd ex_chars_later r = Some (ws, r') /\ Forall (fun e => ~ aims 0 (snd e)) ex_chars_later /\ nth_error ws 6 = Some (RCell 105) /\ nth_error (r_mem r') 1 = Some None.
Proof.
  eexists. eexists. split; [vm_compute; reflexivity|]. split; [vm_compute; reflexivity|]. eexists. eexists. split; [vm_compute; reflexivity|]. split; [|split; vm_compute; reflexivity].
  unfold ex_chars_later, aims. repeat apply Forall_cons; try apply Forall_nil; cbn [snd]; intros [(? & Q)|(? & ? & Q)]; discriminate Q.
Qed.

(** ** C79 Pointers into strings and arrays *)
(** The pointer of GetStringUTFChars reads the text and the zero after it, as long as the string is alive. *)
Theorem C79_text_partial G t0 t u h i b r p c r1 l vs r2 k : rreachable G t0 r -> denotes_opt (r_vm r) h (Some i) -> contents (r_vm r) i = Some (PString b) ->
  rstep G t (RVm (GetStringUTFChars_ h)) r = Some (RPtr p c, r1) -> rexec G l r1 = Some (vs, r2) -> live (r_vm r2) i = true ->
  rstep G u (RRead p k) r2 = match nth_error (map (fun c => Z.of_N (Ascii.N_of_ascii c)) b ++ [0%Z]) k with Some z => Some (RCell z, r2) | None => None end.
Proof.
  intros R D C E Ex L. pose proof (rreachable_vm R) as Rv. pose proof (good_wf (reachable_good Rv)) as W.
  assert (rreachable G t0 r1) as R1 by (eapply rreachable_step; eauto).
  destruct (rexec_vm Ex) as (ws & Xv). destruct (rstep_vm E) as (w1 & X1). cbn [vm_op map] in X1.
  pose proof (C61_constant Rv (exec_app X1 Xv) C L) as C2.
  assert (p = PText i) as ->.
  { cbn [rstep] in E. destruct (step G t (GetStringUTFChars_ h) (r_vm r)) as [[v s']|]; [|discriminate]. cbn [native] in E. destruct v; [|discriminate]. injection E as <- <- <-.
    destruct h as [h|]; [|discriminate]. simpl in D. unfold text_ptr. pose proof (jnicast_spec G TString W D) as J. rewrite J. unfold is_a. apply contents_lookup in C. destruct C as (o & Lo & P). rewrite Lo, P. reflexivity. }
  cbn [rstep]. apply contents_lookup in C2. destruct C2 as (o & Lo & P). rewrite Lo, P.
  rewrite (map_ext byte (fun c => Z.of_N (Ascii.N_of_ascii c))); [reflexivity|]. intros c0. unfold byte, Ascii.nat_of_ascii. rewrite N_nat_Z. reflexivity.
Qed.
(** The null string is the empty text. *)
Theorem C79_null G t0 t u r l vs r2 k : rreachable G t0 r -> attached (r_vm r) t ->
  exists p, rstep G t (RVm (GetStringUTFChars_ None)) r = Some (RPtr p (Some false), r) /\
    (rexec G l r = Some (vs, r2) -> rstep G u (RRead p k) r2 = match k with 0 => Some (RCell 0%Z, r2) | _ => None end).
Proof.
  intros R A. pose proof (@string_reads G t None (Some None) (r_vm r) (reachable_good (rreachable_vm R)) A I) as H. destruct H as (_ & _ & _ & E & _).
  exists PLit. cbn [rstep]. rewrite E. cbn. destruct r. auto.
Qed.
(** Of a null array the pointer is null, the caller is told that nothing was copied. *)
Theorem C79_null_array G t0 t p r : rreachable G t0 r -> attached (r_vm r) t -> rstep G t (RVm (GetArrayElements_ p None)) r = Some (RPtr PNull (Some false), r).
Proof. intros R A. cbn [rstep]. destruct (C39_elements_null p (rreachable_vm R) A) as (E & _). rewrite E. cbn. destruct r. reflexivity. Qed.
(** The pointer of GetArrayElements shows the elements of the array, and writing through it changes them, as long as the array is alive. *)
Theorem C79_elements_partial G t0 t u q h a p l r x c r1 hist vs r2 : rreachable G t0 r -> denotes_opt (r_vm r) h (Some a) -> contents (r_vm r) a = Some (PPrim p l) -> q = Some p \/ q = None ->
  rstep G t (RVm (GetArrayElements_ q h)) r = Some (RPtr x c, r1) -> rexec G hist r1 = Some (vs, r2) -> live (r_vm r2) a = true ->
  exists e, contents (r_vm r2) a = Some (PPrim p e) /\ length e = length l /\
    (forall k, rstep G u (RRead x k) r2 = match nth_error e k with Some z => Some (RCell z, r2) | None => None end) /\
    (forall k z, length e <= k -> rstep G u (RWrite x k z) r2 = None) /\
    (forall k z, k < length e -> exists e' r3, rstep G u (RWrite x k z) r2 = Some (RDone, r3) /\ is_written e k [z] e' /\ r_mem r3 = r_mem r2 /\ forall t, changed t a (PPrim p e') (r_vm r2) (r_vm r3)).
Proof.
  intros R D C Q E Ex L. pose proof (rreachable_vm R) as Rv. pose proof (good_wf (reachable_good Rv)) as W.
  assert (rreachable G t0 r1) as R1 by (eapply rreachable_step; eauto). pose proof (rreachable_vm (rreachable_exec R1 Ex)) as R2.
  destruct (rexec_vm Ex) as (ws & Xv). destruct (rstep_vm E) as (w1 & X1). cbn [vm_op map] in X1.
  destruct (C62_prim Rv (exec_app X1 Xv) C L) as (e & C2 & Le). exists e. split; auto. split; auto.
  assert (x = PElems a) as ->.
  { cbn [rstep] in E. destruct (step G t (GetArrayElements_ q h) (r_vm r)) as [[v s']|] eqn:St; [|discriminate].
    pose proof (step_attached St eq_refl) as A. rewrite (GetArrayElements_step q (reachable_good Rv) A D C) in St.
    destruct h as [h|]; [|discriminate]. destruct Q as [-> | ->]; [destruct (pty_eqb_spec p p); [|congruence]|]; injection St as <- <-; cbn [native] in E; injection E as <- <- <-; reflexivity. }
  cbn [rstep]. split; [|split].
  - intros k. rewrite (ElementsRead_step u k (reachable_good R2) C2). destruct (nth_error e k); auto. destruct r2. reflexivity.
  - intros k z Lk. destruct (ElementsWrite_step u k z (reachable_good R2) C2) as [_ H]. rewrite H by auto. reflexivity.
  - intros k z Lk. destruct (ElementsWrite_step u k z (reachable_good R2) C2) as [H _]. destruct (H Lk) as (e' & s' & St & _ & Wr & Ch). rewrite St. exists e'. eexists. split; [reflexivity|]. auto.
Qed.
(** Releasing these pointers does nothing, with any arguments. *)
Theorem C79_release G t h p m r : rstep G t (RReleaseStringUTFChars h p) r = Some (RDone, r) /\ rstep G t (RReleaseArrayElements h p m) r = Some (RDone, r).
Proof. split; reflexivity. Qed.
(** The pointers do not keep the object alive: the string and the array can go away before the pointers are released. *)
Theorem C79_refuted : exists l vs r p q, rexec Gd l (rinit Gd main) = Some (vs, r) /\ In (RPtr p (Some false)) vs /\ In (RPtr q (Some false)) vs /\
  (forall e, In e l -> (forall h x, snd e <> RReleaseStringUTFChars h x) /\ (forall h x m, snd e <> RReleaseArrayElements h x m)) /\
  rstep Gd main (RRead p 0) r = None /\ rstep Gd main (RRead q 0) r = None.
Proof.
  exists [(main, RVm (NewStringUTF_ (Some (S_ "x")))); (main, RVm (NewArray_ PtI 3)); (main, RVm (GetStringUTFChars_ (Some 9))); (main, RVm (GetArrayElements_ (Some PtI) (Some 11)));
          (main, RRead (PText 9) 0); (main, RRead (PElems 11) 2); (main, RVm (DeleteLocalRef_ (Some 9))); (main, RVm (DeleteLocalRef_ (Some 11)))].
  eexists. eexists. exists (PText 9), (PElems 11). split; [vm_compute; reflexivity|]. split; [cbn; tauto|]. split; [cbn; tauto|]. split; [|split; vm_compute; reflexivity].
  cbn [In]. intros e H. repeat (destruct H as [<-|H]; [split; intros; discriminate|]). destruct H.
Qed.

(** Kept alive by a global reference, read by another thread *)
Definition ex_ptr : list revent := [(main, RVm (NewStringUTF_ (Some (S_ "hi")))); (main, RVm (NewArray_ PtI 2))].
Definition ex_ptr_later : list revent := [(main, RVm (NewGlobalRef_ (Some 9))); (main, RVm (NewGlobalRef_ (Some 11))); (main, RVm (DeleteLocalRef_ (Some 9))); (main, RVm (SetArrayRegion_ PtI (Some 13) 0 1 [5]%Z)); (main, RVm (DeleteLocalRef_ (Some 11))); (2, RRead (PText 9) 2)].
Example C79_ex : exists vs r, rexec Gd ex_ptr (rinit Gd main) = Some (vs, r) /\ denotes_opt (r_vm r) (Some 9) (Some 9) /\ contents (r_vm r) 9 = Some (PString (S_ "hi")) /\
  contents (r_vm r) 11 = Some (PPrim PtI [0; 0]%Z) /\
  rstep Gd main (RVm (GetStringUTFChars_ (Some 9))) r = Some (RPtr (PText 9) (Some false), r) /\ rstep Gd main (RVm (GetArrayElements_ None (Some 11))) r = Some (RPtr (PElems 11) (Some false), r) /\
  exists ws r', rexec Gd ex_ptr_later r = Some (ws, r') /\ live (r_vm r') 9 = true /\ live (r_vm r') 11 = true /\ rstep Gd 2 (RRead (PText 9) 1) r' = Some (RCell 105, r') /\ rstep Gd 2 (RRead (PElems 11) 0) r' = Some (RCell 5, r').
Proof.
  eexists. eexists. split; [vm_compute; reflexivity|]. split; [simpl; eapply den_obj; [vm_compute; reflexivity|intros; discriminate|intros; discriminate]|]. split; [vm_compute; reflexivity|]. split; [vm_compute; reflexivity|]. split; [vm_compute; reflexivity|]. split; [vm_compute; reflexivity|].
  eexists. eexists. split; [vm_compute; reflexivity|]. split; [vm_compute; reflexivity|]. split; [vm_compute; reflexivity|]. split; vm_compute; reflexivity.
Qed.

(** ** C80 Memory is given back *)
Definition temp_block (x : option blk) : bool := match x with Some (BTemp _ _) => true | _ => false end.
Definition char_block (x : option blk) : bool := match x with Some (BChars _) => true | _ => false end.
Definition temps (r : rst) : nat := length (filter temp_block (r_mem r)).
Definition chars (r : rst) : nat := length (filter char_block (r_mem r)).
(** non-empty arrays of numbers made by New<Type>Array in a history with results [vs] *)
Definition made_array (e : revent * rout) : bool :=
  match e with ((_, RVm (NewArray_ _ n)), ROut (OVal _)) => negb (n =? 0)%Z | _ => false end.
(** buffers that GetStringChars gave out, and buffers that were released *)
Definition got_chars (e : revent * rout) : bool := match e with ((_, RVm (GetStringChars_ _)), RPtr _ _) => true | _ => false end.
Definition freed_chars (e : revent * rout) : bool := match e with ((_, RReleaseStringChars _ (PHeap _)), RDone) => true | _ => false end.
Definition count (f : revent * rout -> bool) (l : list revent) (vs : list rout) : nat := length (filter f (combine l vs)).

Definition b2n (b : bool) : nat := if b then 1 else 0.
Lemma filter_app_len A f (l m : list A) : length (filter f (l ++ m)) = length (filter f l) + length (filter f m).
Proof. induction l as [|a l IH]; simpl; auto. destruct (f a); simpl; lia. Qed.
Lemma filter_set A f (l : list A) b x y : nth_error l b = Some x -> length (filter f (list_set l b y)) + b2n (f x) = length (filter f l) + b2n (f y).
Proof.
  revert b. induction l as [|a l IH]; intros [|b] E; simpl in E; try discriminate.
  - injection E as ->. simpl. destruct (f x), (f y); simpl; lia.
  - simpl. specialize (IH b E). destruct (f a); simpl; lia.
Qed.
Lemma count_cons f e l v vs : count f (e :: l) (v :: vs) = b2n (f (e, v)) + count f l vs.
Proof. unfold count. simpl. destruct (f (e, v)); reflexivity. Qed.
Lemma rstep_count G t o r v r' : rstep G t o r = Some (v, r') ->
  temps r' = temps r + b2n (made_array ((t, o), v)) /\ chars r' + b2n (freed_chars ((t, o), v)) = chars r + b2n (got_chars ((t, o), v)).
Proof.
  intros E. unfold temps, chars. destruct o as [o|h p|h p|h p mode|p k|p k z]; cbn [rstep] in E.
  - destruct (step G t o (r_vm r)) as [[x s']|]; [|discriminate].
    destruct o; cbn [native] in E; try (injection E as <- <-; cbn [r_mem made_array freed_chars got_chars b2n]; split; lia); destruct x as [x|]; try (injection E as <- <-; cbn [r_mem made_array freed_chars got_chars b2n]; split; lia).
    + destruct x; injection E as <- <-; cbn [r_mem made_array freed_chars got_chars b2n]; try (split; lia). rewrite !filter_app_len. simpl. split; lia.
    + injection E as <- <-. cbn [r_mem made_array freed_chars got_chars b2n]. unfold nonzero. destruct (n =? 0)%Z; cbn [negb b2n]; [split; lia|]. rewrite !filter_app_len. simpl. split; lia.
    + destruct x as [| | |[a|]| | | | | | | |]; injection E as <- <-; cbn [r_mem made_array freed_chars got_chars b2n]; split; lia.
  - destruct p as [|b| | |]; try discriminate; [injection E as <- <-; cbn; split; lia|]. destruct (nth_error (r_mem r) b) as [[[l|]|]|] eqn:N; try discriminate. injection E as <- <-.
    cbn [r_mem made_array freed_chars got_chars b2n]. pose proof (filter_set temp_block None N) as H1. pose proof (filter_set char_block None N) as H2. cbn [temp_block char_block b2n] in H1, H2. split; lia.
  - injection E as <- <-. cbn. split; lia.
  - injection E as <- <-. cbn. split; lia.
  - destruct p as [|b|i| |a]; try discriminate.
    + destruct (nth_error (r_mem r) b) as [[x|]|]; try discriminate. destruct (nth_error (cells x) k); try discriminate. injection E as <- <-. cbn. split; lia.
    + destruct (lookup (r_vm r) i) as [x|]; try discriminate. destruct (o_pay x); try discriminate. destruct (nth_error (map byte _ ++ _) k); try discriminate. injection E as <- <-. cbn. split; lia.
    + destruct k; try discriminate. injection E as <- <-. cbn. split; lia.
    + destruct (step G t (ElementsRead_ a k) (r_vm r)) as [[[[]|] s']|]; try discriminate. injection E as <- <-. cbn. split; lia.
  - destruct p as [|b|i| |a]; try discriminate.
    + destruct (nth_error (r_mem r) b) as [[x|]|] eqn:N; try discriminate. destruct (k <? length (cells x))%nat; try discriminate. injection E as <- <-. cbn [r_mem made_array freed_chars got_chars b2n].
      pose proof (filter_set temp_block (Some (set_cells x k z)) N) as H1. pose proof (filter_set char_block (Some (set_cells x k z)) N) as H2. destruct x; cbn [temp_block char_block b2n set_cells] in H1, H2 |- *; split; lia.
    + destruct (step G t (ElementsWrite_ a k z) (r_vm r)) as [[[y|] s']|]; try discriminate. injection E as <- <-. cbn. split; lia.
Qed.
(** Exact accounts after any history: every non-empty array of numbers costs one block that is never given back; of the buffers, those not released are left. *)
Theorem C80_count G l : forall r vs r', rexec G l r = Some (vs, r') ->
  temps r' = temps r + count made_array l vs /\ chars r' + count freed_chars l vs = chars r + count got_chars l vs.
Proof.
  induction l as [|[t o] l IH]; intros r vs r' E; cbn [rexec] in E; [injection E as <- <-; cbn; split; lia|].
  destruct (rstep G t o r) as [[v r1]|] eqn:S1; [|discriminate]. destruct (rexec G l r1) as [[xs r2]|] eqn:E2; [|discriminate]. injection E as <- <-.
  destruct (rstep_count S1) as [H1 H2]. destruct (IH _ _ _ E2) as [H3 H4]. rewrite !count_cons. unfold revent in *. split; lia.
Qed.
Lemma no_blocks m : length (filter temp_block m) = 0 -> length (filter char_block m) = 0 -> Forall (eq None) m.
Proof.
  induction m as [|[[l|p l]|] m IH]; simpl; intros H1 H2; try discriminate; constructor; auto.
Qed.
(** A program that makes no such arrays and releases each buffer leaves nothing behind. *)
Theorem C80_partial G t0 l vs r : rexec G l (rinit G t0) = Some (vs, r) -> count made_array l vs = 0 -> count got_chars l vs = count freed_chars l vs ->
  forall b x, nth_error (r_mem r) b <> Some (Some x).
Proof.
  intros E N1 N2 b x H. destruct (C80_count E) as [H1 H2]. cbn in H1, H2. assert (Forall (eq None) (r_mem r)) as F by (apply no_blocks; unfold temps, chars in *; lia).
  rewrite Forall_forall in F. specialize (F _ (nth_error_In _ _ H)). discriminate.
Qed.
(** The full claim is false: also after every array is gone and without any buffer, blocks are left, and a program can lose as many as it likes. *)
Theorem C80_refuted : exists l vs r, rexec Gd l (rinit Gd main) = Some (vs, r) /\ count got_chars l vs = 0 /\
  (forall a p e, contents (r_vm r) a <> Some (PPrim p e)) /\ exists b x, nth_error (r_mem r) b = Some (Some x).
Proof.
  exists [(main, RVm (NewArray_ PtI 3)); (main, RVm (DeleteLocalRef_ (Some 10)))]. eexists. eexists. split; [vm_compute; reflexivity|]. split; [reflexivity|]. split.
  - intros a p e. do 12 (destruct a as [|a]; [vm_compute; discriminate|]). destruct a; vm_compute; discriminate.
  - exists 0. eexists. vm_compute. reflexivity.
Qed.
Theorem C80_unbounded G t0 t n : forall r, rreachable G t0 r -> attached (r_vm r) t ->
  exists l vs r', rexec G l r = Some (vs, r') /\ temps r' = temps r + n /\ chars r' = chars r.
Proof.
  induction n as [|n IH]; intros r R A; [exists [], [], r; split; [reflexivity|split; lia]|].
  destruct (@C39_new G t0 t PtI 1 (r_vm r) (rreachable_vm R) A ltac:(lia)) as (i & s' & St & Md & _).
  assert (rstep G t (RVm (NewArray_ PtI 1)) r = Some (ROut (OVal (RRef (Some i))), mkRst s' (r_mem r ++ [Some (BTemp PtI [0%Z])]))) as E by (cbn [rstep]; rewrite St; reflexivity).
  destruct (IH _ (rreachable_step R E) (gained_attached (md_gained Md) A)) as (l & vs & r' & Ex & H1 & H2).
  exists ((t, RVm (NewArray_ PtI 1)) :: l), (ROut (OVal (RRef (Some i))) :: vs), r'. split; [cbn [rexec]; rewrite E, Ex; reflexivity|].
  destruct (rstep_count E) as [H3 H4]. cbn [made_array freed_chars got_chars Z.eqb negb b2n] in H3, H4. split; lia.
Qed.
(** A lost block stays for ever. *)
Theorem C80_lost G l : forall r vs r' b, rexec G l r = Some (vs, r') -> (exists p x, nth_error (r_mem r) b = Some (Some (BTemp p x))) -> exists p x, nth_error (r_mem r') b = Some (Some (BTemp p x)).
Proof.
  induction l as [|[t o] l IH]; intros r vs r' b E H; cbn [rexec] in E; [injection E as <- <-; exact H|].
  destruct (rstep G t o r) as [[v r1]|] eqn:S1; [|discriminate]. destruct (rexec G l r1) as [[xs r2]|] eqn:E2; [|discriminate]. injection E as <- <-.
  eapply IH; [exact E2|]. destruct H as (p & x & H). destruct (rstep_chg S1) as [|y|h c w -> N|c k z y -> N]; eauto.
  - exists p, x. apply nth_app, H.
  - rewrite nth_list_set. destruct (Nat.eqb_spec c b); [|eauto]. subst. congruence.
  - rewrite nth_list_set. destruct (Nat.eqb_spec c b); [|eauto]. subst. rewrite H. rewrite H in N. injection N as <-. cbn [set_cells]. eauto.
Qed.
Definition ex_clean : list revent := [(main, RVm (NewString_ [104; 105]%Z 2)); (main, RVm (GetStringChars_ (Some 9))); (main, RVm (NewArray_ PtI 0)); (main, RReleaseStringChars (Some 9) (PHeap 0))].
Example C80_ex : exists vs r, rexec Gd ex_clean (rinit Gd main) = Some (vs, r) /\ count made_array ex_clean vs = 0 /\ count got_chars ex_clean vs = 1 /\ count freed_chars ex_clean vs = 1.
Proof. eexists. eexists. split; [vm_compute; reflexivity|]. split; [reflexivity|]. split; reflexivity. Qed.

Print Assumptions C78_get.
Print Assumptions C78_round_trip.
Print Assumptions C78_kept.
Print Assumptions C78_once.
Print Assumptions C79_text_partial. Print Assumptions C79_null_array.
Print Assumptions C79_elements_partial.
Print Assumptions C79_refuted.
Print Assumptions C80_count.
Print Assumptions C80_refuted.
