(** Strings, buffers and arrays: exact steps. *)
From Verif Require Import Base BaseProofs UtfModel VmState VmModel VmStep VmBase VmWf VmPrim VmInv VmReg VmRegInv VmFrame VmFine VmSpec MemSpec HookSpec CallSpec RefSpec ArrSpec
  VmExact VmQuiet VmClass VmMember VmMember2 VmMember3 VmTables VmHook VmMemHist VmEnvInv VmCall VmCall2 VmThread VmRef VmRef2 VmRef3.
Set Implicit Arguments.
Unset Strict Implicit.
Local Open Scope vm_scope.

Section Cfg.
Variable G : cfg.

(** ** New objects with a local reference *)
(** The state after a new object has been made and a local reference to it: [s1] is the state after the class was looked up. *)
Lemma made_given t T c p s s1 : attached s t -> inv G s1 -> quiet s s1 -> tidy s1 -> not_class p ->
  pay_ok s1 p = true -> (forall k, c = Some k -> is_cls s1 k = true) ->
  let x := new_obj c p in let i := length (s_heap s1) in let s3 := given (add s1 x) t T i in
  obj_ok s1 x = true /\ wf (add s1 x) /\ attached (add s1 x) t /\ live (add s1 x) i = true /\ tidy s3 /\ made t i p s s3 /\
    class_ptr s3 i = (match c with Some k => Some k | None => registered s T end) /\
    (inv G s3 -> forall n k, class_named s1 n k -> class_named s3 n k).
Proof.
  intros A I1 Q T1 Nc Hp Hc x i s3. pose proof (inv_wf I1) as W1.
  assert (obj_ok s1 x = true) as Ox.
  { unfold obj_ok, x. simpl. rewrite Hp. simpl. unfold clazz_ok. simpl. destruct c as [k|]; auto. specialize (Hc k eq_refl). rewrite (is_cls_live _ _ Hc), Hc, andb_true_r.
    apply Nat.ltb_lt, live_lt, is_cls_live; auto. }
  set (s2 := add s1 x) in *. assert (wf s2) as W2 by (apply VmCall.add_wf; auto).
  assert (lookup s2 i = Some x) as Li by apply lookup_add_new. assert (live s2 i = true) as Lv by (apply live_lookup; eauto).
  assert (attached s1 t) as A1 by (eapply quiet_attached; eauto).
  assert (attached s2 t) as A2 by (destruct A1 as (e & E); exists e; exact E).
  assert (tidy s3) as T3.
  { eapply tidy_weaken; [|apply (given_tidy T i W2 A2 (tidy_add x T1))]. simpl. unfold i. intros j [[[]|Q1] N]. contradiction. }
  assert (undisturbed t s s2) as U by (eapply undisturbed_trans; [apply quiet_undisturbed; exact Q|apply add_undisturbed]).
  assert (undisturbed t s s3) as U3 by (eapply undisturbed_trans; [exact U|apply given_undisturbed]).
  split; [exact Ox|]. split; [exact W2|]. split; [exact A2|]. split; [exact Lv|]. split; [exact T3|]. split; [|split].
  - assert (intact s2 s3 i) as Ii by (apply (u_obj (given_undisturbed s2 t T i)); exact Lv).
    constructor.
    + apply (q_len Q).
    + destruct Ii as (o1 & o2 & L1 & L2 & V & _). rewrite Li in L1. injection L1 as <-. unfold contents. rewrite L2. simpl. f_equal.
      unfold x in V. simpl in V. destruct p; try exact (V); try (destruct (o_pay o2); simpl in V; try discriminate; congruence).
    + destruct Ii as (o1 & o2 & L1 & L2 & _ & M & _). rewrite Li in L1. injection L1 as <-. unfold monitor. rewrite L2. exact M.
    + constructor; [|apply U3|apply U3|apply und_calm; exact U3|apply (u_obj U3)].
      unfold s3. rewrite given_frames. f_equal. unfold frames. change (get_env s2 t) with (get_env s1 t). rewrite (quiet_env t Q). reflexivity.
    + intros k Lk. unfold s3 in Lk. rewrite given_live_eq in Lk. apply live_add in Lk. destruct Lk as [Lk|Lk]; auto.
      destruct (quiet_new Q Lk) as [H|H]; auto. right. right. apply is_cls_given. unfold is_cls in *. unfold s2. rewrite lookup_add_old; auto. eapply live_lt; eauto.
  - unfold s3. rewrite given_class_ptr by auto. unfold class_ptr. rewrite Li. unfold x. simpl. destruct c as [k|].
    + replace (live s2 k) with true; auto. symmetry. unfold s2. unfold live. rewrite lookup_add_old by (eapply live_lt, is_cls_live; auto).
      specialize (Hc k eq_refl). apply is_cls_live in Hc. exact Hc.
    + unfold registered. change (get_type s2 T) with (get_type s1 T). unfold get_type. rewrite (q_types Q). reflexivity.
  - intros I3 n k H. apply (class_named_iff _ _ I1) in H. apply (class_named_iff _ _ I3). unfold s3. rewrite given_class. exact H.
Qed.
Lemma made_core t o T c p s s1 : good G s -> attached s t -> inv G s1 -> quiet s s1 -> tidy s1 ->
  not_class p -> pay_ok s1 p = true -> (forall k, c = Some k -> is_cls s1 k = true) ->
  body G t o s = (r <- to_jni t T (length (s_heap s1)) ;; ret (RRef r)) (add s1 (new_obj c p)) ->
  exists i s', step G t o s = Some (OVal (RRef (Some i)), s') /\ good G s' /\ made t i p s s' /\
    class_ptr s' i = (match c with Some k => Some k | None => registered s T end) /\
    (forall n k, class_named s1 n k -> class_named s' n k).
Proof.
  intros Gs A I1 Q T1 Nc Hp Hc B. destruct (@made_given t T c p s s1 A I1 Q T1 Nc Hp Hc) as (Ox & W2 & A2 & Lv & T3 & M & Cp & Cn).
  set (i := length (s_heap s1)) in *. set (s3 := given (add s1 (new_obj c p)) t T i) in *.
  assert (step G t o s = Some (OVal (RRef (Some i)), s3)) as St.
  { unfold step. rewrite run_attached by auto. rewrite B. fold i. unfold bind at 1. rewrite given_eq by auto.
    change (Some (OVal (RRef (Some i)), finish s3) = Some (OVal (RRef (Some i)), s3)). rewrite (tidy_finish_id T3). reflexivity. }
  pose proof (step_good Gs St) as G3. exists i, s3. split; [exact St|]. split; [exact G3|]. split; [exact M|]. split; [exact Cp|]. exact (Cn (g_inv G3)).
Qed.

Lemma made_step t o T c p s s1 : good G s -> attached s t -> inv G s1 -> quiet s s1 -> tidy s1 ->
  not_class p -> pay_ok s1 p = true -> (forall k, c = Some k -> is_cls s1 k = true) ->
  body G t o s = (i <- alloc (new_obj c p) ;; r <- to_jni t T i ;; ret (RRef r)) s1 ->
  exists i s', step G t o s = Some (OVal (RRef (Some i)), s') /\ good G s' /\ made t i p s s' /\
    class_ptr s' i = (match c with Some k => Some k | None => registered s T end) /\
    (forall n k, class_named s1 n k -> class_named s' n k).
Proof.
  intros Gs A I1 Q T1 Nc Hp Hc B. apply (@made_core t o T c p s s1); auto. rewrite B. unfold bind at 1. rewrite alloc_eq; [reflexivity|].
  unfold obj_ok, new_obj. simpl. rewrite Hp. simpl. unfold clazz_ok. simpl. destruct c as [k|]; auto. specialize (Hc k eq_refl). rewrite (is_cls_live _ _ Hc), Hc, andb_true_r.
  apply Nat.ltb_lt, live_lt, is_cls_live; auto.
Qed.

Lemma step_thr t o s e : good G s -> attached s t -> body G t o s = Thr e s -> step G t o s = Some (OExn e, s).
Proof. intros Gs A B. unfold step. rewrite run_attached, B by auto. rewrite (tidy_finish_id (g_tidy Gs)). reflexivity. Qed.
Lemma step_undef t o s : attached s t -> body G t o s = Undef -> step G t o s = None.
Proof. intros A B. unfold step. rewrite run_attached, B by auto. reflexivity. Qed.
Lemma cast_eq T h i x s : wf s -> denotes_opt s h (Some i) -> contents s i = Some x ->
  jnicast G T h s = if isa G x T then Ret (Some i) s else Thr (Err bad_ref) s.
Proof.
  intros W D C. destruct h as [h|]; [|discriminate]. simpl in D. rewrite (jnicast_spec _ _ W D). unfold is_a, contents in *.
  destruct (lookup s i); [|discriminate]. injection C as ->. reflexivity.
Qed.
Lemma deref_eq i x s : contents s i = Some x -> exists o, lookup s i = Some o /\ o_pay o = x /\ deref i s = Ret o s.
Proof. unfold contents, deref. destruct (lookup s i) as [o|]; [|discriminate]. intros [= <-]. eauto. Qed.

(** ** Creating objects *)
Theorem NewArray_step t p n s : good G s -> attached s t -> (0 <= n)%Z ->
  exists i s', step G t (NewArray_ p n) s = Some (OVal (RRef (Some i)), s') /\ good G s' /\
    made t i (PPrim p (repeat 0%Z (Z.to_nat n))) s s' /\ exists k, class_ptr s' i = Some k /\ class_named s' ["["; pty_char p]%char k.
Proof.
  intros Gs A N. destruct (find_kept ["["; pty_char p]%char Gs) as (c & s1 & Ef & I1 & Q & K & T1 & Gc).
  pose proof (proj2 (class_named_iff _ _ I1) Gc) as Cn.
  destruct (@made_step t (NewArray_ p n) (TPArr p) (Some c) (PPrim p (repeat 0%Z (Z.to_nat n))) s s1) as (i & s' & St & Gs' & M & P & Cl); auto; try (intros ?; discriminate).
  - intros k [= <-]. apply is_cls_named. eauto.
  - cbn [body]. unfold as_ref, NewArray. destruct (Z.ltb_spec n 0); [lia|]. unfold bind at 1 2. rewrite Ef. unfold bind. match goal with |- context[alloc ?x ?y] => destruct (alloc x y) end; reflexivity.
  - exists i, s'. split; [exact St|]. split; [exact Gs'|]. split; [exact M|]. exists c. split; auto.
Qed.
Theorem NewArray_negative t p n s : good G s -> attached s t -> (n < 0)%Z ->
  step G t (NewArray_ p n) s = Some (OExn (Err (S_ "std::bad_array_new_length")), s).
Proof.
  intros Gs A N. apply step_thr; auto. cbn [body]. unfold as_ref, NewArray, bind. destruct (Z.ltb_spec n 0); [|lia]. reflexivity.
Qed.
Theorem NewDirectByteBuffer_step t addr cap s : good G s -> attached s t ->
  exists i s', step G t (NewDirectByteBuffer_ addr cap) s = Some (OVal (RRef (Some i)), s') /\ good G s' /\
    made t i (PBuffer addr cap) s s' /\ class_ptr s' i = registered s TBuffer.
Proof.
  intros Gs A. destruct (@made_step t (NewDirectByteBuffer_ addr cap) TBuffer None (PBuffer addr cap) s s) as (i & s' & St & Gs' & M & P & _); auto; try apply Gs; try apply quiet_refl; try discriminate; try (intros ?; discriminate).
  exists i, s'. auto.
Qed.
Lemma string_made t o b s : good G s -> attached s t -> body G t o s = as_ref (NewStringObj t b) s ->
  exists i s', step G t o s = Some (OVal (RRef (Some i)), s') /\ good G s' /\ made t i (PString b) s s' /\ class_ptr s' i = registered s TString.
Proof.
  intros Gs A B. destruct (@made_step t o TString None (PString b) s s) as (i & s' & St & Gs' & M & P & _); auto; try apply Gs; try apply quiet_refl; try discriminate; try (intros ?; discriminate).
  exists i, s'. auto.
Qed.
Theorem NewStringUTF_step t os s : good G s -> attached s t ->
  exists i s', step G t (NewStringUTF_ os) s = Some (OVal (RRef (Some i)), s') /\ good G s' /\
    made t i (PString (UtfModel.NewStringUTF os)) s s' /\ class_ptr s' i = registered s TString.
Proof. intros Gs A. apply string_made; auto. Qed.
Theorem NewString_step t cs n s : good G s -> attached s t ->
  match UtfModel.NewString (csigned G) cs n with
  | Ok b => exists i s', step G t (NewString_ cs n) s = Some (OVal (RRef (Some i)), s') /\ good G s' /\ made t i (PString b) s s' /\ class_ptr s' i = registered s TString
  | Thrown e => step G t (NewString_ cs n) s = Some (OExn e, s)
  | _ => step G t (NewString_ cs n) s = None
  end.
Proof.
  intros Gs A. assert (body G t (NewString_ cs n) s = as_ref (b <- of_res (UtfModel.NewString (csigned G) cs n) ;; NewStringObj t b) s) as B by reflexivity.
  destruct (UtfModel.NewString (csigned G) cs n) eqn:E.
  - apply string_made; auto.
  - apply step_thr; auto.
  - apply step_undef; auto.
  - unfold step. rewrite run_attached, B by auto. reflexivity.
  - unfold step. rewrite run_attached, B by auto. reflexivity.
Qed.

Lemma nth_firstn_lt A (l : list A) n j : j < n -> nth_error (firstn n l) j = nth_error l j.
Proof. revert n j. induction l; intros [|n] [|j] H; simpl; auto; try lia. apply IHl. lia. Qed.
Lemma nth_skipn A (l : list A) n j : nth_error (skipn n l) j = nth_error l (n + j).
Proof. revert n j. induction l; intros [|n] j; simpl; auto. destruct j; auto. Qed.
(** ** Reading *)
Ltac rd := unfold bind, nonnull, ret; cbn [body]; unfold as_int, as_ints, as_bytes, as_ref, bind, nonnull, ret.
(** What the functions on arrays of numbers make of a handle: the array, or an error *)
Lemma prim_cast p h i q l s : wf s -> denotes_opt s h (Some i) -> contents s i = Some (PPrim q l) -> q = p -> jnicast G (TPArr p) h s = Ret (Some i) s.
Proof. intros W D C ->. rewrite (cast_eq _ W D C). simpl. destruct (pty_eqb_spec p p); congruence. Qed.
Definition is_prim (p : pty) (x : pay) : bool := match x with PPrim q _ => pty_eqb q p | _ => false end.
Lemma prim_isa p x : isa G x (TPArr p) = is_prim p x.
Proof. destruct x; reflexivity. Qed.

Theorem GetArrayLength_step t h s : good G s -> attached s t -> forall r, denotes_opt s h r ->
  step G t (GetArrayLength_ h) s =
    match h, r with
    | None, _ => Some (OVal (RInt 0), s)
    | Some _, None => None
    | Some _, Some i =>
        match contents s i with
        | Some (PPrim _ l) => Some (OVal (RInt (Z.of_nat (length l))), s)
        | Some (PArr _ l) => Some (OVal (RInt (Z.of_nat (length l))), s)
        | _ => Some (OExn (Err bad_ref), s)
        end
    end.
Proof.
  intros Gs A r D. pose proof (good_wf Gs) as W. destruct h as [h|]; [|apply step_read; auto].
  destruct r as [i|].
  - assert (exists x, contents s i = Some x) as (x & C).
    { simpl in D. destruct (denotes_target D) as (o & L & _). exists (o_pay o). unfold contents. rewrite L. auto. }
    rewrite C. pose proof (@cast_eq TVArr (Some h) i x s W D C) as J. destruct (deref_eq C) as (o & L & P & De).
    assert (body G t (GetArrayLength_ (Some h)) s = if isa G x TVArr then Ret (RInt (Z.of_nat (pay_len x))) s else Thr (Err bad_ref) s) as B.
    { cbn [body]. unfold as_int, GetArrayLength. unfold bind at 1 2. rewrite J. destruct (isa G x TVArr); [|reflexivity]. cbn [nonnull]. unfold bind at 1, ret at 1, bind. rewrite De. unfold ret. rewrite P. reflexivity. }
    destruct x; simpl in B; try (apply step_thr; auto; fail); apply step_read; auto.
  - simpl in D. apply step_undef; auto. cbn [body]. unfold as_int, GetArrayLength, bind. rewrite (jnicast_spec _ _ W D). reflexivity.
Qed.
Lemma region_ok l start len : in_range l start len -> is_region l start len (firstn (Z.to_nat len) (skipn (Z.to_nat start) l)).
Proof.
  intros (H & K & M). assert (length (firstn (Z.to_nat len) (skipn (Z.to_nat start) l)) = Z.to_nat len) as E by (rewrite firstn_length, skipn_length; lia).
  split; [lia|]. intros j Lj. rewrite E in Lj. rewrite nth_firstn_lt by auto. apply nth_skipn.
Qed.

Theorem GetArrayRegion_step t p h i x start len s : good G s -> attached s t -> denotes_opt s h (Some i) -> contents s i = Some x ->
  match x with
  | PPrim q l =>
      if pty_eqb q p then
        (in_range l start len -> exists r, step G t (GetArrayRegion_ p h start len) s = Some (OVal (RInts r), s) /\ is_region l start len r) /\
        (~ in_range l start len -> step G t (GetArrayRegion_ p h start len) s = None)
      else step G t (GetArrayRegion_ p h start len) s = Some (OExn (Err bad_ref), s)
  | _ => step G t (GetArrayRegion_ p h start len) s = Some (OExn (Err bad_ref), s)
  end.
Proof.
  intros Gs A D C. pose proof (good_wf Gs) as W. pose proof (@cast_eq (TPArr p) h i x s W D C) as J. destruct (deref_eq C) as (o & L & P & De).
  assert (body G t (GetArrayRegion_ p h start len) s = if isa G x (TPArr p) then
    (if (start <? 0)%Z || (len <? 0)%Z || (Z.of_nat (length (prim_elems x)) <? start + len)%Z then Undef else Ret (RInts (firstn (Z.to_nat len) (skipn (Z.to_nat start) (prim_elems x)))) s)
    else Thr (Err bad_ref) s) as B.
  { cbn [body]. unfold as_ints, GetArrayRegion. unfold bind at 1 2. rewrite J. destruct (isa G x (TPArr p)); [|reflexivity]. cbn [nonnull]. unfold bind at 1, ret at 1, bind. rewrite De, P.
    destruct (_ || _); reflexivity. }
  rewrite prim_isa in B. destruct x; cbn [is_prim prim_elems] in B; try (apply step_thr; auto; fail). destruct (pty_eqb p0 p); [|apply step_thr; auto].
  unfold in_range. split; intros H.
  - eexists. split; [|apply region_ok; exact H]. apply step_read; auto. rewrite B. destruct (Z.ltb_spec start 0), (Z.ltb_spec len 0), (Z.ltb_spec (Z.of_nat (length elems)) (start + len)); simpl; auto; lia.
  - apply step_undef; auto. rewrite B. destruct (Z.ltb_spec start 0), (Z.ltb_spec len 0), (Z.ltb_spec (Z.of_nat (length elems)) (start + len)); simpl; auto; lia.
Qed.
Theorem GetArrayElements_step t p h i x s : good G s -> attached s t -> denotes_opt s h (Some i) -> contents s i = Some x ->
  step G t (GetArrayElements_ p h) s =
    if (match p, x with Some p, PPrim q _ => pty_eqb q p | None, PPrim _ _ => true | None, PArr _ _ => true | _, _ => false end)
    then Some (OVal (RRef (Some i)), s) else Some (OExn (Err bad_ref), s).
Proof.
  intros Gs A D C. pose proof (good_wf Gs) as W. destruct h as [h|]; [|discriminate].
  pose proof (@cast_eq (match p with Some q => TPArr q | None => TVArr end) (Some h) i x s W D C) as J.
  assert (isa G x (match p with Some q => TPArr q | None => TVArr end) = (match p, x with Some p, PPrim q _ => pty_eqb q p | None, PPrim _ _ => true | None, PArr _ _ => true | _, _ => false end)) as E
    by (destruct p, x; reflexivity).
  rewrite E in J. destruct (match p, x with Some p, PPrim q _ => pty_eqb q p | None, PPrim _ _ => true | None, PArr _ _ => true | _, _ => false end).
  - apply step_read; auto. cbn [body]. unfold as_ref, GetArrayElements, bind. rewrite J. reflexivity.
  - apply step_thr; auto. cbn [body]. unfold as_ref, GetArrayElements, bind. rewrite J. reflexivity.
Qed.
Theorem ElementsRead_step t a k p l s : good G s -> contents s a = Some (PPrim p l) ->
  step G t (ElementsRead_ a k) s = match nth_error l k with Some z => Some (OVal (RInt z), s) | None => None end.
Proof.
  intros Gs C. destruct (deref_eq C) as (o & L & P & De). unfold step, run. cbn [needs_env body]. unfold as_int, ElementsRead, bind, ret. rewrite De, P. cbn [prim_elems].
  destruct (nth_error l k); [|reflexivity]. cbv beta iota. rewrite (tidy_finish_id (g_tidy Gs)). reflexivity.
Qed.

(** ** Writing *)
Lemma put_changed t a o p s : lookup s a = Some o -> changed t a p s (put s a (set_pay o p)).
Proof.
  intros L. assert (forall j, live (put s a (set_pay o p)) j = live s j) as Lv by (intros j; apply (live_put _ _ L)).
  split; [unfold contents; rewrite (lookup_put _ _ L), Nat.eqb_refl; reflexivity|].
  split; [unfold monitor; rewrite (lookup_put _ _ L), Nat.eqb_refl, L; reflexivity|].
  split; [unfold class_ptr; rewrite (lookup_put _ _ L), Nat.eqb_refl, L; simpl; destruct (o_clazz o); auto; rewrite Lv; auto|].
  split; [exact Lv|]. split; [apply (put_disturbs _ _ L)|reflexivity].
Qed.
Lemma prim_put_ok a o q l l' s : wf s -> lookup s a = Some o -> o_pay o = PPrim q l -> obj_ok s (set_pay o (PPrim q l')) = true.
Proof. intros W L P. pose proof (wf_obj W _ L) as K. unfold obj_ok in *. rewrite P in K. exact K. Qed.
Lemma splice_written l k b : k + length b <= length l -> is_written l k b (splice l k b).
Proof.
  intros H. split; [apply splice_length|]. intros j. unfold splice. rewrite (firstn_all2 (n := length l - k) b) by lia.
  destruct (Nat.leb_spec k j) as [Le|Lt]; simpl.
  - rewrite nth_error_app2 by (rewrite firstn_length; lia). rewrite firstn_length, Nat.min_l by lia. destruct (Nat.ltb_spec j (k + length b)).
    + rewrite nth_error_app1 by lia. auto.
    + rewrite nth_error_app2 by lia. rewrite nth_skipn. f_equal. lia.
  - rewrite nth_error_app1 by (rewrite firstn_length; lia). apply nth_firstn_lt. auto.
Qed.
Lemma list_set_written l k z : k < length l -> is_written l k [z] (list_set l k z).
Proof.
  intros H. split; [apply list_set_length|]. intros j. rewrite nth_list_set. simpl length. destruct (Nat.eqb_spec k j).
  - subst. destruct (Nat.leb_spec j j), (Nat.ltb_spec j (j + 1)); try lia. simpl. rewrite Nat.sub_diag. simpl. destruct (nth_error l j) eqn:E; auto. apply nth_error_None in E. lia.
  - destruct (Nat.leb_spec k j), (Nat.ltb_spec j (k + 1)); simpl; auto; lia.
Qed.
Theorem SetArrayRegion_step t p h i x start len buf s : good G s -> attached s t -> denotes_opt s h (Some i) -> contents s i = Some x ->
  match x with
  | PPrim q l =>
      if pty_eqb q p then
        (in_range l start len -> (len <= Z.of_nat (length buf))%Z -> exists l' s', step G t (SetArrayRegion_ p h start len buf) s = Some (OVal RUnit, s') /\ good G s' /\
           is_written l (Z.to_nat start) (firstn (Z.to_nat len) buf) l' /\ changed t i (PPrim q l') s s') /\
        (~ (in_range l start len /\ (len <= Z.of_nat (length buf))%Z) -> step G t (SetArrayRegion_ p h start len buf) s = None)
      else step G t (SetArrayRegion_ p h start len buf) s = Some (OExn (Err bad_ref), s)
  | _ => step G t (SetArrayRegion_ p h start len buf) s = Some (OExn (Err bad_ref), s)
  end.
Proof.
  intros Gs A D C. pose proof (good_wf Gs) as W. pose proof (@cast_eq (TPArr p) h i x s W D C) as J. destruct (deref_eq C) as (o & L & P & De).
  assert (forall _ : unit, body G t (SetArrayRegion_ p h start len buf) s = if isa G x (TPArr p) then
    (if (start <? 0)%Z || (len <? 0)%Z || (Z.of_nat (length (prim_elems x)) <? start + len)%Z || (Z.of_nat (length buf) <? len)%Z then Undef
     else as_unit (upd_prim i (fun l => splice l (Z.to_nat start) (firstn (Z.to_nat len) buf))) s)
    else Thr (Err bad_ref) s) as B.
  { intros _. cbn [body]. unfold as_unit at 1, SetArrayRegion. unfold bind at 1 2. rewrite J. destruct (isa G x (TPArr p)); [|reflexivity]. cbn [nonnull]. unfold bind at 1, ret at 1. unfold bind at 1. rewrite De, P.
    destruct (_ || _); reflexivity. }
  specialize (B tt). rewrite prim_isa in B. destruct x; cbn [is_prim prim_elems] in B; try (apply step_thr; auto; fail). destruct (pty_eqb p0 p); [|apply step_thr; auto].
  unfold in_range. split.
  - intros H K. set (l' := splice elems (Z.to_nat start) (firstn (Z.to_nat len) buf)). exists l', (put s i (set_pay o (PPrim p0 l'))).
    assert (step G t (SetArrayRegion_ p h start len buf) s = Some (OVal RUnit, put s i (set_pay o (PPrim p0 l')))) as St.
    { unfold step. rewrite run_attached, B by auto.
      destruct (Z.ltb_spec start 0), (Z.ltb_spec len 0), (Z.ltb_spec (Z.of_nat (length elems)) (start + len)), (Z.ltb_spec (Z.of_nat (length buf)) len); try lia. cbn [orb].
      unfold as_unit, upd_prim, bind, deref. rewrite L, P. fold l'. unfold put_obj, check, bind. rewrite (@prim_put_ok i o p0 elems l' s W L P). unfold ret.
      change (Some (OVal RUnit, finish (put s i (set_pay o (PPrim p0 l')))) = Some (OVal RUnit, put s i (set_pay o (PPrim p0 l')))).
      rewrite (@tidy_finish_id (put s i (set_pay o (PPrim p0 l')))); [reflexivity|]. apply (put_tidy L); [simpl; rewrite P; reflexivity|apply Gs]. }
    split; [exact St|]. split; [eapply step_good; eauto|]. split; [|apply put_changed; auto].
    apply splice_written. rewrite firstn_length. lia.
  - intros H. apply step_undef; auto. rewrite B.
    destruct (Z.ltb_spec start 0), (Z.ltb_spec len 0), (Z.ltb_spec (Z.of_nat (length elems)) (start + len)), (Z.ltb_spec (Z.of_nat (length buf)) len); simpl; auto; lia.
Qed.
Theorem ElementsWrite_step t a k z p l s : good G s -> contents s a = Some (PPrim p l) ->
  (k < length l -> exists l' s', step G t (ElementsWrite_ a k z) s = Some (OVal RUnit, s') /\ good G s' /\ is_written l k [z] l' /\ forall u, changed u a (PPrim p l') s s') /\
  (length l <= k -> step G t (ElementsWrite_ a k z) s = None).
Proof.
  intros Gs C. pose proof (good_wf Gs) as W. destruct (deref_eq C) as (o & L & P & De).
  assert (step G t (ElementsWrite_ a k z) s = match (if k <? length l then as_unit (upd_prim a (fun l => list_set l k z)) s else Undef) with Ret v s' => Some (OVal v, finish s') | Thr e s' => Some (OExn e, finish s') | _ => None end) as St.
  { unfold step, run. cbn [needs_env body]. unfold bind at 1, ret at 1. unfold as_unit at 1, ElementsWrite. unfold bind at 1 2. rewrite De, P. cbn [prim_elems]. destruct (k <? length l); reflexivity. }
  split; intros H.
  - set (l' := list_set l k z). exists l', (put s a (set_pay o (PPrim p l'))). destruct (Nat.ltb_spec k (length l)); [|lia].
    assert (step G t (ElementsWrite_ a k z) s = Some (OVal RUnit, put s a (set_pay o (PPrim p l')))) as St'.
    { rewrite St. unfold as_unit, upd_prim, bind, deref. rewrite L, P. fold l'. unfold put_obj, check, bind. rewrite (@prim_put_ok a o p l l' s W L P). unfold ret.
      change (Some (OVal RUnit, finish (put s a (set_pay o (PPrim p l')))) = Some (OVal RUnit, put s a (set_pay o (PPrim p l')))).
      rewrite (@tidy_finish_id (put s a (set_pay o (PPrim p l')))); [reflexivity|]. apply (put_tidy L); [simpl; rewrite P; reflexivity|apply Gs]. }
    split; [exact St'|]. split; [eapply step_good; eauto|]. split; [apply list_set_written; auto|]. intros u. apply put_changed; auto.
  - rewrite St. destruct (Nat.ltb_spec k (length l)); [lia|]. reflexivity.
Qed.

(** ** Strings and buffers *)
Lemma string_cast h i x s : wf s -> denotes_opt s h (Some i) -> contents s i = Some x ->
  string_bytes G h s = match x with PString b => Ret (Some b) s | _ => Thr (Err bad_ref) s end.
Proof.
  intros W D C. destruct h as [h|]; [|discriminate]. unfold string_bytes, bind. rewrite (@cast_eq TString (Some h) i x s W D C). destruct (deref_eq C) as (o & L & P & De).
  destruct x; try reflexivity. cbn [isa nonnull ret]. unfold bind, ret. rewrite De, P. reflexivity.
Qed.
Lemma string_dead h s : wf s -> denotes s h None -> string_bytes G (Some h) s = Undef.
Proof. intros W D. unfold string_bytes, bind. rewrite (jnicast_spec _ _ W D). reflexivity. Qed.
Lemma string_arg_eq s h r : wf s -> string_arg s h r -> string_bytes G h s = match r with Some o => Ret o s | None => Thr (Err bad_ref) s end.
Proof.
  intros W. destruct h as [h|], r as [[b|]|]; cbn [string_arg]; try tauto; try reflexivity.
  - intros (i & D & C). apply (@string_cast (Some h) i _ s W D C).
  - intros (i & x & D & C & N). rewrite (@string_cast (Some h) i _ s W D C). destruct x; auto. congruence.
Qed.
Definition out {A} (f : A -> val) (r : res A) (s : st) : option (obs * st) :=
  match r with Ok a => Some (OVal (f a), s) | Thrown e => Some (OExn e, s) | _ => None end.
Lemma step_out A (f : A -> val) t o (r : res A) s : good G s -> attached s t -> body G t o s = (x <- of_res r ;; ret (f x)) s -> step G t o s = out f r s.
Proof.
  intros Gs A0 B. unfold out. destruct r.
  - apply step_read; auto.
  - apply step_thr; auto.
  - apply step_undef; auto.
  - unfold step. rewrite run_attached, B by auto. reflexivity.
  - unfold step. rewrite run_attached, B by auto. reflexivity.
Qed.
Theorem string_reads t h r s : good G s -> attached s t -> string_arg s h r ->
  match r with
  | Some os =>
      step G t (GetStringLength_ h) s = out RInt (UtfModel.GetStringLength (csigned G) os) s /\
      step G t (GetStringUTFLength_ h) s = out RInt (UtfModel.GetStringUTFLength os) s /\
      step G t (GetStringChars_ h) s = out RInts (UtfModel.GetStringChars (csigned G) os) s /\
      step G t (GetStringUTFChars_ h) s = Some (OVal (RBytes (UtfModel.GetStringUTFChars os)), s) /\
      forall start len cap, match os with
        | Some b => step G t (GetStringRegion_ h start len cap) s = out RInts (UtfModel.GetStringRegion (csigned G) b start len cap) s /\
                    step G t (GetStringUTFRegion_ h start len cap) s = out RBytes (UtfModel.GetStringUTFRegion (csigned G) b start len cap) s
        | None => step G t (GetStringRegion_ h start len cap) s = None /\ step G t (GetStringUTFRegion_ h start len cap) s = None
        end
  | None => forall o, In o [GetStringLength_ h; GetStringUTFLength_ h; GetStringChars_ h; GetStringUTFChars_ h] \/ (exists start len cap, o = GetStringRegion_ h start len cap \/ o = GetStringUTFRegion_ h start len cap) ->
      step G t o s = Some (OExn (Err bad_ref), s)
  end.
Proof.
  intros Gs A H. pose proof (string_arg_eq (good_wf Gs) H) as E. destruct r as [os|].
  - split; [apply step_out; auto; cbn [body]; unfold as_int, JGetStringLength; unfold bind at 1 2; rewrite E; reflexivity|].
    split; [apply step_out; auto; cbn [body]; unfold as_int, JGetStringUTFLength; unfold bind at 1 2; rewrite E; reflexivity|].
    split; [apply step_out; auto; cbn [body]; unfold as_ints, JGetStringChars; unfold bind at 1 2; rewrite E; reflexivity|].
    split; [apply step_read; auto; cbn [body]; unfold as_bytes, JGetStringUTFChars; unfold bind at 1 2; rewrite E; reflexivity|].
    intros start len cap. destruct os as [b|].
    + split; apply step_out; auto; cbn [body]; unfold as_ints, as_bytes, JGetStringRegion, JGetStringUTFRegion, string_nonnull; unfold bind at 1 2 3; rewrite E; reflexivity.
    + split; apply step_undef; auto; cbn [body]; unfold as_ints, as_bytes, JGetStringRegion, JGetStringUTFRegion, string_nonnull; unfold bind at 1 2 3; rewrite E; reflexivity.
  - intros o Ho. apply step_thr; auto.
    destruct Ho as [[<-|[<-|[<-|[<-|[]]]]]|(start & len & cap & [->| ->])]; cbn [body]; unfold as_int, as_ints, as_bytes, JGetStringLength, JGetStringUTFLength, JGetStringChars, JGetStringUTFChars, JGetStringRegion, JGetStringUTFRegion, string_nonnull, bind; rewrite E; reflexivity.
Qed.
Theorem buffer_reads t h i x s : good G s -> attached s t -> denotes_opt s h (Some i) -> contents s i = Some x ->
  match x with
  | PBuffer addr cap => step G t (GetDirectBufferAddress_ h) s = Some (OVal (RInt addr), s) /\ step G t (GetDirectBufferCapacity_ h) s = Some (OVal (RInt cap), s)
  | _ => step G t (GetDirectBufferAddress_ h) s = Some (OExn (Err bad_ref), s) /\ step G t (GetDirectBufferCapacity_ h) s = Some (OExn (Err bad_ref), s)
  end.
Proof.
  intros Gs A D C. pose proof (good_wf Gs) as W.
  assert (buffer_of G h s = match x with PBuffer a c => Ret (a, c) s | _ => Thr (Err bad_ref) s end) as E.
  { unfold buffer_of, bind. rewrite (@cast_eq TBuffer h i x s W D C). destruct (deref_eq C) as (o & L & P & De). destruct x; try reflexivity. cbn [isa nonnull ret]. unfold bind, ret. rewrite De, P. reflexivity. }
  destruct x; split; first [apply step_read; auto; cbn [body]; unfold as_int, GetDirectBufferAddress, GetDirectBufferCapacity, bind; rewrite E; reflexivity
    |apply step_thr; auto; cbn [body]; unfold as_int, GetDirectBufferAddress, GetDirectBufferCapacity, bind; rewrite E; reflexivity].
Qed.
End Cfg.
