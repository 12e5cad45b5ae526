(** Arrays, buffers, strings: C39 - C43, C52, C61, C62. *)
From Verif Require Import Base BaseProofs SigModel UtfModel VmState VmModel VmStep VmSpec MemSpec CallSpec RefSpec ArrSpec VmBase VmFrame VmWf VmPrim VmInv VmReg
  VmFine VmRegInv VmExact VmQuiet VmClass VmEnvInv VmMember VmMember2 VmMember3 VmTables VmHook VmMemHist VmCall VmCall2 VmThread VmDemo VmRef VmRef2 VmRef3 VmObj VmArr VmArr2 MemberProps.
Set Implicit Arguments.
Unset Strict Implicit.
Local Open Scope vm_scope.
Local Opaque after.

Lemma handle_live s h a : denotes_opt s h (Some a) -> live s a = true.
Proof. intros D. destruct h as [h|]; [|discriminate]. simpl in D. eapply denotes_target_live; eauto. Qed.
Lemma list_ext A (l m : list A) : length l = length m -> (forall j, j < length l -> nth_error l j = nth_error m j) -> l = m.
Proof.
  revert m. induction l as [|a l IH]; intros [|b m] L H; simpl in *; auto; try discriminate. pose proof (H 0 ltac:(lia)) as E. simpl in E. injection E as ->. f_equal.
  apply IH; [lia|]. intros j Lj. apply (H (S j)). lia.
Qed.

Lemma intact_denotes s s' : (forall i, live s i = true -> intact s s' i) -> forall i r, denotes s i (Some r) -> denotes s' i (Some r).
Proof.
  intros H i r D. remember (Some r) as x eqn:E. revert r E. induction D as [i o L N1 N2|i o j x L P D IH|i o j x L P Lj D IH|i o j L P Lj]; intros r E; try discriminate E.
  - injection E as <-. destruct (H i) as (o1 & o' & L1 & L' & V & _); [apply live_lookup; eauto|]. rewrite L in L1. injection L1 as <-. eapply den_obj; [exact L'| |];
      intros j Q; rewrite Q in V; destruct (o_pay o) eqn:P; simpl in V; try discriminate V; [exact (N1 _ eq_refl)|exact (N2 _ eq_refl)].
  - destruct (H i) as (o1 & o' & L1 & L' & V & _); [apply live_lookup; eauto|]. rewrite L in L1. injection L1 as <-. rewrite P in V. eapply den_global; [exact L'| |exact (IH r E)].
    destruct (o_pay o'); simpl in V; try discriminate V. exact V.
  - destruct (H i) as (o1 & o' & L1 & L' & V & _); [apply live_lookup; eauto|]. rewrite L in L1. injection L1 as <-. rewrite P in V. eapply den_weak; [exact L'| | |exact (IH r E)].
    + destruct (o_pay o'); simpl in V; try discriminate V. exact V.
    + exact (intact_live (H j Lj)).
Qed.

(** ** C39 Arrays of numbers *)
(** A new array has the requested length and zero elements. *)
Theorem C39_new G t0 t p n s : reachable G t0 s -> attached s t -> (0 <= n)%Z ->
  exists i s', step G t (NewArray_ p n) s = Some (OVal (RRef (Some i)), s') /\ made t i (PPrim p (repeat 0%Z (Z.to_nat n))) s s' /\
    exists k, class_ptr s' i = Some k /\ class_named s' ["["; pty_char p]%char k.
Proof. intros R A N. destruct (NewArray_step p (reachable_good R) A N) as (i & s' & E & _ & M). eauto. Qed.
Theorem C39_length G t0 t h a p l s : reachable G t0 s -> attached s t -> denotes_opt s h (Some a) -> contents s a = Some (PPrim p l) ->
  step G t (GetArrayLength_ h) s = Some (OVal (RInt (Z.of_nat (length l))), s).
Proof. intros R A D C. rewrite (GetArrayLength_step (reachable_good R) A D), C. destruct h; [reflexivity|discriminate]. Qed.
(** GetArrayRegion returns the elements; SetArrayRegion replaces them and changes nothing else. *)
Theorem C39_get G t0 t h a p l start len s : reachable G t0 s -> attached s t -> denotes_opt s h (Some a) -> contents s a = Some (PPrim p l) -> in_range l start len ->
  exists r, step G t (GetArrayRegion_ p h start len) s = Some (OVal (RInts r), s) /\ is_region l start len r.
Proof.
  intros R A D C I. pose proof (@GetArrayRegion_step G t p h a _ start len s (reachable_good R) A D C) as H. simpl in H. destruct (pty_eqb_spec p p); [|congruence]. apply H. auto.
Qed.
Theorem C39_set G t0 t h a p l start len buf s : reachable G t0 s -> attached s t -> denotes_opt s h (Some a) -> contents s a = Some (PPrim p l) -> in_range l start len ->
  (len <= Z.of_nat (length buf))%Z ->
  exists l' s', step G t (SetArrayRegion_ p h start len buf) s = Some (OVal RUnit, s') /\ is_written l (Z.to_nat start) (firstn (Z.to_nat len) buf) l' /\
    changed t a (PPrim p l') s s'.
Proof.
  intros R A D C I B. pose proof (@SetArrayRegion_step G t p h a _ start len buf s (reachable_good R) A D C) as H. simpl in H. destruct (pty_eqb_spec p p); [|congruence].
  destruct (proj1 H I B) as (l' & s' & E & _ & W). eauto.
Qed.
(** The elements after any history: what was written last, else what was there. *)
Theorem C39_history G t0 a l s w s' p l0 : reachable G t0 s -> writing G a l s w s' -> contents s a = Some (PPrim p l0) -> live s' a = true ->
  exists l1, contents s' a = Some (PPrim p l1) /\ updated l0 w l1.
Proof. intros R W C L. exact (writing_contents (reachable_good R) W C L). Qed.
(** Written elements are read back, by any thread through any reference, until they are overwritten. *)
Theorem C39_round_trip G t0 t u p h h' a start len buf s v s1 l s2 : reachable G t0 s -> denotes_opt s h (Some a) ->
  step G t (SetArrayRegion_ p h start len buf) s = Some (OVal v, s1) -> writing G a l s1 [] s2 -> attached s2 u -> denotes_opt s2 h' (Some a) ->
  step G u (GetArrayRegion_ p h' start len) s2 = Some (OVal (RInts (firstn (Z.to_nat len) buf)), s2).
Proof.
  intros R D St W A D'. pose proof (reachable_good R) as Gs. pose proof (step_good Gs St) as G1. destruct (region_inv Gs St) as (i & Di & [(x & l' & _ & C & Lb & (I1 & I2 & I3) & Wr & Ch)|(Q & _)]); [|discriminate].
  assert (i = a) as -> by (destruct h as [h|]; [|discriminate]; simpl in *; pose proof (denotes_fun Di D) as Q; congruence).
  destruct (writing_contents G1 W (proj1 Ch) (handle_live D')) as (l1 & C1 & U1 & U2).
  assert (good G s2) as G2 by (destruct (writing_exec W) as (vs & Ex); eapply exec_good; eauto).
  pose proof (@GetArrayRegion_step G u p h' a _ start len s2 G2 A D' C1) as H. simpl in H. destruct (pty_eqb_spec p p); [|congruence]. destruct Wr as [Wl Wn].
  destruct (proj1 H) as (r & E & (Rl & Rn)); [split; [auto|split; [auto|rewrite U1, Wl; auto]]|]. rewrite E. repeat f_equal.
  assert (length (firstn (Z.to_nat len) buf) = Z.to_nat len) as Lf by (rewrite firstn_length; lia).
  apply list_ext; [lia|]. intros j Lj. rewrite Rn, U2 by auto. simpl. rewrite Wn. destruct (Nat.leb_spec (Z.to_nat start) (Z.to_nat start + j)), (Nat.ltb_spec (Z.to_nat start + j) (Z.to_nat start + length (firstn (Z.to_nat len) buf))); try lia.
  cbn [andb]. f_equal. lia.
Qed.
(** GetArrayElements gives access to the array itself: reading shows the elements, writing changes them. *)
Theorem C39_elements G t0 t h a p l s : reachable G t0 s -> attached s t -> denotes_opt s h (Some a) -> contents s a = Some (PPrim p l) ->
  step G t (GetArrayElements_ (Some p) h) s = Some (OVal (RRef (Some a)), s) /\
  step G t (GetArrayElements_ None h) s = Some (OVal (RRef (Some a)), s) /\
  (forall u k z, nth_error l k = Some z -> step G u (ElementsRead_ a k) s = Some (OVal (RInt z), s)) /\
  (forall u k z, k < length l -> exists l' s', step G u (ElementsWrite_ a k z) s = Some (OVal RUnit, s') /\ is_written l k [z] l' /\ forall u, changed u a (PPrim p l') s s').
Proof.
  intros R A D C. pose proof (reachable_good R) as Gs. split; [|split; [|split]].
  - rewrite (GetArrayElements_step (Some p) Gs A D C). destruct (pty_eqb_spec p p); congruence.
  - rewrite (GetArrayElements_step None Gs A D C). reflexivity.
  - intros u k z H. rewrite (ElementsRead_step u k Gs C), H. reflexivity.
  - intros u k z H. destruct (ElementsWrite_step u k z Gs C) as [H1 _]. destruct (H1 H) as (l' & s' & E & _ & W). eauto.
Qed.
Theorem C39_elements_null G t0 t p s : reachable G t0 s -> attached s t ->
  step G t (GetArrayElements_ p None) s = Some (OVal (RRef None), s) /\ step G t (GetArrayLength_ None) s = Some (OVal (RInt 0), s).
Proof. intros R A. pose proof (reachable_good R) as Gs. split; apply step_read; auto. Qed.
Ltac glob_tac := unfold denotes_opt; eapply den_global; [vm_compute; reflexivity|vm_compute; reflexivity|den_tac].
(** two threads write to overlapping regions, one through a global reference *)
Definition ex_prim : list event := [(main, NewArray_ PtI 4); (main, NewGlobalRef_ (Some 10)); (2, Attach_)].
Definition ex_prim_writes : list event :=
  [(main, SetArrayRegion_ PtI (Some 10) 1 2 [7; 8; 9]%Z); (2, FindClass_ (S_ "A")); (2, SetArrayRegion_ PtI (Some 11) 2 2 [5; 6]%Z); (main, SetArrayRegion_ PtB (Some 10) 0 1 [1]%Z);
   (2, NewArray_ PtI 2); (2, SetArrayRegion_ PtI (Some 13) 0 1 [3]%Z); (main, ElementsWrite_ 10 0 4%Z)].
Example C39_ex : runs Gd ex_prim = true /\ contents (after Gd ex_prim) 10 = Some (PPrim PtI [0; 0; 0; 0]%Z) /\ denotes (after Gd ex_prim) 11 (Some 10) /\
  exists s', writing Gd 10 ex_prim_writes (after Gd ex_prim) [(1, [7; 8]%Z); (2, [5; 6]%Z); (0, [4]%Z)] s' /\ contents s' 10 = Some (PPrim PtI [4; 7; 5; 6]%Z).
Proof.
  split; [vm_compute; reflexivity|]. split; [vm_compute; reflexivity|]. split; [glob_tac|]. eexists. split.
  eapply (@wr_region _ _ _ _ (Some 10) 1 2 [7; 8; 9]%Z); [den_tac|vm_compute; reflexivity|].
  eapply wr_other; [discriminate|discriminate|vm_compute; reflexivity|].
  eapply (@wr_region _ _ _ _ (Some 11) 2 2 [5; 6]%Z); [glob_tac|vm_compute; reflexivity|].
  eapply wr_wrong_type; [vm_compute; reflexivity|].
  eapply wr_other; [discriminate|discriminate|vm_compute; reflexivity|].
  eapply wr_other; [|discriminate|vm_compute; reflexivity|].
  { intros ? ? ? ? ? [= <- <- <- <- <-] D. match type of D with denotes_opt ?s _ _ => assert (denotes_opt s (Some 13) (Some 13)) as D' by den_tac end. pose proof (denotes_fun D D') as Q. discriminate Q. }
  eapply wr_direct; [vm_compute; reflexivity|]. apply wr_nil. vm_compute. reflexivity.
Qed.

(** ** C40 Out of range *)
(** The claim: an index or length out of range is reported. *)
Definition C40_claim : Prop := forall G t0 t s h a p l start len, reachable G t0 s -> attached s t -> denotes_opt s h (Some a) -> contents s a = Some (PPrim p l) ->
  ~ in_range l start len -> exists e s', step G t (GetArrayRegion_ p h start len) s = Some (OExn e, s').
(** Instead, every access out of range is undefined behaviour, without exception. *)
Theorem C40_undefined G t0 t h a s : reachable G t0 s -> attached s t -> denotes_opt s h (Some a) ->
  (forall p l, contents s a = Some (PPrim p l) ->
     (forall start len, ~ in_range l start len -> step G t (GetArrayRegion_ p h start len) s = None) /\
     (forall start len buf, ~ in_range l start len \/ (Z.of_nat (length buf) < len)%Z -> step G t (SetArrayRegion_ p h start len buf) s = None) /\
     (forall u k, length l <= k -> step G u (ElementsRead_ a k) s = None) /\
     (forall u k z, length l <= k -> step G u (ElementsWrite_ a k z) s = None)) /\
  (forall p l k, contents s a = Some (PArr p l) -> (k < 0 \/ Z.of_nat (length l) <= k)%Z ->
     step G t (GetObjectArrayElement_ h k) s = None /\
     forall x v, denotes_opt s x v -> step G t (SetObjectArrayElement_ h k x) s = None \/ step G t (SetObjectArrayElement_ h k x) s = Some (OExn (Err (S_ "Class Type Exception")), s)).
Proof.
  intros R A D. pose proof (reachable_good R) as Gs. split.
  - intros p l C. split; [|split; [|split]].
    + intros start len N. pose proof (@GetArrayRegion_step G t p h a _ start len s Gs A D C) as H. simpl in H. destruct (pty_eqb_spec p p); [|congruence]. apply H, N.
    + intros start len buf N. pose proof (@SetArrayRegion_step G t p h a _ start len buf s Gs A D C) as H. simpl in H. destruct (pty_eqb_spec p p); [|congruence]. apply H. intros (I & J). destruct N; [auto|lia].
    + intros u k L. rewrite (ElementsRead_step u k Gs C). apply nth_error_None in L. rewrite L. reflexivity.
    + intros u k z L. apply (ElementsWrite_step u k z Gs C). auto.
  - intros p l k C N. split.
    + pose proof (@GetObjectArrayElement_step G t h a _ k s Gs A D C) as H. cbv beta iota in H. destruct (Z.ltb_spec k 0); [exact H|].
      destruct (nth_error l (Z.to_nat k)) eqn:E; [|exact H]. assert (Z.to_nat k < length l) by (apply nth_error_Some; congruence). unfold oid in *. lia.
    + intros x v Dx. pose proof (@SetObjectArrayElement_step G t h a _ k x v s Gs A Dx D C) as H. cbv beta iota in H. destruct H as (H1 & _ & H3).
      destruct (elem_ok G s p v); [left; apply H3; auto; unfold oid in *; lia|right; auto].
Qed.
Theorem C40_refuted : ~ C40_claim.
Proof.
  intros H. assert (runs Gd ex_prim = true) as Rn by (vm_compute; reflexivity).
  destruct (H Gd main main (after Gd ex_prim) (Some 10) 10 PtI [0; 0; 0; 0]%Z 1%Z 5%Z) as (e & s' & E).
  - apply after_reachable; [exact Rn].
  - eexists. vm_compute. reflexivity.
  - den_tac.
  - vm_compute. reflexivity.
  - intros (_ & _ & K). vm_compute in K. apply K. reflexivity.
  - assert (step Gd main (GetArrayRegion_ PtI (Some 10) 1 5) (after Gd ex_prim) = None) as Q by (vm_compute; reflexivity). rewrite Q in E. discriminate E.
Qed.
(** What is reported: negative lengths and arrays of the wrong type; the call then has no effect. (Missing: the check of indices, of which
    there is none.) *)
Theorem C40_partial G t0 t s : reachable G t0 s -> attached s t ->
  (forall p n, (n < 0)%Z -> step G t (NewArray_ p n) s = Some (OExn (Err (S_ "std::bad_array_new_length")), s)) /\
  (forall n h c k x, denotes_opt s h (Some c) -> contents s c = Some (PClass k) -> (forall i, x = Some i -> live s i = true) -> (n < 0)%Z ->
     exists s', step G t (NewObjectArray_ n h x) s = Some (OExn (Err (S_ "std::bad_array_new_length")), s') /\ no_effect t s s') /\
  (forall h a y, denotes_opt s h (Some a) -> contents s a = Some y ->
     (forall p, (forall l, y <> PPrim p l) -> forall start len,
        step G t (GetArrayRegion_ p h start len) s = Some (OExn (Err bad_ref), s) /\
        (forall buf, step G t (SetArrayRegion_ p h start len buf) s = Some (OExn (Err bad_ref), s)) /\
        step G t (GetArrayElements_ (Some p) h) s = Some (OExn (Err bad_ref), s)) /\
     ((forall p l, y <> PArr p l) -> forall k,
        step G t (GetObjectArrayElement_ h k) s = Some (OExn (Err bad_ref), s) /\
        forall x v, denotes_opt s x v -> step G t (SetObjectArrayElement_ h k x) s = Some (OExn (Err bad_ref), s)) /\
     ((forall p l, y <> PArr p l) -> (forall p l, y <> PPrim p l) -> step G t (GetArrayLength_ h) s = Some (OExn (Err bad_ref), s))).
Proof.
  intros R A. pose proof (reachable_good R) as Gs. split; [|split].
  - intros p n N. apply NewArray_negative; auto.
  - intros n h c k x D C Lx N. destruct (NewObjectArray_step n Gs A D C Lx) as (p & _ & H & _). destruct (H N) as (s' & E & _ & Ne). eauto.
  - intros h a y D C. split; [|split].
    + intros p Ny start len. split; [|split].
      * pose proof (@GetArrayRegion_step G t p h a _ start len s Gs A D C) as H. destruct y; auto. destruct (pty_eqb_spec p0 p); [subst; exfalso; eapply Ny; eauto|exact H].
      * intros buf. pose proof (@SetArrayRegion_step G t p h a _ start len buf s Gs A D C) as H. destruct y; auto. destruct (pty_eqb_spec p0 p); [subst; exfalso; eapply Ny; eauto|exact H].
      * rewrite (GetArrayElements_step (Some p) Gs A D C). destruct y; auto. destruct (pty_eqb_spec p0 p); [subst; exfalso; eapply Ny; eauto|reflexivity].
    + intros Ny k. split.
      * pose proof (@GetObjectArrayElement_step G t h a _ k s Gs A D C) as H. destruct y; auto. exfalso. eapply Ny; eauto.
      * intros x v Dx. pose proof (@SetObjectArrayElement_step G t h a _ k x v s Gs A Dx D C) as H. destruct y; auto. exfalso. eapply Ny; eauto.
    + intros N1 N2. rewrite (GetArrayLength_step Gs A D), C. destruct h; [|discriminate]. destruct y; auto; exfalso; [eapply N2|eapply N1]; eauto.
Qed.

(** ** C41 Arrays of objects *)
Theorem C41_set G t0 t h a p l k x v s : reachable G t0 s -> numbered G -> attached s t -> denotes_opt s h (Some a) -> contents s a = Some (PArr p l) -> (0 <= k < Z.of_nat (length l))%Z ->
  denotes_opt s x v -> accepts G s p v ->
  exists l' s', step G t (SetObjectArrayElement_ h k x) s = Some (OVal RUnit, s') /\ is_stored l (Z.to_nat k) v l' /\ stored t a (PArr p l') s s'.
Proof.
  intros R N A D C K Dx Ac. pose proof (@SetObjectArrayElement_step G t h a _ k x v s (reachable_good R) A Dx D C) as H. cbv beta iota in H. destruct H as (_ & H & _).
  destruct (H (proj2 (elem_ok_accepts s p v N) Ac) K) as (l' & s' & E & _ & St). eauto.
Qed.
Theorem C41_refused G t0 t h a p l k x v s : reachable G t0 s -> numbered G -> attached s t -> denotes_opt s h (Some a) -> contents s a = Some (PArr p l) ->
  denotes_opt s x v -> ~ accepts G s p v -> step G t (SetObjectArrayElement_ h k x) s = Some (OExn (Err (S_ "Class Type Exception")), s).
Proof.
  intros R N A D C Dx Na. pose proof (@SetObjectArrayElement_step G t h a _ k x v s (reachable_good R) A Dx D C) as H. cbv beta iota in H. destruct H as (H & _).
  apply H. destruct (elem_ok G s p v) eqn:E; auto. exfalso. apply Na. apply elem_ok_accepts; auto.
Qed.
Theorem C41_get G t0 t h a p l k s : reachable G t0 s -> attached s t -> denotes_opt s h (Some a) -> contents s a = Some (PArr p l) -> (0 <= k < Z.of_nat (length l))%Z ->
  exists v s', nth_error l (Z.to_nat k) = Some v /\ step G t (GetObjectArrayElement_ h k) s = Some (OVal (RRef v), s') /\
    match v with
    | None => s' = s
    | Some i => live s i = true /\ gained t (add_local (frames s t) i) (s_globals s) (s_ext s) s s' /\ forall j, live s' j = live s j
    end.
Proof.
  intros R A D C K. pose proof (reachable_good R) as Gs. pose proof (@GetObjectArrayElement_step G t h a _ k s Gs A D C) as H. cbv beta iota in H. destruct (Z.ltb_spec k 0); [lia|].
  destruct (nth_error l (Z.to_nat k)) as [[i|]|] eqn:E.
  - destruct H as (s' & St & _ & Gn & Lv). exists (Some i), s'. split; auto. split; auto. split; auto. apply contents_lookup in C. destruct C as (o & L & P).
    apply (@wf_refs s a o i (good_wf Gs) L). rewrite P. simpl. apply in_flat_map. exists (Some i). split; [eapply nth_error_In; eauto|left; reflexivity].
  - exists None, s. auto.
  - apply nth_error_None in E. unfold oid in *. lia.
Qed.
(** The elements after any history *)
Theorem C41_history G t0 a l s w s' p l0 : reachable G t0 s -> storing G a l s w s' -> contents s a = Some (PArr p l0) -> live s' a = true ->
  exists l1, contents s' a = Some (PArr p l1) /\ restored l0 w l1.
Proof. intros R W C L. exact (storing_contents (reachable_good R) W C L). Qed.
(** A stored object is what GetObjectArrayElement returns, until another one is stored there: for any thread, through any reference. *)
Theorem C41_round_trip G t0 t u h h' a k x v s y s1 l w s2 : reachable G t0 s -> denotes_opt s h (Some a) -> denotes_opt s x v ->
  step G t (SetObjectArrayElement_ h k x) s = Some (OVal y, s1) -> storing G a l s1 w s2 -> (forall z, ~ In (Z.to_nat k, z) w) -> attached s2 u -> denotes_opt s2 h' (Some a) ->
  exists s3, step G u (GetObjectArrayElement_ h' k) s2 = Some (OVal (RRef v), s3).
Proof.
  intros R D Dx St W Nw A D'. pose proof (reachable_good R) as Gs. pose proof (step_good Gs St) as G1.
  destruct (store_inv Gs St) as (i & z & Di & Dz & H).
  assert (i = a) as -> by (destruct h as [h|]; [|discriminate]; simpl in *; pose proof (denotes_fun Di D) as Q; congruence).
  assert (z = v) as -> by (destruct x as [x|]; simpl in *; [pose proof (denotes_fun Dz Dx) as Q; congruence|congruence]).
  destruct H as [(p & l0 & l' & _ & C & _ & K & Sl & Sd)|((e & Q) & _)]; [|discriminate].
  destruct (storing_exec W) as (vs & Ex). assert (live s1 a = true) as L1.
  { eapply live_back; [exact (good_wf Gs)|exact St|exact Ex| |exact (handle_live D')]. apply contents_lookup in C. destruct C as (o & L & _). exact (lookup_lt _ _ L). }
  destruct (storing_contents G1 W (sd_contents Sd L1) (handle_live D')) as (l1 & C1 & U1 & U2).
  assert (good G s2) as G2 by (eapply exec_good; eauto).
  pose proof (@GetObjectArrayElement_step G u h' a _ k s2 G2 A D' C1) as H. cbv beta iota in H. destruct (Z.ltb_spec k 0); [lia|].
  assert (last_stored w (Z.to_nat k) = None) as Ln.
  { clear -Nw. induction w as [|[j z] w IH]; [reflexivity|]. simpl. rewrite IH by (intros z' Hz; apply (Nw z'); right; exact Hz).
    destruct (Nat.eqb_spec (Z.to_nat k) j); [|reflexivity]. exfalso. apply (Nw z). left. congruence. }
  rewrite U2, Ln in H. destruct Sl as [_ Sn]. rewrite Sn, Nat.eqb_refl in H. destruct v as [i|]; [destruct H as (s3 & E & _); eauto|eauto].
Qed.
(** The array keeps its elements alive: while it is referenced they are. *)
Theorem C41_keeps G t0 s a p l i : reachable G t0 s -> contents s a = Some (PArr p l) -> In (Some i) l -> live s i = true /\ (strong s a -> strong s i).
Proof.
  intros R C Hi. pose proof (good_wf (reachable_good R)) as W. apply contents_lookup in C. destruct C as (o & L & P).
  assert (In i (refs (o_pay o))) as Hr by (rewrite P; simpl; apply in_flat_map; exists (Some i); split; [auto|left; reflexivity]).
  split; [exact (@wf_refs s a o i W L Hr)|]. intros S. eapply sr_owner; [exact S|]. exists (PArr p l). split; [apply contents_lookup; eauto|constructor; auto].
Qed.
(** Class 0 has arrays of its own; an instance is stored through a weak reference by a second thread. *)
Definition ex_arr : list event :=
  [(main, UBind_ 0 true (S_ "A")); (main, UDeclareArray_ 0); (main, UNew_ 0 0); (main, UToJNI_ (TUser 0) 11); (main, NewWeakGlobalRef_ (Some 11)); (main, NewObjectArray_ 2 (Some 9) None); (main, NewGlobalRef_ (Some 13)); (2, Attach_)].
Definition ex_arr_stores : list event :=
  [(2, SetObjectArrayElement_ (Some 14) 1 (Some 12)); (main, SetObjectArrayElement_ (Some 13) 0 (Some 9)); (main, DeleteLocalRef_ (Some 11)); (main, UDrop_ 11)].
Lemma Gd_numbered : numbered Gd.
Proof.
  intros n l k. assert (forall n, n < 6 -> forall l, ubases Gd n = Some l -> In (Some k) l -> k < n) as H.
  { intros m Lm. do 6 (destruct m; [simpl; intros l' [= <-] Hk; simpl in Hk; intuition congruence||(intuition; try congruence; match goal with H : Some _ = Some _ |- _ => injection H as <-; lia end)|]). lia. }
  destruct (Nat.lt_ge_cases n 6); [apply H; auto|]. destruct n as [|[|[|[|[|[|n]]]]]]; try lia. simpl. discriminate.
Qed.
Example C41_ex : runs Gd ex_arr = true /\ contents (after Gd ex_arr) 13 = Some (PArr (Some 0) [None; None]) /\ denotes (after Gd ex_arr) 14 (Some 13) /\
  accepts Gd (after Gd ex_arr) (Some 0) (Some 11) /\
  exists s', storing Gd 13 ex_arr_stores (after Gd ex_arr) [(1, Some 11)] s' /\ contents s' 13 = Some (PArr (Some 0) [None; Some 11]) /\ live s' 11 = true.
Proof.
  split; [vm_compute; reflexivity|]. split; [vm_compute; reflexivity|]. split; [glob_tac|]. split.
  { exists 0. split; [constructor; intros l [= <-]; right; left; reflexivity|]. exists 0, []. split; [vm_compute; reflexivity|constructor]. }
  eexists. split.
  eapply (@so_set _ _ _ (Some 14) 1 (Some 12) (Some 11)); [glob_tac| |vm_compute; reflexivity|].
  { unfold denotes_opt. eapply den_weak; [vm_compute; reflexivity|vm_compute; reflexivity|vm_compute; reflexivity|den_tac]. }
  eapply so_refused; [vm_compute; reflexivity|]. eapply so_other; [discriminate|vm_compute; reflexivity|]. eapply so_other; [discriminate|vm_compute; reflexivity|].
  apply so_nil. split; vm_compute; reflexivity.
Qed.

(** ** C42 NewObjectArray *)
(** The claim: all elements are the object that the initial value denotes. *)
Definition C42_claim : Prop := forall G t0 t s n h c k p x j, reachable G t0 s -> numbered G -> attached s t -> denotes_opt s h (Some c) -> contents s c = Some (PClass k) ->
  array_elem s (array_name (c_prefix k)) p -> denotes_opt s x (Some j) -> accepts G s p (Some j) -> (0 <= n)%Z ->
  exists i s', step G t (NewObjectArray_ n h x) s = Some (OVal (RRef (Some i)), s') /\ contents s' i = Some (PArr p (repeat (Some j) (Z.to_nat n))).
(** What holds: the elements are the given reference itself.  For an ordinary reference this is what was promised; global and weak references are stored as
    such, so that arrays whose element type is known refuse them and a weak one does not keep the object alive. *)
Theorem C42_partial G t0 t s n h c k x : reachable G t0 s -> numbered G -> attached s t -> denotes_opt s h (Some c) -> contents s c = Some (PClass k) ->
  (forall i, x = Some i -> live s i = true) -> (0 <= n)%Z ->
  exists p, array_elem s (array_name (c_prefix k)) p /\
    (n = 0%Z \/ accepts G s p x ->
     exists i s', step G t (NewObjectArray_ n h x) s = Some (OVal (RRef (Some i)), s') /\ made t i (PArr p (repeat x (Z.to_nat n))) s s' /\
       (exists ci, class_ptr s' i = Some ci /\ class_named s' (array_name (c_prefix k)) ci) /\
       (forall w j, x = Some w -> (0 < n)%Z -> denotes s w (Some j) -> strong s' w /\ denotes s' w (Some j))) /\
    ((0 < n)%Z -> ~ accepts G s p x ->
     exists s', step G t (NewObjectArray_ n h x) s = Some (OExn (Err (S_ "Class Type Exception")), s') /\ no_effect t s s').
Proof.
  intros R N A D C Lx Nn. pose proof (reachable_good R) as Gs. destruct (NewObjectArray_step n Gs A D C Lx) as (p & Ae & _ & H1 & H2). exists p. split; [exact Ae|]. split.
  - intros Ac. destruct H1 as (i & s' & E & G' & M & K); [auto|destruct Ac as [Ac|Ac]; [left; auto|right; apply elem_ok_accepts; auto]|].
    exists i, s'. split; [exact E|]. split; [exact M|]. split; [exact K|]. intros w j -> Ln Dw. split.
    + eapply sr_owner with (k := i).
      * apply sr_anchor. apply an_local with (t := t). unfold local_ref. rewrite (gn_frames (md_gained M)). destruct A as (e & Ee). pose proof (wf_env_ok (good_wf Gs) Ee) as (_ & Nf & _).
        rewrite (frames_env Ee). destruct (e_frames e) as [|f r]; [congruence|]. exists (f ++ [i]). split; [left; reflexivity|]. apply in_or_app. right. left. reflexivity.
      * exists (PArr p (repeat (Some w) (Z.to_nat n))). split; [apply M|]. constructor. destruct (Z.to_nat n) eqn:En; [lia|]. left. reflexivity.
    + eapply intact_denotes; [|exact Dw]. intros y Ly. exact (gn_obj (md_gained M) Ly).
  - intros Ln Na. destruct H2 as (s' & E & _ & Ne); [auto| |eauto]. destruct (elem_ok G s p x) eqn:E; auto. exfalso. apply Na. apply elem_ok_accepts; auto.
Qed.

(** An object of class 0 (11) with a weak (12) and a global reference (14); class B (13) whose arrays take any object *)
Definition ex_init : list event :=
  [(main, UBind_ 0 true (S_ "A")); (main, UDeclareArray_ 0); (main, UNew_ 0 0); (main, UToJNI_ (TUser 0) 11); (main, NewWeakGlobalRef_ (Some 11)); (main, FindClass_ (S_ "B"));
   (main, NewGlobalRef_ (Some 11)); (main, UDrop_ 11)].
Lemma elem_of G s n ci q : inv G s -> get_class s n = Some ci ->
  option_map (fun o => match o_pay o with PClass k => c_instarr k | _ => None end) (lookup s ci) = Some q -> forall p, array_elem s n p <-> p = q.
Proof.
  intros I Gc Q p. destruct (class_named_iff n ci I) as [_ Cn]. specialize (Cn Gc). split.
  - intros [H _]. pose proof Cn as (o & k & L & P & _). rewrite L in Q. simpl in Q. rewrite P in Q. injection Q as Q. rewrite (H ci k); auto. unfold contents. rewrite L. simpl. congruence.
  - intros ->. split; [|intros N; exfalso; apply N; exists ci; exact Cn]. intros cj k Cc C. apply (class_named_iff _ _ I) in Cc. assert (cj = ci) as -> by congruence.
    unfold contents in C. destruct (lookup s ci) as [o|]; [|discriminate]. simpl in *. injection C as C. rewrite C in Q. congruence.
Qed.
Lemma class_of s i n : option_map (fun o => match o_pay o with PClass k => Some (c_prefix k) | _ => None end) (lookup s i) = Some (Some n) ->
  exists k, contents s i = Some (PClass k) /\ c_prefix k = n.
Proof. unfold contents. destruct (lookup s i) as [o|]; [|discriminate]. simpl. destruct (o_pay o); try discriminate. intros [= <-]. eauto. Qed.
Lemma ex_init_elem : forall p, array_elem (after Gd ex_init) (array_name (S_ "A")) p <-> p = Some 0.
Proof.
  apply (@elem_of Gd _ _ 10).
  - apply g_inv. apply reachable_good with (t := main). apply after_reachable. vm_compute; reflexivity.
  - vm_compute; reflexivity.
  - vm_compute; reflexivity.
Qed.
Example C42_ex : runs Gd ex_init = true /\ contents (after Gd ex_init) 9 <> None /\ accepts Gd (after Gd ex_init) (Some 0) (Some 11) /\
  exists s', step Gd main (NewObjectArray_ 2 (Some 9) (Some 11)) (after Gd ex_init) = Some (OVal (RRef (Some 15)), s') /\ contents s' 15 = Some (PArr (Some 0) [Some 11; Some 11]).
Proof.
  split; [vm_compute; reflexivity|]. split; [vm_compute; discriminate|]. split.
  { exists 0. split; [constructor; intros l [= <-]; right; left; reflexivity|]. exists 0, []. split; [vm_compute; reflexivity|constructor]. }
  eexists. split; [vm_compute; reflexivity|vm_compute; reflexivity].
Qed.
(** ... a global reference to the same object is refused. *)
Theorem C42_refuted : ~ C42_claim.
Proof.
  intros H. assert (runs Gd ex_init = true) as Rn by (vm_compute; reflexivity).
  assert (exists k, contents (after Gd ex_init) 9 = Some (PClass k) /\ c_prefix k = S_ "A") as (k & C & Pk).
  { apply class_of. vm_compute; reflexivity. }
  destruct (H Gd main main (after Gd ex_init) 2%Z (Some 9) 9 k (Some 0) (Some 14) 11) as (i & s' & E & _).
  - apply after_reachable. exact Rn.
  - exact Gd_numbered.
  - eexists. vm_compute. reflexivity.
  - den_tac.
  - exact C.
  - rewrite Pk. apply ex_init_elem. reflexivity.
  - glob_tac.
  - exact (proj1 (proj2 (proj2 C42_ex))).
  - lia.
  - assert (option_map fst (step Gd main (NewObjectArray_ 2 (Some 9) (Some 14)) (after Gd ex_init)) = Some (OExn (Err (S_ "Class Type Exception")))) as Q by (vm_compute; reflexivity).
    rewrite E in Q. discriminate Q.
Qed.
(** ... and an array filled through a weak reference does not keep the object: it is gone although the array is still referenced. *)
Definition ex_init_weak : list event := ex_init ++ [(main, NewObjectArray_ 2 (Some 13) (Some 12)); (main, DeleteGlobalRef_ (Some 14)); (main, DeleteLocalRef_ (Some 11))].
Theorem C42_weak_refuted : runs Gd ex_init_weak = true /\ contents (after Gd ex_init_weak) 16 = Some (PArr None [Some 12; Some 12]) /\ local_ref (after Gd ex_init_weak) main 16 /\
  live (after Gd ex_init_weak) 11 = false /\ denotes (after Gd ex_init_weak) 12 None.
Proof.
  split; [vm_compute; reflexivity|]. split; [vm_compute; reflexivity|]. split; [exists [13; 16]; split; [vm_compute; auto|vm_compute; auto]|]. split; [vm_compute; reflexivity|].
  eapply den_dead; vm_compute; reflexivity.
Qed.

(** ** C43 Element types *)
Definition C43_claim : Prop := forall G t0 s a n l i, reachable G t0 s -> numbered G -> contents s a = Some (PArr (Some n) l) -> In (Some i) l -> instance_of G s i n.
(** The elements are instances of the topmost ancestor of the element class. *)
Theorem C43_partial G t0 s a n l i : reachable G t0 s -> numbered G -> contents s a = Some (PArr (Some n) l) -> In (Some i) l ->
  exists m, top_ancestor G n m /\ instance_of G s i m.
Proof. intros R N C Hi. pose proof (typed_reachable R C Hi) as H. exact (proj1 (elem_ok_accepts s (Some n) (Some i) N) H). Qed.
(** So the claim holds of classes that name Object among their bases, in particular of those without any other base. *)
Theorem C43_flat G t0 s a n l i : reachable G t0 s -> numbered G -> contents s a = Some (PArr (Some n) l) -> In (Some i) l -> (forall bs, ubases G n = Some bs -> bs = [] \/ In None bs) -> instance_of G s i n.
Proof.
  intros R N C Hi T. destruct (C43_partial R N C Hi) as (m & Tm & H). inversion Tm; subst; auto. exfalso.
  destruct (T _ H0) as [Z|[Z|Z]]; [discriminate|discriminate|contradiction].
Qed.
Definition ex_typed : list event :=
  [(main, UBind_ 0 true (S_ "A")); (main, UBind_ 1 true (S_ "B")); (main, UBind_ 2 true (S_ "C")); (main, UDeclareArray_ 2); (main, UNew_ 0 0); (main, UNew_ 2 0);
   (main, UToJNI_ (TUser 0) 13); (main, UToJNI_ (TUser 2) 14); (main, NewObjectArray_ 2 (Some 11) (Some 14)); (main, SetObjectArrayElement_ (Some 15) 0 (Some 13))].
(** Class 2 derives from 1, and 1 from 0: an instance of 0 is accepted by an array of class 2. *)
Theorem C43_refuted : ~ C43_claim.
Proof.
  intros H. destruct (H Gd main (after Gd ex_typed) 15 2 [Some 13; Some 14] 13) as (m & l & C & D).
  - apply after_reachable. vm_compute. reflexivity.
  - exact Gd_numbered.
  - vm_compute. reflexivity.
  - left. reflexivity.
  - assert (contents (after Gd ex_typed) 13 = Some (PUser 0 [])) as Q by (vm_compute; reflexivity). rewrite Q in C. injection C as <- <-.
    inversion D; subst. discriminate.
Qed.
Example C43_ex : runs Gd ex_typed = true /\ contents (after Gd ex_typed) 15 = Some (PArr (Some 2) [Some 13; Some 14]) /\ top_ancestor Gd 2 0 /\ instance_of Gd (after Gd ex_typed) 14 2.
Proof.
  split; [vm_compute; reflexivity|]. split; [vm_compute; reflexivity|]. split.
  - eapply ta_base; [reflexivity|intros []|]. eapply ta_base; [reflexivity|intros []|]. constructor. intros l H. discriminate H.
  - exists 2, []. split; [vm_compute; reflexivity|constructor].
Qed.
(** How a class gets typed arrays: by naming them in a C++ signature. The first type stays. *)
Theorem C43_declare G t0 t n c k s : reachable G t0 s -> attached s t -> registered s (TUser n) = Some c -> contents s c = Some (PClass k) ->
  exists ci p s' ck, step G t (UDeclareArray_ n) s = Some (OVal RUnit, s') /\ class_named s' (S_ "[L" ++ c_prefix k ++ S_ ";") ci /\ array_elem s (S_ "[L" ++ c_prefix k ++ S_ ";") p /\
    contents s' ci = Some (PClass ck) /\ c_instarr ck = Some (match p with Some m => m | None => n end) /\
    disturbs (eq ci) t s s' /\ frames s' t = frames s t /\ (forall j, live s' j = true -> live s j = true \/ is_cls s' j = true) /\
    (live s ci = true -> exists c0, contents s ci = Some (PClass c0) /\ c_name ck = c_name c0 /\ c_prefix ck = c_prefix c0 /\ c_fields ck = c_fields c0 /\ c_methods ck = c_methods c0 /\
       c_natives ck = c_natives c0 /\ c_inst ck = c_inst c0 /\ c_bases ck = c_bases c0 /\ monitor s' ci = monitor s ci).
Proof.
  intros R A Rg C. pose proof (reachable_good R) as Gs. pose proof (good_wf Gs) as W. destruct (deref_eq C) as (o & L & P & De).
  set (nm := S_ "[L" ++ c_prefix k ++ S_ ";"). destruct (find_kept nm Gs) as (ci & s1 & Ef & I1 & Q & K & T1 & Gc).
  pose proof (inv_wf I1) as W1. pose proof (proj2 (class_named_iff _ _ I1) Gc) as Cn. pose proof Cn as (oc & c1 & Lc & Pc & Pn).
  assert (contents s1 ci = Some (PClass c1)) as Cc by (unfold contents; rewrite Lc; simpl; congruence).
  set (ck := mkCls (c_name c1) (c_prefix c1) (c_inner c1) (c_fields c1) (c_methods c1) (c_natives c1) (c_inst c1) (match c_instarr c1 with Some x => Some x | None => Some n end) (c_bases c1)).
  set (s2 := put s1 ci (set_pay oc (PClass ck))).
  assert (obj_ok s1 (set_pay oc (PClass ck)) = true) as Ok.
  { pose proof (wf_obj W1 _ Lc) as H. unfold obj_ok in *. rewrite Pc in H. exact H. }
  assert (tidy s2) as T2 by (apply (put_tidy Lc); [simpl; rewrite Pc; reflexivity|exact T1]).
  assert (step G t (UDeclareArray_ n) s = Some (OVal RUnit, s2)) as St.
  { unfold step. rewrite run_attached by auto. cbn [body]. unfold as_unit, declare_array, bind, gets. change (type_class s (TUser n)) with (registered s (TUser n)). rewrite Rg.
    unfold get_cls, bind. rewrite De, P. unfold ret at 1. change ("["%char :: "L"%char :: c_prefix k ++ [";"%char]) with nm. rewrite Ef. cbn [nonnull]. unfold ret at 1.
    unfold set_instarr, upd_cls, bind, deref. rewrite Lc, Pc. fold ck. unfold put_obj, check, bind. rewrite Ok. unfold ret.
    change (Some (OVal RUnit, finish s2) = Some (OVal RUnit, s2)). rewrite (tidy_finish_id T2). reflexivity. }
  pose proof (step_good Gs St) as G2.
  exists ci, (c_instarr c1), s2, ck. split; [exact St|]. split.
  { exists (set_pay oc (PClass ck)), ck. split; [|split; [reflexivity|exact Pn]]. unfold s2. rewrite (lookup_put _ _ Lc), Nat.eqb_refl. reflexivity. }
  split; [exact (array_elem_quiet Gs I1 Q K Cn Cc)|]. split; [unfold contents, s2; rewrite (lookup_put _ _ Lc), Nat.eqb_refl; reflexivity|].
  split; [simpl; destruct (c_instarr c1); reflexivity|].
  pose proof (quiet_undisturbed t Q) as U. split; [|split; [|split]].
  - eapply disturbs_then; [|apply (put_disturbs _ _ Lc)|auto]. destruct U. constructor; auto.
  - change (frames s1 t = frames s t). unfold frames. rewrite (quiet_env t Q). reflexivity.
  - intros j Lj. unfold s2 in Lj |- *. rewrite (live_put _ _ Lc) in Lj. destruct (quiet_new Q Lj) as [H|H]; [auto|right].
    unfold is_cls in *. rewrite (lookup_put _ _ Lc). match goal with |- context[Nat.eqb ?a ?b] => destruct (Nat.eqb_spec a b) end; [reflexivity|exact H].
  - intros Lv. destruct (quiet_intact Q Lv) as (o0 & o1 & L0 & L1 & V & M & _). rewrite Lc in L1. injection L1 as <-. rewrite Pc in V.
    destruct (o_pay o0) eqn:P0; simpl in V; try discriminate V. exists c0. split; [unfold contents; rewrite L0; simpl; congruence|]. injection V as V1 V2 V3 V4 V5 V6 V7 V8.
    simpl. unfold monitor. rewrite L0. change (o_mon oc = o_mon o0) in M. unfold s2. rewrite (lookup_put _ _ Lc), Nat.eqb_refl. simpl. auto 12.
Qed.
Example C43_declare_ex : runs Gd [(main, UBind_ 0 true (S_ "A"))] = true /\ registered (after Gd [(main, UBind_ 0 true (S_ "A"))]) (TUser 0) = Some 9 /\
  exists k, contents (after Gd [(main, UBind_ 0 true (S_ "A"))]) 9 = Some (PClass k) /\ c_prefix k = S_ "A".
Proof. split; [vm_compute; reflexivity|]. split; [vm_compute; reflexivity|]. apply class_of. vm_compute; reflexivity. Qed.

(** ** C52 Direct buffers *)
Theorem C52_new G t0 t addr cap s : reachable G t0 s -> attached s t ->
  exists i s', step G t (NewDirectByteBuffer_ addr cap) s = Some (OVal (RRef (Some i)), s') /\ made t i (PBuffer addr cap) s s' /\ class_ptr s' i = registered s TBuffer.
Proof. intros R A. destruct (NewDirectByteBuffer_step addr cap (reachable_good R) A) as (i & s' & E & _ & M). eauto. Qed.
(** Whatever happens in between, and through any reference: address and capacity are those passed to NewDirectByteBuffer. *)
Theorem C52_round_trip G t0 t u addr cap h i s s1 l vs s2 : reachable G t0 s -> step G t (NewDirectByteBuffer_ addr cap) s = Some (OVal (RRef (Some i)), s1) ->
  exec G l s1 = Some (vs, s2) -> attached s2 u -> denotes_opt s2 h (Some i) ->
  step G u (GetDirectBufferAddress_ h) s2 = Some (OVal (RInt addr), s2) /\ step G u (GetDirectBufferCapacity_ h) s2 = Some (OVal (RInt cap), s2).
Proof.
  intros R St Ex A D. pose proof (reachable_good R) as Gs. destruct (NewDirectByteBuffer_step addr cap Gs (step_attached St eq_refl)) as (i' & s1' & St' & G1 & M & _).
  rewrite St in St'. injection St' as <- <-. destruct (ident_contents (exec_ident (good_wf G1) Ex) (md_contents M) (handle_live D)) as (p & C & Sk).
  destruct p; simpl in Sk; try contradiction. destruct Sk as [<- <-]. exact (@buffer_reads G u h i _ s2 (exec_good G1 Ex) A D C).
Qed.
Theorem C52_other G t0 t h i x s : reachable G t0 s -> attached s t -> denotes_opt s h (Some i) -> contents s i = Some x -> (forall a c, x <> PBuffer a c) ->
  step G t (GetDirectBufferAddress_ h) s = Some (OExn (Err bad_ref), s) /\ step G t (GetDirectBufferCapacity_ h) s = Some (OExn (Err bad_ref), s).
Proof. intros R A D C N. pose proof (@buffer_reads G t h i x s (reachable_good R) A D C) as H. destruct x; auto. exfalso. eapply N; eauto. Qed.
Definition ex_buf : list event := [(main, NewDirectByteBuffer_ 4096 16); (main, NewGlobalRef_ (Some 9)); (main, DeleteLocalRef_ (Some 9)); (main, FindClass_ (S_ "A")); (2, Attach_)].
Example C52_ex : runs Gd ex_buf = true /\ attached (after Gd ex_buf) 2 /\ denotes (after Gd ex_buf) 10 (Some 9) /\ contents (after Gd ex_buf) 9 = Some (PBuffer 4096 16).
Proof. split; [vm_compute; reflexivity|]. split; [eexists; vm_compute; reflexivity|]. split; [glob_tac|vm_compute; reflexivity]. Qed.

(** ** C61 Strings never change *)
Theorem C61_constant G t0 s l vs s' i b : reachable G t0 s -> exec G l s = Some (vs, s') -> contents s i = Some (PString b) -> live s' i = true -> contents s' i = Some (PString b).
Proof.
  intros R Ex C L. destruct (ident_contents (exec_ident (good_wf (reachable_good R)) Ex) C L) as (p & C' & Sk). destruct p; simpl in Sk; try contradiction. congruence.
Qed.
(** All string functions, called by any thread at any later time through any reference, answer for the bytes that the string was created with. *)
Theorem C61_reads G t0 u h i b s l vs s2 : reachable G t0 s -> contents s i = Some (PString b) -> exec G l s = Some (vs, s2) -> attached s2 u -> denotes_opt s2 h (Some i) ->
  step G u (GetStringLength_ h) s2 = out RInt (UtfModel.GetStringLength (csigned G) (Some b)) s2 /\
  step G u (GetStringUTFLength_ h) s2 = out RInt (UtfModel.GetStringUTFLength (Some b)) s2 /\
  step G u (GetStringChars_ h) s2 = out RInts (UtfModel.GetStringChars (csigned G) (Some b)) s2 /\
  step G u (GetStringUTFChars_ h) s2 = Some (OVal (RBytes (UtfModel.GetStringUTFChars (Some b))), s2) /\
  forall start len cap,
    step G u (GetStringRegion_ h start len cap) s2 = out RInts (UtfModel.GetStringRegion (csigned G) b start len cap) s2 /\
    step G u (GetStringUTFRegion_ h start len cap) s2 = out RBytes (UtfModel.GetStringUTFRegion (csigned G) b start len cap) s2.
Proof.
  intros R C Ex A D. pose proof (C61_constant R Ex C (handle_live D)) as C2. destruct h as [h|]; [|discriminate].
  exact (@string_reads G u (Some h) (Some (Some b)) s2 (exec_good (reachable_good R) Ex) A (ex_intro _ i (conj D C2))).
Qed.
Theorem C61_new_utf G t0 t b s : reachable G t0 s -> attached s t ->
  exists i s', step G t (NewStringUTF_ b) s = Some (OVal (RRef (Some i)), s') /\ made t i (PString (UtfModel.NewStringUTF b)) s s' /\ class_ptr s' i = registered s TString.
Proof. intros R A. destruct (NewStringUTF_step b (reachable_good R) A) as (i & s' & E & _ & M). eauto. Qed.
Theorem C61_new G t0 t cs n s : reachable G t0 s -> attached s t ->
  match UtfModel.NewString (csigned G) cs n with
  | Ok b => exists i s', step G t (NewString_ cs n) s = Some (OVal (RRef (Some i)), s') /\ made t i (PString b) s s' /\ class_ptr s' i = registered s TString
  | Thrown e => step G t (NewString_ cs n) s = Some (OExn e, s)
  | _ => step G t (NewString_ cs n) s = None
  end.
Proof.
  intros R A. pose proof (NewString_step cs n (reachable_good R) A) as H. destruct (UtfModel.NewString (csigned G) cs n); auto. destruct H as (i & s' & E & _ & M). eauto.
Qed.
(** The null string reads as empty; other objects are refused. *)
Theorem C61_other G t0 t h i x s o : reachable G t0 s -> attached s t -> denotes_opt s h (Some i) -> contents s i = Some x -> (forall b, x <> PString b) ->
  In o [GetStringLength_ h; GetStringUTFLength_ h; GetStringChars_ h; GetStringUTFChars_ h] \/ (exists start len cap, o = GetStringRegion_ h start len cap \/ o = GetStringUTFRegion_ h start len cap) ->
  step G t o s = Some (OExn (Err bad_ref), s).
Proof.
  intros R A D C N. destruct h as [h|]; [|discriminate]. apply (@string_reads G t (Some h) None s (reachable_good R) A). exists i, x. auto.
Qed.
Definition ex_str : list event := [(main, NewStringUTF_ (Some (S_ "hello"))); (main, NewGlobalRef_ (Some 9)); (main, DeleteLocalRef_ (Some 9)); (main, FindClass_ (S_ "A")); (2, Attach_)].
Example C61_ex : runs Gd ex_str = true /\ denotes (after Gd ex_str) 10 (Some 9) /\ contents (after Gd ex_str) 9 = Some (PString (S_ "hello")) /\
  step Gd 2 (GetStringUTFLength_ (Some 10)) (after Gd ex_str) = Some (OVal (RInt 5), after Gd ex_str).
Proof. split; [vm_compute; reflexivity|]. split; [glob_tac|]. split; vm_compute; reflexivity. Qed.

(** ** C62 Length and element type of an array never change *)
Theorem C62_prim G t0 s l vs s' i p e : reachable G t0 s -> exec G l s = Some (vs, s') -> contents s i = Some (PPrim p e) -> live s' i = true ->
  exists e', contents s' i = Some (PPrim p e') /\ length e' = length e.
Proof.
  intros R Ex C L. destruct (ident_contents (exec_ident (good_wf (reachable_good R)) Ex) C L) as (q & C' & Sk). destruct q; simpl in Sk; try contradiction. destruct Sk as [<- E]. eauto.
Qed.
Theorem C62_objects G t0 s l vs s' i p e : reachable G t0 s -> exec G l s = Some (vs, s') -> contents s i = Some (PArr p e) -> live s' i = true ->
  exists e', contents s' i = Some (PArr p e') /\ length e' = length e.
Proof.
  intros R Ex C L. destruct (ident_contents (exec_ident (good_wf (reachable_good R)) Ex) C L) as (q & C' & Sk). destruct q; simpl in Sk; try contradiction. destruct Sk as [<- E]. eauto.
Qed.
(** GetArrayLength always gives the length that the array was created with. *)
Theorem C62_length G t0 t u h h' i s v s1 l vs s2 : reachable G t0 s -> step G t (GetArrayLength_ h) s = Some (OVal v, s1) -> denotes_opt s h (Some i) ->
  exec G l s1 = Some (vs, s2) -> attached s2 u -> denotes_opt s2 h' (Some i) -> step G u (GetArrayLength_ h') s2 = Some (OVal v, s2).
Proof.
  intros R St D Ex A D'. pose proof (reachable_good R) as Gs. pose proof (step_attached St eq_refl) as A0. rewrite (GetArrayLength_step Gs A0 D) in St.
  destruct h as [h|]; [|discriminate]. destruct (contents s i) as [x|] eqn:C; [|discriminate].
  assert (s1 = s) as -> by (destruct x; congruence). pose proof (exec_good Gs Ex) as G2. rewrite (GetArrayLength_step G2 A D'). destruct h' as [h'|]; [|discriminate].
  destruct x; try discriminate; injection St as <-.
  - destruct (C62_prim R Ex C (handle_live (h := Some h') D')) as (e' & C' & E). rewrite C', E. reflexivity.
  - destruct (C62_objects R Ex C (handle_live (h := Some h') D')) as (e' & C' & E). rewrite C', E. reflexivity.
Qed.
Example C62_ex : exists s' vs, exec Gd ex_prim_writes (after Gd ex_prim) = Some (vs, s') /\ contents s' 10 = Some (PPrim PtI [4; 7; 5; 6]%Z) /\
  step Gd main (GetArrayLength_ (Some 10)) s' = Some (OVal (RInt 4), s').
Proof. eexists. eexists. split; [vm_compute; reflexivity|]. split; vm_compute; reflexivity. Qed.
Print Assumptions C39_round_trip.
Print Assumptions C41_round_trip.
Print Assumptions C42_refuted.
Print Assumptions C43_declare.
Print Assumptions C52_round_trip.
Print Assumptions C62_length.
