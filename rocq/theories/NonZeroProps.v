(** C91 Objects returned by methods without implementation, with the build option JNIVM_ENABLE_RETURN_NON_ZERO. *)
From Verif Require Import Base BaseProofs VmState VmModel VmStep VmSpec MemSpec CallSpec RefSpec ArrSpec VmBase VmFrame VmWf VmPrim VmInv VmReg VmFine VmRegInv VmExact VmQuiet VmClass VmMember
  ClassProps VmCall VmCall2 VmObj VmArr VmHier MemberProps ArrProps CastModel CastProps FakeProps BootProps VmRef VmHook VmDemo NonZeroModel.
Set Implicit Arguments.
Unset Strict Implicit.
Local Open Scope char_scope.

(** ** Specification *)
(** [d] is the descriptor of the result in [sg]: what follows the last parenthesis, or all of it. *)
Definition results_in (sg d : str) : Prop := ~ In ")" d /\ (sg = d \/ exists pre, sg = pre ++ ")" :: d).
(** The descriptors for which there is nothing to create *)
Inductive nothing : str -> Prop :=
| no_class x : (forall r, x <> "[" :: r) -> (forall n, x <> "L" :: n ++ [";"]) -> nothing x
| no_bracket : nothing ["["]
| no_elem c r : ~ In c ["B"; "S"; "C"; "I"; "J"; "F"; "D"; "L"; "["] -> nothing ("[" :: c :: r).

Lemma last_cons (A : Type) (x d : A) l : l <> [] -> last (x :: l) d = last l d.
Proof. destruct l; [congruence|reflexivity]. Qed.
Lemma split_last c d : ~ In c d -> forall pre, 2 <= length (split_on c (pre ++ c :: d)) /\ last (split_on c (pre ++ c :: d)) [] = d.
Proof.
  intros N. induction pre as [|x pre [IH1 IH2]]; cbn [app].
  - cbn [split_on]. rewrite Ascii.eqb_refl, (split_single _ _ N). split; [simpl; lia|reflexivity].
  - cbn [split_on]. destruct (Ascii.eqb x c).
    + split; [simpl; lia|]. rewrite last_cons; [exact IH2|apply split_ne].
    + destruct (split_on c (pre ++ c :: d)) as [|h [|h2 q]] eqn:E; simpl in IH1; [lia|lia|]. split; [simpl; lia|]. rewrite !last_cons in * by discriminate. exact IH2.
Qed.
Lemma result_text_eq sg d : results_in sg d -> result_text sg = d.
Proof.
  intros (N & [->|(pre & ->)]); unfold result_text; [rewrite (split_single _ _ N); reflexivity|]. apply split_last. exact N.
Qed.
Lemma class_text_eq n : class_text ("L" :: n ++ [";"]) = Some n.
Proof. unfold class_text. rewrite rev_app_distr. cbn [rev app]. rewrite rev_involutive. reflexivity. Qed.
Lemma class_text_inv x n : class_text x = Some n -> x = "L" :: n ++ [";"].
Proof.
  unfold class_text. destruct x as [|c r]; [discriminate|]. destruct (ascii_dec c "L") as [->|Nc].
  - destruct (rev r) as [|e q] eqn:E; [discriminate|]. destruct (ascii_dec e ";") as [->|Ne].
    + intros [= <-]. f_equal. rewrite <- (rev_involutive r), E. reflexivity.
    + intros H. exfalso. destruct e as [[] [] [] [] [] [] [] []]; try discriminate H. apply Ne. reflexivity.
  - intros H. exfalso. destruct c as [[] [] [] [] [] [] [] []]; try discriminate H. apply Nc. reflexivity.
Qed.

Lemma array_pty_eq p : p <> PtZ -> array_pty (pty_char p) = Some p.
Proof. destruct p; intros H; try reflexivity. contradiction. Qed.
Lemma array_pty_none c : ~ In c ["B"; "S"; "C"; "I"; "J"; "F"; "D"; "L"; "["] -> array_pty c = None /\ Ascii.eqb c "L" = false /\ Ascii.eqb c "[" = false.
Proof.
  intros N. split; [|split; apply Ascii.eqb_neq; intros ->; apply N; simpl; tauto].
  destruct (array_pty c) eqn:E; auto. exfalso. apply N. clear N. destruct c as [[] [] [] [] [] [] [] []]; simpl in E; try discriminate E; simpl; tauto.
Qed.

(** ** The default *)
Section Default.
Variables (G : cfg) (t0 t : tid) (vars : nat).

Lemma default_eq sg d s : results_in sg d -> defaultVal G t vars sg s = defaultVal G t vars d s.
Proof.
  intros R. pose proof (result_text_eq R) as E. assert (result_text d = d) as Ed by (apply result_text_eq; split; [apply R|auto]).
  destruct R as (_ & C). unfold defaultVal. rewrite E, Ed. destruct sg as [|c r].
  - destruct C as [<-|(pre & C)]; [reflexivity|]. destruct pre; discriminate C.
  - destruct d; reflexivity.
Qed.
Lemma plain_eq d : ~ In ")" d -> results_in d d.
Proof. intros. split; auto. Qed.

(** An empty array of numbers *)
Theorem C91_number_array p r sg s : reachable G t0 s -> attached s t -> p <> PtZ -> results_in sg ("[" :: pty_char p :: r) ->
  exists i s', defaultVal G t vars sg s = Some (OVal (RRef (Some i)), s') /\ made t i (PPrim p []) s s' /\
    exists k, class_ptr s' i = Some k /\ class_named s' ["["; pty_char p] k.
Proof.
  intros R A Np Rs. rewrite (default_eq s Rs). unfold defaultVal. assert (result_text ("[" :: pty_char p :: r) = "[" :: pty_char p :: r) as -> by (apply result_text_eq; apply plain_eq; apply Rs).
  cbv beta iota zeta. rewrite (array_pty_eq Np). destruct (@C39_new G t0 t p 0%Z s R A) as (i & s' & H); [lia|]. exists i, s'. exact H.
Qed.

(** What is looked up for an array of objects: the class of the elements, or for a descriptor of another form the descriptor. *)
Inductive looked_up : str -> str -> Prop :=
| lu_class n : looked_up ("[" :: "L" :: n ++ [";"]) n
| lu_open r : (forall n, r <> n ++ [";"]) -> looked_up ("[" :: "L" :: r) ("[" :: "L" :: r)
| lu_nested r : looked_up ("[" :: "[" :: r) ("[" :: "[" :: r).
Lemma looked_eq d n s : looked_up d n -> ~ In ")" d -> defaultVal G t vars d s = empty_array G t n s.
Proof.
  intros L N. unfold defaultVal. assert (result_text d = d) as E by (apply result_text_eq, plain_eq; exact N). destruct L as [n|r Nr|r]; rewrite E; cbv beta iota zeta.
  - change (array_pty "L") with (@None pty). cbv beta iota. change (Ascii.eqb "L" "L" || Ascii.eqb "L" "[")%bool with true. cbv beta iota. rewrite class_text_eq. reflexivity.
  - change (array_pty "L") with (@None pty). cbv beta iota. change (Ascii.eqb "L" "L" || Ascii.eqb "L" "[")%bool with true. cbv beta iota.
    destruct (class_text ("L" :: r)) as [n|] eqn:Ec; [|reflexivity]. exfalso. apply class_text_inv in Ec. injection Ec as Ec. exact (Nr _ Ec).
  - reflexivity.
Qed.
(** An empty array of objects: its class is the one NewObjectArray gives it, its element type what is registered for that class. *)
Theorem C91_object_array d n sg s : reachable G t0 s -> attached s t -> results_in sg d -> looked_up d n -> retnull G = false \/ class_exists s n ->
  exists c s1 p i s', step G t (FindClass_ n) s = Some (OVal (RRef (Some c)), s1) /\ class_named s1 n c /\ array_elem s1 (array_name n) p /\
    defaultVal G t vars sg s = Some (OVal (RRef (Some i)), s') /\ made t i (PArr p []) s1 s' /\
    exists k, class_ptr s' i = Some k /\ class_named s' (array_name n) k.
Proof.
  intros R A Rs Lu Ex. pose proof (reachable_good R) as Gs. rewrite (default_eq s Rs), (looked_eq s Lu) by apply Rs.
  destruct (FindClass_step n Gs A) as (r & s1 & E & G1 & U & K & Er & F & Z & N).
  assert (exists c, r = Some c) as (c & ->).
  { destruct Ex as [Rn|Ex]; [destruct r as [c|]; [eauto|destruct (proj1 (N Rn) eq_refl)]|]. apply (class_exists_iff n (g_inv Gs)) in Ex. destruct (get_class s n) as [c|] eqn:Ec; [|congruence].
    exists c. rewrite Er. apply K. exact Ec. }
  pose proof (proj2 (class_named_iff n c (g_inv G1)) (eq_sym Er)) as Cn. assert (is_cls s1 c = true) as Hc by (apply is_cls_named; eauto).
  destruct Cn as (o & k & Lo & Po & Pn). assert (contents s1 c = Some (PClass k)) as Cc by (unfold contents; rewrite Lo; simpl; congruence).
  assert (attached s1 t) as A1.
  { destruct A as (e & Ee). pose proof (u_envid U) as Hi. rewrite Ee in Hi. destruct (get_env s1 t) as [e1|] eqn:E1; [exists e1; exact E1|discriminate]. }
  destruct (@NewObjectArray_step G t 0%Z (Some c) c k None s1 G1 A1 (denotes_cls Hc) Cc) as (p & Ae & _ & H & _); [discriminate|].
  destruct H as (i & s' & E' & _ & M & Ck); [lia|auto|]. rewrite Pn in Ae, Ck. exists c, s1, p, i, s'. split; [exact E|]. split; [exists o, k; auto|]. split; [exact Ae|].
  split; [|split; [exact M|exact Ck]]. unfold empty_array. rewrite E. exact E'.
Qed.
(** The class looked up does not exist and FindClass returns null: undefined behaviour. *)
Theorem C91_object_array_undefined d n sg s : reachable G t0 s -> attached s t -> results_in sg d -> looked_up d n -> retnull G = true -> ~ class_exists s n ->
  defaultVal G t vars sg s = None.
Proof.
  intros R A Rs Lu Rn Ex. pose proof (reachable_good R) as Gs. rewrite (default_eq s Rs), (looked_eq s Lu) by apply Rs.
  destruct (FindClass_step n Gs A) as (r & s1 & E & G1 & U & K & Er & F & Z & N). destruct (Z Rn) as (Er' & _ & Z3 & _).
  assert (get_class s n = None) as E0 by (destruct (get_class s n) eqn:Ec; auto; exfalso; apply Ex; apply (class_exists_iff n (g_inv Gs)); congruence).
  rewrite E0 in Er'. subst r. specialize (Z3 Er'). subst s1. unfold empty_array. rewrite E, Er'. unfold step. rewrite run_attached by auto. reflexivity.
Qed.

(** An object that C++ code has just made is handed out. *)
Lemma made_out o c p s s1 : attached s t -> good G s1 -> quiet s s1 -> not_class p -> pay_ok s1 p = true -> (forall k, c = Some k -> is_cls s1 k = true) ->
  step G t o s1 = Some (OVal (RRef (Some (length (s_heap s1)))), with_ext (add s1 (new_obj c p)) (length (s_heap s1) :: s_ext s1)) ->
  exists i s', match step G t o s1 with Some (OVal (RRef (Some i)), s2) => hand_out G t i s2 | _ => None end = Some (OVal (RRef (Some i)), s') /\
    made t i p s s' /\ class_ptr s' i = (match c with Some k => Some k | None => registered s TObject end) /\ forall n k, class_named s1 n k -> class_named s' n k.
Proof.
  intros A G1 Q Nc Hp Hc St. destruct (@made_given G t TObject c p s s1 A (g_inv G1) Q (g_tidy G1) Nc Hp Hc) as (Ox & W2 & A2 & Lv & T3 & M & Cp & Cn).
  set (i := length (s_heap s1)) in *. set (s2 := add s1 (new_obj c p)) in *. set (s3 := given s2 t TObject i) in *. set (se := with_ext s2 (i :: s_ext s1)) in *.
  pose proof (step_good G1 St) as Ge. assert (attached se t) as Ae by exact A2. assert (live se i = true) as Le by exact Lv.
  assert (lookup se i = Some (new_obj c p)) as Li by apply lookup_add_new.
  assert (step G t (UToJNI_ TObject i) se = Some (OVal (RRef (Some i)), given se t TObject i)) as E1.
  { apply step_tidy_ret; [exact Ae| |].
    - cbn [body]. unfold as_ref, UToJNI. unfold bind at 1 2, gets. unfold bind at 1, deref. rewrite Li. assert (memb i (s_ext se) = true) as -> by (apply memb_In; left; reflexivity).
      cbn [andb isa]. rewrite given_eq; [reflexivity|exact (good_wf Ge)|exact Ae|exact Le].
    - apply (given_good TObject Ge Ae Le). }
  assert (s_ext s3 = s_ext s1) as Ee by exact (u_ext (given_undisturbed s2 t TObject i)).
  assert (given se t TObject i = with_ext s3 (i :: s_ext s1)) as Eg by (unfold se, s3; apply given_ext).
  assert (step G t (UDrop_ i) (given se t TObject i) = Some (OVal RUnit, s3)) as E2.
  { rewrite Eg. unfold step, run. cbn [needs_env body]. unfold as_unit, UDrop, del_ext, bind, ret. cbn [s_ext with_ext remove_first]. rewrite Nat.eqb_refl.
    change (with_ext (with_ext s3 (i :: s_ext s1)) (s_ext s1)) with (with_ext s3 (s_ext s1)). rewrite <- Ee, ext_same, (tidy_finish_id T3). reflexivity. }
  exists i, s3. split; [|split; [exact M|split; [exact Cp|]]].
  - rewrite St. unfold hand_out. rewrite E1, E2. reflexivity.
  - apply Cn. exact (g_inv (step_good (step_good Ge E1) E2)).
Qed.

(** The table of types has one entry for each. *)
Record types_once (s s' : st) : Prop := { once_type : NoDup (map fst (s_types s)) -> NoDup (map fst (s_types s')) }.
Lemma types_fine u : fine G u (fun _ => True) types_once.
Proof.
  assert (forall s s', s_types s' = s_types s -> types_once s s') as Eq by (intros s s' E; constructor; rewrite E; auto).
  assert (forall a b c, types_once a b -> types_once b c -> types_once a c) as Tr by (intros a b c [H1] [H2]; constructor; auto).
  constructor; intros; try (apply Eq; reflexivity); try (eapply Tr; eauto; fail).
  - apply (@find_fine G types_once); auto; intros; apply Eq; reflexivity.
  - constructor. intros Nd. cbn [s_types with_types]. apply aset_NoDup; [apply ty_eqb_spec|exact Nd].
  - constructor. intros Nd. cbn [s_types with_types]. apply aset_NoDup; [apply ty_eqb_spec|exact Nd].
  - apply Eq. destruct (collect_same s) as (_ & _ & _ & E & _). exact (eq_sym E).
Qed.
Lemma types_reachable s : reachable G t0 s -> NoDup (map fst (s_types s)).
Proof.
  intros (l & vs & E). assert (NoDup (map fst (s_types (init_vm G t0)))) as H0.
  { destruct G as [[] nd rn cs ub]; vm_compute; repeat constructor; cbn [In]; intuition discriminate. }
  assert (good G (init_vm G t0)) as Gi by (apply (@reachable_good G t0); exists [], []; reflexivity).
  revert vs H0 Gi E. generalize (init_vm G t0). induction l as [|[u o] l IH]; intros s0 vs H0 Gi E; cbn [exec] in E; [injection E as _ <-; exact H0|].
  destruct (step G u o s0) as [[v s1]|] eqn:E1; [|discriminate]. destruct (exec G l s1) as [[vs2 s2]|] eqn:E2; [|discriminate]. injection E as _ <-.
  apply (IH s1 vs2); [|exact (step_good Gi E1)|exact E2].
  apply (fun H => once_type H H0). refine (fine_step (@types_fine u) o _ _ E1); [auto|exact (good_wf Gi)].
Qed.
Lemma entry_iff c s : NoDup (map fst (s_types s)) -> has_type_entry c s = true <-> exists T, registered s T = Some c.
Proof.
  intros Nd. unfold has_type_entry, registered, get_type. rewrite existsb_exists. split.
  - intros ([T [k|]] & H & E); [|discriminate]. apply Nat.eqb_eq in E. cbn [snd] in E. subst k. exists T. rewrite (NoDup_aget _ ty_eqb_spec _ _ _ Nd H). reflexivity.
  - intros (T & E). destruct (aget ty_eqb (s_types s) T) as [x|] eqn:Ea; [|discriminate]. subst x. apply (aget_In ty_eqb ty_eqb_spec) in Ea. exists (T, Some c). split; [exact Ea|]. simpl. apply Nat.eqb_refl.
Qed.

(** An object: the class is found or created.  If its objects can be instantiated, one is, and its class is the one registered for its type.
    Otherwise an object without a C++ type of its own is made, unless a C++ type is bound to the class: then there is no object. *)
Theorem C91_object n sg s : reachable G t0 s -> attached s t -> results_in sg ("L" :: n ++ [";"]) ->
  exists c k s1, step G t (UFindClass_ false n) s = Some (OVal (RRef (Some c)), s1) /\ class_named s1 n c /\ contents s1 c = Some (PClass k) /\
    (forall T p, c_inst k = Some T -> instance_of_type T vars p ->
       exists i s', defaultVal G t vars sg s = Some (OVal (RRef (Some i)), s') /\ made t i p s s' /\
         class_ptr s' i = (match registered s T with Some r => Some r | None => registered s TObject end)) /\
    (c_inst k = None -> (exists T, registered s1 T = Some c) -> defaultVal G t vars sg s = Some (OVal (RRef None), s1)) /\
    (c_inst k = None -> (forall T, registered s1 T <> Some c) ->
       exists i s', defaultVal G t vars sg s = Some (OVal (RRef (Some i)), s') /\ made t i PPlain s s' /\ class_ptr s' i = Some c /\ class_named s' n c).
Proof.
  intros R A Rs. pose proof (reachable_good R) as Gs. rewrite (default_eq s Rs).
  assert (defaultVal G t vars ("L" :: n ++ [";"]) s = new_object G t vars n s) as ->.
  { unfold defaultVal. assert (result_text ("L" :: n ++ [";"]) = "L" :: n ++ [";"]) as -> by (apply result_text_eq, plain_eq; apply Rs). cbv beta iota zeta. rewrite class_text_eq. reflexivity. }
  destruct (UFindClass_step false n Gs A) as (r & s1 & E & G1 & Q & K & Er & _ & N). destruct (N eq_refl) as [Nr _]. destruct r as [c|]; [|congruence].
  pose proof (proj2 (class_named_iff n c (g_inv G1)) (eq_sym Er)) as Cn. assert (is_cls s1 c = true) as Hc by (apply is_cls_named; eauto).
  pose proof Cn as (o & k & Lo & Po & Pn). assert (contents s1 c = Some (PClass k)) as Cc by (unfold contents; rewrite Lo; simpl; congruence).
  assert (reachable G t0 s1) as R1 by exact (reach_step R E).
  assert (attached s1 t) as A1 by exact (quiet_attached Q A).
  assert (forall T, registered s1 T = registered s T) as Rg by exact (u_types (quiet_undisturbed t Q)).
  assert (get_cls c s1 = Ret k s1) as Gk by (unfold get_cls, bind, deref; rewrite Lo, Po; reflexivity).
  exists c, k, s1. split; [exact E|]. split; [exact Cn|]. split; [exact Cc|]. unfold new_object. rewrite E, Gk. split; [|split].
  - intros T p It Ip. rewrite It.
    assert (pay_ok s1 p = true) as Hp by (destruct Ip; [apply user_ok|reflexivity|reflexivity]).
    assert (forall j, registered s1 T = Some j -> is_cls s1 j = true) as Hj.
    { intros j Hk. unfold registered, get_type in Hk. destruct (aget ty_eqb (s_types s1) T) as [x|] eqn:Ea; [|discriminate]. subst x. apply (aget_In ty_eqb ty_eqb_spec) in Ea. apply (wf_types (good_wf G1) _ _ Ea). }
    destruct (@made_out (UInstantiate_ c vars) (registered s1 T) p s s1 A G1 Q) as (i & s' & E' & M & Cp & _).
    + destruct Ip; intros ?; discriminate.
    + exact Hp.
    + exact Hj.
    + apply (newborn_step G1 A1 Hj Hp). cbn [body]. unfold as_oid, UInstantiate. unfold bind at 1 2. rewrite Gk, It. destruct Ip; unfold make_shared, bind at 1, gets; reflexivity.
    + exists i, s'. split; [exact E'|]. split; [exact M|]. rewrite Cp, Rg. reflexivity.
  - intros It H. rewrite It. rewrite (proj2 (entry_iff c (types_reachable R1)) H). reflexivity.
  - intros It H. rewrite It. destruct (has_type_entry c s1) eqn:Eh.
    { exfalso. apply (entry_iff c (types_reachable R1)) in Eh. destruct Eh as (T & Eh). exact (H T Eh). }
    assert (forall j, Some c = Some j -> is_cls s1 j = true) as Hj by (intros j [= <-]; exact Hc).
    destruct (@made_out (UPlain_ (Some c)) (Some c) PPlain s s1 A G1 Q) as (i & s' & E' & M & Cp & Ck); [intros ?; discriminate|reflexivity|exact Hj|apply (@newborn_step G t (UPlain_ (Some c)) s1 (Some c) PPlain G1 A1 Hj eq_refl); reflexivity|].
    exists i, s'. split; [exact E'|]. split; [exact M|]. split; [exact Cp|]. apply Ck. exact Cn.
Qed.

(** Nothing is made for all other results, in particular arrays of booleans. *)
Theorem C91_null d sg s : results_in sg d -> nothing d -> defaultVal G t vars sg s = Some (OVal (RRef None), s).
Proof.
  intros Rs Nd. rewrite (default_eq s Rs). unfold defaultVal. assert (result_text d = d) as -> by (apply result_text_eq, plain_eq; apply Rs). destruct Nd as [x N1 N2| |c q Nc].
  - assert (class_text x = None) as E by (destruct (class_text x) as [n|] eqn:E; auto; exfalso; exact (N2 _ (class_text_inv E))). destruct x as [|y q]; [reflexivity|].
    destruct (ascii_dec y "[") as [->|Ny]; [destruct (N1 q eq_refl)|]. rewrite E. destruct y as [[] [] [] [] [] [] [] []]; try reflexivity. destruct (Ny eq_refl).
  - reflexivity.
  - cbv beta iota zeta. destruct (array_pty_none Nc) as (-> & -> & ->). reflexivity.
Qed.
(** Each signature has a result, and each result is one of the above. *)
Lemma last_paren sg : exists d, results_in sg d.
Proof.
  induction sg as [|c sg (d & N & C)]; [exists []; split; [intros []|auto]|]. destruct C as [->|(pre & ->)].
  - destruct (ascii_dec c ")") as [->|Nc]; [exists d; split; [exact N|right; exists []; reflexivity]|]. exists (c :: d). split; [|auto]. intros [->|H]; auto.
  - exists d. split; [exact N|]. right. exists (c :: pre). reflexivity.
Qed.
Lemma ends_semi r : (exists n, r = n ++ [";"]) \/ forall n, r <> n ++ [";"].
Proof.
  destruct (rev r) as [|c q] eqn:E.
  - right. intros n ->. rewrite rev_app_distr in E. discriminate.
  - assert (r = rev q ++ [c]) as -> by (rewrite <- (rev_involutive r), E; reflexivity). destruct (ascii_dec c ";") as [->|N]; [left; eauto|]. right. intros n H. apply app_inj_tail in H. destruct H. contradiction.
Qed.
Theorem C91_cases sg : exists d, results_in sg d /\
  (nothing d \/ (exists p r, p <> PtZ /\ d = "[" :: pty_char p :: r) \/ (exists n, looked_up d n) \/ exists n, d = "L" :: n ++ [";"]).
Proof.
  destruct (last_paren sg) as (d & R). exists d. split; [exact R|]. clear R. destruct d as [|a r]; [left; constructor; discriminate|]. destruct (ascii_dec a "[") as [->|Na].
  - destruct r as [|c r]; [left; apply no_bracket|]. destruct (in_dec ascii_dec c ["B"; "S"; "C"; "I"; "J"; "F"; "D"; "L"; "["]) as [I|N]; [|left; apply no_elem; exact N].
    assert (forall p, p <> PtZ -> c = pty_char p -> exists p r0, p <> PtZ /\ "[" :: c :: r = "[" :: pty_char p :: r0) as Hp by (intros p Np ->; eauto).
    destruct I as [<-|[<-|[<-|[<-|[<-|[<-|[<-|[<-|[<-|[]]]]]]]]]].
    + right. left. apply (Hp PtB); [discriminate|reflexivity].
    + right. left. apply (Hp PtS); [discriminate|reflexivity].
    + right. left. apply (Hp PtC); [discriminate|reflexivity].
    + right. left. apply (Hp PtI); [discriminate|reflexivity].
    + right. left. apply (Hp PtJ); [discriminate|reflexivity].
    + right. left. apply (Hp PtF); [discriminate|reflexivity].
    + right. left. apply (Hp PtD); [discriminate|reflexivity].
    + right. right. left. destruct (ends_semi r) as [(n & ->)|Nr]; [exists n; constructor|exists ("[" :: "L" :: r); constructor; exact Nr].
    + right. right. left. exists ("[" :: "[" :: r). constructor.
  - destruct (ascii_dec a "L") as [->|Nl].
    + destruct (ends_semi r) as [(n & ->)|Nr]; [do 3 right; eauto|]. left. apply no_class; [discriminate|]. intros n [= H]. exact (Nr n H).
    + left. apply no_class; congruence.
Qed.
End Default.

(** ** Calls *)
(** The member has no implementation. *)
Definition unimplemented (s : st) (o : op) : Prop :=
  match o with
  | CallMethodA_ RObj _ (Some i) _ | CallNonvirtualMethodA_ RObj _ _ (Some i) _ => exists m, method_at s i = Some m /\ m_handle m = None
  | CallStaticMethodA_ RObj h (Some i) _ => (exists m, method_at s i = Some m /\ m_handle m = None) /\ exists cl, denotes_opt s h cl /\ forall j, cl = Some j -> is_cls s j = true
  | GetField_ _ RObj _ (Some i) => exists f, field_at s i = Some f /\ f_get f = None
  | _ => False
  end.
Inductive text_of (s : st) : op -> str -> Prop :=
| tx_call h i a m : method_at s i = Some m -> text_of s (CallMethodA_ RObj h (Some i) a) (m_sig m)
| tx_nonvirtual h c i a m : method_at s i = Some m -> text_of s (CallNonvirtualMethodA_ RObj h c (Some i) a) (m_sig m)
| tx_static h i a m : method_at s i = Some m -> text_of s (CallStaticMethodA_ RObj h (Some i) a) (m_sig m)
| tx_field z h i f : field_at s i = Some f -> text_of s (GetField_ z RObj h (Some i)) (VmState.f_type f).
(** A call of a method without implementation, or an access to such a field, returns the default for the signature of the member. *)
Theorem C91_call G t0 t vars o sg s : reachable G t0 s -> attached s t -> unimplemented s o -> text_of s o sg -> step_nz G t vars o s = defaultVal G t vars sg s.
Proof.
  intros R A U Tx. pose proof (reachable_good R) as Gs. unfold step_nz.
  assert (step G t o s = Some (OVal (RCall Default), s)) as ->.
  { destruct Tx; cbn [unimplemented] in U.
    - apply CallMethodA_unhooked; auto.
    - apply CallNonvirtualMethodA_unhooked; auto.
    - destruct U as (U & cl & D & C). apply (@CallStaticMethodA_unhooked G t RObj h cl); auto.
    - apply GetField_unhooked; auto. }
  destruct Tx as [h i a m H|h c i a m H|h i a m H|z h i f H]; cbn [object_result signature_of]; unfold method_at, field_at, contents in H; destruct (lookup s i) as [x|]; try discriminate H; cbn [option_map] in H; destruct (o_pay x); try discriminate H; injection H as <-; reflexivity.
Qed.
(** Also a call that fails before any code runs (the implementation is of the wrong kind) returns this default, with the exception pending. *)
Theorem C91_failed G t vars o sg s s1 : step G t o s = Some (OVal (RCall Default), s1) -> text_of s1 o sg -> step_nz G t vars o s = defaultVal G t vars sg s1.
Proof.
  intros E Tx. unfold step_nz. rewrite E.
  destruct Tx as [h i a m H|h c i a m H|h i a m H|z h i f H]; cbn [object_result signature_of]; unfold method_at, field_at, contents in H; destruct (lookup s1 i) as [x|]; try discriminate H; cbn [option_map] in H; destruct (o_pay x); try discriminate H; injection H as <-; reflexivity.
Qed.
(** A null ID: null *)
Theorem C91_null_id G t0 t vars o s : reachable G t0 s -> attached s t ->
  (exists h a, o = CallMethodA_ RObj h None a) \/ (exists h c a, o = CallNonvirtualMethodA_ RObj h c None a) \/ (exists z h, o = GetField_ z RObj h None) ->
  step_nz G t vars o s = Some (OVal (RRef None), s).
Proof.
  intros R A H. pose proof (reachable_good R) as Gs. unfold step_nz. destruct H as [(h & a & ->)|[(h & c & a & ->)|(z & h & ->)]].
  - rewrite CallMethodA_unhooked; auto.
  - rewrite CallNonvirtualMethodA_unhooked; auto.
  - rewrite GetField_unhooked; auto.
Qed.
(** The option changes nothing but object results that would be null for want of an implementation. *)
Theorem C91_other G t vars o s r : step G t o s = r -> (forall s1, r = Some (OVal (RCall Default), s1) -> object_result o = None) -> step_nz G t vars o s = r.
Proof.
  intros <- H. unfold step_nz. destruct (step G t o s) as [[[v|e] s1]|] eqn:E; try reflexivity. destruct v; try reflexivity. destruct c; try reflexivity. rewrite (H s1 eq_refl). reflexivity.
Qed.
(** Operations whose result type is jobject *)
Inductive gives_object : op -> Prop :=
| go_call h i a : gives_object (CallMethodA_ RObj h i a)
| go_nonvirtual h c i a : gives_object (CallNonvirtualMethodA_ RObj h c i a)
| go_static h i a : gives_object (CallStaticMethodA_ RObj h i a)
| go_field z h i : gives_object (GetField_ z RObj h i).
Theorem C91_number G t vars o s : ~ gives_object o -> step_nz G t vars o s = step G t o s.
Proof. intros N. apply C91_other; [reflexivity|]. intros s1 _. destruct o; try reflexivity; cbn [object_result]; match goal with |- match ?T with _ => _ end = _ => destruct T; try reflexivity end; destruct N; constructor. Qed.
Example C91_number_ex : ~ gives_object (CallNonvirtualMethodA_ (RPrim PtI) (Some 9) (Some 9) (Some 10) []).
Proof. intros H. inversion H. Qed.

(** ** The claim that is false *)
(** A method without an implementation whose result is a class or an array returns an object. *)
Definition C91_claim : Prop := forall G t0 t vars h i a m d s, reachable G t0 s -> attached s t -> method_at s i = Some m -> m_handle m = None -> results_in (m_sig m) d ->
  (exists r, d = "[" :: r) \/ (exists n, d = "L" :: n ++ [";"]) ->
  forall s', step_nz G t vars (CallMethodA_ RObj h (Some i) a) s <> Some (OVal (RRef None), s').
(** If it returns an object for an array, then an array of the class named by the descriptor. *)
Definition C91_class_claim : Prop := forall G t0 t vars h i a m d s, reachable G t0 s -> attached s t -> method_at s i = Some m -> m_handle m = None -> results_in (m_sig m) d ->
  forall r j s', d = "[" :: r -> step_nz G t vars (CallMethodA_ RObj h (Some i) a) s = Some (OVal (RRef (Some j)), s') -> exists k, class_ptr s' j = Some k /\ class_named s' d k.
Definition nz_ops (sg : str) : list event := [(main, FindClass_ (S_ "A")); (main, GetMethodID_ false (Some 9) (S_ "f") sg)].
Definition nz_call (vars : nat) (sg : str) : option (obs * st) := step_nz Gd main vars (CallMethodA_ RObj (Some 9) (Some 10) []) (after Gd (nz_ops sg)).
Definition answer (r : option (obs * st)) : option obs := option_map fst r.
Definition its_class (r : option (obs * st)) : option str :=
  match r with
  | Some (OVal (RRef (Some j)), s') =>
      match class_ptr s' j with Some k => match lookup s' k with Some o => match o_pay o with PClass c => Some (c_prefix c) | _ => None end | None => None end | None => None end
  | _ => None
  end.
Example C91_ex_int : answer (nz_call 0 (S_ "(Z)[I")) = Some (OVal (RRef (Some 12))) /\ its_class (nz_call 0 (S_ "(Z)[I")) = Some (S_ "[I").
Proof. split; vm_compute; reflexivity. Qed.
Example C91_ex_object : its_class (nz_call 0 (S_ "()Lb/B;")) = Some (S_ "b/B") /\ its_class (nz_call 0 (S_ "()[Lb/B;")) = Some (S_ "[Lb/B;") /\ its_class (nz_call 0 (S_ "()Ljava/lang/String;")) = Some (S_ "java/lang/String").
Proof. split; [|split]; vm_compute; reflexivity. Qed.
Example C91_ex_nested : its_class (nz_call 0 (S_ "()[[I")) = Some (S_ "[[[I").
Proof. vm_compute. reflexivity. Qed.
Example C91_ex_bound : let l := [(main, UBind_ 2 false (S_ "B")); (main, FindClass_ (S_ "A")); (main, GetMethodID_ false (Some 10) (S_ "f") (S_ "()LB;"))] in
  answer (step_nz Gd main 0 (CallMethodA_ RObj (Some 10) (Some 11) []) (after Gd l)) = Some (OVal (RRef None)).
Proof. vm_compute. reflexivity. Qed.

Example C91_ex_failed : let l := [(main, FindClass_ (S_ "A")); (main, UHookMethod_ 9 false (S_ "f") (S_ "()[I") (mkHandle 7 KInst (RPrim PtI) false))] in
  let r := step_nz Gd main 0 (CallMethodA_ RObj (Some 9) (Some 10) []) (after Gd l) in
  its_class r = Some (S_ "[I") /\ match r with Some (_, s') => pending s' main <> None | None => False end.
Proof. split; [vm_compute; reflexivity|]. vm_compute. discriminate. Qed.
Lemma nz_reach sg : runs Gd (nz_ops sg) = true -> reachable Gd main (after Gd (nz_ops sg)).
Proof. intros H. apply after_reachable. exact H. Qed.
(** Arrays of booleans are not made. *)
Theorem C91_refuted : ~ C91_claim.
Proof.
  intros H. set (sg := S_ "()[Z"). assert (reachable Gd main (after Gd (nz_ops sg))) as R by (apply nz_reach; vm_compute; reflexivity).
  assert (attached (after Gd (nz_ops sg)) main) as A by (eexists; vm_compute; reflexivity).
  assert (exists m, method_at (after Gd (nz_ops sg)) 10 = Some m /\ m_handle m = None /\ m_sig m = sg) as (m & M1 & M2 & M3) by (eexists; split; [|split]; vm_compute; reflexivity).
  assert (results_in (m_sig m) (S_ "[Z")) as Rs by (rewrite M3; split; [cbn; intuition discriminate|right; exists (S_ "("); reflexivity]).
  apply (H Gd main main 0 (Some 9) 10 [] m (S_ "[Z") (after Gd (nz_ops sg)) R A M1 M2 Rs (or_introl (ex_intro _ (S_ "Z") eq_refl)) (after Gd (nz_ops sg))).
  rewrite (@C91_call Gd main main 0 _ (m_sig m) _ R A); [|exists m; split; assumption|constructor; exact M1]. apply (@C91_null Gd main 0 (S_ "[Z")); [exact Rs|]. apply no_elem. cbn. intuition discriminate.
Qed.
(** An array of arrays is made with one dimension too many. *)
Theorem C91_class_refuted : ~ C91_class_claim.
Proof.
  intros H. set (sg := S_ "()[[I"). assert (reachable Gd main (after Gd (nz_ops sg))) as R by (apply nz_reach; vm_compute; reflexivity).
  assert (attached (after Gd (nz_ops sg)) main) as A by (eexists; vm_compute; reflexivity).
  assert (exists m, method_at (after Gd (nz_ops sg)) 10 = Some m /\ m_handle m = None /\ m_sig m = sg) as (m & M1 & M2 & M3) by (eexists; split; [|split]; vm_compute; reflexivity).
  assert (results_in (m_sig m) (S_ "[[I")) as Rs by (rewrite M3; split; [cbn; intuition discriminate|right; exists (S_ "("); reflexivity]).
  destruct (@C91_object_array Gd main main 0 (S_ "[[I") (S_ "[[I") (m_sig m) _ R A Rs (lu_nested (S_ "I")) (or_introl eq_refl)) as (c & s1 & p & i & s' & _ & _ & _ & E & _ & k & K1 & K2).
  rewrite <- (@C91_call Gd main main 0 (CallMethodA_ RObj (Some 9) (Some 10) []) (m_sig m) _ R A) in E; [|exists m; split; assumption|constructor; exact M1].
  destruct (H _ _ _ _ _ _ _ _ _ _ R A M1 M2 Rs _ _ _ eq_refl E) as (k' & K3 & K4). rewrite K1 in K3. injection K3 as <-. destruct K2 as (o & q & L & P & Pn). destruct K4 as (o' & q' & L' & P' & Pn').
  rewrite L in L'. injection L' as <-. rewrite P in P'. injection P' as <-. rewrite Pn in Pn'. discriminate Pn'.
Qed.
Print Assumptions C91_number_array. Print Assumptions C91_object_array. Print Assumptions C91_object_array_undefined. Print Assumptions C91_object. Print Assumptions C91_null. Print Assumptions C91_cases.
Print Assumptions C91_call. Print Assumptions C91_null_id. Print Assumptions C91_other. Print Assumptions C91_refuted. Print Assumptions C91_class_refuted. Print Assumptions C91_failed. Print Assumptions C91_number.
