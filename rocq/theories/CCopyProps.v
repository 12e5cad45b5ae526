(** Property C103: copies of arrays of objects in C++. *)
From Verif Require Import Base BaseProofs VmState VmBase CObjModel CObjProps CCopyModel.
Set Implicit Arguments.
Unset Strict Implicit.
Local Open Scope Z_scope.

(** ** Specification *)
(** Array object [a] has storage [n], which is not the null pointer of a default constructed array. *)
Definition stores (s : kst) (a n : nat) (x : var) : Prop := variable s a = Some x /\ v_data x = n /\ forall z, carray (k_mem s) n <> Some (mkCarr z None).
(** Two array objects have the same storage. *)
Definition shares (s : kst) (a b : nat) : Prop := exists n x, stores s a n x /\ variable s b = Some x.
(** [o] destroys array object [a] or assigns to it. *)
Inductive ends (a : nat) : kop -> Prop := en_destroy : ends a (KOp (ADestroy a)) | en_assign b : ends a (KAssign a b).
(** A default constructed array *)
Definition null_array (s : kst) (a : nat) (x : var) : Prop := variable s a = Some x /\ exists z, carray (k_mem s) (v_data x) = Some (mkCarr z None).

(** ** Memory *)
Definition size (c : carr) : Z := match ca_elems c with Some l => Z.of_nat (length l) | None => 0 end.
Definition evolves (o : oop) (n : nat) (e e' : option carr) : Prop :=
  match e, e' with
  | None, None => True
  | Some c, Some c' => ca_ty c' = ca_ty c /\ option_map (@length _) (ca_elems c') = option_map (@length _) (ca_elems c)
  | Some _, None => o = ADestroy n
  | None, Some _ => False
  end.
Lemma evolves_refl o n e : evolves o n e e. Proof. destruct e; cbn; auto. Qed.

Section Std.
Variable cxx17 : bool.
Local Notation ostep := (ostep cxx17).
Local Notation oexec := (oexec cxx17).
Local Notation oreach := (oreach cxx17).
Local Notation kstep := (kstep cxx17).
Local Notation kexec := (kexec cxx17).
Local Notation kreach := (kreach cxx17).
Local Notation on_mem := (on_mem cxx17).
Local Notation on_array := (on_array cxx17).

Lemma set_arrs o s a c y i u v s' : carray s a = Some c -> set_ s a c y i u = Some (v, s') ->
  forall n e, nth_error (o_arrs s) n = Some e -> exists e', nth_error (o_arrs s') n = Some e' /\ evolves o n e e'.
Proof.
  intros A E n e N. unfold set_ in E. destruct (match u with Some x => _ | None => true end); [|injection E as _ <-; exists e; split; [exact N|apply evolves_refl]].
  unfold slot in E. destruct (ca_elems c) as [l|] eqn:L; [|discriminate]. destruct ((0 <=? i) && (i <? Z.of_nat (length l))); [|discriminate]. injection E as _ <-.
  rewrite (aput_get _ _ A). destruct (Nat.eqb_spec a n) as [->|]; [|exists e; split; [exact N|apply evolves_refl]].
  eexists. split; [reflexivity|]. unfold carray in A. rewrite N in A. subst e. cbn. split; [reflexivity|]. rewrite L. cbn. rewrite list_set_length. reflexivity.
Qed.
Lemma arrs_step o s v s' : ostep o s = Some (v, s') -> forall n e, nth_error (o_arrs s) n = Some e -> exists e', nth_error (o_arrs s') n = Some e' /\ evolves o n e e'.
Proof.
  intros E n e N.
  assert (Same : o_arrs s' = o_arrs s -> exists e', nth_error (o_arrs s') n = Some e' /\ evolves o n e e') by (intros ->; exists e; split; [exact N|apply evolves_refl]).
  assert (App : forall c, o_arrs s' = o_arrs s ++ [c] -> exists e', nth_error (o_arrs s') n = Some e' /\ evolves o n e e').
  { intros c ->. exists e. split; [rewrite nth_error_app1; [exact N|apply nth_error_Some; congruence]|apply evolves_refl]. }
  destruct o as [z0 u|z0 u|x0|x0|x0|x0|x0 u|z0|z0 m|b y i|b y i|b y i x0|b y i w x0|b|b]; cbn [CObjModel.ostep] in E;
    try (destruct (nth_error (o_objs s) x0) as [p|] eqn:P; [|try discriminate; destruct (view s b y); discriminate]).
  - injection E as _ <-. apply Same. reflexivity.
  - injection E as _ <-. apply Same. reflexivity.
  - destruct (ob_auto p && negb (ob_gone p)); [|discriminate]. injection E as _ <-. apply Same. reflexivity.
  - destruct (negb (ob_auto p) && (0 <? ob_refs p)%nat); [|discriminate]. injection E as _ <-. apply Same. reflexivity.
  - destruct (negb (ob_auto p) && (0 <? ob_refs p)%nat); [|discriminate]. injection E as _ <-. apply Same. reflexivity.
  - destruct (alive s x0); [|discriminate]. injection E as _ <-. apply Same. reflexivity.
  - destruct (alive s x0); [|discriminate]. injection E as _ <-. apply Same. reflexivity.
  - injection E as _ <-. eapply App. reflexivity.
  - destruct (m <? 0); injection E as _ <-; [apply Same; reflexivity|eapply App; reflexivity].
  - destruct (view s b y) as [c|]; [|discriminate]. destruct (slot c i) as [[l j]|]; [|discriminate]. destruct (nth_error l j) as [[x1|]|]; try (injection E as _ <-; apply Same; reflexivity).
    destruct (nth_error (o_objs s) x1); [|discriminate]. injection E as _ <-. apply Same. reflexivity.
  - destruct (view s b y) as [c|] eqn:V; [|discriminate]. apply view_array in V. exact (set_arrs _ (proj1 V) E N).
  - destruct (view s b y) as [c|] eqn:V; [|discriminate]. apply view_array in V. destruct (derives (ob_ty p) y && negb (ob_auto p) && alive s x0); [|discriminate]. exact (set_arrs _ (proj1 V) E N).
  - destruct (view s b y) as [c|] eqn:V; [|discriminate]. apply view_array in V. destruct (derives (ob_ty p) w && derives w y && alive s x0); [|discriminate].
    destruct (cxx17 && negb (ob_auto p)); [exact (set_arrs _ (proj1 V) E N)|].
    exact (set_arrs (s := mkO (o_objs s ++ [mkObj w (ob_val p) 0 false false]) (o_arrs s)) _ (proj1 V) E N).
  - destruct (carray s b); [|discriminate]. injection E as _ <-. apply Same. reflexivity.
  - destruct (carray s b) as [c|] eqn:A; [|discriminate]. injection E as _ <-. rewrite (aput_get _ _ A). destruct (Nat.eqb_spec b n) as [->|]; [|exists e; split; [exact N|apply evolves_refl]].
    eexists. split; [reflexivity|]. destruct e; cbn; auto.
Qed.

(** An access to freed storage: nothing but an exception, which may leave a copy of an object behind. *)
Lemma null_set s a c y i u : ca_elems c = None -> set_ s a c y i u = None \/ set_ s a c y i u = Some (DThrow, s).
Proof. intros C. unfold set_, slot. rewrite C. destruct (match u with Some x => _ | None => true end); auto. Qed.
Definition element_op (o : oop) : bool := match o with AGet _ _ _ | ANull _ _ _ | AShared _ _ _ _ | ARaw _ _ _ _ _ => true | _ => false end.
Lemma null_step o s n z : element_op o = true -> carray s n = Some (mkCarr z None) ->
  ostep (redirect o n) s = None \/ exists m, ostep (redirect o n) s = Some (DThrow, m) /\ o_arrs m = o_arrs s /\
    (o_objs m = o_objs s \/ exists w v, o_objs m = o_objs s ++ [mkObj w v 0 false false]).
Proof.
  intros El A.
  destruct o as [z0 u|z0 u|x0|x0|x0|x0|x0 u|z0|z0 m|b y i|b y i|b y i x0|b y i w x0|b|b]; try discriminate; cbn [redirect CObjModel.ostep].
  - unfold view. rewrite A. left. destruct (derives _ y); reflexivity.
  - destruct (view s n y) as [c|] eqn:V; [|auto]. apply view_array in V. destruct V as [V _]. assert (c = mkCarr z None) as -> by congruence.
    destruct (null_set s n (c := mkCarr z None) y i None eq_refl) as [->| ->]; [auto|]. right. exists s. auto.
  - destruct (view s n y) as [c|] eqn:V; [|auto]. apply view_array in V. destruct V as [V _]. assert (c = mkCarr z None) as -> by congruence.
    destruct (nth_error (o_objs s) x0); [|auto]. destruct (_ && alive s x0); [|auto].
    destruct (null_set s n (c := mkCarr z None) y i (Some x0) eq_refl) as [->| ->]; [auto|]. right. exists s. auto.
  - destruct (view s n y) as [c|] eqn:V; [|auto]. apply view_array in V. destruct V as [V _]. assert (c = mkCarr z None) as -> by congruence.
    destruct (nth_error (o_objs s) x0) as [p|]; [|auto]. destruct (_ && alive s x0); [|auto]. destruct (cxx17 && _).
    + destruct (null_set s n (c := mkCarr z None) y i (Some x0) eq_refl) as [->| ->]; [auto|]. right. exists s. auto.
    + match goal with |- context [set_ ?s1 n _ y i ?u] => destruct (null_set s1 n (c := mkCarr z None) y i u eq_refl) as [->| ->] end; [auto|]. right. eexists. split; [reflexivity|]. split; [reflexivity|]. right. eexists. eexists. reflexivity.
Qed.
Lemma carray_last s c : carray (mkO (o_objs s) (o_arrs s ++ [c])) (length (o_arrs s)) = c.
Proof. unfold carray. cbn. rewrite nth_error_app2, Nat.sub_diag; [reflexivity|lia]. Qed.

(** ** One step: what happens to memory is a history of [CObjModel] *)
Lemma drop_copy s w v : oexec [ONew w v; ODrop (length (o_objs s))] s = Some ([DNew (length (o_objs s)); DDone], mkO (o_objs s ++ [mkObj w v 0 false false]) (o_arrs s)).
Proof.
  cbn [CObjModel.oexec CObjModel.ostep o_objs o_arrs]. rewrite nth_error_app2, Nat.sub_diag; [|lia]. cbn. unfold oset. cbn. do 3 f_equal.
  generalize (mkObj w v 1 false false). intros q. induction (o_objs s) as [|h t IH]; cbn; [reflexivity|]. f_equal. exact IH.
Qed.
Definition unused (s : kst) (n : nat) : Prop := forall a x, variable s a = Some x -> v_data x <> n.
Lemma mem_step o s v s1 : kstep o s = Some (v, s1) -> exists l ws, oexec l (k_mem s) = Some (ws, k_mem s1) /\
  Forall (fun op => forall n, unused s n -> (forall k, ~ touches n k op) /\ op <> ADestroy n) l.
Proof.
  assert (Mem : forall op s2 u, on_mem op s = Some (u, s2) -> oexec [op] (k_mem s) = Some ([u], k_mem s2)).
  { intros op s2 u. unfold CCopyModel.on_mem. cbn. destruct (ostep op (k_mem s)) as [[w m]|]; [|discriminate]. intros [= <- <-]. reflexivity. }
  assert (Acc : forall op x a u s2, element_op op = true -> variable s a = Some x -> on_array op x s = Some (u, s2) -> exists l ws, oexec l (k_mem s) = Some (ws, k_mem s2) /\
    Forall (fun op => forall n, unused s n -> (forall k, ~ touches n k op) /\ op <> ADestroy n) l).
  { intros op x a u s2 El X. unfold CCopyModel.on_array. destruct (carray (k_mem s) (v_data x)) as [c|] eqn:C.
    - intros E. exists [redirect op (v_data x)], [u]. split; [exact (Mem _ _ _ E)|]. constructor; [|constructor]. intros n U. pose proof (U a x X) as Ne.
      destruct op; try discriminate; cbn [redirect]; (split; [intros k T; inversion T; congruence|discriminate]).
    - cbn zeta. destruct (null_step El (carray_last (k_mem s) (Some (mkCarr (v_ty x) None)))) as [->|(m & -> & Ar & Ob)]; [discriminate|]. intros [= <- <-]. cbn [k_mem o_objs] in *.
      destruct Ob as [->|(w & q & ->)].
      + exists [], []. split; [destruct (k_mem s); reflexivity|constructor].
      + eexists. eexists. split; [apply drop_copy|]. repeat constructor; try discriminate; intros k T; inversion T. }
  assert (Con : forall op z n u s2, (forall k m, ~ touches m k op) -> (forall m, op <> ADestroy m) -> constructed cxx17 op z n s = Some (u, s2) -> exists l ws, oexec l (k_mem s) = Some (ws, k_mem s2) /\
    Forall (fun op => forall n, unused s n -> (forall k, ~ touches n k op) /\ op <> ADestroy n) l).
  { intros op z n u s2 T D E. unfold constructed in E. destruct (ostep op (k_mem s)) as [[w m]|] eqn:O; [|discriminate]. exists [op], [w]. split; [cbn; rewrite O; destruct w; injection E as _ <-; reflexivity|].
    constructor; [|constructor]. intros k _. auto. }
  assert (Ptr : forall x y m, pointer s x = (y, m) -> exists l ws, oexec l (k_mem s) = Some (ws, m) /\
    Forall (fun op => forall n, unused s n -> (forall k, ~ touches n k op) /\ op <> ADestroy n) l).
  { intros x y m. unfold pointer. destruct (carray (k_mem s) (v_data x)) as [[z [l|]]|]; intros [= _ <-].
    - exists [], []. split; [reflexivity|constructor].
    - exists [AEmpty z], [DNew (length (o_arrs (k_mem s)))]. split; [reflexivity|]. constructor; [|constructor]. intros k _. split; [intros j T; inversion T|discriminate].
    - exists [], []. split; [reflexivity|constructor]. }
  destruct o as [op|a|a b].
  - destruct op as [z0 u|z0 u|x0|x0|x0|x0|x0 u|z0|z0 m|b y i|b y i|b y i x0|b y i w x0|b|b]; cbn [CCopyModel.kstep]; intros E;
      try (eexists; eexists; split; [exact (Mem _ _ _ E)|constructor; [|constructor]; intros k _; split; [intros j T; inversion T|discriminate]]).
    + refine (Con _ _ _ _ _ _ _ E); [intros k j T; inversion T|discriminate].
    + refine (Con _ _ _ _ _ _ _ E); [intros k j T; inversion T|discriminate].
    + destruct (variable s b) as [x|] eqn:X; [|discriminate]. eapply Acc; [|exact X|exact E]; reflexivity.
    + destruct (variable s b) as [x|] eqn:X; [|discriminate]. eapply Acc; [|exact X|exact E]; reflexivity.
    + destruct (variable s b) as [x|] eqn:X; [|discriminate]. eapply Acc; [|exact X|exact E]; reflexivity.
    + destruct (variable s b) as [x|] eqn:X; [|discriminate]. eapply Acc; [|exact X|exact E]; reflexivity.
    + destruct (variable s b); [|discriminate]. injection E as <- <-. exists [], []. split; [reflexivity|constructor].
    + destruct (variable s b) as [x|] eqn:X; [|discriminate]. destruct (on_mem (ADestroy (v_data x)) s) as [[w s2]|] eqn:O; [|discriminate]. injection E as <- <-.
      eexists. eexists. split; [exact (Mem _ _ _ O)|]. constructor; [|constructor]. intros n U. pose proof (U b x X). split; [intros k T; inversion T; congruence|congruence].
  - cbn. destruct (variable s a) as [x|]; [|discriminate]. destruct (pointer s x) as [y m] eqn:P. intros [= <- <-]. exact (Ptr _ _ _ P).
  - cbn. destruct (variable s a) as [x|]; [|discriminate]. destruct (variable s b) as [y|]; [|discriminate]. destruct (cty_eqb _ _); [|discriminate]. destruct (pointer s y) as [y' m] eqn:P. intros [= <- <-]. exact (Ptr _ _ _ P).
Qed.
(** ** Storages over histories *)
Definition grown (e e' : option carr) : Prop :=
  forall c', e' = Some c' -> exists c, e = Some c /\ ca_ty c' = ca_ty c /\ option_map (@length _) (ca_elems c') = option_map (@length _) (ca_elems c).
Lemma grown_size c c' : option_map (@length (option nat)) (ca_elems c') = option_map (@length _) (ca_elems c) -> size c' = size c /\ (ca_elems c' = None <-> ca_elems c = None).
Proof. unfold size. destruct (ca_elems c), (ca_elems c'); cbn; intros [=]; split; congruence || (split; congruence). Qed.
Lemma arrs_exec l s vs s' : oexec l s = Some (vs, s') -> forall n e, nth_error (o_arrs s) n = Some e -> exists e', nth_error (o_arrs s') n = Some e' /\ grown e e'.
Proof.
  revert s vs. induction l as [|o l IH]; intros s vs E n e N; cbn in E.
  - injection E as _ <-. exists e. split; [exact N|]. intros c' ->. eauto.
  - destruct (ostep o s) as [[v s1]|] eqn:E1; [|discriminate]. destruct (oexec l s1) as [[ws s2]|] eqn:E2; [|discriminate]. injection E as _ <-.
    destruct (arrs_step E1 N) as (e1 & N1 & Ev). destruct (IH _ _ E2 n e1 N1) as (e2 & N2 & G). exists e2. split; [exact N2|].
    intros c' C'. destruct (G c' C') as (c1 & -> & T & L). destruct e as [c|]; cbn in Ev; [|contradiction]. destruct Ev as [T1 L1]. exists c. split; [reflexivity|]. split; congruence.
Qed.
Lemma carray_nth s n c : carray s n = Some c -> nth_error (o_arrs s) n = Some (Some c).
Proof. unfold carray. destruct (nth_error (o_arrs s) n); [congruence|discriminate]. Qed.
Lemma mem_grown o s v s1 n : kstep o s = Some (v, s1) -> (n < length (o_arrs (k_mem s)))%nat -> (n < length (o_arrs (k_mem s1)))%nat /\ grown (carray (k_mem s) n) (carray (k_mem s1) n).
Proof.
  intros E L. destruct (mem_step E) as (l & ws & X & _). destruct (nth_error (o_arrs (k_mem s)) n) as [e|] eqn:N; [|apply nth_error_None in N; lia].
  destruct (arrs_exec X N) as (e' & N' & G). split; [apply nth_error_Some; congruence|]. unfold carray. rewrite N, N'. exact G.
Qed.

(** ** Array objects *)
Definition kinv (s : kst) : Prop :=
  (forall a x, variable s a = Some x -> (v_data x < length (o_arrs (k_mem s)))%nat /\ forall c, carray (k_mem s) (v_data x) = Some c -> ca_ty c = v_ty x /\ v_len x = size c) /\
  (forall a b x y, a <> b -> variable s a = Some x -> variable s b = Some y -> v_data x = v_data y -> forall z, carray (k_mem s) (v_data x) <> Some (mkCarr z None)).
(** A new array object: a copy of the pointer of another, or one with a new storage *)
Inductive arises (s s1 : kst) : var -> Prop :=
| ar_copy b y : variable s b = Some y -> (forall z, carray (k_mem s) (v_data y) <> Some (mkCarr z None)) -> k_mem s1 = k_mem s -> arises s s1 y
| ar_new y c : v_data y = length (o_arrs (k_mem s)) -> carray (k_mem s1) (v_data y) = Some c -> ca_ty c = v_ty y -> v_len y = size c -> arises s s1 y.
Lemma pointer_arises s x y m b vs : kinv s -> variable s b = Some x -> pointer s x = (y, m) -> arises s (mkK m vs) y.
Proof.
  intros [I _] X P. unfold pointer in P. destruct (I b x X) as [_ Ic]. destruct (carray (k_mem s) (v_data x)) as [[z [l|]]|] eqn:C; injection P as <- <-.
  - eapply ar_copy; [exact X| |reflexivity]. rewrite C. congruence.
  - destruct (Ic _ eq_refl) as [T L]. refine (ar_new (c := mkCarr z None) _ _ _ _); [reflexivity|cbn [v_data k_mem]; apply carray_last|exact T|exact L].
  - eapply ar_copy; [exact X| |reflexivity]. rewrite C. congruence.
Qed.
Lemma vars_step o s v s1 : kinv s -> kstep o s = Some (v, s1) ->
  k_vars s1 = k_vars s \/ (exists x, k_vars s1 = k_vars s ++ [Some x] /\ arises s s1 x) \/
  exists a x, ends a o /\ k_vars s1 = list_set (k_vars s) a x /\ match x with Some x => arises s s1 x | None => True end.
Proof.
  intros I.
  assert (Mem : forall op s2 u, on_mem op s = Some (u, s2) -> k_vars s2 = k_vars s).
  { intros op s2 u. unfold CCopyModel.on_mem. destruct (ostep op (k_mem s)) as [[w m]|]; [|discriminate]. intros [= <- <-]. reflexivity. }
  assert (Acc : forall op x u s2, on_array op x s = Some (u, s2) -> k_vars s2 = k_vars s).
  { intros op x u s2. unfold CCopyModel.on_array. destruct (carray (k_mem s) (v_data x)); [apply Mem|]. cbn zeta. destruct (ostep _ _) as [[w m]|]; [|discriminate]. intros [= <- <-]. reflexivity. }
  destruct o as [op|a|a b].
  - destruct op as [z0 u|z0 u|x0|x0|x0|x0|x0 u|z0|z0 m|b y i|b y i|b y i x0|b y i w x0|b|b]; cbn [CCopyModel.kstep]; intros E; try (left; exact (Mem _ _ _ E));
      try (destruct (variable s b) as [x|] eqn:X; [|discriminate]); try (left; exact (Acc _ _ _ _ E)).
    + unfold constructed in E. cbn [CObjModel.ostep] in E. injection E as _ <-. right. left. eexists. split; [reflexivity|]. refine (ar_new (c := mkCarr z0 None) _ _ _ _); [reflexivity|cbn [v_data k_mem]; apply carray_last|reflexivity|reflexivity].
    + unfold constructed in E. cbn [CObjModel.ostep] in E. destruct (Z.ltb_spec m 0); injection E as _ <-; [auto|]. right. left. eexists. split; [reflexivity|].
      refine (ar_new (c := mkCarr z0 (Some (repeat None (Z.to_nat m)))) _ _ _ _); [reflexivity|cbn [v_data k_mem]; apply carray_last|reflexivity|]. cbn. rewrite repeat_length. lia.
    + injection E as _ <-. auto.
    + destruct (on_mem (ADestroy (v_data x)) s) as [[w s2]|] eqn:O; [|discriminate]. injection E as _ <-. right. right. exists b, None. split; [constructor|]. cbn. rewrite (Mem _ _ _ O). auto.
  - cbn. destruct (variable s a) as [x|] eqn:X; [|discriminate]. destruct (pointer s x) as [y m] eqn:P. intros [= <- <-]. right. left. exists y. split; [reflexivity|]. exact (pointer_arises _ I X P).
  - cbn. destruct (variable s a) as [x|]; [|discriminate]. destruct (variable s b) as [y|] eqn:Y; [|discriminate]. destruct (cty_eqb _ _); [|discriminate]. destruct (pointer s y) as [y' m] eqn:P. intros [= <- <-].
    right. right. exists a, (Some y'). split; [constructor|]. split; [reflexivity|]. exact (pointer_arises _ I Y P).
Qed.
Lemma var_set l a x b : match nth_error (list_set l a (x : option var)) b with Some y => y | None => None end = if Nat.eqb a b then match nth_error l b with Some _ => x | None => None end else match nth_error l b with Some y => y | None => None end.
Proof. rewrite nth_list_set. destruct (Nat.eqb a b), (nth_error l b); reflexivity. Qed.
Lemma var_app (l : list (option var)) x b y : match nth_error (l ++ [x]) b with Some y => y | None => None end = Some y -> match nth_error l b with Some y => y | None => None end = Some y \/ b = length l /\ x = Some y.
Proof.
  destruct (Nat.ltb_spec b (length l)).
  - rewrite nth_error_app1 by assumption. auto.
  - rewrite nth_error_app2 by assumption. destruct (b - length l)%nat eqn:D; cbn; [|destruct n; discriminate]. intros ->. right. split; [lia|reflexivity].
Qed.
(** Every array object of [s1] was there, or arises *)
Lemma var_origin o s v s1 a x : kinv s -> kstep o s = Some (v, s1) -> variable s1 a = Some x ->
  variable s a = Some x \/ arises s s1 x /\ (forall b, b <> a -> forall y, variable s1 b = Some y -> variable s b = Some y).
Proof.
  intros I E X. destruct (vars_step I E) as [Eq|[(y & Eq & A)|(b & y & En & Eq & A)]]; unfold variable in *; rewrite Eq in *.
  - auto.
  - destruct (var_app X) as [H|[La Ex]]; [auto|]. injection Ex as <-. right. split; [exact A|]. intros b N y0 Y. destruct (var_app Y) as [H|[Lb _]]; [exact H|congruence].
  - rewrite var_set in X. destruct (Nat.eqb_spec b a) as [->|]; [|auto]. destruct (nth_error (k_vars s) a) eqn:N; [|discriminate]. subst y. right. split; [exact A|].
    intros c Nc y Y. rewrite var_set in Y. destruct (Nat.eqb_spec a c); [congruence|exact Y].
Qed.
Lemma kinv_step o s v s1 : kinv s -> kstep o s = Some (v, s1) -> kinv s1.
Proof.
  intros I E. pose proof I as [I1 I2].
  assert (Old : forall a x, variable s a = Some x -> (v_data x < length (o_arrs (k_mem s1)))%nat /\ forall c, carray (k_mem s1) (v_data x) = Some c -> ca_ty c = v_ty x /\ v_len x = size c).
  { intros a x X. destruct (I1 a x X) as [L C]. destruct (mem_grown E L) as [L1 G]. split; [exact L1|]. intros c' C'. destruct (G c' C') as (c & Cc & T & S). destruct (C c Cc) as [T1 L2]. destruct (grown_size S) as [S1 _]. split; congruence. }
  split.
  - intros a x X. destruct (var_origin I E X) as [H|[[b y Y Nn M|y c D C T L] _]]; [exact (Old a x H)|exact (Old b y Y)|].
    split; [apply nth_error_Some; rewrite (carray_nth C); discriminate|]. intros c' C'. assert (c' = c) as -> by congruence. auto.
  - intros a b x y N X Y D z.
    assert (Olds : forall a b x y, a <> b -> variable s a = Some x -> variable s b = Some y -> v_data x = v_data y -> carray (k_mem s1) (v_data x) <> Some (mkCarr z None)).
    { clear - I1 I2 E. intros a b x y N X Y D C'. destruct (I1 a x X) as [L _]. destruct (mem_grown E L) as [_ G]. destruct (G _ C') as (c & C & T & S). destruct c as [t [l|]]; [discriminate|]. exact (I2 a b x y N X Y D _ C). }
    assert (New : forall b x y, variable s b = Some y -> arises s s1 x -> v_data x = v_data y -> carray (k_mem s1) (v_data x) <> Some (mkCarr z None)).
    { clear - I1. intros b x y Y [d u U Nn M|u c Du C T L] D C'; [rewrite M in C'; exact (Nn _ C')|]. destruct (I1 b y Y). lia. }
    destruct (var_origin I E X) as [X0|[A O]], (var_origin I E Y) as [Y0|[A' O']].
    + eapply Olds; eassumption.
    + rewrite D. eapply (New a); [exact X0|exact A'|auto].
    + eapply (New b); eassumption.
    + eapply (New b); [exact (O b (not_eq_sym N) y Y)|exact A|exact D].
Qed.
Lemma kinv_exec l s vs s1 : kinv s -> kexec l s = Some (vs, s1) -> kinv s1.
Proof.
  revert s vs. induction l as [|o l IH]; intros s vs I E; cbn in E; [injection E as _ <-; exact I|].
  destruct (kstep o s) as [[v s2]|] eqn:E1; [|discriminate]. destruct (kexec l s2) as [[ws s3]|] eqn:E2; [|discriminate]. injection E as _ <-. exact (IH _ _ (kinv_step I E1) E2).
Qed.
Lemma kinv_reach s : kreach s -> kinv s.
Proof.
  intros (l & vs & E). refine (kinv_exec _ E). split; [intros a x X|intros a b x y _ X]; unfold variable in X; cbn in X; destruct a; discriminate.
Qed.
Lemma var_kept o s v s1 a x : kinv s -> kstep o s = Some (v, s1) -> variable s a = Some x -> ~ ends a o -> variable s1 a = Some x.
Proof.
  intros I E X N. unfold variable in *. destruct (nth_error (k_vars s) a) as [y|] eqn:Y; [|discriminate]. subst y.
  destruct (vars_step I E) as [->|[(y & -> & _)|(b & y & En & -> & _)]]; [rewrite Y; reflexivity|rewrite nth_error_app1, Y; [reflexivity|apply nth_error_Some; congruence]|].
  rewrite nth_list_set. destruct (Nat.eqb_spec b a) as [->|]; [contradiction|]. rewrite Y. reflexivity.
Qed.

(** ** Property C103 *)
(** In every history the length of an array object is the number of elements of its storage, as long as that is there. *)
Theorem C103_length s a x : kreach s -> variable s a = Some x -> kstep (KOp (ASize a)) s = Some (DVal (v_len x), s) /\
  forall z l, has (k_mem s) (v_data x) z l -> z = v_ty x /\ v_len x = Z.of_nat (length l).
Proof.
  intros R X. split; [cbn; rewrite X; reflexivity|]. intros z l H. destruct (kinv_reach R) as [I _]. destruct (I a x X) as [_ C]. destruct (C _ H) as [T L]. auto.
Qed.
(** A copy has the same storage; of a default constructed array, none. *)
Theorem C103_copy s a x : kreach s -> variable s a = Some x -> exists b s', kstep (KCopy a) s = Some (DNew b, s') /\ variable s b = None /\
  (forall c, c <> b -> variable s' c = variable s c) /\ o_objs (k_mem s') = o_objs (k_mem s) /\ (forall n c, carray (k_mem s) n = Some c -> carray (k_mem s') n = Some c) /\
  (forall n, stores s a n x -> k_mem s' = k_mem s /\ shares s' a b) /\
  (null_array s a x -> exists y, null_array s' b y /\ v_ty y = v_ty x /\ v_len y = 0 /\ v_data y <> v_data x).
Proof.
  intros R X. destruct (kinv_reach R) as [I1 _]. destruct (I1 a x X) as [L C]. cbn [CCopyModel.kstep]. rewrite X. destruct (pointer s x) as [y m] eqn:P. exists (length (k_vars s)). eexists. split; [reflexivity|].
  assert (Vb : variable s (length (k_vars s)) = None) by (unfold variable; destruct (nth_error (k_vars s) (length (k_vars s))) eqn:N; [|reflexivity]; assert (nth_error (k_vars s) (length (k_vars s)) <> None) as Q by congruence; apply nth_error_Some in Q; lia).
  assert (La : (a < length (k_vars s))%nat) by (apply nth_error_Some; unfold variable in X; destruct (nth_error (k_vars s) a); discriminate).
  assert (Vn : forall m, variable (mkK m (k_vars s ++ [Some y])) (length (k_vars s)) = Some y) by (intros m'; unfold variable; cbn; rewrite nth_error_app2, Nat.sub_diag; [reflexivity|lia]).
  assert (Vo : forall m c, c <> length (k_vars s) -> variable (mkK m (k_vars s ++ [Some y])) c = variable s c).
  { intros m' c N. unfold variable. cbn. destruct (Nat.ltb_spec c (length (k_vars s))); [rewrite nth_error_app1 by assumption; reflexivity|].
    rewrite (proj2 (nth_error_None (k_vars s) c)) by assumption. rewrite (proj2 (nth_error_None (k_vars s ++ [Some y]) c)); [reflexivity|]. rewrite app_length. cbn. lia. }
  split; [exact Vb|]. split; [apply Vo|]. unfold pointer in P. destruct (carray (k_mem s) (v_data x)) as [[z [l|]]|] eqn:Cx; injection P as <- <-; cbn [k_mem o_objs].
  - split; [reflexivity|]. split; [auto|]. split.
    + intros n (_ & D & Nn). split; [reflexivity|]. exists n, x. split; [|apply Vn]. split; [rewrite Vo; [exact X|lia]|]. split; [exact D|exact Nn].
    + intros (_ & z' & Q). congruence.
  - split; [reflexivity|]. split.
    + intros n c Cn. unfold carray in *. cbn. destruct (nth_error (o_arrs (k_mem s)) n) eqn:N; [|discriminate]. rewrite nth_error_app1, N; [exact Cn|apply nth_error_Some; congruence].
    + split; [intros n (_ & D & Nn); subst n; destruct (Nn z Cx)|]. intros _. eexists. split; [split; [apply Vn|exists z; apply carray_last]|]. cbn [v_ty v_len v_data]. split; [reflexivity|]. split; [exact (proj2 (C _ eq_refl))|lia].
  - split; [reflexivity|]. split; [auto|]. split.
    + intros n (_ & D & Nn). split; [reflexivity|]. exists n, x. split; [|apply Vn]. split; [rewrite Vo; [exact X|lia]|]. split; [exact D|exact Nn].
    + intros (_ & z' & Q). congruence.
Qed.
(** An assignment gives it the storage of the other one, whatever it had. *)
Theorem C103_assign s a b x y : kreach s -> variable s a = Some x -> variable s b = Some y ->
  (v_ty x <> v_ty y -> kstep (KAssign a b) s = None) /\
  (v_ty x = v_ty y -> exists s', kstep (KAssign a b) s = Some (DDone, s') /\ length (k_vars s') = length (k_vars s) /\ (forall c, c <> a -> variable s' c = variable s c) /\
     o_objs (k_mem s') = o_objs (k_mem s) /\ (forall n c, carray (k_mem s) n = Some c -> carray (k_mem s') n = Some c) /\
     (forall n, stores s b n y -> k_mem s' = k_mem s /\ shares s' a b) /\
     (null_array s b y -> exists x', null_array s' a x' /\ v_ty x' = v_ty y /\ v_len x' = 0)).
Proof.
  intros R X Y. destruct (kinv_reach R) as [I1 _]. destruct (I1 b y Y) as [L C]. cbn [CCopyModel.kstep]. rewrite X, Y. split.
  { intros N. destruct (cty_eqb _ _) eqn:Q; [|reflexivity]. apply cty_eqb_spec in Q. contradiction. }
  intros T. rewrite (proj2 (cty_eqb_spec _ _) T). destruct (pointer s y) as [y' m] eqn:P. eexists. split; [reflexivity|]. cbn [k_vars]. split; [apply list_set_length|].
  assert (Vn : forall m, variable (mkK m (list_set (k_vars s) a (Some y'))) a = Some y').
  { intros m'. unfold variable in *. cbn [k_vars]. rewrite var_set, Nat.eqb_refl. destruct (nth_error (k_vars s) a); [reflexivity|discriminate]. }
  assert (Vo : forall m c, c <> a -> variable (mkK m (list_set (k_vars s) a (Some y'))) c = variable s c).
  { intros m' c N. unfold variable. cbn [k_vars]. rewrite var_set. destruct (Nat.eqb_spec a c); [congruence|reflexivity]. }
  split; [apply Vo|]. unfold pointer in P. destruct (carray (k_mem s) (v_data y)) as [[z [l|]]|] eqn:Cy; injection P as <- <-; cbn [k_mem o_objs].
  - split; [reflexivity|]. split; [auto|]. split.
    + intros n (_ & D & Nn). split; [reflexivity|]. exists n, y. split; [split; [apply Vn|split; [exact D|exact Nn]]|]. destruct (Nat.eq_dec b a) as [->|]; [apply Vn|rewrite Vo; assumption].
    + intros (_ & z' & Q). congruence.
  - split; [reflexivity|]. split.
    + intros n c Cn. unfold carray in *. cbn. destruct (nth_error (o_arrs (k_mem s)) n) eqn:N; [|discriminate]. rewrite nth_error_app1, N; [exact Cn|apply nth_error_Some; congruence].
    + split; [intros n (_ & D & Nn); subst n; destruct (Nn z Cy)|]. intros _. eexists. split; [split; [apply Vn|exists z; apply carray_last]|]. cbn [v_ty v_len]. split; [reflexivity|exact (proj2 (C _ eq_refl))].
  - split; [reflexivity|]. split; [auto|]. split.
    + intros n (_ & D & Nn). split; [reflexivity|]. exists n, y. split; [split; [apply Vn|split; [exact D|exact Nn]]|]. destruct (Nat.eq_dec b a) as [->|]; [apply Vn|rewrite Vo; assumption].
    + intros (_ & z' & Q). congruence.
Qed.
(** Arrays that share their storage are indistinguishable: a store through one is read through the other. *)
Theorem C103_same s a b : shares s a b ->
  (forall y i, kstep (KOp (AGet a y i)) s = kstep (KOp (AGet b y i)) s) /\ (forall y i, kstep (KOp (ANull a y i)) s = kstep (KOp (ANull b y i)) s) /\
  (forall y i x, kstep (KOp (AShared a y i x)) s = kstep (KOp (AShared b y i x)) s) /\ (forall y i w x, kstep (KOp (ARaw a y i w x)) s = kstep (KOp (ARaw b y i w x)) s) /\
  kstep (KOp (ASize a)) s = kstep (KOp (ASize b)) s /\ kstep (KCopy a) s = kstep (KCopy b) s.
Proof. intros (n & x & (A & _) & B). cbn [CCopyModel.kstep]. rewrite A, B. repeat split; reflexivity. Qed.
(** … and they go on sharing it until one of them is destroyed or assigned to. *)
Theorem C103_shared s l vs s' a b : kreach s -> shares s a b -> kexec l s = Some (vs, s') -> Forall (fun o => ~ ends a o /\ ~ ends b o) l -> shares s' a b.
Proof.
  intros R. pose proof (kinv_reach R) as I. clear R. intros Sh E F. revert s vs I Sh E. induction F as [|o l [Na Nb] F IH]; intros s vs I Sh E; cbn in E; [injection E as _ <-; exact Sh|].
  destruct (kstep o s) as [[v s1]|] eqn:E1; [|discriminate]. destruct (kexec l s1) as [[ws s2]|] eqn:E2; [|discriminate]. injection E as _ <-. apply (IH s1 ws (kinv_step I E1)); [|exact E2].
  destruct Sh as (n & x & (A & D & Nn) & B). exists n, x. split; [|exact (var_kept I E1 B Nb)]. split; [exact (var_kept I E1 A Na)|]. split; [exact D|].
  intros z C. destruct I as [I _]. destruct (I a x A) as [L _]. rewrite D in L. destruct (mem_grown E1 L) as [_ G]. destruct (G _ C) as ([t [m|]] & C0 & _ & Q); [discriminate|]. exact (Nn t C0).
Qed.
(** Freed storage *)
Definition dangling (s : kst) (b : nat) : Prop := exists x, variable s b = Some x /\ carray (k_mem s) (v_data x) = None.
Lemma dangling_step o s v s1 b : kinv s -> kstep o s = Some (v, s1) -> ~ ends b o -> dangling s b -> dangling s1 b.
Proof.
  intros I E N (x & X & C). exists x. split; [exact (var_kept I E X N)|]. destruct I as [I _]. destruct (I b x X) as [L _]. destruct (mem_grown E L) as [_ G]. rewrite C in G.
  destruct (carray (k_mem s1) (v_data x)) as [c|] eqn:C1; [|reflexivity]. destruct (G c eq_refl) as (c0 & Q & _). discriminate.
Qed.
Lemma dangling_use s b : dangling s b -> kstep (KOp (ADestroy b)) s = None /\ (forall y i, kstep (KOp (AGet b y i)) s = None /\ kstep (KOp (ANull b y i)) s = None) /\
  (forall y i x w s', kstep (KOp (AShared b y i x)) s <> Some (DDone, s') /\ kstep (KOp (ARaw b y i w x)) s <> Some (DDone, s')).
Proof.
  intros (x & X & C). cbn [CCopyModel.kstep]. rewrite X. split; [unfold CCopyModel.on_mem; cbn [CObjModel.ostep]; rewrite C; reflexivity|]. unfold CCopyModel.on_array. rewrite C. cbn zeta.
  set (m := mkO _ _). assert (A : carray m (length (o_arrs (k_mem s))) = Some (mkCarr (v_ty x) None)) by apply carray_last.
  split.
  - intros y i. cbn [redirect CObjModel.ostep]. unfold view. rewrite A. destruct (derives _ y); split; reflexivity.
  - intros y i x0 w s'. split.
    + destruct (null_step (o := AShared b y i x0) eq_refl A) as [->|(m' & -> & _)]; discriminate.
    + destruct (null_step (o := ARaw b y i w x0) eq_refl A) as [->|(m' & -> & _)]; discriminate.
Qed.
(** Once one of them is destroyed, whatever happens, the elements of the other must not be used, and it must not be destroyed, unless it is assigned to. *)
Theorem C103_dangling s l vs s1 s' a b v : kreach s -> shares s a b -> a <> b -> kstep (KOp (ADestroy a)) s = Some (v, s1) -> kexec l s1 = Some (vs, s') -> Forall (fun o => ~ ends b o) l ->
  kstep (KOp (ADestroy b)) s' = None /\ (forall y i, kstep (KOp (AGet b y i)) s' = None /\ kstep (KOp (ANull b y i)) s' = None) /\
  (forall y i x w s2, kstep (KOp (AShared b y i x)) s' <> Some (DDone, s2) /\ kstep (KOp (ARaw b y i w x)) s' <> Some (DDone, s2)) /\
  kstep (KOp (ASize b)) s' = match kstep (KOp (ASize b)) s with Some (n, _) => Some (n, s') | None => None end.
Proof.
  intros R (n & x & (A & D & Nn) & B) Ne E1 E F. pose proof (kinv_reach R) as I.
  assert (B1 : variable s1 b = Some x) by (apply (var_kept I E1 B); intros En; inversion En; congruence).
  assert (Dg : dangling s1 b).
  { exists x. split; [exact B1|]. cbn [CCopyModel.kstep] in E1. rewrite A in E1. unfold CCopyModel.on_mem in E1. cbn [CObjModel.ostep] in E1. destruct (carray (k_mem s) (v_data x)) as [c|] eqn:C; [|discriminate].
    injection E1 as _ <-. cbn [k_mem put_var]. unfold carray. rewrite (aput_get _ _ C), Nat.eqb_refl. reflexivity. }
  pose proof (kinv_step I E1) as I1. clear E1.
  assert (Fin : dangling s' b /\ variable s' b = Some x).
  { revert s1 vs I1 E Dg B1. induction F as [|o l N F IH]; intros s1 vs I1 E Dg B1; cbn in E; [injection E as _ <-; auto|].
    destruct (kstep o s1) as [[w s2]|] eqn:E2; [|discriminate]. destruct (kexec l s2) as [[ws s3]|] eqn:E3; [|discriminate]. injection E as _ <-.
    exact (IH _ _ (kinv_step I1 E2) E3 (dangling_step I1 E2 N Dg) (var_kept I1 E2 B1 N)). }
  destruct Fin as [Dg' B']. destruct (dangling_use Dg') as (U1 & U2 & U3). split; [exact U1|]. split; [exact U2|]. split; [exact U3|]. cbn [CCopyModel.kstep]. rewrite B, B'. reflexivity.
Qed.
(** So in no history without undefined behaviour are both an array and its copy destroyed. *)
Theorem C103_once s a x n l1 l2 b : kreach s -> stores s a n x -> b = length (k_vars s) -> Forall (fun o => ~ ends a o /\ ~ ends b o) l1 -> Forall (fun o => ~ ends b o) l2 ->
  kexec (KCopy a :: l1 ++ KOp (ADestroy a) :: l2 ++ [KOp (ADestroy b)]) s = None.
Proof.
  intros R St -> F1 F2. destruct (C103_copy R (proj1 St)) as (b & s1 & E1 & Vb & _ & _ & _ & Sh & _). destruct (Sh n St) as [_ Sh1]. cbn [CCopyModel.kexec].
  assert (b = length (k_vars s)) as Eb by (cbn [CCopyModel.kstep] in E1; rewrite (proj1 St) in E1; destruct (pointer s x); injection E1 as <- _; reflexivity).
  rewrite E1. rewrite <- Eb in *. clear Eb.
  assert (App : forall p q t, kexec (p ++ q) t = match kexec p t with Some (vs, t') => match kexec q t' with Some (ws, t'') => Some (vs ++ ws, t'') | None => None end | None => None end).
  { induction p as [|o p IH]; intros q t; cbn; [destruct (kexec q t) as [[ws t']|]; reflexivity|]. destruct (kstep o t) as [[v t1]|]; [|reflexivity]. rewrite IH. destruct (kexec p t1) as [[vs t2]|]; [|reflexivity]. destruct (kexec q t2) as [[ws t3]|]; reflexivity. }
  assert (R1 : kreach s1) by (destruct R as (l & vs & E); exists (l ++ [KCopy a]); rewrite App, E; cbn [CCopyModel.kexec]; rewrite E1; eauto).
  rewrite App. destruct (kexec l1 s1) as [[vs2 s2]|] eqn:E2; [|reflexivity]. pose proof (C103_shared R1 Sh1 E2 F1) as Sh2.
  assert (R2 : kreach s2) by (destruct R1 as (l & vs & E); exists (l ++ l1); rewrite App, E, E2; eauto).
  cbn [CCopyModel.kexec]. destruct (kstep (KOp (ADestroy a)) s2) as [[v s3]|] eqn:E3; [|reflexivity]. rewrite App. destruct (kexec l2 s3) as [[vs4 s4]|] eqn:E4; [|reflexivity].
  assert (a <> b) as Ne by (intros ->; rewrite (proj1 St) in Vb; discriminate).
  destruct (C103_dangling R2 Sh2 Ne E3 E4 F2) as (U & _). cbn [CCopyModel.kexec]. rewrite U. reflexivity.
Qed.
(** A hook that returns a reference to an array with elements copies it, copies the copy and destroys the first copy: neither the array itself
    nor the one that is given out can be used or destroyed any more. *)
Theorem C103_returned s a n x c : kreach s -> stores s a n x -> carray (k_mem s) n = Some c -> let k := length (k_vars s) in
  exists s', kexec [KCopy a; KCopy k; KOp (ADestroy k)] s = Some ([DNew k; DNew (S k); DDone], s') /\
  forall b, b = a \/ b = S k -> kstep (KOp (ADestroy b)) s' = None /\ (forall y i, kstep (KOp (AGet b y i)) s' = None /\ kstep (KOp (ANull b y i)) s' = None) /\
    (forall y i e w s2, kstep (KOp (AShared b y i e)) s' <> Some (DDone, s2) /\ kstep (KOp (ARaw b y i w e)) s' <> Some (DDone, s2)).
Proof.
  intros R (X & <- & Nn) C k.
  assert (P : forall vs, pointer (mkK (k_mem s) vs) x = (x, k_mem s)).
  { intros vs. unfold pointer. cbn [k_mem]. rewrite C. destruct c as [z [l|]]; [reflexivity|]. destruct (Nn z C). }
  assert (P0 : pointer s x = (x, k_mem s)) by (specialize (P (k_vars s)); destruct s; exact P).
  assert (Vk : variable (mkK (k_mem s) (k_vars s ++ [Some x])) k = Some x) by (unfold variable; cbn [k_vars]; unfold k; rewrite nth_error_app2, Nat.sub_diag; [reflexivity|lia]).
  assert (Lk : (a < k)%nat) by (apply nth_error_Some; unfold variable in X; destruct (nth_error (k_vars s) a); congruence).
  set (m := mkK (aput (k_mem s) (v_data x) None) (list_set ((k_vars s ++ [Some x]) ++ [Some x]) k None)).
  assert (E : kexec [KCopy a; KCopy k; KOp (ADestroy k)] s = Some ([DNew k; DNew (S k); DDone], m)).
  { cbn [CCopyModel.kexec CCopyModel.kstep]. rewrite X, P0. rewrite Vk, P. cbn [k_vars k_mem].
    assert (variable (mkK (k_mem s) ((k_vars s ++ [Some x]) ++ [Some x])) k = Some x) as -> by (unfold variable in *; cbn [k_vars] in *; rewrite nth_error_app1; [exact Vk|rewrite app_length; unfold k; cbn; lia]).
    unfold CCopyModel.on_mem. cbn [CObjModel.ostep k_mem]. rewrite C. unfold put_var. cbn [k_mem k_vars]. rewrite app_length. cbn [length]. rewrite Nat.add_1_r. reflexivity. }
  exists m. split; [exact E|]. intros b Hb. apply dangling_use. exists x. split.
  - unfold variable, m. cbn [k_vars]. rewrite var_set. destruct (Nat.eqb_spec k b) as [Q|Q]; [exfalso; destruct Hb; lia|]. destruct Hb as [->| ->].
    + rewrite <- app_assoc, nth_error_app1; [exact X|exact Lk].
    + rewrite nth_error_app2; rewrite app_length; cbn [length]; fold k; [|lia]. replace (S k - (k + 1))%nat with 0%nat by lia. reflexivity.
  - unfold m. cbn [k_mem]. unfold carray. rewrite (aput_get _ _ C), Nat.eqb_refl. reflexivity.
Qed.
(** Storing an object in freed storage: the exception of a view that refuses it comes first. *)
Lemma alive_null m z e : alive (mkO (o_objs m) (o_arrs m ++ [Some (mkCarr z None)])) e = alive m e.
Proof. unfold alive. cbn [o_objs o_arrs]. destruct (nth_error (o_objs m) e) as [o|]; [|reflexivity]. rewrite existsb_app. cbn. rewrite orb_false_r. reflexivity. Qed.
Theorem C103_refused s b x y i w e o : variable s b = Some x -> carray (k_mem s) (v_data x) = None -> sub (v_ty x) y -> obj (k_mem s) e o -> alive (k_mem s) e = true ->
  (ob_auto o = false -> sub (ob_ty o) y -> (~ takes (v_ty x) y (ob_ty o) -> kstep (KOp (AShared b y i e)) s = Some (DThrow, s)) /\ (takes (v_ty x) y (ob_ty o) -> kstep (KOp (AShared b y i e)) s = None)) /\
  (sub (ob_ty o) w -> sub w y -> cxx17 && negb (ob_auto o) = false ->
    (~ takes (v_ty x) y w -> kstep (KOp (ARaw b y i w e)) s = Some (DThrow, mkK (mkO (o_objs (k_mem s) ++ [copy_of o w]) (o_arrs (k_mem s))) (k_vars s))) /\ (takes (v_ty x) y w -> kstep (KOp (ARaw b y i w e)) s = None)) /\
  (sub (ob_ty o) w -> sub w y -> cxx17 && negb (ob_auto o) = true -> kstep (KOp (ARaw b y i w e)) s = kstep (KOp (AShared b y i e)) s).
Proof.
  intros X C Sy O Al. cbn [CCopyModel.kstep]. rewrite X. unfold CCopyModel.on_array. rewrite C. cbn zeta. set (m := mkO _ (_ ++ _)).
  assert (A : carray m (length (o_arrs (k_mem s))) = Some (mkCarr (v_ty x) None)) by apply carray_last.
  assert (V : view m (length (o_arrs (k_mem s))) y = Some (mkCarr (v_ty x) None)) by (unfold view; rewrite A; cbn [ca_ty]; apply derives_spec in Sy; rewrite Sy; reflexivity).
  assert (Om : nth_error (o_objs m) e = Some o) by exact O.
  assert (Am : alive m e = true) by (unfold m; rewrite alive_null; exact Al).
  cbn [redirect CObjModel.ostep]. rewrite V, Om, Am. split; [|split].
  - intros Au So. rewrite (proj2 (derives_spec _ _) So), Au. cbn [negb andb]. unfold set_. cbn [ca_ty]. rewrite Om. split; intros T.
    + destruct (cty_eqb y (v_ty x) || derives (ob_ty o) (below y (v_ty x))) eqn:Q; [apply (takes_spec _ Sy) in Q; contradiction|]. destruct s as [[] ?]; reflexivity.
    + rewrite (proj2 (takes_spec _ Sy) T). reflexivity.
  - intros S1 S2 Cx. rewrite (proj2 (derives_spec _ _) S1), (proj2 (derives_spec _ _) S2), Cx. cbn [andb]. unfold set_. cbn [ca_ty o_objs]. rewrite nth_error_app2, Nat.sub_diag by lia. cbn [nth_error ob_ty]. split; intros T.
    + destruct (cty_eqb y (v_ty x) || derives w (below y (v_ty x))) eqn:Q; [apply (takes_spec _ Sy) in Q; contradiction|]. reflexivity.
    + rewrite (proj2 (takes_spec _ Sy) T). reflexivity.
  - intros S1 S2 Cx. rewrite (proj2 (derives_spec _ _) S1), (proj2 (derives_spec _ _) S2), Cx. cbn [andb]. apply andb_true_iff in Cx. destruct Cx as [_ Au]. rewrite Au.
    assert (sub (ob_ty o) y) as S3 by (destruct S1 as (p & ->), S2 as (q & ->); exists (p ++ q); rewrite app_assoc; reflexivity). rewrite (proj2 (derives_spec _ _) S3). reflexivity.
Qed.
(** Copies of default constructed arrays are independent. *)
Theorem C103_null s a b x y : kreach s -> null_array s a x -> null_array s b y -> a <> b -> exists s', kstep (KOp (ADestroy a)) s = Some (DDone, s') /\ null_array s' b y /\ variable s' a = None /\
  forall c, c <> a -> variable s' c = variable s c.
Proof.
  intros R (X & z & C) (Y & w & D) N. destruct (kinv_reach R) as [_ I2]. cbn [CCopyModel.kstep]. rewrite X. unfold CCopyModel.on_mem. cbn [CObjModel.ostep]. rewrite C. eexists. split; [reflexivity|].
  assert (Vo : forall c, c <> a -> variable (put_var (mkK (aput (k_mem s) (v_data x) None) (k_vars s)) a None) c = variable s c).
  { intros c Nc. unfold variable. cbn [k_vars put_var]. rewrite var_set. destruct (Nat.eqb_spec a c); [congruence|reflexivity]. }
  split; [|split; [|exact Vo]].
  - split; [rewrite Vo; [exact Y|auto]|]. exists w. cbn [k_mem put_var]. unfold carray. rewrite (aput_get _ _ C). destruct (Nat.eqb_spec (v_data x) (v_data y)) as [Q|]; [|exact D]. destruct (I2 a b x y N X Y Q z C).
  - unfold variable. cbn [k_vars put_var]. rewrite var_set, Nat.eqb_refl. destruct (nth_error (k_vars s) a); reflexivity.
Qed.

(** *** The storage that an assignment leaves behind *)
Lemma unused_step o s v s1 n : kinv s -> kstep o s = Some (v, s1) -> (n < length (o_arrs (k_mem s)))%nat -> unused s n -> unused s1 n.
Proof. intros I E L U a x X. destruct (var_origin I E X) as [X0|[[b y Y _ _|y c D _ _ _] _]]; [exact (U a x X0)|exact (U b y Y)|lia]. Qed.
Lemma oexec_app p q t : oexec (p ++ q) t = match oexec p t with Some (vs, t') => match oexec q t' with Some (ws, t'') => Some (vs ++ ws, t'') | None => None end | None => None end.
Proof.
  revert t. induction p as [|o p IH]; intros t; cbn [app CObjModel.oexec]; [destruct (oexec q t) as [[ws t']|]; reflexivity|]. destruct (ostep o t) as [[v t1]|]; [|reflexivity]. rewrite IH. destruct (oexec p t1) as [[vs t2]|]; [|reflexivity].
  destruct (oexec q t2) as [[ws t3]|]; reflexivity.
Qed.
Lemma mem_exec l s vs s1 : kinv s -> kexec l s = Some (vs, s1) -> exists p ws, oexec p (k_mem s) = Some (ws, k_mem s1) /\
  forall n, (n < length (o_arrs (k_mem s)))%nat -> unused s n -> forall k, Forall (fun op => ~ touches n k op) p.
Proof.
  revert s vs. induction l as [|o l IH]; intros s vs I E; cbn in E; [injection E as _ <-; exists [], []; split; [reflexivity|constructor]|].
  destruct (kstep o s) as [[v s2]|] eqn:E1; [|discriminate]. destruct (kexec l s2) as [[us s3]|] eqn:E2; [|discriminate]. injection E as _ <-.
  destruct (mem_step E1) as (p & ws & P & F). destruct (IH _ _ (kinv_step I E1) E2) as (q & ws' & Q & G). exists (p ++ q), (ws ++ ws'). split; [rewrite oexec_app, P, Q; reflexivity|].
  intros n L U k. apply Forall_app. split.
  - eapply Forall_impl; [|exact F]. intros op H. exact (proj1 (H n U) k).
  - apply G; [exact (proj1 (mem_grown E1 L))|exact (unused_step I E1 L U)].
Qed.
Lemma mem_reach s : kreach s -> oreach (k_mem s).
Proof.
  intros (l & vs & E). assert (I : kinv kinit) by (apply kinv_reach; exists [], []; reflexivity). destruct (mem_exec I E) as (p & ws & P & _). exists p, ws. exact P.
Qed.
(** Nothing frees it: its elements stay alive for ever. *)
Theorem C103_leak s a b x k e v s1 l vs s' o : kreach s -> a <> b -> variable s a = Some x -> (forall c y, c <> a -> variable s c = Some y -> v_data y <> v_data x) -> elem (k_mem s) (v_data x) k e -> obj (k_mem s) e o ->
  kstep (KAssign a b) s = Some (v, s1) -> kexec l s1 = Some (vs, s') -> elem (k_mem s') (v_data x) k e /\ alive (k_mem s') e = true /\ unused s' (v_data x).
Proof.
  intros R N X U El O E1 E. pose proof (kinv_reach R) as I. destruct (proj1 I a x X) as [L _].
  assert (Y : exists y, variable s b = Some y) by (cbn [CCopyModel.kstep] in E1; rewrite X in E1; destruct (variable s b) as [y|]; [eauto|discriminate]). destruct Y as (y & Y).
  destruct (C103_assign R X Y) as [As1 As2]. assert (T : v_ty x = v_ty y) by (destruct (list_eq_dec Nat.eq_dec (v_ty x) (v_ty y)) as [T|T]; [exact T|rewrite (As1 T) in E1; discriminate]).
  destruct (As2 T) as (s1' & E1' & _ & Vo & Ob & Ar & _). assert (s1' = s1) as -> by congruence. clear As1 As2 E1'.
  pose proof (kinv_step I E1) as I1.
  assert (L1 : (v_data x < length (o_arrs (k_mem s1)))%nat) by (exact (proj1 (mem_grown E1 L))).
  assert (U1 : unused s1 (v_data x)).
  { intros c w W D. destruct (Nat.eq_dec c a) as [->|Nc]; [|rewrite (Vo c Nc) in W; exact (U c w Nc W D)]. cbn [CCopyModel.kstep] in E1. rewrite X, Y, (proj2 (cty_eqb_spec _ _) T) in E1.
    destruct (pointer s y) as [y' m] eqn:P. injection E1 as _ <-. unfold variable in W. cbn [k_vars] in W. rewrite var_set, Nat.eqb_refl in W. destruct (nth_error (k_vars s) a); [|discriminate]. injection W as ->.
    unfold pointer in P. destruct (carray (k_mem s) (v_data y)) as [[z [q|]]|]; injection P as <- _; cbn [v_data] in D; try exact (U b y (not_eq_sym N) Y D). lia. }
  assert (R1 : oreach (k_mem s1)).
  { destruct (mem_reach R) as (p & ws & P). destruct (mem_step E1) as (q & us & Q & _). exists (p ++ q), (ws ++ us). rewrite oexec_app, P, Q. reflexivity. }
  assert (El1 : elem (k_mem s1) (v_data x) k e) by (destruct El as (z & m & H & Hm); exists z, m; split; [exact (Ar _ _ H)|exact Hm]).
  assert (O1 : obj (k_mem s1) e o) by (unfold obj in *; rewrite Ob; exact O).
  destruct (mem_exec I1 E) as (p & ws & P & F). destruct (C94_kept R1 P (F _ L1 U1 k) El1 O1) as (El' & Al & _). split; [exact El'|]. split; [exact Al|].
  clear - I1 E L1 U1. revert s1 vs I1 E L1 U1. induction l as [|o l IH]; intros s1 vs I1 E L1 U1; cbn in E; [injection E as _ <-; exact U1|].
  destruct (kstep o s1) as [[v s2]|] eqn:E2; [|discriminate]. destruct (kexec l s2) as [[us s3]|] eqn:E3; [|discriminate]. injection E as _ <-.
  exact (IH _ _ (kinv_step I1 E2) E3 (proj1 (mem_grown E2 L1)) (unused_step I1 E2 L1 U1)).
Qed.

(** *** Without copies, [CObjModel] *)
Definition own (s : kst) : Prop := length (k_vars s) = length (o_arrs (k_mem s)) /\ forall a, variable s a = match carray (k_mem s) a with Some c => Some (mkVar (ca_ty c) a (size c)) | None => None end.
Definition makes (o : oop) : bool := match o with AEmpty _ | ANew _ _ => true | _ => false end.
Lemma set_length s a c y i u v s' : set_ s a c y i u = Some (v, s') -> length (o_arrs s') = length (o_arrs s).
Proof.
  unfold set_. destruct (match u with Some x => _ | None => true end); [|intros [= _ <-]; reflexivity]. destruct (slot c i) as [[l k]|]; [|discriminate]. intros [= _ <-]. apply list_set_length.
Qed.
Lemma length_step o s v s' : makes o = false -> ostep o s = Some (v, s') -> length (o_arrs s') = length (o_arrs s).
Proof.
  intros M E. destruct o as [z0 u|z0 u|x0|x0|x0|x0|x0 u|z0|z0 m|b y i|b y i|b y i x0|b y i w x0|b|b]; try discriminate; cbn [CObjModel.ostep] in E;
    try (destruct (nth_error (o_objs s) x0) as [p|] eqn:P; [|try discriminate; destruct (view s b y); discriminate]); try (injection E as _ <-; reflexivity).
  - destruct (ob_auto p && negb (ob_gone p)); [|discriminate]. injection E as _ <-. reflexivity.
  - destruct (negb (ob_auto p) && (0 <? ob_refs p)%nat); [|discriminate]. injection E as _ <-. reflexivity.
  - destruct (negb (ob_auto p) && (0 <? ob_refs p)%nat); [|discriminate]. injection E as _ <-. reflexivity.
  - destruct (alive s x0); [|discriminate]. injection E as _ <-. reflexivity.
  - destruct (alive s x0); [|discriminate]. injection E as _ <-. reflexivity.
  - destruct (view s b y) as [c|]; [|discriminate]. destruct (slot c i) as [[l j]|]; [|discriminate]. destruct (nth_error l j) as [[x1|]|]; try (injection E as _ <-; reflexivity).
    destruct (nth_error (o_objs s) x1); [|discriminate]. injection E as _ <-. reflexivity.
  - destruct (view s b y) as [c|]; [|discriminate]. exact (set_length E).
  - destruct (view s b y) as [c|]; [|discriminate]. destruct (_ && alive s x0); [|discriminate]. exact (set_length E).
  - destruct (view s b y) as [c|]; [|discriminate]. destruct (_ && alive s x0); [|discriminate]. destruct (cxx17 && negb (ob_auto p)); exact (set_length E).
  - destruct (carray s b); [|discriminate]. injection E as _ <-. reflexivity.
  - destruct (carray s b); [|discriminate]. injection E as _ <-. apply list_set_length.
Qed.
Lemma own_kept o s v m : own s -> makes o = false -> (forall n, o <> ADestroy n) -> ostep o (k_mem s) = Some (v, m) -> own (mkK m (k_vars s)).
Proof.
  intros [Ln V] M D E. split; [cbn; rewrite (length_step M E); exact Ln|]. intros a. change (variable (mkK m (k_vars s)) a) with (variable s a). rewrite V. cbn [k_mem]. unfold carray.
  destruct (nth_error (o_arrs (k_mem s)) a) as [e|] eqn:N.
  - destruct (arrs_step E N) as (e' & -> & Ev). destruct e as [c|], e' as [c'|]; cbn in Ev; try contradiction; [|destruct (D _ Ev)|reflexivity]. destruct Ev as [T L]. destruct (grown_size L) as [Sz _]. rewrite T, Sz. reflexivity.
  - apply nth_error_None in N. rewrite <- (length_step M E) in N. apply nth_error_None in N. rewrite N. reflexivity.
Qed.
Lemma own_step o s : own s -> match ostep o (k_mem s) with None => kstep (KOp o) s = None | Some (v, m) => exists s', kstep (KOp o) s = Some (v, s') /\ k_mem s' = m /\ own s' end.
Proof.
  intros W. pose proof W as [Ln V].
  assert (Mem : makes o = false -> (forall n, o <> ADestroy n) -> kstep (KOp o) s = on_mem o s -> match ostep o (k_mem s) with None => kstep (KOp o) s = None | Some (v, m) => exists s', kstep (KOp o) s = Some (v, s') /\ k_mem s' = m /\ own s' end).
  { intros M D ->. unfold CCopyModel.on_mem. destruct (ostep o (k_mem s)) as [[v m]|] eqn:E; [|reflexivity]. eexists. split; [reflexivity|]. split; [reflexivity|]. exact (own_kept W M D E). }
  assert (App : forall c y, ca_ty c = v_ty y -> v_data y = length (k_vars s) -> v_len y = size c -> own (mkK (mkO (o_objs (k_mem s)) (o_arrs (k_mem s) ++ [Some c])) (k_vars s ++ [Some y]))).
  { intros c y T D L. split; [cbn; rewrite !app_length, Ln; reflexivity|]. intros a. pose proof (V a) as Va. unfold variable, carray in *. cbn [k_vars k_mem o_arrs].
    destruct (Nat.ltb_spec a (length (k_vars s))) as [La|La].
    - rewrite !nth_error_app1; [exact Va|lia|assumption].
    - rewrite !nth_error_app2; [|lia|assumption]. rewrite <- Ln. destruct (a - length (k_vars s))%nat eqn:Q; cbn; [|destruct n; reflexivity]. assert (a = length (k_vars s)) as -> by lia. rewrite T, <- D, <- L. destruct y; reflexivity. }
  destruct o as [z0 u|z0 u|x0|x0|x0|x0|x0 u|z0|z0 m|b y i|b y i|b y i x0|b y i w x0|b|b]; try (apply Mem; [reflexivity|discriminate|reflexivity]).
  - cbn [CCopyModel.kstep CObjModel.ostep]. unfold constructed. cbn [CObjModel.ostep]. eexists. split; [rewrite Ln; reflexivity|]. split; [reflexivity|]. apply App; [reflexivity|symmetry; exact Ln|reflexivity].
  - cbn [CCopyModel.kstep CObjModel.ostep]. unfold constructed. cbn [CObjModel.ostep]. destruct (Z.ltb_spec m 0).
    + eexists. split; [reflexivity|]. split; [reflexivity|]. destruct s; exact W.
    + eexists. split; [rewrite Ln; reflexivity|]. split; [reflexivity|]. apply App; [reflexivity|symmetry; exact Ln|]. cbn. rewrite repeat_length. lia.
  - destruct (carray (k_mem s) b) as [c|] eqn:C.
    + apply Mem; [reflexivity|discriminate|]. cbn [CCopyModel.kstep]. rewrite V, C. unfold CCopyModel.on_array. cbn [v_data]. rewrite C. reflexivity.
    + cbn [CObjModel.ostep CCopyModel.kstep]. unfold view. rewrite V, C. reflexivity.
  - destruct (carray (k_mem s) b) as [c|] eqn:C.
    + apply Mem; [reflexivity|discriminate|]. cbn [CCopyModel.kstep]. rewrite V, C. unfold CCopyModel.on_array. cbn [v_data]. rewrite C. reflexivity.
    + cbn [CObjModel.ostep CCopyModel.kstep]. unfold view. rewrite V, C. reflexivity.
  - destruct (carray (k_mem s) b) as [c|] eqn:C.
    + apply Mem; [reflexivity|discriminate|]. cbn [CCopyModel.kstep]. rewrite V, C. unfold CCopyModel.on_array. cbn [v_data]. rewrite C. reflexivity.
    + cbn [CObjModel.ostep CCopyModel.kstep]. unfold view. rewrite V, C. reflexivity.
  - destruct (carray (k_mem s) b) as [c|] eqn:C.
    + apply Mem; [reflexivity|discriminate|]. cbn [CCopyModel.kstep]. rewrite V, C. unfold CCopyModel.on_array. cbn [v_data]. rewrite C. reflexivity.
    + cbn [CObjModel.ostep CCopyModel.kstep]. unfold view. rewrite V, C. reflexivity.
  - cbn [CObjModel.ostep CCopyModel.kstep]. rewrite V. destruct (carray (k_mem s) b) as [c|]; [|reflexivity]. exists s. split; [reflexivity|]. split; [reflexivity|exact W].
  - cbn [CObjModel.ostep CCopyModel.kstep]. rewrite V. destruct (carray (k_mem s) b) as [c|] eqn:C; [|reflexivity]. unfold CCopyModel.on_mem. cbn [v_data CObjModel.ostep]. rewrite C. eexists. split; [reflexivity|]. split; [reflexivity|].
    split; [cbn; rewrite !list_set_length; exact Ln|]. intros a. pose proof (V a) as Va. unfold variable in *. cbn [k_vars put_var k_mem]. rewrite var_set. unfold carray. rewrite (aput_get _ _ C).
    destruct (Nat.eqb_spec b a) as [->|]; [destruct (nth_error (k_vars s) a); reflexivity|]. exact Va.
Qed.
(** A program that copies no array behaves as [CObjModel] says. *)
Theorem C103_plain l : match oexec l oinit with
  | Some (vs, m) => exists s, kexec (map KOp l) kinit = Some (vs, s) /\ k_mem s = m
  | None => kexec (map KOp l) kinit = None end.
Proof.
  assert (W : own kinit) by (split; [reflexivity|]; intros [|a]; reflexivity). change oinit with (k_mem kinit). revert W. generalize kinit. induction l as [|o l IH]; intros s W; cbn [map CCopyModel.kexec CObjModel.oexec]; [eauto|].
  pose proof (own_step o W) as St. destruct (ostep o (k_mem s)) as [[v m]|]; [|rewrite St; reflexivity]. destruct St as (s1 & -> & <- & W1). pose proof (IH s1 W1) as H.
  destruct (oexec l (k_mem s1)) as [[vs m']|]; [destruct H as (s' & -> & Q); eauto|rewrite H; reflexivity].
Qed.
End Std.

(** The claim: a copy of an array has elements of its own and both can be used and destroyed. *)
Theorem C103_copies_refuted : forall c17, exists s,
  kexec c17 [KOp (ANew [] 2); KOp (ONew [] 5); KCopy 0; KOp (AShared 0 [] 1 0); KOp (AGet 1 [] 1); KOp (ADestroy 0); KOp (ASize 1)] kinit =
    Some ([DNew 0; DNew 0; DNew 1; DDone; DRef (Some 0%nat); DDone; DVal 2], s) /\
  kstep c17 (KOp (AGet 1 [] 1)) s = None /\ kstep c17 (KOp (ADestroy 1)) s = None.
Proof. intros c17. eexists. split; [reflexivity|]. split; reflexivity. Qed.
(** An object of which nothing is left but the storage of an array that was assigned to *)
Theorem C103_leak_refuted : forall c17, exists s,
  kexec c17 [KOp (ANew [] 1); KOp (ANew [] 1); KOp (ONew [] 5); KOp (AShared 0 [] 0 0); KOp (ODrop 0); KAssign 0 1; KOp (ADestroy 0)] kinit =
    Some ([DNew 0; DNew 1; DNew 0; DDone; DDone; DDone; DDone], s) /\
  alive (k_mem s) 0 = true /\ variable s 0 = None /\ kstep c17 (KOp (ADestroy 1)) s = None.
Proof. intros c17. eexists. split; [reflexivity|]. split; [reflexivity|]. split; reflexivity. Qed.

Example C103_case : exists s, kreach true s /\ shares s 0 1 /\ (exists x, stores s 0 0 x) /\ null_array s 2 (mkVar [] 1 0) /\ null_array s 3 (mkVar [] 2 0) /\ elem (k_mem s) 0 1 0 /\ obj (k_mem s) 0 (mkObj [] 5 1 false false) /\
  ~ ends 1 (KOp (ADestroy 0)) /\ ~ ends 0 (KCopy 0).
Proof.
  destruct (kexec true [KOp (ANew [] 2); KOp (ONew [] 5); KOp (AShared 0 [] 1 0); KCopy 0; KOp (AEmpty []); KCopy 2] kinit) as [[vs s]|] eqn:E; [|discriminate]. exists s.
  split; [eexists; eexists; exact E|]. injection E as <- <-.
  split; [exists 0%nat, (mkVar [] 0 2); split; [split; [reflexivity|split; [reflexivity|discriminate]]|reflexivity]|]. split; [exists (mkVar [] 0 2); split; [reflexivity|split; [reflexivity|discriminate]]|].
  split; [split; [reflexivity|exists []; reflexivity]|]. split; [split; [reflexivity|exists []; reflexivity]|]. split; [exists [], [None; Some 0%nat]; split; reflexivity|]. split; [reflexivity|].
  split; intros H; inversion H.
Qed.

Print Assumptions C103_length.
Print Assumptions C103_copy.
Print Assumptions C103_assign.
Print Assumptions C103_same.
Print Assumptions C103_shared.
Print Assumptions C103_dangling.
Print Assumptions C103_once.
Print Assumptions C103_returned.
Print Assumptions C103_refused.
Print Assumptions C103_null.
Print Assumptions C103_leak.
Print Assumptions C103_plain.
Print Assumptions C103_copies_refuted.
Print Assumptions C103_leak_refuted.
