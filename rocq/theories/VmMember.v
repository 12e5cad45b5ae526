(** Exact results of the member lookups. *)
From Verif Require Import Base BaseProofs SigModel VmState VmModel VmStep VmSpec MemSpec VmBase VmFrame VmWf VmPrim VmInv VmReg
  VmFine VmRegInv VmExact VmQuiet VmClass.
Set Implicit Arguments.
Unset Strict Implicit.
Local Open Scope vm_scope.
Local Open Scope char_scope.

(** ** Model vocabulary and specification vocabulary *)
Lemma class_at_of s i : class_at s i = cls_of s i.
Proof. unfold class_at, contents, cls_of. destruct (lookup s i) as [o|]; auto. Qed.
Lemma method_at_of s i : method_at s i = mth_of s i.
Proof. unfold method_at, contents, mth_of. destruct (lookup s i) as [o|]; auto. Qed.
Lemma field_at_of s i : field_at s i = fld_of s i.
Proof. unfold field_at, contents, fld_of. destruct (lookup s i) as [o|]; auto. Qed.
Lemma registered_of s T : registered s T = type_class s T.
Proof. reflexivity. Qed.

Lemma find_first A (f : A -> bool) l : match find f l with
  | Some x => first_in (fun y => f y = true) l x
  | None => forall x, In x l -> f x <> true end.
Proof.
  induction l as [|x l IH]; simpl; [tauto|]. destruct (f x) eqn:E; [constructor; auto|].
  destruct (find f l).
  - constructor; auto. congruence.
  - intros y [->|H]; auto. congruence.
Qed.
Lemma first_in_iff A (P Q : A -> Prop) l x : (forall y, In y l -> (P y <-> Q y)) -> first_in P l x -> first_in Q l x.
Proof.
  intros H F. induction F.
  - constructor. apply H; simpl; auto.
  - constructor; [rewrite <- H by (simpl; auto); auto|]. apply IHF. intros z Hz. apply H. simpl; auto.
Qed.
Lemma first_in_In A (P : A -> Prop) l x : first_in P l x -> In x l /\ P x.
Proof. intros F. induction F; simpl; tauto. Qed.
Lemma first_in_fun A (P : A -> Prop) l x y : first_in P l x -> first_in P l y -> x = y.
Proof. intros F. induction F; intros K; inversion K; subst; tauto || auto. Qed.
Lemma first_in_app A (P : A -> Prop) l m x : first_in P l x -> first_in P (l ++ m) x.
Proof. intros F. induction F; simpl; constructor; auto. Qed.
Lemma first_in_skip A (P : A -> Prop) l m x : (forall y, In y l -> ~ P y) -> first_in P m x -> first_in P (l ++ m) x.
Proof. intros H F. induction l; simpl; auto. constructor; [apply H; simpl; auto|]. apply IHl. intros y Hy. apply H. simpl; auto. Qed.

Lemma mth_match_spec s st nat nm sg i :
  (match mth_of s i with Some m => mth_match st nat nm sg m | None => false end) = true <-> is_method s st nat nm sg i.
Proof.
  unfold is_method. rewrite method_at_of. destruct (mth_of s i) as [m|].
  - unfold mth_match. rewrite !andb_true_iff, !eqb_true_iff.
    destruct (str_eqb_spec (m_name m) nm); [|split; [intros [[_ ?] _]; discriminate|intros (x & E & ? & _); inversion E; subst; congruence]].
    destruct (str_eqb_spec (m_sig m) sg); [|split; [intros [_ ?]; discriminate|intros (x & E & ? & ? & _); inversion E; subst; congruence]].
    split.
    + intros [[[A B] _] _]. exists m. repeat split; auto.
      * intros H. subst nat. destruct (m_native m); auto; congruence.
      * intros ->. destruct (m_native m); simpl in B; congruence.
    + intros (x & E & _ & _ & A & B). inversion E; subst x. repeat split; auto.
      destruct (m_native m) as [f|]; simpl.
      * apply B. discriminate.
      * destruct nat; auto. destruct B as [_ B]. exfalso. apply B; auto.
  - split; [discriminate|]. intros (m & E & _). discriminate.
Qed.
Lemma fld_match_spec s st nm ty i :
  (match fld_of s i with Some f => fld_match st nm ty f | None => false end) = true <-> is_field s st nm ty i.
Proof.
  unfold is_field. rewrite field_at_of. destruct (fld_of s i) as [f|].
  - unfold fld_match. rewrite !andb_true_iff, !eqb_true_iff.
    destruct (str_eqb_spec (f_name f) nm); [|split; [intros [[_ ?] _]; discriminate|intros (x & E & ? & _); inversion E; subst; congruence]].
    destruct (str_eqb_spec (VmState.f_type f) ty); [|split; [intros [_ ?]; discriminate|intros (x & E & ? & ? & _); inversion E; subst; congruence]].
    split.
    + intros [[A _] _]. exists f. auto.
    + intros (x & E & _ & _ & A). inversion E; subst x. auto.
  - split; [discriminate|]. intros (m & E & _). discriminate.
Qed.
Lemma find_mth_spec s st nat nm sg l : match find_mth s (mth_match st nat nm sg) l with
  | Some i => first_in (is_method s st nat nm sg) l i
  | None => forall i, In i l -> ~ is_method s st nat nm sg i end.
Proof.
  unfold find_mth. pose proof (find_first (fun i => match mth_of s i with Some m => mth_match st nat nm sg m | None => false end) l) as H.
  destruct (find _ l) as [i|].
  - eapply first_in_iff; [|exact H]. intros. apply mth_match_spec.
  - intros i Hi K. apply (H i Hi). apply mth_match_spec. auto.
Qed.
Lemma find_fld_spec s st nm ty l : match find_fld s (fld_match st nm ty) l with
  | Some i => first_in (is_field s st nm ty) l i
  | None => forall i, In i l -> ~ is_field s st nm ty i end.
Proof.
  unfold find_fld. pose proof (find_first (fun i => match fld_of s i with Some m => fld_match st nm ty m | None => false end) l) as H.
  destruct (find _ l) as [i|].
  - eapply first_in_iff; [|exact H]. intros. apply fld_match_spec.
  - intros i Hi K. apply (H i Hi). apply fld_match_spec. auto.
Qed.

(** ** Null entries of the type table *)
Record tmore (s s' : st) : Prop := {
  tm_st : s' = with_types s (s_types s');
  tm_reg : forall T, type_class s' T = type_class s T
}.
Lemma tmore_refl s : tmore s s.
Proof. constructor; auto. destruct s; auto. Qed.
Lemma tmore_trans a b c : tmore a b -> tmore b c -> tmore a c.
Proof.
  intros [A B] [A' B']. constructor.
  - rewrite A' at 1. rewrite A at 1. reflexivity.
  - intros T. rewrite B', B. auto.
Qed.
Lemma tmore_lookup s s' i : tmore s s' -> lookup s' i = lookup s i.
Proof. intros [E _]. rewrite E. reflexivity. Qed.
Lemma tmore_live s s' i : tmore s s' -> live s' i = live s i.
Proof. intros H. unfold live. rewrite (tmore_lookup i H). auto. Qed.
Lemma tmore_heap s s' : tmore s s' -> s_heap s' = s_heap s.
Proof. intros [E _]. rewrite E. reflexivity. Qed.
Lemma tmore_env s s' t : tmore s s' -> get_env s' t = get_env s t.
Proof. intros [E _]. rewrite E. reflexivity. Qed.
Lemma tmore_class s s' n : tmore s s' -> get_class s' n = get_class s n.
Proof. intros [E _]. rewrite E. reflexivity. Qed.
Lemma tmore_attached s s' t : tmore s s' -> attached s t -> attached s' t.
Proof. intros H (e & A). exists e. rewrite (tmore_env t H). auto. Qed.
Lemma tmore_contents s s' i : tmore s s' -> contents s' i = contents s i.
Proof. intros H. unfold contents. rewrite (tmore_lookup i H). auto. Qed.
Lemma tmore_class_at s s' i : tmore s s' -> class_at s' i = class_at s i.
Proof. intros H. unfold class_at. rewrite (tmore_contents i H). auto. Qed.
Lemma tmore_undisturbed t s s' : tmore s s' -> undisturbed t s s'.
Proof.
  intros H. constructor.
  - intros i L. apply intact_heap; auto. apply tmore_heap. auto.
  - destruct H as [-> _]; auto.
  - destruct H as [-> _]; auto.
  - apply H.
  - intros. apply (tmore_env _ H).
  - unfold pending. rewrite (tmore_env _ H). auto.
  - unfold running. rewrite (tmore_env _ H). auto.
  - rewrite (tmore_env _ H). auto.
Qed.
Lemma In_somes A (l : list (option A)) x : In x (somes l) <-> In (Some x) l.
Proof.
  induction l as [|[y|] l IH]; simpl; [tauto| |].
  - rewrite IH. split; intros [H|H]; auto; left; congruence.
  - rewrite IH. split; [auto|]. intros [H|H]; auto; discriminate.
Qed.
Lemma tmore_tidy X s s' : wf s' -> tmore s s' -> (forall T i, In (T, Some i) (s_types s) -> In (T, Some i) (s_types s')) ->
  tidy_but X s -> tidy_but X s'.
Proof.
  intros W H N [T K]. split; [destruct H as [-> _]; auto|]. intros i L. rewrite (tmore_live _ H) in L.
  destruct (K i L) as [A|A]; auto. left. eapply held_le_In; eauto. apply held_le_roots; [apply tmore_heap; auto|].
  intros j. rewrite !In_roots. destruct H as [E _]. rewrite E. simpl. intros [B|[B|[B|[(T' & B)|B]]]]; auto 10.
  right. right. right. left. exists T'. apply N. auto.
Qed.

Lemma aset_new_In T (l : list (ty * option oid)) v x : aget ty_eqb l T = None -> In x l -> In x (aset ty_eqb l T v).
Proof.
  induction l as [|[k w] l IH]; simpl; [intros _ []|]. destruct (ty_eqb k T) eqn:E; [discriminate|].
  intros N [->|H]; simpl; auto.
Qed.

(** wf, tidiness together with [tmore] *)
Record tstep (s s' : st) : Prop := {
  ts_more : tmore s s';
  ts_wf : wf s -> wf s';
  ts_old : forall T i, In (T, Some i) (s_types s) -> In (T, Some i) (s_types s')
}.
Lemma tstep_refl s : tstep s s.
Proof. constructor; auto using tmore_refl. Qed.
Lemma tstep_trans a b c : tstep a b -> tstep b c -> tstep a c.
Proof. intros [A B C] [A' B' C']. constructor; auto. eapply tmore_trans; eauto. Qed.
Lemma tstep_tidy X s s' : wf s -> tstep s s' -> tidy_but X s -> tidy_but X s'.
Proof. intros W [A B C]. apply tmore_tidy; auto. Qed.
Lemma tstep_inv G s s' : inv G s -> tstep s s' -> inv G s'.
Proof.
  intros I [A B C]. eapply inv_heap; [exact I|apply B; apply I| | |]; destruct A as [-> _]; auto.
Qed.

Lemma type_entry_eq T s : exists s', type_entry T s = Ret (type_class s T) s' /\ tstep s s'.
Proof.
  unfold type_entry, bind, gets, type_class. destruct (get_type s T) as [o|] eqn:E.
  - exists s. split; auto using tstep_refl.
  - exists (with_types s (aset ty_eqb (s_types s) T None)). split; [reflexivity|]. constructor.
    + constructor; auto. intros B. unfold type_class, get_type. simpl. rewrite (aget_aset ty_eqb ty_eqb_spec).
      destruct (ty_eqb_spec T B); auto. subst. unfold get_type in E. rewrite E. auto.
    + intros W. apply (c_types wfi_coarse); auto. discriminate.
    + intros B i H. simpl. apply aset_new_In; auto.
Qed.
Lemma mapM_entries l s : exists s', mapM type_entry l s = Ret (map (type_class s) l) s' /\ tstep s s'.
Proof.
  revert s. induction l as [|T l IH]; intros s; simpl.
  - exists s. split; auto using tstep_refl.
  - destruct (type_entry_eq T s) as (s1 & E1 & H1). destruct (IH s1) as (s2 & E2 & H2). exists s2. split.
    + unfold bind. rewrite E1, E2. unfold ret. do 2 f_equal. apply map_ext. intros. apply H1.
    + eapply tstep_trans; eauto.
Qed.

Section Cfg.
Variable G : cfg.

Lemma parents_bases T : parents G T = match ty_bases G T with Some l => l | None => [] end.
Proof. destruct T; auto. simpl. destruct (ubases G n); auto. Qed.

Lemma base_classes_eq T s : (ndebug G = false -> forall B, In B (parents G T) -> type_class s B <> None) ->
  exists l s', base_classes G T s = Ret l s' /\ tstep s s' /\ somes l = somes (map (type_class s) (parents G T)) /\
    (l = match ty_bases G T with Some _ => map (type_class s) (parents G T) | None => [None] end).
Proof.
  intros C. unfold base_classes. rewrite parents_bases in *. destruct (ty_bases G T) as [l|].
  - destruct (mapM_entries l s) as (s' & E & H). exists (map (type_class s) l), s'. unfold bind. rewrite E.
    assert (negb (ndebug G) && existsb (fun o : option oid => match o with Some _ => false | None => true end) (map (type_class s) l) = false) as ->.
    { destruct (ndebug G); auto. simpl. destruct (existsb _ _) eqn:X; auto. apply existsb_exists in X. destruct X as (o & A & B).
      apply in_map_iff in A. destruct A as (B0 & <- & A). exfalso. apply (C eq_refl B0 A). destruct (type_class s B0); auto. discriminate. }
    auto.
  - exists [None], s. split; auto. split; auto using tstep_refl.
Qed.
Lemma bases_of_eq s cl c : class_at s cl = Some c -> complete G s cl ->
  exists s', bases_of G c s = Ret (supers G s cl) s' /\ tstep s s'.
Proof.
  intros E C. unfold bases_of, supers, complete, super_types in *. rewrite E in *. destruct (c_bases c) as [T|].
  - destruct (base_classes_eq (T := T) (s := s) C) as (l & s' & H1 & H2 & H3 & _). exists s'. unfold bind. rewrite H1.
    unfold ret. split; auto. f_equal. exact H3.
  - exists s. split; auto using tstep_refl.
Qed.

(** ** Hierarchies under [tmore] *)
Lemma super_types_ext s s' cl : class_at s' cl = class_at s cl -> super_types G s' cl = super_types G s cl.
Proof. intros E. unfold super_types. rewrite E. auto. Qed.
Lemma dfs_ext s s' : (forall i, class_at s' i = class_at s i) -> (forall T, registered s' T = registered s T) ->
  (forall cl L, dfs G s cl L -> dfs G s' cl L) /\ (forall bs L, dfs_all G s bs L -> dfs_all G s' bs L).
Proof.
  intros A B. assert (forall cl, supers G s' cl = supers G s cl) as S.
  { intros cl. unfold supers. rewrite (super_types_ext (A cl)). f_equal. apply map_ext. auto. }
  apply dfs_both.
  - intros cl L N C _ IH. constructor; [rewrite A; auto| |rewrite S; auto].
    unfold complete in *. rewrite (super_types_ext (A cl)). intros H T HT. rewrite B. auto.
  - constructor.
  - intros. constructor; auto.
Qed.
Lemma dfs_tmore s s' cl L : tmore s s' -> dfs G s cl L -> dfs G s' cl L.
Proof. intros H. apply dfs_ext; [intros; apply (tmore_class_at _ H)|apply H]. Qed.
Lemma dfs_all_tmore s s' cl L : tmore s s' -> dfs_all G s cl L -> dfs_all G s' cl L.
Proof. intros H. apply dfs_ext; [intros; apply (tmore_class_at _ H)|apply H]. Qed.
Lemma dfs_fun s : (forall cl L, dfs G s cl L -> forall L', dfs G s cl L' -> L = L') /\
  (forall bs L, dfs_all G s bs L -> forall L', dfs_all G s bs L' -> L = L').
Proof.
  apply dfs_both.
  - intros cl L _ _ _ IH L' H. inversion H; subst. f_equal. auto.
  - intros L' H. inversion H; auto.
  - intros b bs L M _ IH1 _ IH2 L' H. inversion H; subst. f_equal; auto.
Qed.

(** direct superclass relation *)
Definition sup (s : st) (b c : oid) : Prop := In b (supers G s c).
Lemma dfs_acc s : (forall cl L, dfs G s cl L -> Acc (sup s) cl) /\ (forall bs L, dfs_all G s bs L -> Forall (Acc (sup s)) bs).
Proof.
  apply dfs_both; auto. intros cl L _ _ _ IH. constructor. intros b Hb. rewrite Forall_forall in IH. auto.
Qed.
Lemma acc_irrefl A (R : A -> A -> Prop) x : Acc R x -> ~ R x x.
Proof. intros H. induction H as [x _ IH]. intros K. apply (IH x K K). Qed.
Lemma acc_trans_clos A (R : A -> A -> Prop) x : Acc R x -> Acc (clos_trans A R) x.
Proof.
  intros H. induction H as [x H IH]. constructor. intros y K. revert IH. clear H. induction K as [y x K|y z x K1 IH1 K2 IH2]; intros IH.
  - auto.
  - specialize (IH2 IH). destruct IH2 as [IH2]. auto.
Qed.
Lemma dfs_nocycle s cl L : dfs G s cl L -> ~ clos_trans _ (sup s) cl cl.
Proof. intros H. apply acc_irrefl. apply acc_trans_clos. eapply dfs_acc; eauto. Qed.

Lemma somes_registered s b l : wf s -> In b (somes (map (registered s) l)) -> is_cls s b = true.
Proof.
  intros W H. apply In_somes, in_map_iff in H. destruct H as (T & E & _). eapply type_class_ok; eauto.
Qed.
Lemma supers_cls s b c : wf s -> In b (supers G s c) -> is_cls s b = true.
Proof. intros W H. eapply somes_registered; eauto. Qed.
Lemma is_cls_class_at s b : is_cls s b = true <-> exists c, class_at s b = Some c.
Proof.
  rewrite is_cls_of. setoid_rewrite class_at_of. reflexivity.
Qed.
Lemma class_at_lookup s b c : class_at s b = Some c -> exists o, lookup s b = Some o /\ o_pay o = PClass c.
Proof.
  unfold class_at, contents. destruct (lookup s b) as [o|]; simpl; [|discriminate]. destruct (o_pay o) eqn:E; try discriminate.
  intros H. inversion H; subst. eauto.
Qed.
Lemma class_at_live s b c : class_at s b = Some c -> live s b = true.
Proof. intros H. apply class_at_lookup in H. destruct H as (o & L & _). apply live_lookup. eauto. Qed.
Lemma class_denotes s b c : class_at s b = Some c -> denotes s b (Some b).
Proof. intros H. apply class_at_lookup in H. destruct H as (o & L & P). eapply den_obj; eauto; congruence. Qed.
Lemma jnicast_class s h cl c : wf s -> denotes_opt s h (Some cl) -> class_at s cl = Some c -> jnicast G TClass h s = Ret (Some cl) s.
Proof.
  intros W D C. destruct h as [i|]; [|discriminate]. simpl in D. rewrite (jnicast_spec _ _ W D). unfold is_a.
  apply class_at_lookup in C. destruct C as (o & -> & ->). reflexivity.
Qed.
Lemma get_cls_eq s cl c : class_at s cl = Some c -> get_cls cl s = Ret c s.
Proof. intros H. apply class_at_lookup in H. destruct H as (o & L & P). unfold get_cls, bind, deref. rewrite L, P. reflexivity. Qed.

Lemma NoDup_below (l : list oid) n : NoDup l -> (forall x, In x l -> x < n) -> length l <= n.
Proof.
  intros N H. change (length l <= n). rewrite <- (seq_length n 0). apply (@NoDup_incl_length oid); auto. intros x Hx. apply in_seq. specialize (H x Hx). lia.
Qed.

(** chain of classes on the way to [cl] *)
Record chain (s : st) (V : list oid) (cl : oid) : Prop := {
  ch_nodup : NoDup (cl :: V);
  ch_reach : forall v, In v V -> clos_trans _ (sup s) cl v;
  ch_lt : forall v, In v (cl :: V) -> v < length (s_heap s)
}.
Lemma chain_one s cl : cl < length (s_heap s) -> chain s [] cl.
Proof.
  intros L. constructor; [constructor; auto; constructor|intros v []|intros v [<-|[]]; auto].
Qed.
Lemma chain_step s V cl b L : wf s -> chain s V cl -> In b (supers G s cl) -> dfs G s b L -> chain s (cl :: V) b.
Proof.
  intros W [A B C] H D. assert (forall v, In v (cl :: V) -> clos_trans _ (sup s) b v) as R.
  { intros v [<-|Hv]; [apply t_step; auto|]. eapply t_trans; [apply t_step; exact H|auto]. }
  constructor; auto.
  - constructor; auto. intros K. apply (dfs_nocycle D). auto.
  - intros v [<-|Hv]; auto. apply (supers_cls W) in H. apply is_cls_live in H. eapply live_lt; eauto.
Qed.
Lemma chain_fuel s V cl fuel : chain s V cl -> length (s_heap s) < fuel + length V -> 0 < fuel.
Proof. intros [A _ C] H. pose proof (NoDup_below A C) as K. simpl in K. lia. Qed.
Lemma chain_tmore s s' V cl : tmore s s' -> chain s V cl -> chain s' V cl.
Proof.
  intros H [A B C]. constructor; auto.
  - intros v Hv. specialize (B v Hv). clear -H B. induction B.
    + apply t_step. unfold sup, supers in *. rewrite (super_types_ext (tmore_class_at _ H)).
      erewrite map_ext; [eauto|]. apply H.
    + eapply t_trans; eauto.
  - rewrite (tmore_heap H). auto.
Qed.

(** ** Search in base classes *)
Definition picks (P : oid -> Prop) (l : list oid) (r : option oid) : Prop :=
  match r with Some i => first_in P l i | None => forall i, In i l -> ~ P i end.
Lemma picks_app P l m r r' : picks P l r -> picks P m r' -> picks P (l ++ m) (match r with Some i => Some i | None => r' end).
Proof.
  destruct r as [i|]; simpl; intros A B; [apply first_in_app; auto|].
  destruct r' as [j|]; simpl in *; [apply first_in_skip; auto|]. intros k. rewrite in_app_iff. intros [K|K]; auto.
Qed.
Lemma picks_fun P l r r' : picks P l r -> picks P l r' -> r = r'.
Proof.
  destruct r as [i|], r' as [j|]; simpl; intros A B; auto.
  - f_equal. eapply first_in_fun; eauto.
  - apply first_in_In in A. exfalso. eapply B; [apply A|apply A].
  - apply first_in_In in B. exfalso. eapply A; [apply B|apply B].
Qed.

Lemma lookup_method t st nat nm sg : (st = true \/ nm <> S_ "<init>") -> forall fuel s V cl L h,
  wf s -> dfs G s cl L -> chain s V cl -> length (s_heap s) < fuel + length V -> denotes_opt s h (Some cl) ->
  exists r s', getMethodID G fuel t st true nat h nm sg s = Ret r s' /\ tstep s s' /\
    picks (is_method s st nat nm sg) (flat_map (methods_of s) L) r.
Proof.
  intros NI. induction fuel as [|fuel IH]; intros s V cl L h W D Ch Fu Dh; [pose proof (chain_fuel (fuel := 0) Ch Fu); lia|].
  inversion D as [? L0 N C DA]; subst. destruct (class_at s cl) as [c|] eqn:Ec; [|congruence]. clear N.
  cbn [getMethodID]. unfold bind at 1. rewrite (jnicast_class W Dh Ec). unfold bind at 1. rewrite (get_cls_eq Ec).
  assert (negb st && str_eqb nm (S_ "<init>") = false) as ->.
  { destruct NI as [->|NI]; auto. destruct (str_eqb_spec nm (S_ "<init>")); [congruence|]. apply andb_false_r. }
  unfold bind at 1, gets. pose proof (find_mth_spec s st nat nm sg (c_methods c)) as FM.
  assert (methods_of s cl = c_methods c) as Em by (unfold methods_of; rewrite Ec; auto).
  destruct (find_mth s (mth_match st nat nm sg) (c_methods c)) as [i|].
  - exists (Some i), s. split; auto. split; auto using tstep_refl. simpl. rewrite Em. apply first_in_app. auto.
  - destruct (bases_of_eq Ec C) as (s1 & E1 & T1). unfold bind at 1. rewrite E1.
    assert (forall bs M s1, incl bs (supers G s cl) -> dfs_all G s bs M -> tstep s s1 -> exists r s2,
       first_some (fun b => getMethodID G fuel t st true nat (Some b) nm sg) bs s1 = Ret r s2 /\ tstep s1 s2 /\
       picks (is_method s st nat nm sg) (flat_map (methods_of s) M) r) as Loop.
    { clear s1 E1 T1. induction bs as [|b bs IHb]; intros M s1 Inc DM T1; inversion DM; subst.
      - exists None, s1. split; auto. split; auto using tstep_refl. simpl. tauto.
      - simpl. assert (In b (supers G s cl)) as Hb by (apply Inc; simpl; auto).
        pose proof (chain_step W Ch Hb H1) as Chb. pose proof (supers_cls W Hb) as Cb. apply is_cls_class_at in Cb. destruct Cb as (cb & Cb).
        destruct (IH s1 (cl :: V) b L (Some b)) as (r1 & s2 & E2 & T2 & P2).
        + apply T1. auto.
        + apply (dfs_tmore (ts_more T1) H1).
        + apply (chain_tmore (ts_more T1) Chb).
        + rewrite (tmore_heap (ts_more T1)). simpl. lia.
        + simpl. apply (class_denotes (c := cb)). rewrite (tmore_class_at _ (ts_more T1)). auto.
        + unfold bind at 1. rewrite E2.
          assert (picks (is_method s st nat nm sg) (flat_map (methods_of s) L) r1) as P2'.
          { clear -P2 T1. assert (forall i, is_method s1 st nat nm sg i <-> is_method s st nat nm sg i) as E.
            { intros i. unfold is_method, method_at. rewrite (tmore_contents _ (ts_more T1)). reflexivity. }
            assert (flat_map (methods_of s1) L = flat_map (methods_of s) L) as E'.
            { clear P2. induction L; simpl; auto. f_equal; auto. unfold methods_of. rewrite (tmore_class_at _ (ts_more T1)). auto. }
            rewrite E' in P2. destruct r1; simpl in *.
            - eapply first_in_iff; [|exact P2]. auto.
            - intros i Hi K. apply (P2 i Hi). apply E. auto. }
          destruct r1 as [i|].
          * exists (Some i), s2. split; auto. split; auto. rewrite flat_map_app.
            apply (picks_app (r := Some i) (r' := match find_mth s (mth_match st nat nm sg) (flat_map (methods_of s) M0) with Some j => Some j | None => None end)); auto.
            pose proof (find_mth_spec s st nat nm sg (flat_map (methods_of s) M0)). destruct (find_mth _ _ _); auto.
          * destruct (IHb M0 s2) as (r & s3 & E3 & T3 & P3); auto.
            -- intros x Hx. apply Inc. simpl; auto.
            -- eapply tstep_trans; eauto.
            -- exists r, s3. split; auto. split; [eapply tstep_trans; eauto|]. rewrite flat_map_app.
               pose proof (picks_app P2' P3) as K. exact K. }
    destruct (Loop (supers G s cl) L0 s1) as (r & s2 & E2 & T2 & P2); auto using incl_refl.
    unfold bind at 1. rewrite E2. exists r, s2. split; [destruct r; reflexivity|]. split; [eapply tstep_trans; eauto|].
    simpl. rewrite Em. assert (picks (is_method s st nat nm sg) (c_methods c) None) as P1 by (simpl; auto).
    apply (picks_app P1 P2).
Qed.

End Cfg.
