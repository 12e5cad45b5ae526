(** Exact results of the class lookups and of signature declarations. *)
From Verif Require Import Base BaseProofs SigModel VmState VmModel VmStep VmSpec VmBase VmFrame VmWf VmPrim VmInv VmReg
  VmFine VmRegInv VmExact VmQuiet.
Set Implicit Arguments.
Unset Strict Implicit.
Local Open Scope vm_scope.
Local Open Scope char_scope.

Lemma inv_same G s s' : inv G s -> wf s' -> same_reg s s' -> inv G s'.
Proof. intros [W R] W' S. constructor; auto. eapply same_reg_reg; eauto. Qed.
Lemma inv_heap G s s' : inv G s -> wf s' -> s_ns s = s_ns s' -> s_classes s = s_classes s' -> s_heap s = s_heap s' -> inv G s'.
Proof. intros. eapply inv_same; eauto. apply same_reg_heap; auto. Qed.
Lemma inv_ensured G s Y i : inv G s -> inv G (ensured s Y i).
Proof.
  intros I. pose proof (ensured_wf Y i (inv_wf I)) as [W _]. eapply inv_same; eauto. unfold ensured in *.
  destruct (lookup s i) as [o|] eqn:L; [|apply same_reg_heap; auto].
  assert (same_reg s (put s i (mkObj (type_class s Y) (o_mon o) (o_pay o)))) as E.
  { eapply same_reg_put; eauto; simpl; intros c H; exists c; auto. }
  destruct (o_clazz o); auto. destruct (live s o0); auto. apply same_reg_heap; auto.
Qed.
Lemma pushed_reg s t i : s_ns (pushed s t i) = s_ns s /\ s_classes (pushed s t i) = s_classes s.
Proof. unfold pushed. destruct (get_env s t) as [e|]; auto. destruct (e_frames e); auto. Qed.
Lemma inv_pushed G s t i : inv G s -> live s i = true -> inv G (pushed s t i).
Proof.
  intros I L. pose proof (pushed_reg s t i) as [A B]. eapply inv_heap; eauto; try (symmetry; auto).
  - apply pushed_wf; auto. apply I.
  - apply pushed_heap.
Qed.
Lemma get_class_pushed s t i n : get_class (pushed s t i) n = get_class s n.
Proof. unfold get_class. pose proof (pushed_reg s t i) as [_ ->]. auto. Qed.
Lemma get_class_ensured s Y i n : get_class (ensured s Y i) n = get_class s n.
Proof.
  unfold get_class, ensured. destruct (lookup s i) as [o|]; auto. destruct (o_clazz o); auto. destruct (live s o0); auto.
Qed.
Lemma attached_ensured s Y i t : attached s t -> attached (ensured s Y i) t.
Proof. intros (e & H). exists e. rewrite ensured_env. auto. Qed.
Lemma attached_pushed s t i u : attached s u -> attached (pushed s t i) u.
Proof.
  intros (e & H). unfold attached. rewrite get_env_pushed. destruct (Nat.eqb_spec t u); eauto. subst. rewrite H.
  destruct (e_frames e); eauto.
Qed.
Lemma ensured_live s Y i j : live s j = true -> live (ensured s Y i) j = true.
Proof.
  intros L. unfold ensured. destruct (lookup s i) as [o|] eqn:E; auto.
  assert (live (put s i (mkObj (type_class s Y) (o_mon o) (o_pay o))) j = true) by (rewrite (live_put _ _ E); auto).
  destruct (o_clazz o); auto. destruct (live s o0); auto.
Qed.

(** [to_jni] : the state afterwards *)
Definition given (s : st) (t : tid) (Y : ty) (i : oid) : st := pushed (ensured s Y i) t i.

Section Given.
Variables (G : cfg) (s : st) (t : tid) (Y : ty) (i : oid).
Lemma given_inv : inv G s -> live s i = true -> inv G (given s t Y i).
Proof. intros. unfold given. apply inv_pushed; [apply inv_ensured; auto|apply ensured_live; auto]. Qed.
Lemma given_class n : get_class (given s t Y i) n = get_class s n.
Proof. unfold given. rewrite get_class_pushed, get_class_ensured. auto. Qed.
Lemma given_attached u : attached s u -> attached (given s t Y i) u.
Proof. intros. unfold given. apply attached_pushed, attached_ensured. auto. Qed.
Lemma given_undisturbed : undisturbed t s (given s t Y i).
Proof. unfold given. eapply undisturbed_trans; [apply ensured_undisturbed|apply pushed_undisturbed]. Qed.
Lemma given_frames : frames (given s t Y i) t = add_local (frames s t) i.
Proof. unfold given. rewrite frames_pushed, frames_ensured. auto. Qed.
Lemma given_tidy X : wf s -> attached s t -> tidy_but X s -> tidy_but (fun j => X j /\ j <> i) (given s t Y i).
Proof.
  intros W A T. unfold given. apply tidy_pushed; [apply ensured_wf; auto|apply attached_ensured; auto|].
  apply tidy_ensured. auto.
Qed.
Lemma given_live j : live s j = true -> live (given s t Y i) j = true.
Proof. intros. unfold given. rewrite pushed_live. apply ensured_live. auto. Qed.
Lemma given_eq : wf s -> attached s t -> live s i = true -> to_jni t Y i s = Ret (Some i) (given s t Y i).
Proof. apply to_jni_eq. Qed.
End Given.

Lemma class_live G s n i : inv G s -> get_class s n = Some i -> live s i = true.
Proof.
  intros I H. apply is_cls_live. eapply (wf_classes (inv_wf I)). apply (aget_In str_eqb str_eqb_spec). eauto.
Qed.

(** FindClass (create or not) *)
Theorem FindClass_z_spec G z t n s : inv G s -> attached s t -> exists r s1 s',
  find_class G z n s = Ret r s1 /\ inv G s1 /\ quiet s s1 /\ kept s s1 /\ r = get_class s1 n /\
  (z = true -> s1 = s) /\ (z = false -> r <> None /\ creates s s1 (outer_names G n)) /\
  FindClass_z G t z n s = Ret r s' /\ inv G s' /\
  s' = match r with None => s1 | Some i => given s1 t TClass i end.
Proof.
  intros I A. destruct (find_class_spec z n I) as (r & s1 & E & I1 & Q & K & R & Z & N).
  exists r, s1, (match r with None => s1 | Some i => given s1 t TClass i end).
  repeat (split; [auto; fail|]). unfold FindClass_z, bind. rewrite E. split; [|split; auto].
  - destruct r as [i|]; auto. simpl. rewrite given_eq; auto; [apply I1|eapply quiet_attached; eauto|].
    eapply class_live; eauto.
  - destruct r as [i|]; auto. apply given_inv; auto. eapply class_live; eauto.
Qed.

(** a list of local references added one after the other *)
Definition add_locals (fs : list (list oid)) (l : list oid) : list (list oid) :=
  match fs with f :: r => (f ++ l) :: r | [] => [] end.
Lemma add_local_locals fs l i : add_local (add_locals fs l) i = add_locals fs (l ++ [i]).
Proof. destruct fs; simpl; auto. rewrite app_assoc. auto. Qed.
Lemma add_locals_nil fs : add_locals fs [] = fs.
Proof. destruct fs; simpl; auto. rewrite app_nil_r. auto. Qed.
Lemma add_locals_app fs l m : add_locals (add_locals fs l) m = add_locals fs (l ++ m).
Proof. destruct fs; simpl; auto. rewrite app_assoc. auto. Qed.

(** what a lookup with creation of the classes [l] does *)
Record looked (G : cfg) (t : tid) (l : list str) (s s' : st) : Prop := {
  l_inv : inv G s';
  l_kept : kept s s';
  l_att : forall u, attached s u -> attached s' u;
  l_und : undisturbed t s s';
  l_frames : exists ks, frames s' t = add_locals (frames s t) ks /\ Forall2 (fun n k => get_class s' n = Some k) l ks;
  l_found : forall n, In n l -> get_class s' n <> None;
  l_new : forall m, get_class s m = None -> get_class s' m <> None -> exists n, In n l /\ In m (outer_names G n);
  l_tidy : forall X, tidy_but X s -> tidy_but X s'
}.

Lemma looked_nil G t s : inv G s -> looked G t [] s s.
Proof.
  intros I. constructor.
  - auto.
  - intros n i H; exact H.
  - auto.
  - apply undisturbed_refl.
  - exists []. rewrite add_locals_nil. auto.
  - intros n [].
  - intros. congruence.
  - auto.
Qed.
Lemma looked_app G t l m a b c : looked G t l a b -> looked G t m b c -> looked G t (l ++ m) a c.
Proof.
  intros H H'. constructor.
  - apply H'.
  - intros n i E. apply (l_kept H'), (l_kept H). auto.
  - intros u U. apply H', H. auto.
  - eapply undisturbed_trans; [apply H|apply H'].
  - destruct (l_frames H) as (k & E & F). destruct (l_frames H') as (k' & E' & F').
    exists (k ++ k'). rewrite E', E, add_locals_app. split; auto. apply Forall2_app; auto.
    clear -F H'. induction F; constructor; auto. apply (l_kept H'). auto.
  - intros n. rewrite in_app_iff. intros [K|K].
    + apply (l_found H) in K. destruct (get_class b n) as [i|] eqn:E; [|congruence]. rewrite (l_kept H' E). congruence.
    + apply (l_found H'). auto.
  - intros n N F. destruct (get_class b n) eqn:E.
    + destruct (l_new H N) as (x & A & B); [congruence|]. exists x. rewrite in_app_iff. auto.
    + destruct (l_new H' E F) as (x & A & B). exists x. rewrite in_app_iff. auto.
  - intros X T. apply H', H. auto.
Qed.
Lemma looked_one G t n s : inv G s -> attached s t -> exists r s', FindClass_z G t false n s = Ret r s' /\ looked G t [n] s s'.
Proof.
  intros I A. destruct (FindClass_z_spec false n I A) as (r & s1 & s' & E & I1 & Q & K & R & _ & N & F & I' & S).
  exists r, s'. split; auto. destruct (N eq_refl) as [Nn C]. destruct r as [i|]; [|congruence].
  assert (live s1 i = true) as L1 by (eapply class_live; eauto). subst s'. constructor.
  - exact I'.
  - intros m j H. rewrite given_class. apply K. auto.
  - intros u U. apply given_attached. eapply quiet_attached; eauto.
  - eapply undisturbed_trans; [apply quiet_undisturbed; eauto|apply given_undisturbed].
  - exists [i]. rewrite given_frames, (frames_quiet _ Q). split; [destruct (frames s t); auto|].
    constructor; auto. rewrite given_class. auto.
  - intros m [<-|[]]. rewrite given_class. congruence.
  - intros m Nm. rewrite given_class. intros H. exists n. split; [left; auto|]. apply (cr_new C); auto.
  - intros X T. eapply tidy_weaken; [|apply given_tidy with (X := X)]; [tauto|apply I1|eapply quiet_attached; eauto|].
    apply (tidy_quiet I I1 K Q T).
Qed.
Lemma declare_list G t l s : inv G s -> attached s t -> exists s',
  mapM_ (fun n => FindClass_z G t false n ;;; ret tt) l s = Ret tt s' /\ looked G t l s s'.
Proof.
  revert s. induction l as [|n l IH]; intros s I A.
  - exists s. split; auto. apply looked_nil. auto.
  - destruct (looked_one (t := t) n I A) as (r & s1 & E & L1). destruct (IH s1 (l_inv L1) (l_att L1 A)) as (s2 & E2 & L2).
    exists s2. split.
    + cbn [mapM_]. unfold bind at 1 2. rewrite E. simpl. exact E2.
    + change (n :: l) with ([n] ++ l). eapply looked_app; eauto.
Qed.
Theorem declare_spec G t sig l s : inv G s -> attached s t -> Declare_names sig = Ok l -> exists s',
  declare G t sig s = Ret tt s' /\ looked G t l s s'.
Proof.
  intros I A E. destruct (declare_list (t := t) l I A) as (s' & H & L). exists s'. split; auto.
  unfold declare, bind. rewrite E. simpl. exact H.
Qed.
Lemma looked_quiet_heap G t l s s' : looked G t l s s' -> forall i, live s i = true -> live s' i = true.
Proof. intros H i L. eapply intact_live. apply (u_obj (l_und H) L). Qed.

(** ** Outer classes *)
Definition outer (m n : str) : Prop := m = n \/ exists rest, n = m ++ "$" :: rest /\ ~ In "/" rest.

Lemma In_prefixes A (l p : list A) : In p (prefixes l) <-> p <> [] /\ exists q, l = p ++ q.
Proof.
  revert p. induction l as [|x l IH]; intros p; cbn [prefixes].
  - split; [intros []|]. intros (N & q & E). destruct p; [congruence|discriminate].
  - simpl. rewrite in_map_iff. split.
    + intros [<-|(y & <- & H)].
      * split; [discriminate|]. exists l. auto.
      * apply IH in H. destruct H as (N & q & ->). split; [discriminate|]. exists q. auto.
    + intros (N & q & E). destruct p as [|y p]; [congruence|]. inversion E; subst. destruct p as [|z p]; auto.
      right. exists (z :: p). split; auto. apply IH. split; [discriminate|]. eauto.
Qed.
Lemma join_app c a b : a <> [] -> b <> [] -> join c (a ++ b) = join c a ++ c :: join c b.
Proof.
  intros A B. induction a as [|x a IH]; [congruence|]. destruct a as [|y a].
  - simpl. destruct b; [congruence|auto].
  - change ((x :: y :: a) ++ b) with (x :: (y :: a) ++ b). rewrite !join_cons by (simpl; discriminate).
    rewrite IH by discriminate. rewrite <- app_assoc. auto.
Qed.
Lemma nm_app a b c : b <> [] -> c <> [] -> nm a (b ++ c) = nm a b ++ "$" :: join "$" c.
Proof. intros. unfold nm. rewrite join_app by auto. rewrite app_assoc. auto. Qed.

Lemma outer_spec n m : In m (map (nm (ns_part n)) (prefixes (cls_part n))) <-> outer m n.
Proof.
  pose proof (parts_comps n) as C. pose proof (parts_nm n) as P. rewrite in_map_iff. split.
  - intros (b & <- & H). apply In_prefixes in H. destruct H as (N & q & E). rewrite E in *. destruct q as [|x q].
    + left. rewrite app_nil_r in P. auto.
    + right. exists (join "$" (x :: q)). rewrite <- nm_app by (auto; discriminate). split; auto.
      apply join_free; [|discriminate]. pose proof (co_cls C) as F. apply Forall_app in F. destruct F as [_ F].
      eapply Forall_impl; [|exact F]. intros a H. apply H. simpl. auto.
  - intros [->|(rest & E & N)].
    + exists (cls_part n). split; auto. apply In_prefixes. split; [apply C|]. exists []. rewrite app_nil_r. auto.
    + pose proof (parts_comps m) as Cm. pose proof (parts_nm m) as Pm.
      assert (split_on "$" rest <> []) as Ne by apply split_ne.
      assert (nm (ns_part m) (cls_part m ++ split_on "$" rest) = n) as En.
      { rewrite nm_app; [|apply Cm|auto]. rewrite Pm, join_split. auto. }
      assert (comps (ns_part m) (cls_part m ++ split_on "$" rest)) as Cn.
      { constructor; [apply Cm| |]. 2:{ intros H. apply app_eq_nil in H. destruct H as [H _]. apply (co_ne Cm H). }
        apply Forall_app. split; [apply Cm|]. pose proof (split_free "$" rest) as F. rewrite Forall_forall in *.
        intros x Hx c [<-|[<-|[]]]; [|apply F; auto]. intros Hc. apply N. rewrite <- (join_split "$" rest).
        clear -Hx Hc. revert Hx. generalize (split_on "$" rest) as l. induction l as [|y l IH]; [intros []|].
        intros [->|H].
        - destruct l; auto. rewrite join_cons by discriminate. apply in_app_iff. auto.
        - destruct l; [destruct H|]. rewrite join_cons by discriminate. apply in_app_iff. right. right. auto. }
      assert (nm (ns_part n) (cls_part n) = nm (ns_part m) (cls_part m ++ split_on "$" rest)) as Eq by congruence.
      destruct (nm_inj C Cn Eq) as [A B]. exists (cls_part m). rewrite A. split; auto. rewrite B.
      apply In_prefixes. split; [apply Cm|eauto].
Qed.
