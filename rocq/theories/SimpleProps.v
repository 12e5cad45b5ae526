(** The member [name] of classes: C105. *)
From Verif Require Import Base BaseProofs SigModel VmState VmModel VmStep VmSpec MemSpec VmBase VmFrame VmWf VmPrim VmInv VmReg VmFine VmRegInv VmTree VmTables VmClass VmNames VmQuiet VmRef2 VmDemo ClassProps.
Set Implicit Arguments.
Unset Strict Implicit.
Local Open Scope vm_scope.
Local Open Scope char_scope.
Local Opaque after.

(** *** Specification *)
(** [n] is the text of [p] after the last separator, all of it if there is none. *)
Definition after_last (seps : list ascii) (p n : str) : Prop := (forall a, In a seps -> ~ In a n) /\ (p = n \/ exists q a, In a seps /\ p = q ++ a :: n).
(** Array classes, and all classes of libraries without JNI_DEBUG, have no inner classes. *)
Definition separators (G : cfg) (p : str) : list ascii := if debug G then match p with "[" :: _ => ["/"] | _ => ["/"; "$"] end else ["/"].

(** *** Proofs *)
Section Named.
Variable G : cfg.
Definition simple (p n : str) : Prop := after_last (separators G p) p n.
Definition named (s : st) : Prop := forall i c, cls_of s i = Some c -> simple (c_prefix c) (c_name c).
Definition NP (s s' : st) : Prop := named s -> named s'.
Lemma NP_refl s : NP s s.
Proof. intros H. exact H. Qed.
Lemma NP_trans a b c : NP a b -> NP b c -> NP a c.
Proof. intros A B H. auto. Qed.
Hint Resolve NP_refl : core.
Lemma NP_same s s' : same_reg s s' -> NP s s'.
Proof.
  intros (_ & _ & E) H i c Hc. specialize (E i). rewrite Hc in E. destruct (cls_of s i) as [d|] eqn:Hd; [|discriminate]. cbn in E. unfold skel in E. injection E as E1 E2 _. rewrite <- E1, <- E2. exact (H i d Hd).
Qed.
Lemma NP_cls s s' : (forall i, cls_of s' i = cls_of s i) -> NP s s'.
Proof. intros E H i c Hc. rewrite E in Hc. eapply H; eauto. Qed.
Let B A C (m : M A) (f : A -> M C) : keeps NP m -> (forall a, keeps NP (f a)) -> keeps NP (bind m f).
Proof. apply keeps_bind. apply NP_trans. Qed.
Let R A (a : A) : keeps NP (ret a).
Proof. apply keeps_ret. auto. Qed.
Let Gt A (f : st -> A) : keeps NP (gets f).
Proof. apply keeps_gets. auto. Qed.
Let U A : keeps NP (@undef A).
Proof. apply keeps_undef. Qed.
Let C i : keeps NP (get_cls i).
Proof. apply keeps_get_cls; auto. apply NP_trans. Qed.
Lemma NP_create n p : simple p n -> keeps NP (create_cls n p).
Proof.
  intros Hp. unfold create_cls. apply B.
  - apply I_alloc. intros s _ H i c. unfold cls_of. rewrite lookup_add. destruct (Nat.eqb i (length (s_heap s))); [|apply H]. cbn. intros [= <-]. exact Hp.
  - intros i. apply B; [apply I_set_class; intros; apply NP_cls; reflexivity|auto].
Qed.
Lemma NP_add_inner c k : keeps NP (add_inner c k).
Proof.
  apply I_upd_cls. intros s o d L E _ H i x. erewrite cls_of_put by exact L. destruct (Nat.eqb_spec c i) as [->|]; [|apply H]. cbn. intros [= <-]. cbn. apply (H i). unfold cls_of. rewrite L, E. reflexivity.
Qed.
Lemma NP_inner z a segs : forall c d, (forall q x r, segs = q ++ x :: r -> simple (nm a (d ++ q ++ [x])) x) -> keeps NP (walk_inner z c (joined "/" a ++ joined "$" d) segs).
Proof.
  induction segs as [|n r IH]; intros c d H; cbn [walk_inner]; auto. apply B; auto. intros s. apply B; auto. intros k.
  replace ((joined "/" a ++ joined "$" d) ++ n ++ ["$"]) with (joined "/" a ++ joined "$" (d ++ [n])) by (rewrite joined_next, !app_assoc; reflexivity).
  assert (forall c', keeps NP (walk_inner z c' (joined "/" a ++ joined "$" (d ++ [n])) r)) as K.
  { intros c'. apply IH. intros q x r' ->. rewrite <- app_assoc. apply (H (n :: q) x r'). reflexivity. }
  destruct (find_cls s (c_inner k) n); auto. destruct z; auto. apply B; [|intros; apply B; [apply NP_add_inner|auto]]. apply NP_create.
  rewrite <- app_assoc, <- nm_next. apply (H [] n r). reflexivity.
Qed.
Lemma NP_ns segs : forall z k, keeps NP (walk_ns z k segs).
Proof.
  induction segs as [|n r IH]; intros z k; cbn [walk_ns]; auto. apply B; auto. intros s. destruct (nth_error (s_ns s) k); auto. destruct (find_sub s (n_subs n0) n); auto. destruct z; auto.
  apply B; auto. apply I_new_ns. intros. apply NP_cls. reflexivity.
Qed.
Lemma joined_ends c l : l <> [] -> exists q, joined c l = q ++ [c].
Proof. intros N. destruct (exists_last N) as (k & x & ->). exists (joined c k ++ x). rewrite joined_next, app_assoc. reflexivity. Qed.
(** Names that the walk gives classes *)
Lemma simple_walk n q x r : debug G = true -> bracket n = false -> cls_part n = q ++ x :: r -> simple (nm (ns_part n) (q ++ [x])) x.
Proof.
  intros D Br E. pose proof (parts_comps n) as Co. pose proof (parts_nm n) as Nm. rewrite E in Co, Nm. set (a := ns_part n) in *.
  assert (free ["/"; "$"] x) as Fx by (pose proof (co_cls Co) as F; rewrite Forall_forall in F; apply F; rewrite in_app_iff; simpl; auto).
  assert (bracket (nm a (q ++ [x])) = false) as Bp.
  { replace (q ++ x :: r) with ((q ++ [x]) ++ r) in Nm by (rewrite <- app_assoc; reflexivity). rewrite <- Nm in Br. assert (q ++ [x] <> []) as Nb by (destruct q; discriminate). revert Nb Br. clear. generalize (q ++ [x]) as b.
    induction r as [|y r IH] using rev_ind; intros b Nb; [rewrite app_nil_r; auto|]. intros Br. apply IH; [exact Nb|]. rewrite app_assoc in Br. eapply bracket_prefix; [|exact Br]. destruct b; [congruence|discriminate]. }
  unfold simple, separators. rewrite D. replace (match nm a (q ++ [x]) with "[" :: _ => ["/"] | _ => ["/"; "$"] end) with ["/"; "$"].
  2: { revert Bp. generalize (nm a (q ++ [x])). intros [|y l]; cbn; [reflexivity|]. destruct y as [[|] [|] [|] [|] [|] [|] [|] [|]]; first [discriminate|reflexivity]. }
  split; [exact Fx|]. rewrite nm_next. destruct q as [|q0 q'].
  - cbn [joined flat_map app]. destruct a as [|a0 a']; [left; reflexivity|]. right. destruct (@joined_ends "/" (a0 :: a')) as (w & ->); [discriminate|]. exists w, "/". split; [left; reflexivity|]. rewrite <- app_assoc. reflexivity.
  - right. destruct (@joined_ends "$" (q0 :: q')) as (w & ->); [discriminate|]. exists (joined "/" a ++ w), "$". split; [right; left; reflexivity|]. rewrite <- !app_assoc. reflexivity.
Qed.
Lemma simple_plain n : debug G = false \/ bracket n = true -> simple n (after_slash n).
Proof.
  intros H. unfold simple, separators. replace (if debug G then match n with "[" :: _ => ["/"] | _ => ["/"; "$"] end else ["/"]) with ["/"].
  2: { destruct H as [->|H]; [reflexivity|]. destruct (debug G); [|reflexivity]. unfold bracket in H. destruct n as [|y l]; [discriminate|]. destruct y as [[|] [|] [|] [|] [|] [|] [|] [|]]; first [discriminate H|reflexivity]. }
  unfold after_slash. pose proof (split_free "/" n) as F. pose proof (split_ne "/" n) as N. pose proof (join_split "/" n) as J. destruct (exists_last N) as (l & x & E). rewrite E in *. rewrite last_last. split.
  - intros a [<-|[]]. rewrite Forall_forall in F. apply F. rewrite in_app_iff. simpl. auto.
  - rewrite <- J, <- joined_join. destruct l as [|l0 l']; [left; reflexivity|]. right. destruct (@joined_ends "/" (l0 :: l')) as (w & ->); [discriminate|]. exists w, "/". split; [left; reflexivity|]. rewrite <- app_assoc. reflexivity.
Qed.
Lemma NP_find z n : keeps NP (find_class G z n).
Proof.
  unfold find_class. destruct (debug G && negb match n with "[" :: _ => true | _ => false end) eqn:Eb.
  - apply andb_true_iff in Eb. destruct Eb as [D Nb]. apply negb_true_iff in Nb. fold (bracket n) in Nb. apply B; [apply NP_ns|]. intros [k|]; auto. unfold walk_cls.
    change (split_on "$" (last (split_on "/" n) [])) with (cls_part n). change (removelast (split_on "/" n)) with (ns_part n).
    destruct (cls_part n) as [|x r] eqn:E; auto. apply B; auto. intros s. destruct (nth_error (s_ns s) k) as [y|]; auto.
    assert (forall c', keeps NP (walk_inner z c' (joined "/" (ns_part n) ++ x ++ ["$"]) r)) as K.
    { intros c'. replace (x ++ ["$"]) with (joined "$" [x]) by (unfold joined; simpl; rewrite app_nil_r; reflexivity). apply NP_inner. intros q w r' ->. rewrite app_assoc. eapply simple_walk; [exact D|exact Nb|]. rewrite E. reflexivity. }
    destruct (find_cls s (n_classes y) x); auto. destruct z; auto. apply B.
    + apply NP_create. replace (joined "/" (ns_part n) ++ x) with (nm (ns_part n) ([] ++ [x])) by (rewrite nm_next; reflexivity). eapply simple_walk; [exact D|exact Nb|exact E].
    + intros i. apply B; [apply I_ns_add_class; intros; apply NP_cls; reflexivity|auto].
  - apply B; auto. intros s. destruct (get_class s n); auto. destruct z; auto. apply B; auto. apply NP_create. apply simple_plain. fold (bracket n) in Eb. destruct (debug G), (bracket n); auto.
Qed.
End Named.

Ltac nput := apply NP_same; eapply same_reg_put; [eassumption| |]; simpl;
  [let c := fresh in let H := fresh in intros c H; first [congruence | eexists; split; [eassumption|reflexivity]]
  |let N := fresh in intros N; try (intros ? ?; congruence); try exact N].
Theorem named_fine G t : fine G t (fun _ => True) (NP G).
Proof.
  constructor; intros; try (apply NP_same; apply same_reg_heap; reflexivity).
  - eapply NP_trans; eauto.
  - pose proof (@NP_find G z n s) as K. exact K.
  - apply NP_same, same_reg_add. auto.
  - nput.
  - apply NP_same. eapply same_reg_put; eauto; simpl.
    + intros c0 E. assert (c0 = c) by congruence. subst. eexists; split; [reflexivity|].
      inversion H2; subst; reflexivity.
    + intros N. exfalso. eapply N; eauto.
  - apply NP_same, same_reg_newm; auto.
  - apply NP_same, same_reg_newf; auto.
  - nput.
  - nput.
  - nput.
  - nput.
  - nput.
  - nput.
  - intros Hn i c Hc. apply (Hn i c). revert Hc. unfold cls_of. destruct (lookup (collect s) i) as [o|] eqn:L; [|discriminate]. rewrite (collect_sub _ _ L). auto.
Qed.
Lemma NP_GetClassT G T i n : keeps (NP G) (GetClassT G T i n).
Proof.
  unfold GetClassT. apply keeps_bind; [apply NP_trans|apply NP_find|]. intros o. apply keeps_bind; [apply NP_trans|apply keeps_nonnull, NP_refl|]. intros j. apply keeps_bind; [apply NP_trans| |].
  - apply I_set_type. intros. apply NP_same, same_reg_heap; reflexivity.
  - intros _. apply keeps_bind; [apply NP_trans| |intros; apply keeps_ret, NP_refl].
    apply I_upd_cls. intros s0 o0 c L E O. apply NP_same. eapply same_reg_put; eauto; simpl.
    + intros d Ed. assert (d = c) by congruence. subst. eexists. split; [reflexivity|]. reflexivity.
    + intros N. exfalso. eapply N; eauto.
Qed.
Lemma NP_initialize G t : keeps (NP G) (initialize G t).
Proof.
  unfold initialize. apply keeps_bind; [apply NP_trans| |].
  - apply I_Attach; [apply NP_refl|]. intros. apply NP_same, same_reg_heap; reflexivity.
  - intros _. repeat (apply keeps_bind; [apply NP_trans|apply NP_GetClassT|intros _]). apply keeps_ret, NP_refl.
Qed.
Lemma named_init G t : named G (init_vm G t).
Proof.
  unfold init_vm. destruct (initialize_ok G t) as (s & E). pose proof (@NP_initialize G t empty_vm) as K. rewrite E in *.
  assert (named G s) as N. { apply K. intros i c. unfold cls_of, lookup. simpl. destruct i; discriminate. }
  unfold finish. intros i c. unfold cls_of. destruct (lookup (collect (with_tmp s [])) i) as [o|] eqn:L; [|discriminate]. apply collect_sub in L. intros Hc. apply (N i c). unfold cls_of.
  change (lookup s i) with (lookup (with_tmp s []) i). rewrite L. exact Hc.
Qed.
Lemma contents_cls s i c : contents s i = Some (PClass c) <-> cls_of s i = Some c.
Proof. unfold contents, cls_of. destruct (lookup s i) as [o|]; cbn; [|split; discriminate]. split; [intros [= ->]; reflexivity|]. destruct (o_pay o); try discriminate. intros [= ->]. reflexivity. Qed.

(** ** C105: names of classes *)
(** At any time of any history, every class that exists has as [name] the last part of its full name. *)
Theorem C105 G t0 s i c : reachable G t0 s -> contents s i = Some (PClass c) -> after_last (separators G (c_prefix c)) (c_prefix c) (c_name c).
Proof.
  intros (l & vs & E) Hc. apply contents_cls in Hc. destruct (init_inv G t0) as [W _]. assert (NP G (init_vm G t0) s) as K.
  { refine (@fine_exec G (fun _ _ => True) (fun _ _ => True) (NP G) _ _ l _ vs s W _ E); auto using named_fine. apply Forall_forall. auto. }
  exact (K (@named_init G t0) i c Hc).
Qed.
(** There is only one such part. *)
Theorem C105_unique seps p n m : after_last seps p n -> after_last seps p m -> n = m.
Proof.
  intros [Fn Hn] [Fm Hm]. assert (forall q a n' q' b m', q ++ a :: n' = q' ++ b :: m' -> In a seps -> In b seps -> (forall a, In a seps -> ~ In a n') -> (forall a, In a seps -> ~ In a m') -> n' = m') as K.
  { induction q as [|x q IH]; intros a n' [|y q'] b m' E Ia Ib Hn' Hm'; cbn in E; injection E as E1 E2; subst.
    - reflexivity.
    - exfalso. apply (Hn' b Ib). rewrite in_app_iff. right. left. reflexivity.
    - exfalso. apply (Hm' a Ia). rewrite in_app_iff. right. left. reflexivity.
    - eapply IH; eauto. }
  destruct Hn as [->|(q & a & Ia & ->)], Hm as [E|(q' & b & Ib & E)].
  - exact E.
  - exfalso. subst n. apply (Fn b Ib). rewrite in_app_iff. right. left. reflexivity.
  - exfalso. subst m. apply (Fm a Ia). rewrite in_app_iff. right. left. reflexivity.
  - eapply K; eauto.
Qed.
(** Classes keep both names for ever. *)
Theorem C105_kept G t0 s l vs s' i c c' : reachable G t0 s -> contents s i = Some (PClass c) -> exec G l s = Some (vs, s') -> contents s' i = Some (PClass c') -> c_name c' = c_name c /\ c_prefix c' = c_prefix c.
Proof.
  intros Re Hc E Hc'. destruct (exec_ident (good_wf (reachable_good Re)) E) as [_ Id]. unfold contents in *. destruct (lookup s i) as [o|] eqn:L; [|discriminate]. destruct (lookup s' i) as [o'|] eqn:L'; [|discriminate].
  injection Hc as Hc. injection Hc' as Hc'. specialize (Id i (lookup_lt _ _ L)). rewrite L, L', Hc, Hc' in Id. destruct Id. auto.
Qed.
(** The class that FindClass returns has the last part of the name asked for, for ever. *)
Theorem C105_found G t0 s t n i s1 l vs s2 : reachable G t0 s -> step G t (FindClass_ n) s = Some (OVal (RRef (Some i)), s1) -> exec G l s1 = Some (vs, s2) ->
  exists c, contents s2 i = Some (PClass c) /\ c_prefix c = n /\ after_last (separators G n) n (c_name c).
Proof.
  intros Re St E. destruct (C11_reports_name Re St E) as [(o & c & L & P & N) _]. exists c. assert (contents s2 i = Some (PClass c)) as Hc by (unfold contents; rewrite L; cbn; rewrite P; reflexivity).
  split; [exact Hc|]. split; [exact N|]. rewrite <- N. assert (reachable G t0 s2) as R2. { destruct Re as (l0 & vs0 & E0). eapply reachable_exec; [|exact E]. eapply (@reachable_exec G t0 s [(t, FindClass_ n)] [OVal (RRef (Some i))]); [exists l0, vs0; exact E0|]. cbn [exec]. rewrite St. reflexivity. }
  eapply C105; eauto.
Qed.

(** ** Cases *)
(** With JNI_DEBUG, an inner class, its enclosing class and an array class. *)
Definition ex_inner : list event := [(main, FindClass_ (S_ "p/A$B")); (main, FindClass_ (S_ "[Lp/A$B;"))].
Example C105_case : reachable Gd main (after Gd ex_inner) /\ (exists i c, contents (after Gd ex_inner) i = Some (PClass c) /\ c_prefix c = S_ "p/A$B" /\ c_name c = S_ "B") /\
  (exists i c, contents (after Gd ex_inner) i = Some (PClass c) /\ c_prefix c = S_ "p/A" /\ c_name c = S_ "A") /\
  (exists i c, contents (after Gd ex_inner) i = Some (PClass c) /\ c_prefix c = S_ "[Lp/A$B;" /\ c_name c = S_ "A$B;").
Proof.
  split; [apply after_reachable; vm_compute; reflexivity|]. split; [|split]; [exists 10|exists 9|exists 11]; eexists; (split; [vm_compute; reflexivity|split; reflexivity]).
Qed.
(** Without JNI_DEBUG there is no enclosing class. *)
Example C105_case_plain : exists s' i c, step Gr main (FindClass_ (S_ "p/A$B")) (start Gr) = Some (OVal (RRef (Some i)), s') /\ contents s' i = Some (PClass c) /\ c_name c = S_ "A$B" /\
  after_last (separators Gr (S_ "p/A$B")) (S_ "p/A$B") (S_ "A$B") /\ ~ after_last (separators Gr (S_ "p/A$B")) (S_ "p/A$B") (S_ "B").
Proof.
  eexists. exists 9. eexists. split; [vm_compute; reflexivity|]. split; [vm_compute; reflexivity|]. split; [reflexivity|].
  assert (after_last (separators Gr (S_ "p/A$B")) (S_ "p/A$B") (S_ "A$B")) as H by (split; [intros a [<-|[]]; vm_compute; intuition discriminate|]; right; exists (S_ "p"), "/"; split; [left; reflexivity|reflexivity]).
  split; [exact H|]. intros H'. discriminate (C105_unique H H').
Qed.
Print Assumptions C105.
Print Assumptions C105_unique.
Print Assumptions C105_kept.
Print Assumptions C105_found.
