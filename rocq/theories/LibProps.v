(** Native libraries: every history of attachLibrary, removeLibrary and the destruction of the VM. *)
From Coq Require Import Permutation.
From Verif Require Import Base BaseProofs LibModel.
Set Implicit Arguments.
Unset Strict Implicit.

(** * Specification *)
Definition about (k : nat) (e : ev) : bool :=
  match e with
  | EOpen j _ => Nat.eqb j k
  | ELoad j _ => Nat.eqb j k
  | EUnload j _ => Nat.eqb j k
  | EClose j => Nat.eqb j k
  | EFail _ => false
  end.
(** what happened to the [k]-th opened handle, in order *)
Definition life (k : nat) (t : list ev) : list ev := filter (about k) t.
(** the function names that belong together: those of the library itself, or those of the library [p] linked into the
    program *)
Definition suffix (p : option str) (rpath : str) : str :=
  match p with Some _ => [] | None => S_ "_" ++ rpath end.
(** the handle was opened and JNI_OnLoad was called at most once *)
Definition in_use (k : nat) (x : str) (l : list ev) : Prop :=
  exists p, (p = None -> exists r, x = S_ "_" ++ r) /\ (p <> None -> x = []) /\
            (l = [EOpen k p] \/ l = [EOpen k p; ELoad k (S_ "JNI_OnLoad" ++ x)]).
(** … then JNI_OnUnload was called at most once and the handle was closed *)
Definition finished (k : nat) (l : list ev) : Prop :=
  exists x a, in_use k x a /\ (l = a ++ [EClose k] \/ l = a ++ [EUnload k (S_ "JNI_OnUnload" ++ x); EClose k]).
Definition lifecycle (k : nat) (l : list ev) : Prop := l = [] \/ (exists x, in_use k x l) \/ finished k l.

(** no OnLoad function throws a C++ exception *)
Fixpoint nothrow (o : lop) : bool :=
  match o with
  | LAttach _ _ _ finds body throws _ =>
      negb (finds && throws) && (fix go (l : list lop) := match l with [] => true | x :: l => nothrow x && go l end) body
  | LRemove _ => true
  end.
Definition nothrows (l : list lop) : bool := forallb nothrow l.

(** * Induction over operations *)
Lemma lop_rect' (P : lop -> Prop) (Q : list lop -> Prop)
  (HA : forall r o s f b t u, Q b -> P (LAttach r o s f b t u)) (HR : forall r, P (LRemove r))
  (HN : Q []) (HC : forall x l, P x -> Q l -> Q (x :: l)) : forall o, P o.
Proof.
  fix IH 1. destruct o as [r o s f b t u|r]; [|apply HR].
  apply HA. induction b as [|x b IHb]; [apply HN|apply HC; [apply IH|exact IHb]].
Qed.
Lemma lrun_attach r o se f b t u s :
  lrun (LAttach r o se f b t u) s =
  match open_lib r o se s with
  | (None, _, s1) => insert r (mkInst None [] u) s1
  | (Some k, path, s1) =>
      if f then
        let s2 := log s1 (ELoad k (if is_empty path then S_ "JNI_OnLoad" else S_ "JNI_OnLoad_" ++ path)) in
        let s3 := lruns b s2 in
        if t then s3 else insert r (mkInst (Some k) path u) s3
      else insert r (mkInst (Some k) path u) s1
  end.
Proof.
  cbn [lrun]. destruct (open_lib r o se s) as [[[k|] path] s1]; [|reflexivity]. destruct f; [|reflexivity].
  cbv zeta.
  replace ((fix go (l : list lop) (s0 : lst) {struct l} : lst := match l with [] => s0 | x :: l0 => go l0 (lrun x s0) end) b)
    with (lruns b); [reflexivity|].
  reflexivity.
Qed.
Lemma nothrow_attach r o se f b t u : nothrow (LAttach r o se f b t u) = negb (f && t) && nothrows b.
Proof. cbn [nothrow]. f_equal. Qed.
Lemma lruns_app a b s : lruns (a ++ b) s = lruns b (lruns a s).
Proof. revert s. induction a; simpl; auto. Qed.

(** * Invariant *)
Definition handles (m : list (str * inst)) : list nat :=
  flat_map (fun x => match i_handle (snd x) with Some k => [k] | None => [] end) m.
Definition tail_ (i : inst) : str := if is_empty (i_path i) then [] else S_ "_" ++ i_path i.

(** [X]: handles of instances under construction; [Y]: handles of constructors that threw *)
Record Inv (X Y : list nat) (s : lst) : Prop := mkInv {
  inv_nodup : NoDup (handles (l_map s) ++ X ++ Y);
  inv_lt : forall k, In k (handles (l_map s) ++ X ++ Y) -> k < l_next s;
  inv_new : forall k, l_next s <= k -> life k (l_trace s) = [];
  inv_map : forall key i k, In (key, i) (l_map s) -> i_handle i = Some k -> in_use k (tail_ i) (life k (l_trace s));
  inv_leak : forall k, In k Y -> exists x, in_use k x (life k (l_trace s));
  inv_done : forall k, k < l_next s -> ~ In k (handles (l_map s) ++ X ++ Y) -> finished k (life k (l_trace s));
  inv_keys : NoDup (map fst (l_map s))
}.

Lemma life_app k a b : life k (a ++ b) = life k a ++ life k b.
Proof. apply filter_app. Qed.
Lemma life_other k e t : about k e = false -> life k (t ++ [e]) = life k t.
Proof. intros H. rewrite life_app. cbn. rewrite H, app_nil_r. reflexivity. Qed.
Lemma life_own k e t : about k e = true -> life k (t ++ [e]) = life k t ++ [e].
Proof. intros H. rewrite life_app. cbn. rewrite H. reflexivity. Qed.
Lemma handles_app a b : handles (a ++ b) = handles a ++ handles b.
Proof. apply flat_map_app. Qed.
Lemma In_handles m k : In k (handles m) <-> exists key i, In (key, i) m /\ i_handle i = Some k.
Proof.
  unfold handles. rewrite in_flat_map. split.
  - intros [[key i] [H H1]]. cbn in H1. destruct (i_handle i) eqn:E; [|contradiction]. destruct H1 as [->|[]]. eauto.
  - intros (key & i & H & E). exists (key, i). split; [exact H|]. cbn. rewrite E. left; reflexivity.
Qed.
Lemma lget_spec m key : (exists i, lget m key = Some i /\ In (key, i) m) \/ (lget m key = None /\ ~ In key (map fst m)).
Proof.
  unfold lget. destruct (find _ m) as [[a i]|] eqn:F.
  - left. exists i. apply find_some in F. destruct F as [F E]. cbn in E. apply str_eqb_eq in E. subst a. auto.
  - right. split; [reflexivity|]. intros H. apply in_map_iff in H. destruct H as [[a i] [E H]]. cbn in E. subst a.
    pose proof (find_none _ _ F _ H) as G. cbn in G. rewrite str_eqb_refl in G. discriminate.
Qed.

Lemma destroy_map i s : l_map (destroy i s) = l_map s.
Proof. unfold destroy. destruct (i_handle i); [|reflexivity]. destruct (i_unload i); reflexivity. Qed.
Lemma destroy_next i s : l_next (destroy i s) = l_next s.
Proof. unfold destroy. destruct (i_handle i); [|reflexivity]. destruct (i_unload i); reflexivity. Qed.
Lemma destroy_other i s k : i_handle i <> Some k -> life k (l_trace (destroy i s)) = life k (l_trace s).
Proof.
  intros H. unfold destroy. destruct (i_handle i) as [j|] eqn:E; [|reflexivity].
  assert (N : Nat.eqb j k = false) by (apply Nat.eqb_neq; congruence).
  destruct (i_unload i); cbn [log l_trace]; repeat rewrite life_other by exact N; reflexivity.
Qed.
Lemma destroy_own i s k : i_handle i = Some k ->
  life k (l_trace (destroy i s)) = life k (l_trace s) ++
    (if i_unload i then [EUnload k (S_ "JNI_OnUnload" ++ tail_ i)] else []) ++ [EClose k].
Proof.
  intros H. unfold destroy. rewrite H.
  assert (N : Nat.eqb k k = true) by (apply Nat.eqb_refl).
  destruct (i_unload i); cbn [log l_trace]; repeat rewrite life_own by exact N; [|reflexivity].
  rewrite <- app_assoc. unfold tail_. destruct (is_empty (i_path i)); reflexivity.
Qed.

Definition hl (i : inst) : list nat := match i_handle i with Some k => [k] | None => [] end.
Lemma in_use_not_nil k x l : in_use k x l -> l <> [].
Proof. intros (p & _ & _ & [->| ->]); discriminate. Qed.

(** destroying an instance whose handle is only in [X] *)
Lemma Inv_destroy i X Y s : Inv (hl i ++ X) Y s ->
  (forall k, i_handle i = Some k -> in_use k (tail_ i) (life k (l_trace s))) -> Inv X Y (destroy i s).
Proof.
  intros [N L W M K D Q] U.
  assert (NX : forall k, i_handle i = Some k -> ~ In k (handles (l_map s) ++ X ++ Y)).
  { intros k E. unfold hl in N. rewrite E in N. cbn [app] in N. apply NoDup_remove_2 in N. exact N. }
  assert (SUB : forall k, In k (handles (l_map s) ++ X ++ Y) -> In k (handles (l_map s) ++ (hl i ++ X) ++ Y)).
  { intros k H. repeat rewrite in_app_iff in *. tauto. }
  constructor; try rewrite destroy_map; try rewrite destroy_next; auto.
  - unfold hl in N. destruct (i_handle i) as [k|]; [|exact N]. cbn [app] in N. apply NoDup_remove_1 in N. exact N.
  - intros k H. rewrite destroy_other; [auto|]. intros E. pose proof (in_use_not_nil (U k E)). rewrite W in H0; auto.
  - intros key j k H E. rewrite destroy_other; [eauto|]. intros E2. apply (NX k E2).
    apply in_or_app. left. apply In_handles. eauto.
  - intros k H. rewrite destroy_other; [auto|]. intros E2. apply (NX k E2). rewrite !in_app_iff. tauto.
  - intros k H1 H2. destruct (i_handle i) as [j|] eqn:E.
    + destruct (Nat.eq_dec j k) as [->|NE].
      * rewrite (@destroy_own i s k E). exists (tail_ i), (life k (l_trace s)). split; [auto|].
        destruct (i_unload i); [right|left]; reflexivity.
      * rewrite destroy_other by congruence. apply D; [exact H1|]. unfold hl. rewrite E. intros H3. apply H2.
        repeat rewrite in_app_iff in *. cbn in H3. tauto.
    + rewrite destroy_other by congruence. apply D; [exact H1|]. unfold hl. rewrite E. exact H2.
Qed.
Lemma Inv_insert r i X Y s : Inv (hl i ++ X) Y s ->
  (forall k, i_handle i = Some k -> in_use k (tail_ i) (life k (l_trace s))) -> Inv X Y (insert r i s).
Proof.
  intros I U. unfold insert. destruct (lget_spec (l_map s) r) as [(j & -> & _)|(-> & NK)]; [apply Inv_destroy; assumption|].
  destruct I as [N L W M K D Q].
  assert (P : forall k, In k (handles (l_map s ++ [(r, i)]) ++ X ++ Y) <-> In k (handles (l_map s) ++ (hl i ++ X) ++ Y)).
  { intros k. rewrite handles_app. cbn [handles flat_map snd]. fold (hl i). rewrite app_nil_r.
    repeat rewrite in_app_iff. tauto. }
  constructor; cbn [l_map l_trace l_next]; auto.
  - rewrite handles_app. cbn [handles flat_map snd]. fold (hl i). rewrite app_nil_r.
    rewrite <- app_assoc. rewrite <- app_assoc in N. exact N.
  - intros k H. apply L. apply P. exact H.
  - intros key j k H E. apply in_app_or in H. destruct H as [H|[H|[]]]; [eauto|]. inversion H; subst. auto.
  - intros k H1 H2. apply D; [exact H1|]. intros H3. apply H2. apply P. exact H3.
  - rewrite map_app. cbn. apply NoDup_rev in Q. rewrite <- (rev_involutive (map fst (l_map s) ++ [r])).
    apply NoDup_rev. rewrite rev_app_distr. cbn. constructor; [|exact Q]. rewrite <- in_rev. exact NK.
Qed.

Lemma handles_filter_in m key i :
  NoDup (map fst m) -> In (key, i) m ->
  Permutation (handles m) (hl i ++ handles (filter (fun x => negb (str_eqb (fst x) key)) m)).
Proof.
  induction m as [|[a j] m IH]; intros ND H; [contradiction|]. cbn in ND. inversion ND as [|? ? N1 N2]; subst.
  destruct H as [H|H].
  - inversion H; subst a j. cbn [filter fst]. rewrite str_eqb_refl. cbn [negb]. cbn [handles flat_map snd]. fold (hl i).
    replace (filter _ m) with m; [reflexivity|]. clear IH ND N2 H. induction m as [|[b j] m IH]; [reflexivity|].
    cbn [filter fst]. cbn in N1. destruct (str_eqb b key) eqn:E.
    + apply str_eqb_eq in E. exfalso. apply N1. left. exact E.
    + cbn [negb]. f_equal. apply IH. intros X. apply N1. right. exact X.
  - cbn [filter fst]. destruct (str_eqb a key) eqn:E.
    + apply str_eqb_eq in E. subst a. exfalso. apply N1. apply in_map_iff. exists (key, i). auto.
    + cbn [negb]. cbn [handles flat_map snd]. fold (hl j). rewrite (IH N2 H). rewrite !app_assoc.
      apply Permutation_app_tail. apply Permutation_app_comm.
Qed.
Lemma NoDup_map_filter (m : list (str * inst)) f : NoDup (map fst m) -> NoDup (map fst (filter f m)).
Proof.
  induction m as [|[a j] m IH]; intros H; [constructor|]. cbn in H. inversion H; subst. cbn [filter].
  destruct (f (a, j)); [|auto]. cbn. constructor; [|auto]. intros G. apply H2. apply in_map_iff in G.
  destruct G as [x [E G]]. apply filter_In in G. apply in_map_iff. exists x. tauto.
Qed.

Lemma Inv_erase r X Y s : Inv X Y s -> Inv X Y (erase r s).
Proof.
  intros I. unfold erase. destruct (lget_spec (l_map s) r) as [(i & -> & IN)|(-> & _)]; [|exact I].
  destruct I as [N L W M K D Q]. pose proof (handles_filter_in Q IN) as P.
  set (m' := filter (fun x => negb (str_eqb (fst x) r)) (l_map s)) in *.
  assert (P2 : Permutation (handles (l_map s) ++ X ++ Y) (handles m' ++ (hl i ++ X) ++ Y)).
  { rewrite P. rewrite !app_assoc. do 2 apply Permutation_app_tail. apply Permutation_app_comm. }
  apply Inv_destroy.
  - constructor; cbn [l_map l_trace l_next].
    + eapply Permutation_NoDup; eassumption.
    + intros k H. apply L. eapply Permutation_in; [symmetry; exact P2|exact H].
    + exact W.
    + intros key j k H E. apply filter_In in H. destruct H. eauto.
    + exact K.
    + intros k H1 H2. apply D; [exact H1|]. intros H3. apply H2. eapply Permutation_in; eassumption.
    + apply NoDup_map_filter. exact Q.
  - cbn [l_trace]. intros k E. eauto.
Qed.

(** a step does not touch instances under construction *)
Lemma erase_X r X Y s k : Inv X Y s -> In k X \/ In k Y -> life k (l_trace (erase r s)) = life k (l_trace s).
Proof.
  intros I H. unfold erase. destruct (lget_spec (l_map s) r) as [(i & -> & IN)|(-> & _)]; [|reflexivity].
  rewrite destroy_other; [reflexivity|]. intros E. destruct I as [N _ _ _ _ _ _].
  assert (H1 : In k (handles (l_map s))) by (apply In_handles; eauto).
  apply in_split in H1. destruct H1 as (a & b & E1). rewrite E1 in N. rewrite <- app_assoc in N. cbn in N.
  apply NoDup_remove_2 in N. apply N. rewrite !in_app_iff. tauto.
Qed.
Lemma insert_X r i s k : i_handle i <> Some k -> life k (l_trace (insert r i s)) = life k (l_trace s).
Proof. intros H. unfold insert. destruct (lget _ _); [apply destroy_other; exact H|reflexivity]. Qed.
Lemma insert_next r i s : l_next (insert r i s) = l_next s.
Proof. unfold insert. destruct (lget _ _); [apply destroy_next|reflexivity]. Qed.
Lemma erase_next r s : l_next (erase r s) = l_next s.
Proof. unfold erase. destruct (lget _ _); [rewrite destroy_next|]; reflexivity. Qed.

Lemma Inv_fail X Y s p : Inv X Y s -> Inv X Y (log s (EFail p)).
Proof.
  intros [N L W M K D Q]. constructor; cbn [log l_map l_trace l_next]; auto; intros; rewrite life_other by reflexivity; eauto.
Qed.
Lemma Inv_open X Y s p : Inv X Y s -> Inv (l_next s :: X) Y (opened s p).
Proof.
  intros [N L W M K D Q].
  assert (O : forall k, k <> l_next s -> life k (l_trace s ++ [EOpen (l_next s) p]) = life k (l_trace s)).
  { intros k H. apply life_other. cbn. apply Nat.eqb_neq. auto. }
  assert (F : ~ In (l_next s) (handles (l_map s) ++ X ++ Y)) by (intros H; apply L in H; lia).
  constructor; cbn [opened l_map l_trace l_next].
  - cbn. eapply Permutation_NoDup; [apply Permutation_middle|]. constructor; assumption.
  - intros k H. cbn in H. apply in_app_or in H. cbn in H.
    destruct (Nat.eq_dec k (l_next s)); [lia|]. assert (k < l_next s); [|lia]. apply L. rewrite in_app_iff. intuition congruence.
  - intros k H. rewrite O by lia. apply W. lia.
  - intros key i k H E. rewrite O; [eauto|]. intros ->. apply F. rewrite in_app_iff. left. apply In_handles. eauto.
  - intros k H. rewrite O; [auto|]. intros ->. apply F. rewrite !in_app_iff. tauto.
  - intros k H1 H2. cbn in H2. rewrite in_app_iff in H2. cbn in H2.
    destruct (Nat.eq_dec k (l_next s)) as [->|NE]; [exfalso; tauto|]. rewrite O by exact NE. apply D; [lia|].
    rewrite in_app_iff. tauto.
  - exact Q.
Qed.
Lemma Inv_load X Y s k y : Inv (k :: X) Y s -> Inv (k :: X) Y (log s (ELoad k y)).
Proof.
  intros [N L W M K D Q].
  assert (O : forall j, j <> k -> life j (l_trace s ++ [ELoad k y]) = life j (l_trace s)).
  { intros j H. apply life_other. cbn. apply Nat.eqb_neq. auto. }
  assert (KL : k < l_next s). { apply L. rewrite in_app_iff. cbn. tauto. }
  apply NoDup_remove_2 in N as N2.
  constructor; cbn [log l_map l_trace l_next]; auto.
  - intros j H. rewrite O by lia. auto.
  - intros key i j H E. rewrite O; [eauto|]. intros ->. apply N2. rewrite in_app_iff. left. apply In_handles. eauto.
  - intros j H. rewrite O; [auto|]. intros ->. apply N2. rewrite !in_app_iff. tauto.
  - intros j H1 H2. rewrite O; [auto|]. intros ->. apply H2. rewrite in_app_iff. cbn. tauto.
Qed.

(** the result of opening *)
Lemma open_lib_inv r o se X Y s h path s1 : open_lib r o se s = (h, path, s1) -> Inv X Y s ->
  (forall j, j < l_next s -> life j (l_trace s1) = life j (l_trace s)) /\ l_next s <= l_next s1 /\
  match h with
  | None => path = [] /\ Inv X Y s1
  | Some k => k = l_next s /\ Inv (k :: X) Y s1 /\
      exists p, life k (l_trace s1) = [EOpen k p] /\ (p = None -> path = r /\ r <> []) /\ (p <> None -> path = [])
  end.
Proof.
  intros E I. unfold open_lib in E. destruct o.
  - inversion E; subst. split; [|split; [cbn; lia|]].
    { intros j H. apply life_other. cbn. apply Nat.eqb_neq. lia. }
    split; [reflexivity|]. split; [apply Inv_open; exact I|]. exists (Some r). split; [|split; [discriminate|reflexivity]].
    cbn [opened l_trace]. rewrite life_own by (cbn; apply Nat.eqb_refl). rewrite (inv_new I); [reflexivity|lia].
  - pose proof (Inv_fail (Some r) I) as I1. set (s' := log s (EFail (Some r))) in *.
    assert (O : forall j, life j (l_trace s') = life j (l_trace s)) by (intros j; apply life_other; reflexivity).
    cbv zeta in E. destruct (plain r) eqn:P.
    + assert (R : r <> []) by (intros ->; discriminate P). destruct se.
      * inversion E; subst. split; [|split; [cbn; lia|]].
        { intros j H. cbn [opened l_trace]. rewrite life_other; [apply O|]. cbn. apply Nat.eqb_neq. lia. }
        split; [reflexivity|]. change (l_next s) with (l_next s'). split; [apply Inv_open; exact I1|]. exists None. split; [|split; [tauto|congruence]].
        cbn [opened l_trace]. rewrite life_own by (cbn; apply Nat.eqb_refl). rewrite (inv_new I1); [reflexivity|cbn; lia].
      * inversion E; subst. split; [|split; [cbn; lia|]].
        { intros j H. cbn [log l_trace]. rewrite life_other by reflexivity. apply O. }
        split; [reflexivity|]. apply Inv_fail. exact I1.
    + inversion E; subst. split; [auto|]. split; [cbn; lia|]. auto.
Qed.

Lemma in_use_open k p r path l : life k l = [EOpen k p] -> (p = None -> path = r /\ r <> []) -> (p <> None -> path = []) ->
  forall u, in_use k (tail_ (mkInst (Some k) path u)) (life k l).
Proof.
  intros E A B u. rewrite E. exists p. unfold tail_; cbn. destruct p as [q|].
  - rewrite B by discriminate. cbn. split; [discriminate|]. split; auto.
  - destruct (A eq_refl) as [-> N]. destruct r as [|c r]; [contradiction|]. cbn. split; [eauto|]. split; [congruence|]. auto.
Qed.
Lemma in_use_load k p r path l : life k l = [EOpen k p] -> (p = None -> path = r /\ r <> []) -> (p <> None -> path = []) ->
  forall u, in_use k (tail_ (mkInst (Some k) path u))
              (life k (l ++ [ELoad k (if is_empty path then S_ "JNI_OnLoad" else S_ "JNI_OnLoad_" ++ path)])).
Proof.
  intros E A B u. rewrite life_own by (cbn; apply Nat.eqb_refl). rewrite E. exists p. unfold tail_; cbn [i_path]. destruct p as [q|].
  - rewrite B by discriminate. cbn. split; [discriminate|]. split; auto.
  - destruct (A eq_refl) as [-> N]. destruct r as [|c r]; [contradiction|]. cbn [is_empty]. split; [eauto|]. split; [congruence|].
    right. reflexivity.
Qed.

Definition good_run (nt : bool) (X Y : list nat) (s s' : lst) : Prop :=
  exists Z, Inv X (Z ++ Y) s' /\ (forall k, In k X \/ In k Y -> life k (l_trace s') = life k (l_trace s)) /\
            l_next s <= l_next s' /\ (nt = true -> Z = []).
Lemma lrun_inv : forall o s X Y, Inv X Y s -> good_run (nothrow o) X Y s (lrun o s).
Proof.
  apply (lop_rect' (P := fun o => forall s X Y, Inv X Y s -> good_run (nothrow o) X Y s (lrun o s))
                   (Q := fun l => forall s X Y, Inv X Y s -> good_run (nothrows l) X Y s (lruns l s))).
  - intros r o se f b t u IHb s X Y I. rewrite lrun_attach, nothrow_attach.
    assert (XL : forall k, In k X \/ In k Y -> k < l_next s).
    { intros k H. apply (inv_lt I). rewrite !in_app_iff. tauto. }
    destruct (open_lib r o se s) as [[[k|] path] s1] eqn:EO.
    + destruct (open_lib_inv EO I) as (A & B & EK & I1 & p & C & D & F).
      destruct f.
      * cbv zeta. set (s2 := log s1 _). pose proof (Inv_load (if is_empty path then S_ "JNI_OnLoad" else S_ "JNI_OnLoad_" ++ path) I1) as I2.
        fold s2 in I2. destruct (IHb _ _ _ I2) as (Z & I3 & FX & NX & ZN).
        assert (U2 : in_use k (tail_ (mkInst (Some k) path u)) (life k (l_trace (lruns b s2)))).
        { rewrite FX by (left; left; reflexivity). exact (in_use_load C D F u). }
        assert (SX : forall j, In j X \/ In j Y -> life j (l_trace (lruns b s2)) = life j (l_trace s)).
        { intros j H. rewrite FX by (cbn; tauto). unfold s2. cbn [log l_trace]. rewrite life_other; [apply A; apply XL; exact H|].
          cbn. apply Nat.eqb_neq. specialize (XL j H). lia. }
        destruct t.
        -- exists (k :: Z). cbn [negb andb]. split; [|split; [exact SX|split; [|discriminate]]].
           ++ destruct I3 as [N L W M K2 D2 Q]. constructor; auto.
              ** eapply Permutation_NoDup; [|exact N]. apply Permutation_app_head. cbn. apply Permutation_middle.
              ** intros j H. apply L. repeat rewrite in_app_iff in *. cbn in *. rewrite ?in_app_iff in *. tauto.
              ** intros j H. cbn in H. destruct H as [<-|H]; [eauto|auto].
              ** intros j H1 H2. apply D2; [exact H1|]. intros H3. apply H2.
                 repeat rewrite in_app_iff in *. cbn in *. rewrite ?in_app_iff in *. tauto.
           ++ cbn [s2 log l_next] in NX. lia.
        -- exists Z. split; [|split; [|split]].
           ++ apply Inv_insert; [exact I3|]. intros j E. inversion E; subst j. exact U2.
           ++ intros j H. rewrite insert_X; [auto|]. cbn. specialize (XL j H). intros E; inversion E; lia.
           ++ rewrite insert_next. cbn [s2 log l_next] in NX. lia.
           ++ cbn. auto.
      * exists []. split; [|split; [|split]].
        -- apply Inv_insert; [exact I1|]. intros j E. inversion E; subst j. exact (in_use_open C D F u).
        -- intros j H. rewrite insert_X; [apply A; auto|]. cbn. specialize (XL j H). intros E; inversion E; lia.
        -- rewrite insert_next. lia.
        -- auto.
    + destruct (open_lib_inv EO I) as (A & B & EK & I1). exists []. split; [|split; [|split]].
      * apply Inv_insert; [exact I1|]. intros j E. discriminate.
      * intros j H. rewrite insert_X; [apply A; auto|discriminate].
      * rewrite insert_next. lia.
      * auto.
  - intros r s X Y I. exists []. split; [apply Inv_erase; exact I|]. split; [|split; [cbn; rewrite erase_next; lia|auto]].
    intros k H. cbn. exact (erase_X r I H).
  - intros s X Y I. exists []. cbn. repeat split; auto; apply I.
  - intros x l Hx Hl s X Y I. cbn [lruns nothrows forallb]. destruct (Hx s X Y I) as (Z1 & I1 & F1 & N1 & E1).
    destruct (Hl _ _ _ I1) as (Z2 & I2 & F2 & N2 & E2). exists (Z2 ++ Z1). rewrite <- app_assoc. split; [exact I2|].
    split; [|split; [lia|]].
    + intros k H. rewrite F2 by (rewrite in_app_iff; tauto). auto.
    + intros H. apply andb_true_iff in H. destruct H as [H1 H2]. rewrite E1, E2; auto.
Qed.

Lemma lruns_inv l : forall s X Y, Inv X Y s -> good_run (nothrows l) X Y s (lruns l s).
Proof.
  induction l as [|x l IH]; intros s X Y I.
  - exists []. cbn. repeat split; auto; apply I.
  - cbn [lruns nothrows forallb]. destruct (lrun_inv x I) as (Z1 & I1 & F1 & N1 & E1).
    destruct (IH _ _ _ I1) as (Z2 & I2 & F2 & N2 & E2). exists (Z2 ++ Z1). rewrite <- app_assoc. split; [exact I2|].
    split; [|split; [lia|]].
    + intros k H. rewrite F2 by (rewrite in_app_iff; tauto). auto.
    + intros H. apply andb_true_iff in H. destruct H as [H1 H2]. rewrite E1, E2; auto.
Qed.
Lemma Inv_start : Inv [] [] lstart.
Proof. constructor; cbn; try constructor; intros; try contradiction; try lia; auto. Qed.
Lemma Inv_reach l : exists Y, Inv [] Y (lruns l lstart) /\ (nothrows l = true -> Y = []).
Proof. destruct (lruns_inv l Inv_start) as (Z & I & _ & _ & E). rewrite app_nil_r in I. eauto. Qed.

Lemma erases_inv order : forall X Y s, Inv X Y s -> Inv X Y (fold_left (fun s p => erase p s) order s).
Proof. induction order; intros X Y s I; cbn; [exact I|]. apply IHorder, Inv_erase, I. Qed.
Lemma shutdown_inv order X Y s : Inv X Y s -> Inv X Y (shutdown order s).
Proof. intros I. unfold shutdown. apply erases_inv, erases_inv, I. Qed.
Lemma erase_map r s : l_map (erase r s) = filter (fun x => negb (str_eqb (fst x) r)) (l_map s).
Proof.
  unfold erase. destruct (lget_spec (l_map s) r) as [(i & -> & IN)|(-> & N)]; [rewrite destroy_map; reflexivity|].
  induction (l_map s) as [|[a j] m IH]; [reflexivity|]. cbn [filter fst]. destruct (str_eqb a r) eqn:E.
  - apply str_eqb_eq in E. exfalso. apply N. left. exact E.
  - cbn [negb]. f_equal. apply IH. intros X. apply N. right. exact X.
Qed.
Lemma erases_map order : forall s, l_map (fold_left (fun s p => erase p s) order s) =
  filter (fun x => negb (existsb (fun r => str_eqb (fst x) r) order)) (l_map s).
Proof.
  induction order as [|r order IH]; intros s; cbn [fold_left].
  - symmetry. clear. induction (l_map s) as [|x m IH]; [reflexivity|]. cbn. f_equal. exact IH.
  - rewrite IH, erase_map. clear. induction (l_map s) as [|x m IH]; [reflexivity|]. cbn [filter existsb].
    destruct (str_eqb (fst x) r); cbn [negb orb filter]; [exact IH|].
    destruct (negb (existsb _ order)); [f_equal|]; exact IH.
Qed.
Lemma shutdown_map order s : l_map (shutdown order s) = [].
Proof.
  unfold shutdown. set (s1 := fold_left _ order s). rewrite erases_map.
  assert (H : forall m n, (forall x : str * inst, In x m -> In (fst x) n) ->
              filter (fun x => negb (existsb (fun r => str_eqb (fst x) r) n)) m = []).
  { induction m as [|x m IH]; intros n H; [reflexivity|]. cbn [filter].
    replace (existsb _ n) with true; [cbn; apply IH; intros y Hy; apply H; right; exact Hy|].
    symmetry. apply existsb_exists. exists (fst x). split; [apply H; left; reflexivity|apply str_eqb_refl]. }
  apply H. intros x Hx. apply in_map. exact Hx.
Qed.

(** * Property C47 *)
(** At every moment, whatever the OnLoad functions do, each handle went through: opened, JNI_OnLoad at most once,
    JNI_OnUnload at most once (the function that belongs to the OnLoad function), closed. *)
Theorem C47_order : forall l k, lifecycle k (life k (l_trace (lruns l lstart))).
Proof.
  intros l k. destruct (Inv_reach l) as (Y & I & _). unfold lifecycle.
  destruct (Nat.lt_ge_cases k (l_next (lruns l lstart))) as [H|H]; [|left; apply (inv_new I H)].
  right. destruct (in_dec Nat.eq_dec k (handles (l_map (lruns l lstart)) ++ [] ++ Y)) as [J|J].
  - left. cbn in J. apply in_app_or in J. destruct J as [J|J]; [|apply (inv_leak I J)].
    apply In_handles in J. destruct J as (key & i & A & B). exists (tail_ i). exact (inv_map I A B).
  - right. exact (inv_done I H J).
Qed.
(** After the destruction of the VM every opened handle has been closed, exactly once and last. *)
Theorem C47_closed : forall l order k, nothrows l = true ->
  let t := life k (l_trace (shutdown order (lruns l lstart))) in t = [] \/ finished k t.
Proof.
  intros l order k N t. destruct (Inv_reach l) as (Y & I & E). rewrite (E N) in I.
  pose proof (shutdown_inv order I) as J. set (s := shutdown order _) in *.
  destruct (Nat.lt_ge_cases k (l_next s)) as [H|H]; [|left; apply (inv_new J H)].
  right. apply (inv_done J H). unfold s. rewrite shutdown_map. auto.
Qed.
(** While the VM lives, a handle is open exactly if it is the handle of one attached library. *)
Theorem C47_attached : forall l k, nothrows l = true ->
  ((exists x, in_use k x (life k (l_trace (lruns l lstart)))) <->
   exists key i, In (key, i) (l_map (lruns l lstart)) /\ i_handle i = Some k).
Proof.
  intros l k N. destruct (Inv_reach l) as (Y & I & E). rewrite (E N) in I. split.
  - intros [x U]. rewrite <- In_handles. destruct (in_dec Nat.eq_dec k (handles (l_map (lruns l lstart)))) as [J|J]; [exact J|].
    exfalso. destruct (Nat.lt_ge_cases k (l_next (lruns l lstart))) as [H|H].
    + assert (F : finished k (life k (l_trace (lruns l lstart)))).
      { apply (inv_done I H). cbn. rewrite app_nil_r. exact J. }
      destruct F as (y & a & (p1 & _ & _ & [->| ->]) & [F|F]); destruct U as (p2 & _ & _ & [U|U]); rewrite F in U; discriminate.
    + rewrite (inv_new I H) in U. exact (in_use_not_nil U eq_refl).
  - intros (key & i & A & B). exists (tail_ i). exact (inv_map I A B).
Qed.
(** removeLibrary: the library is gone and its handle closed; others are untouched. *)
Theorem C47_remove : forall l key, let s := lruns l lstart in let s' := lrun (LRemove key) s in
  lget (l_map s') key = None /\
  (forall k', k' <> key -> lget (l_map s') k' = lget (l_map s) k') /\
  (forall i k, lget (l_map s) key = Some i -> i_handle i = Some k -> finished k (life k (l_trace s'))) /\
  (forall k, (forall i, lget (l_map s) key = Some i -> i_handle i <> Some k) -> life k (l_trace s') = life k (l_trace s)).
Proof.
  intros l key s s'. destruct (Inv_reach l) as (Y & I & _). fold s in I. unfold s'. cbn [lrun].
  assert (G : forall m k', k' <> key -> lget (filter (fun x : str * inst => negb (str_eqb (fst x) key)) m) k' = lget m k').
  { intros m k' H. unfold lget. induction m as [|[a i] m IH]; [reflexivity|]. cbn [filter fst find].
    destruct (str_eqb a key) eqn:E; cbn [negb].
    - apply str_eqb_eq in E. subst a. destruct (str_eqb key k') eqn:E2; [apply str_eqb_eq in E2; congruence|]. exact IH.
    - cbn [find fst]. destruct (str_eqb a k'); [reflexivity|exact IH]. }
  split; [|split; [|split]].
  - rewrite erase_map. destruct (lget_spec (filter (fun x => negb (str_eqb (fst x) key)) (l_map s)) key) as [(i & _ & H)|[H _]]; [|exact H].
    apply filter_In in H. cbn in H. rewrite str_eqb_refl in H. destruct H; discriminate.
  - intros k' H. rewrite erase_map. apply G. exact H.
  - intros i k E H. assert (IN : In (key, i) (l_map s)).
    { destruct (lget_spec (l_map s) key) as [(j & E2 & IN)|[E2 _]]; rewrite E in E2; [inversion E2; subst; exact IN|discriminate]. }
    pose proof (inv_map I IN H) as U. unfold erase. rewrite E, (destroy_own _ H). cbn [l_trace].
    exists (tail_ i), (life k (l_trace s)). split; [exact U|]. destruct (i_unload i); auto.
  - intros k H. unfold erase. destruct (lget (l_map s) key) as [i|] eqn:E; [|reflexivity].
    rewrite destroy_other; [reflexivity|]. apply H. reflexivity.
Qed.
(** An OnLoad function that throws leaves its library open for ever. *)
Theorem C47_refuted_throw : exists l order,
  life 0 (l_trace (shutdown order (lruns l lstart))) = [EOpen 0 (Some (S_ "liba.so")); ELoad 0 (S_ "JNI_OnLoad")].
Proof. exists [LAttach (S_ "liba.so") true false true [] true true], []. vm_compute. reflexivity. Qed.

(** * Properties C48, C64 *)
(** Attaching a path that is not attached (nor attached by the OnLoad function itself): the library is attached, has
    been loaded exactly once and is not unloaded; no other library is touched. *)
Theorem C48_fresh_partial : forall l path self finds unload, let s := lruns l lstart in
  lget (l_map s) path = None ->
  let s' := lrun (LAttach path true self finds [] false unload) s in
  let k := l_next s in
  lget (l_map s') path = Some (mkInst (Some k) [] unload) /\
  (forall p, p <> path -> lget (l_map s') p = lget (l_map s) p) /\
  l_trace s' = l_trace s ++ [EOpen k (Some path)] ++ (if finds then [ELoad k (S_ "JNI_OnLoad")] else []).
Proof.
  intros l path self finds unload s H s' k. unfold s'. rewrite lrun_attach. cbn [open_lib]. cbv zeta.
  assert (A : forall t n, lget (l_map s ++ [(path, mkInst (Some k) [] unload)]) path = Some (mkInst (Some k) [] unload) /\
              (forall p, p <> path -> lget (l_map (mkL (l_map s ++ [(path, mkInst (Some k) [] unload)]) t n)) p = lget (l_map s) p)).
  { intros t n. cbn [l_map]. unfold lget in *. split.
    - destruct (find _ (l_map s)) eqn:E in H; [discriminate|]. revert E. generalize (l_map s). clear.
      intros mm. induction mm as [|[a i] m IH]; cbn [find app fst]; [rewrite str_eqb_refl; reflexivity|].
      destruct (str_eqb a path); [discriminate|exact IH].
    - intros p N. generalize (l_map s). clear -N. intros mm. induction mm as [|[a i] m IH]; cbn [find app fst].
      + destruct (str_eqb path p) eqn:E; [apply str_eqb_eq in E; congruence|reflexivity].
      + destruct (str_eqb a p); [reflexivity|exact IH]. }
  destruct finds; cbn [lruns]; unfold insert, log, opened; cbn [l_map l_trace l_next is_empty]; rewrite H; cbn [l_map l_trace];
    (split; [apply (A [] 0)|split; [apply (A [] 0)|]]).
  - rewrite <- app_assoc. reflexivity.
  - reflexivity.
Qed.
(** Attaching an attached path again leaves the entry as it is and does not close its handle … *)
Theorem C48_entry_partial : forall l path opens self finds unload i, let s := lruns l lstart in
  lget (l_map s) path = Some i ->
  let s' := lrun (LAttach path opens self finds [] false unload) s in
  l_map s' = l_map s /\ forall k, k < l_next s -> life k (l_trace s') = life k (l_trace s).
Proof.
  intros l path opens self finds unload i s H s'. destruct (Inv_reach l) as (Y & I & _). fold s in I.
  unfold s'. rewrite lrun_attach. destruct (open_lib path opens self s) as [[h p] s1] eqn:EO.
  assert (M : l_map s1 = l_map s).
  { unfold open_lib in EO. destruct opens; [inversion EO; reflexivity|]. cbv zeta in EO.
    destruct (plain path); [destruct self|]; inversion EO; reflexivity. }
  destruct (open_lib_inv EO I) as (A & _ & R). destruct h as [k0|].
  - destruct R as (-> & _). destruct finds; cbn [lruns]; unfold insert; cbn [log l_map]; rewrite M, H, destroy_map;
      (split; [exact M|]); intros k L; rewrite destroy_other by (cbn; intros E; inversion E; lia).
    + cbn [log l_trace]. rewrite life_other; [auto|]. cbn. apply Nat.eqb_neq. lia.
    + auto.
  - unfold insert. rewrite M, H. rewrite destroy_map. split; [exact M|]. intros k L. rewrite destroy_other by discriminate. auto.
Qed.
(** … but runs the JNI_OnLoad and then the JNI_OnUnload function of the library while it is attached. *)
Definition twice : list lop :=
  [LAttach (S_ "libgame.so") true false true [] false true; LAttach (S_ "libgame.so") true false true [] false true].
Theorem C48_refuted : exists l path k,
  lget (l_map (lruns l lstart)) path = Some (mkInst (Some k) [] true) /\
  l_trace (lruns l lstart) =
    [EOpen 0 (Some path); ELoad 0 (S_ "JNI_OnLoad");
     EOpen 1 (Some path); ELoad 1 (S_ "JNI_OnLoad"); EUnload 1 (S_ "JNI_OnUnload"); EClose 1] /\ k = 0.
Proof. exists twice, (S_ "libgame.so"), 0. vm_compute. repeat split. Qed.
(** In general: every attach of a present path that opens a library with both functions runs both. *)
Theorem C48_always : forall l path i, let s := lruns l lstart in lget (l_map s) path = Some i ->
  let k := l_next s in
  l_trace (lrun (LAttach path true false true [] false true) s) =
  l_trace s ++ [EOpen k (Some path); ELoad k (S_ "JNI_OnLoad"); EUnload k (S_ "JNI_OnUnload"); EClose k].
Proof.
  intros l path i s H k. rewrite lrun_attach. cbn [open_lib]. cbv zeta. cbn [lruns]. unfold insert, log, opened.
  cbn [l_map l_trace l_next is_empty]. rewrite H. unfold destroy. cbn. rewrite <- !app_assoc. reflexivity.
Qed.
(** A path that could not be opened stays registered: when the library becomes available later, attaching it opens,
    loads, unloads and closes it at once. *)
Theorem C64_refuted : exists path l,
  lget (l_map (lruns l lstart)) path = Some (mkInst None [] false) /\
  l_trace (lruns l lstart) =
    [EFail (Some path); EOpen 0 (Some path); ELoad 0 (S_ "JNI_OnLoad"); EUnload 0 (S_ "JNI_OnUnload"); EClose 0].
Proof.
  exists (S_ "libgame.so"), [LAttach (S_ "libgame.so") false false false [] false false; LAttach (S_ "libgame.so") true false true [] false true].
  vm_compute. repeat split.
Qed.
(** After removeLibrary the path can be attached again. *)
Theorem C64_remove_partial : forall l path self finds unload, let s := lruns (l ++ [LRemove path]) lstart in
  let s' := lrun (LAttach path true self finds [] false unload) s in
  let k := l_next s in
  lget (l_map s') path = Some (mkInst (Some k) [] unload) /\
  l_trace s' = l_trace s ++ [EOpen k (Some path)] ++ (if finds then [ELoad k (S_ "JNI_OnLoad")] else []).
Proof.
  intros l path self finds unload s s' k.
  assert (H : lget (l_map s) path = None).
  { unfold s. rewrite lruns_app. cbn [lruns]. exact (proj1 (C47_remove l path)). }
  destruct (C48_fresh_partial self finds unload H) as (A & _ & B). auto.
Qed.

(** * Which functions are called *)
(** A library found by dlopen: its JNI_OnLoad; a plain name that is not found: the function of the library linked into
    the program; anything else: nothing. *)
Theorem C47_symbols : forall r opens self finds s, lget (l_map s) r = None ->
  l_trace (lrun (LAttach r opens self finds [] false true) s) = l_trace s ++
    (if opens then EOpen (l_next s) (Some r) :: (if finds then [ELoad (l_next s) (S_ "JNI_OnLoad")] else [])
     else EFail (Some r) ::
       (if negb (existsb (Ascii.eqb "/") r) && negb (existsb (Ascii.eqb ".") r) && negb (Nat.eqb (length r) 0)
        then if self then EOpen (l_next s) None :: (if finds then [ELoad (l_next s) (S_ "JNI_OnLoad_" ++ r)] else [])
             else [EFail None]
        else [])).
Proof.
  intros r opens self finds s H. rewrite lrun_attach. unfold open_lib, plain. destruct opens; cbn [opened log l_next l_trace].
  - destruct finds; cbn [lruns]; unfold insert; cbn [log opened l_map l_trace l_next is_empty]; rewrite H; cbn [l_trace];
      rewrite ?app_nil_r, <- ?app_assoc; reflexivity.
  - destruct r as [|c r]; [cbn; unfold insert; cbn [log l_map l_trace]; rewrite H; reflexivity|].
    replace (Nat.eqb (length (c :: r)) 0) with false by reflexivity. cbn [is_empty negb andb]. rewrite andb_true_r.
    destruct (negb (existsb (Ascii.eqb "/") (c :: r)) && negb (existsb (Ascii.eqb ".") (c :: r))).
    + destruct self.
      * destruct finds; cbn [lruns is_empty]; unfold insert; cbn [log opened l_map l_trace l_next]; rewrite H; cbn [l_trace];
          rewrite <- !app_assoc; reflexivity.
      * unfold insert. cbn [log l_map]. rewrite H. cbn [l_trace log]. rewrite <- !app_assoc. reflexivity.
    + unfold insert. cbn [log l_map]. rewrite H. reflexivity.
Qed.

(** * Examples *)
(** a library whose OnLoad attaches another one and re-attaches itself; static library; removal; destruction *)
Definition busy : list lop :=
  [LAttach (S_ "liba.so") true false true
     [LAttach (S_ "libb.so") true false false [] false true; LAttach (S_ "liba.so") true false false [] false false] false true;
   LAttach (S_ "fmod") false true true [] false true; LRemove (S_ "libb.so")].
Example C47_busy : nothrows busy = true /\
  map fst (l_map (lruns busy lstart)) = [S_ "liba.so"; S_ "fmod"] /\
  l_trace (shutdown [S_ "fmod"] (lruns busy lstart)) =
  [EOpen 0 (Some (S_ "liba.so")); ELoad 0 (S_ "JNI_OnLoad"); EOpen 1 (Some (S_ "libb.so")); EOpen 2 (Some (S_ "liba.so"));
   EUnload 0 (S_ "JNI_OnUnload"); EClose 0; EFail (Some (S_ "fmod")); EOpen 3 None; ELoad 3 (S_ "JNI_OnLoad_fmod");
   EUnload 1 (S_ "JNI_OnUnload"); EClose 1; EUnload 3 (S_ "JNI_OnUnload_fmod"); EClose 3; EClose 2].
Proof. vm_compute. repeat split. Qed.
Example C48_fresh_case : lget (l_map (lruns busy lstart)) (S_ "libb.so") = None. Proof. reflexivity. Qed.
Example C48_entry_case : lget (l_map (lruns busy lstart)) (S_ "fmod") = Some (mkInst (Some 3) (S_ "fmod") true).
Proof. reflexivity. Qed.

Print Assumptions C47_order.
Print Assumptions C47_closed.
Print Assumptions C47_attached.
Print Assumptions C47_remove.
Print Assumptions C47_symbols.
Print Assumptions C48_fresh_partial.
Print Assumptions C48_entry_partial.
Print Assumptions C48_refuted.
Print Assumptions C64_refuted.
Print Assumptions C64_remove_partial.
