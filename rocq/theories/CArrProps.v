(** Property C93: arrays of numbers in C++. *)
From Verif Require Import Base BaseProofs VmState VmBase CArrModel CArrSpec.
Set Implicit Arguments.
Unset Strict Implicit.
Local Open Scope Z_scope.

(** ** Refinement *)
Definition rep_arr (a : nat) (v : option aval) : option arr :=
  match v with
  | None => None
  | Some v => Some (mkArr (start a v) (size v) (match v with Own _ => true | _ => false end))
  end.
Definition rep_store (v : option aval) : option (list cell) := match v with Some (Own l) => Some l | _ => None end.
Record rep (c : cst) (s : sst) : Prop := {
  r_user : c_user c = u_mem s;
  r_len : length (c_arr c) = length (u_arr s);
  r_slen : length (c_store c) = length (u_arr s);
  r_arr : forall a v, nth_error (u_arr s) a = Some v -> nth_error (c_arr c) a = Some (rep_arr a v);
  r_store : forall a v, nth_error (u_arr s) a = Some v -> nth_error (c_store c) a = Some (rep_store v) }.
Definition matches (x : option (cout * cst)) (y : option (cout * sst)) : Prop :=
  match x, y with
  | Some (v, c), Some (v', s) => v = v' /\ rep c s
  | None, None => True
  | _, _ => False
  end.

Lemma nth_none_len A B (l : list A) (m : list B) a : length l = length m -> nth_error m a = None -> nth_error l a = None.
Proof. intros L N. apply nth_error_None. apply nth_error_None in N. lia. Qed.
Lemma rep_array c s a : rep c s -> array c a = rep_arr a (val s a).
Proof.
  intros R. unfold array, val. destruct (nth_error (u_arr s) a) eqn:N.
  - rewrite (r_arr R N). reflexivity.
  - rewrite (nth_none_len (r_len R) N). reflexivity.
Qed.
Lemma rep_block c s p : rep c s -> block c p = content s p.
Proof.
  intros R. destruct p as [n|a]; cbn [block content].
  - rewrite (r_user R). reflexivity.
  - unfold val. destruct (nth_error (u_arr s) a) as [v|] eqn:N.
    + rewrite (r_store R N). destruct v as [[l|]|]; reflexivity.
    + rewrite (nth_none_len (r_slen R) N). reflexivity.
Qed.
Lemma rep_put c s p l l0 : rep c s -> content s p = Some l0 -> length l0 = length l -> rep (set_block c p (Some l)) (put s p l).
Proof.
  intros R C L. destruct p as [n|a]; cbn [set_block put].
  - constructor; cbn; try apply R. rewrite (r_user R). reflexivity.
  - cbn [content] in C. unfold val in C. destruct (nth_error (u_arr s) a) as [[[l1|]|]|] eqn:N; try discriminate. injection C as ->.
    constructor; cbn; rewrite ?list_set_length; try apply R.
    + intros b v. rewrite nth_list_set. destruct (Nat.eqb_spec a b) as [<-|]; [|apply R].
      rewrite N. intros [= <-]. rewrite (r_arr R N). cbn. rewrite L. reflexivity.
    + intros b v. rewrite !nth_list_set. destruct (Nat.eqb_spec a b) as [<-|]; [|apply R].
      rewrite N. intros [= <-]. rewrite (r_store R N). reflexivity.
Qed.
Lemma rep_add c s v : rep c s -> rep (mkC (c_user c) (c_store c ++ [rep_store (Some v)]) (c_arr c ++ [rep_arr (length (c_arr c)) (Some v)])) (mkS (u_mem s) (u_arr s ++ [Some v])).
Proof.
  intros R. constructor; cbn; rewrite ?app_length; cbn; try rewrite (r_len R); try rewrite (r_slen R); try apply R; auto.
  - intros a x. destruct (Nat.lt_ge_cases a (length (u_arr s))) as [H|H].
    + rewrite !nth_error_app1 by (rewrite ?(r_len R); lia). apply R.
    + rewrite !nth_error_app2 by (rewrite ?(r_len R); lia). rewrite (r_len R). destruct (a - length (u_arr s))%nat as [|[|]] eqn:E; cbn; try discriminate.
      intros [= <-]. replace a with (length (u_arr s)) by lia. reflexivity.
  - intros a x. destruct (Nat.lt_ge_cases a (length (u_arr s))) as [H|H].
    + rewrite !nth_error_app1 by (rewrite ?(r_slen R); lia). apply R.
    + rewrite !nth_error_app2 by (rewrite ?(r_slen R); lia). rewrite (r_slen R). destruct (a - length (u_arr s))%nat as [|[|]] eqn:E; cbn; try discriminate.
      intros [= <-]. reflexivity.
Qed.
Lemma construct_add c s v x st_ : rep c s -> rep_arr (length (c_arr c)) (Some v) = Some x -> rep_store (Some v) = st_ -> matches (construct c st_ x) (add s v).
Proof. intros R E <-. unfold matches, construct, add. rewrite (r_len R). split; [reflexivity|]. rewrite <- E. apply (rep_add v R). Qed.

Lemma place_at c s p o k : rep c s ->
  place c (Some (p, o)) k = match content s p with
    | Some l => match at_ l (Z.of_nat o + k) with Some _ => Some (p, Z.to_nat (Z.of_nat o + k), l) | None => None end
    | None => None end.
Proof.
  intros R. unfold place. rewrite (rep_block p R). destruct (content s p) as [l|]; [|reflexivity]. unfold at_.
  set (i := Z.of_nat o + k). destruct (Z.leb_spec 0 i), (Z.ltb_spec i 0); cbn [andb]; try lia; try reflexivity.
  destruct (Z.ltb_spec i (Z.of_nat (length l))).
  - destruct (nth_error l (Z.to_nat i)) eqn:N; [reflexivity|]. apply nth_error_None in N. lia.
  - destruct (nth_error l (Z.to_nat i)) eqn:N; [|reflexivity]. assert (nth_error l (Z.to_nat i) <> None) as Hs by congruence. apply nth_error_Some in Hs. lia.
Qed.
Lemma read_at c s p o k : rep c s -> matches (read c (Some (p, o)) k) (get_at s (Some (p, Z.of_nat o + k))).
Proof.
  intros R. unfold read, get_at. rewrite (place_at p o k R). destruct (content s p) as [l|]; [|exact I].
  destruct (at_ l (Z.of_nat o + k)) as [x|] eqn:A; [|exact I]. unfold at_ in A. destruct (Z.of_nat o + k <? 0); [discriminate|]. rewrite A. destruct x; cbn; auto.
Qed.
Lemma write_at c s p o k z : rep c s -> matches (write c (Some (p, o)) k z) (put_at s (Some (p, Z.of_nat o + k)) z).
Proof.
  intros R. unfold write, put_at. rewrite (place_at p o k R). destruct (content s p) as [l|] eqn:C; [|exact I].
  destruct (at_ l (Z.of_nat o + k)) as [x|] eqn:A; [|exact I]. cbn. split; [reflexivity|]. apply (rep_put R C). rewrite list_set_length. reflexivity.
Qed.
Lemma copied_range c s p n : rep c s -> 0 <= n -> copied c p n = range s p (Z.to_nat n).
Proof.
  intros R Hn. unfold copied, range. destruct (Z.eqb_spec n 0) as [->|Hz]; [reflexivity|].
  destruct (Z.to_nat n) as [|m] eqn:E; [lia|]. destruct p as [[b o]|]; [|reflexivity]. rewrite (rep_block b R). destruct (content s b) as [l|]; [|reflexivity].
  destruct (Z.leb_spec (Z.of_nat o + n) (Z.of_nat (length l))), (Nat.leb_spec (o + S m) (length l)); try reflexivity; lia.
Qed.
Lemma jsize_small n : Z.of_nat n < 2147483648 -> jsize_of n = Z.of_nat n.
Proof. intros H. unfold jsize_of. rewrite Z.mod_small by lia. lia. Qed.
Lemma range_length s p n l : range s p n = Some l -> length l = n.
Proof.
  unfold range. destruct n as [|n]; [intros [= <-]; reflexivity|]. destruct p as [[b o]|]; [|discriminate]. destruct (content s b) as [x|]; [|discriminate].
  destruct (Nat.leb_spec (o + S n) (length x)); [|discriminate]. intros E. assert (l = firstn (S n) (skipn o x)) as -> by congruence. rewrite firstn_length, skipn_length. lia.
Qed.
Lemma rep_gone c s a v : rep c s -> val s a = Some v -> rep (mkC (c_user c) (list_set (c_store c) a None) (list_set (c_arr c) a None)) (mkS (u_mem s) (list_set (u_arr s) a None)).
Proof.
  intros R V. constructor; cbn; rewrite ?list_set_length; try apply R.
  - intros b x. rewrite !nth_list_set. destruct (Nat.eqb_spec a b) as [<-|]; [|apply R]. destruct (nth_error (u_arr s) a) eqn:N; [|discriminate]. intros [= <-]. rewrite (r_arr R N). reflexivity.
  - intros b x. rewrite !nth_list_set. destruct (Nat.eqb_spec a b) as [<-|]; [|apply R]. destruct (nth_error (u_arr s) a) eqn:N; [|discriminate]. intros [= <-]. rewrite (r_store R N). reflexivity.
Qed.
Lemma list_set_id A (l : list A) k x : nth_error l k = Some x -> list_set l k x = l.
Proof. revert k. induction l as [|y l IH]; intros [|k]; cbn; try discriminate; [intros [= ->]; reflexivity|]. intros H. rewrite (IH _ H). reflexivity. Qed.

Lemma step_refines o c s : plain o = true -> rep c s -> matches (cstep o c) (sstep o s).
Proof.
  intros P R. destruct o as [l|[n|a]|[b i]|[b i] z| |n|l|p n [|]|a|a b|a k|a k z|a|a|a]; cbn [plain] in P; try discriminate; cbn [cstep sstep].
  - rewrite (r_user R). cbn. split; [reflexivity|]. constructor; cbn; apply R || reflexivity.
  - rewrite (rep_block (PUser n) R). destruct (content s (PUser n)); [|exact I]. cbn. split; [reflexivity|].
    constructor; cbn; try apply R. rewrite (r_user R). reflexivity.
  - rewrite <- (Z.add_0_r (Z.of_nat i)). apply read_at, R.
  - rewrite <- (Z.add_0_r (Z.of_nat i)). apply write_at, R.
  - apply (construct_add (v := View None 0) R); reflexivity.
  - destruct (Z.ltb_spec n 0); [cbn; auto|]. apply (construct_add R); [|reflexivity]. cbn. rewrite repeat_length, Z2Nat.id by lia. reflexivity.
  - apply (construct_add R); [|reflexivity]. cbn. rewrite map_length, jsize_small by (apply Z.ltb_lt in P; lia). reflexivity.
  - destruct (Z.ltb_spec n 0); [cbn; auto|]. rewrite (copied_range p R) by lia. destruct (range s p (Z.to_nat n)) as [l|] eqn:E; [|exact I].
    apply (construct_add R); [|reflexivity]. cbn. rewrite (range_length E), Z2Nat.id by lia. reflexivity.
  - apply (construct_add (v := View p n) R); reflexivity.
  - rewrite (rep_array a R). unfold elems. destruct (val s a) as [[l|[[p o]|] n]|] eqn:V; cbn [rep_arr start a_data]; try exact I; [apply (read_at (PStore a) 0 k R)|apply (read_at _ _ _ R)].
  - rewrite (rep_array a R). unfold elems. destruct (val s a) as [[l|[[p o]|] n]|] eqn:V; cbn [rep_arr start a_data]; try exact I; [apply (write_at (PStore a) 0 k z R)|apply (write_at _ _ _ _ R)].
  - rewrite (rep_array a R). destruct (val s a) as [v|]; cbn; auto.
  - rewrite (rep_array a R). destruct (val s a) as [v|]; cbn; auto.
  - rewrite (rep_array a R). destruct (val s a) as [[l|p n]|] eqn:V; cbn [rep_arr start a_data a_own]; try exact I.
    + rewrite (rep_block (PStore a) R). cbn [content]. rewrite V. cbn. split; [reflexivity|]. apply (rep_gone R V).
    + cbn. split; [reflexivity|]. unfold set_array. pose proof (rep_gone R V) as H. rewrite list_set_id in H; [exact H|].
      unfold val in V. destruct (nth_error (u_arr s) a) as [x|] eqn:N; [|discriminate]. rewrite (r_store R N), V. reflexivity.
Qed.
Lemma rep_init : rep cinit sinit.
Proof. constructor; try reflexivity; intros [|a] v; discriminate. Qed.
Lemma exec_refines l c s : forallb plain l = true -> rep c s ->
  match cexec l c, sexec l s with Some (vs, c'), Some (vs', s') => vs = vs' /\ rep c' s' | None, None => True | _, _ => False end.
Proof.
  revert c s. induction l as [|o l IH]; intros c s P R; cbn; [auto|]. cbn in P. apply andb_prop in P. destruct P as [P1 P2].
  pose proof (step_refines P1 R) as M. unfold matches in M. destruct (cstep o c) as [[v c1]|], (sstep o s) as [[v' s1]|]; try easy.
  destruct M as [<- R1]. specialize (IH c1 s1 P2 R1). destruct (cexec l c1) as [[vs c2]|], (sexec l s1) as [[vs' s2]|]; try easy. destruct IH as [<- R2]. auto.
Qed.

(** ** Property C93 *)
Definition outs {A} (x : option (list cout * A)) : option (list cout) := match x with Some (vs, _) => Some vs | None => None end.
(** Arrays behave as sequences of their own or as views of memory of the caller, also in when behaviour is undefined. *)
Theorem C93_refines l : forallb plain l = true -> outs (cexec l cinit) = outs (sexec l sinit).
Proof.
  intros P. pose proof (exec_refines P rep_init) as H. destruct (cexec l cinit) as [[vs c]|], (sexec l sinit) as [[vs' s]|]; try easy.
  destruct H as [<- _]. reflexivity.
Qed.
(** The states of programs that do not copy array objects. *)
Definition simple (c : cst) : Prop := exists l vs, forallb plain l = true /\ cexec l cinit = Some (vs, c).
Lemma simple_rep c : simple c -> exists s, rep c s.
Proof.
  intros (l & vs & P & E). pose proof (exec_refines P rep_init) as H. rewrite E in H. destruct (sexec l sinit) as [[vs' s]|]; [|easy]. exists s. apply H.
Qed.
(** Storage is allocated exactly for arrays that exist and have elements of their own: nothing is lost, nothing is freed early. *)
Theorem C93_storage c a : simple c -> (block c (PStore a) <> None <-> exists x, array c a = Some x /\ a_own x = true).
Proof.
  intros (s & R)%simple_rep. rewrite (rep_block _ R), (rep_array a R). cbn. destruct (val s a) as [[l|p n]|]; cbn; split; intros H; try congruence; eauto.
  - destruct H as (x & [= <-] & [=]).
  - destruct H as (x & [=] & _).
Qed.
Theorem C93_all_destroyed c : simple c -> (forall a, array c a = None) -> forall a, block c (PStore a) = None.
Proof.
  intros S N a. destruct (block c (PStore a)) eqn:B; [|reflexivity]. destruct (proj1 (C93_storage a S)) as (x & X & _); [congruence|]. rewrite N in X. discriminate.
Qed.
(** Destroying an array that exists always works, and leaves everything else as it is. *)
Theorem C93_destroy c a x : simple c -> array c a = Some x -> exists c', cstep (CDestroy a) c = Some (CDone, c') /\
  array c' a = None /\ (forall b, b <> a -> array c' b = array c b) /\ (forall p, p <> PStore a -> block c' p = block c p) /\ block c' (PStore a) = None.
Proof.
  intros S X. pose proof (C93_storage a S) as St. destruct (simple_rep S) as (s & R).
  pose proof (step_refines (o := CDestroy a) eq_refl R) as M. cbn [sstep] in M. pose proof X as X'. rewrite (rep_array a R) in X'.
  destruct (val s a) as [v|] eqn:V; [|discriminate]. destruct (cstep (CDestroy a) c) as [[o c']|] eqn:E; [|easy]. destruct M as [-> R'].
  exists c'. split; [reflexivity|]. rewrite (rep_array a R'), (rep_block _ R').
  assert (V' : forall b, val (mkS (u_mem s) (list_set (u_arr s) a None)) b = if Nat.eqb a b then None else val s b).
  { intros b. unfold val. cbn. rewrite nth_list_set. destruct (Nat.eqb a b), (nth_error (u_arr s) b); reflexivity. }
  split; [rewrite V', Nat.eqb_refl; reflexivity|]. split; [|split].
  - intros b N. rewrite (rep_array b R'), (rep_array b R), V'. destruct (Nat.eqb_spec a b); congruence.
  - intros p N. rewrite (rep_block p R'), (rep_block p R). destruct p as [n|b]; cbn; [reflexivity|]. rewrite V'. destruct (Nat.eqb_spec a b); congruence.
  - cbn. rewrite V', Nat.eqb_refl. reflexivity.
Qed.

(** What operations change.  [writes c o p]: [o] stores a number at address [p]; [ends o p]: it frees it. *)
Inductive writes (c : cst) : cop -> addr -> Prop :=
| wr_ptr p i z : writes c (CWrite (p, i) z) p
| wr_arr a x p i k z : array c a = Some x -> a_data x = Some (p, i) -> writes c (CSet a k z) p.
Inductive ends : cop -> addr -> Prop :=
| en_free p : ends (CFree p) p
| en_array a : ends (CDestroy a) (PStore a).
Lemma content_put s p l0 l q : content s p = Some l0 -> content (put s p l) q = if match p, q with PUser a, PUser b | PStore a, PStore b => Nat.eqb a b | _, _ => false end then Some l else content s q.
Proof.
  intros C. destruct p as [n|a], q as [m|b]; cbn [content put u_mem u_arr val]; unfold val; cbn [u_arr]; rewrite ?nth_list_set; auto.
  - destruct (Nat.eqb_spec n m) as [<-|]; [|reflexivity]. cbn in C. destruct (nth_error (u_mem s) n); [reflexivity|discriminate].
  - destruct (Nat.eqb_spec a b) as [<-|]; [|reflexivity]. cbn in C. unfold val in C. destruct (nth_error (u_arr s) a); [reflexivity|discriminate].
Qed.
Lemma content_add s v q l : content s q = Some l -> content (mkS (u_mem s) (u_arr s ++ [Some v])) q = Some l.
Proof.
  destruct q as [n|a]; cbn; [auto|]. unfold val; cbn. destruct (nth_error (u_arr s) a) as [x|] eqn:N; [|discriminate].
  rewrite nth_error_app1, N; [auto|]. apply nth_error_Some. congruence.
Qed.
Definition same_addr (p q : addr) : bool := match p, q with PUser a, PUser b | PStore a, PStore b => Nat.eqb a b | _, _ => false end.
Lemma same_addr_spec p q : same_addr p q = true <-> p = q.
Proof. destruct p, q; cbn; rewrite ?Nat.eqb_eq; split; congruence. Qed.

(** Elements change only by a write to them. *)
Theorem C93_frame c o v c' p l : simple c -> plain o = true -> cstep o c = Some (v, c') -> block c p = Some l ->
  ~ writes c o p -> ~ ends o p -> block c' p = Some l.
Proof.
  intros S P E B NW NE. destruct (simple_rep S) as (s & R). pose proof (step_refines P R) as M. rewrite E in M. unfold matches in M.
  destruct (sstep o s) as [[v' s']|] eqn:X; [|easy]. destruct M as [_ R']. rewrite (rep_block p R'). rewrite (rep_block p R) in B.
  assert (Put : forall q z, put_at s q z = Some (v', s') -> (forall b i, q = Some (b, i) -> b <> p) -> content s' p = Some l).
  { intros q z H N. unfold put_at in H. destruct q as [[b i]|]; [|discriminate]. destruct (content s b) as [l0|] eqn:C; [|discriminate]. destruct (at_ l0 i); [|discriminate].
    injection H as _ <-. rewrite (content_put _ _ C). fold (same_addr b p). destruct (same_addr b p) eqn:Sa; [|exact B]. apply same_addr_spec in Sa. destruct (N b i eq_refl Sa). }
  assert (Get : forall q, get_at s q = Some (v', s') -> s' = s).
  { intros q H. unfold get_at in H. destruct q as [[b i]|]; [|discriminate]. destruct (content s b) as [l0|] eqn:C; [|discriminate]. destruct (at_ l0 i) as [[z|]|]; try discriminate. injection H as _ <-. reflexivity. }
  assert (Add : forall x, add s x = Some (v', s') -> content s' p = Some l) by (intros x [= _ <-]; apply content_add, B).
  destruct o as [m|[n|a]|[b i]|[b i] z| |n|m|q n [|]|a|a b|a k|a k z|a|a|a]; cbn [plain] in P; try discriminate; cbn [sstep] in X; eauto.
  - injection X as _ <-. destruct p as [n|a]; cbn in B |- *; [|exact B]. destruct (nth_error (u_mem s) n) eqn:N; [|discriminate].
    rewrite nth_error_app1, N; [exact B|]. apply nth_error_Some. congruence.
  - destruct (content s (PUser n)); [|discriminate]. injection X as _ <-. destruct p as [m|a]; cbn in B |- *; [|exact B].
    rewrite nth_list_set. destruct (Nat.eqb_spec n m) as [<-|]; [destruct NE; constructor|exact B].
  - rewrite (Get _ X). exact B.
  - apply (Put _ _ X). intros b0 i0 [= <- _] ->. apply NW. constructor.
  - destruct (n <? 0); [injection X as _ <-; exact B|eauto].
  - destruct (n <? 0); [injection X as _ <-; exact B|]. destruct (range s q (Z.to_nat n)); [eauto|discriminate].
  - rewrite (Get _ X). exact B.
  - apply (Put _ _ X). intros b0 i0 Q ->. unfold elems in Q. destruct (val s a) as [[l0|[[p0 o0]|] n0]|] eqn:V; try discriminate; injection Q as <- _;
      apply NW; (eapply wr_arr; [rewrite (rep_array a R), V; cbn; reflexivity|reflexivity]).
  - destruct (val s a); [|discriminate]. injection X as _ <-. exact B.
  - destruct (val s a); [|discriminate]. injection X as _ <-. exact B.
  - destruct (val s a); [|discriminate]. injection X as _ <-. destruct p as [n|b]; cbn in B |- *; [exact B|]. unfold val in *; cbn.
    rewrite nth_list_set. destruct (Nat.eqb_spec a b) as [<-|]; [destruct NE; constructor|exact B].
Qed.
(** Arrays stay the same object, of the same size, until they are destroyed. *)
Theorem C93_same_array c o v c' a x : plain o = true -> cstep o c = Some (v, c') -> array c a = Some x -> o <> CDestroy a -> array c' a = Some x.
Proof.
  intros P E A N.
  assert (Con : forall y z, construct c y z = Some (v, c') -> array c' a = Some x).
  { intros y z [= _ <-]. unfold array in *; cbn. destruct (nth_error (c_arr c) a) eqn:M; [|discriminate]. rewrite nth_error_app1, M; [auto|]. apply nth_error_Some. congruence. }
  assert (Sb : forall p y, array (set_block c p y) a = array c a) by (intros [|] y; reflexivity).
  assert (Wr : forall p k z, write c p k z = Some (v, c') -> array c' a = Some x).
  { intros p k z H. unfold write in H. destruct (place c p k) as [[[b i] l]|]; [|discriminate]. injection H as _ <-. rewrite Sb. exact A. }
  assert (Rd : forall p k, read c p k = Some (v, c') -> array c' a = Some x).
  { intros p k H. unfold read in H. destruct (place c p k) as [[[b i] l]|]; [|discriminate]. destruct (nth_error l i) as [[z|]|]; try discriminate. injection H as _ <-. exact A. }
  destruct o as [m|p|[b i]|[b i] z| |n|m|q n [|]|b|b b'|b k|b k z|b|b|b]; cbn [plain] in P; try discriminate; cbn [cstep] in E; eauto.
  - injection E as _ <-. exact A.
  - destruct (block c p); [|discriminate]. injection E as _ <-. rewrite Sb. exact A.
  - destruct (n <? 0); [injection E as _ <-; exact A|eauto].
  - destruct (n <? 0); [injection E as _ <-; exact A|]. destruct (copied c q n); [eauto|discriminate].
  - destruct (array c b); [eauto|discriminate].
  - destruct (array c b); [eauto|discriminate].
  - destruct (array c b); [|discriminate]. injection E as _ <-. exact A.
  - destruct (array c b); [|discriminate]. injection E as _ <-. exact A.
  - assert (b <> a) as Nb by congruence.
    assert (Sa : forall c0, array c0 a = array c a -> array (set_array c0 b None) a = Some x).
    { intros c0 H. unfold array in *; cbn. rewrite nth_list_set. destruct (Nat.eqb_spec b a); [contradiction|]. rewrite H. exact A. }
    destruct (array c b) as [y|]; [|discriminate]. destruct (a_own y).
    + destruct (a_data y) as [[p [|i]]|]; try discriminate.
      * destruct (block c p); [|discriminate]. injection E as _ <-. apply Sa, Sb.
      * injection E as _ <-. apply Sa. reflexivity.
    + injection E as _ <-. apply Sa. reflexivity.
Qed.

(** Constructors: [made c o l]: the numbers that [o] asks for. *)
Inductive made (c : cst) : cop -> list cell -> Prop :=
| md_length n : 0 <= n -> made c (CLength n) (repeat None (Z.to_nat n))
| md_vector l : Z.of_nat (length l) < 2147483648 -> made c (CVector l) (map Some l)
| md_data p i n x l y : block c p = Some (x ++ l ++ y) -> length x = i -> n = Z.of_nat (length l) -> made c (CData (Some (p, i)) n true) l
| md_nothing p : made c (CData p 0 true) [].
Theorem C93_made c o l : simple c -> made c o l -> exists a c', cstep o c = Some (CNew a, c') /\ array c a = None /\
  cstep (CSize a) c' = Some (CVal (Z.of_nat (length l)), c') /\ cstep (CArray a) c' = Some (CPtr (Some (PStore a, 0%nat)), c') /\
  block c' (PStore a) = Some l /\ (forall p x, block c p = Some x -> block c' p = Some x) /\ (forall b x, array c b = Some x -> array c' b = Some x) /\
  (forall b x, array c b = Some x -> a_data x <> Some (PStore a, 0%nat) \/ a_own x = false).
Proof.
  intros S H. destruct (simple_rep S) as (s & R).
  assert (P : plain o = true) by (destruct H; try reflexivity; cbn; apply Z.ltb_lt; assumption).
  assert (X : sstep o s = add s (Own l)).
  { destruct H as [n Hn|l Hl|p i n x l y B Hx Hn|p]; cbn [sstep].
    - destruct (Z.ltb_spec n 0); [lia|reflexivity].
    - reflexivity.
    - subst. destruct (Z.ltb_spec (Z.of_nat (length l)) 0); [lia|]. rewrite Nat2Z.id. unfold range. rewrite (rep_block p R) in B. rewrite B.
      destruct l as [|z l]; [reflexivity|]. set (m := z :: l) in *. change (Datatypes.S (length l)) with (length m).
      destruct (Nat.leb_spec (length x + length m) (length (x ++ m ++ y))) as [|Hl]; [|rewrite !app_length in Hl; lia].
      rewrite skipn_app, skipn_all, Nat.sub_diag. cbn [skipn app]. rewrite firstn_app, firstn_all, Nat.sub_diag. cbn [firstn]. rewrite app_nil_r. reflexivity.
    - reflexivity. }
  pose proof (step_refines P R) as M. rewrite X in M. unfold matches, add in M. destruct (cstep o c) as [[v c']|] eqn:E; [|easy]. destruct M as [-> R'].
  exists (length (u_arr s)), c'. split; [reflexivity|].
  assert (V' : val (mkS (u_mem s) (u_arr s ++ [Some (Own l)])) (length (u_arr s)) = Some (Own l)).
  { unfold val; cbn. rewrite nth_error_app2, Nat.sub_diag by lia. reflexivity. }
  assert (V0 : val s (length (u_arr s)) = None).
  { unfold val. destruct (nth_error (u_arr s) (length (u_arr s))) eqn:N; [|reflexivity]. assert (nth_error (u_arr s) (length (u_arr s)) <> None) as Hs by congruence. apply nth_error_Some in Hs. lia. }
  cbn [cstep]. rewrite (rep_array _ R), (rep_array _ R'), V', V0. cbn. repeat (split; [reflexivity|]).
  split; [|split; [|split]].
  - pose proof (rep_block (PStore (length (u_arr s))) R') as B. cbn in B. rewrite V' in B. exact B.
  - intros p x B. rewrite (rep_block p R'). rewrite (rep_block p R) in B. apply content_add, B.
  - intros b x B. eapply C93_same_array; eauto. destruct H; discriminate.
  - intros b x B. rewrite (rep_array b R) in B. destruct (val s b) as [[m|p n]|] eqn:V; try discriminate; injection B as <-; cbn; [|auto]. left. intros [= ->]. congruence.
Qed.
(** Negative lengths: an exception, nothing is changed. *)
Theorem C93_negative c n p : n < 0 -> cstep (CLength n) c = Some (CThrow, c) /\ cstep (CData p n true) c = Some (CThrow, c).
Proof. intros H. cbn. destruct (Z.ltb_spec n 0); [auto|lia]. Qed.
(** Element access: number [k] of the elements, undefined outside and for elements never written. *)
Theorem C93_get c a x k : simple c -> array c a = Some x -> a_own x = true -> exists l, block c (PStore a) = Some l /\
  (forall z, cstep (CGet a k) c = Some (CVal z, c) <-> 0 <= k /\ nth_error l (Z.to_nat k) = Some (Some z)) /\
  (cstep (CGet a k) c = None <-> forall z, ~ (0 <= k /\ nth_error l (Z.to_nat k) = Some (Some z))).
Proof.
  intros S A O. destruct (simple_rep S) as (s & R). pose proof A as A'. rewrite (rep_array a R) in A'. destruct (val s a) as [[l|p n]|] eqn:V; try discriminate; injection A' as <-; [|discriminate].
  exists l. rewrite (rep_block _ R). cbn [content]. rewrite V. split; [reflexivity|].
  assert (E : cstep (CGet a k) c = match (if k <? 0 then None else nth_error l (Z.to_nat k)) with Some (Some z) => Some (CVal z, c) | _ => None end).
  { cbn [cstep]. rewrite A. cbn [a_data start]. unfold read. rewrite (place_at _ _ _ R). cbn [content]. rewrite V. change (Z.of_nat 0 + k) with k. unfold at_.
    destruct (k <? 0); [reflexivity|]. destruct (nth_error l (Z.to_nat k)) eqn:N; [|reflexivity]. rewrite N. reflexivity. }
  rewrite E. clear E. destruct (Z.ltb_spec k 0) as [Hk|Hk].
  - split; [intros z|]; split; try (intros; discriminate); try (intros [? _]; lia); [|reflexivity]. intros _ z [? _]. lia.
  - destruct (nth_error l (Z.to_nat k)) as [[z0|]|].
    + split; [intros z; split; [intros [= ->]; auto|intros [_ [= ->]]; reflexivity]|]. split; [discriminate|]. intros H. destruct (H z0). auto.
    + split; [intros z; split; [discriminate|intros [_ [=]]]|]. split; [intros _ z [_ [=]]|reflexivity].
    + split; [intros z; split; [discriminate|intros [_ [=]]]|]. split; [intros _ z [_ [=]]|reflexivity].
Qed.
(** Assignment: exactly that element is changed; undefined outside. *)
Theorem C93_set c a x k z : simple c -> array c a = Some x -> a_own x = true -> exists l, block c (PStore a) = Some l /\
  ((0 <= k < Z.of_nat (length l)) -> exists c', cstep (CSet a k z) c = Some (CDone, c') /\ block c' (PStore a) = Some (firstn (Z.to_nat k) l ++ Some z :: skipn (Datatypes.S (Z.to_nat k)) l) /\
     (forall p, p <> PStore a -> block c' p = block c p)) /\
  (~ (0 <= k < Z.of_nat (length l)) -> cstep (CSet a k z) c = None).
Proof.
  intros S A O. destruct (simple_rep S) as (s & R). pose proof A as A'. rewrite (rep_array a R) in A'. destruct (val s a) as [[l|p n]|] eqn:V; try discriminate; injection A' as <-; [|discriminate].
  exists l. rewrite (rep_block _ R). cbn [content]. rewrite V. split; [reflexivity|].
  assert (E : cstep (CSet a k z) c = if (0 <=? k) && (k <? Z.of_nat (length l)) then Some (CDone, set_block c (PStore a) (Some (list_set l (Z.to_nat k) (Some z)))) else None).
  { cbn [cstep]. rewrite A. cbn [a_data start]. unfold write, place. rewrite (rep_block _ R). cbn [content]. rewrite V. change (Z.of_nat 0 + k) with k. destruct ((0 <=? k) && (k <? Z.of_nat (length l))); reflexivity. }
  rewrite E. clear E. destruct (Z.leb_spec 0 k), (Z.ltb_spec k (Z.of_nat (length l))); cbn [andb]; (split; [intros Hk; try lia|intros Hk; try lia; try reflexivity]).
  eexists. split; [reflexivity|]. assert (B : block c (PStore a) = Some l) by (rewrite (rep_block _ R); cbn; rewrite V; reflexivity). split.
  - cbn in B |- *. rewrite nth_list_set, Nat.eqb_refl. destruct (nth_error (c_store c) a); [|discriminate]. f_equal.
    assert (Z.to_nat k < length l)%nat as Hl by lia. clear - Hl. revert Hl. generalize (Z.to_nat k). intros n. revert l. induction n as [|n IH]; intros [|y l] Hl; cbn in *; try lia; [reflexivity|]. rewrite IH by lia. reflexivity.
  - intros [m|b] N; cbn; [reflexivity|]. rewrite nth_list_set. destruct (Nat.eqb_spec a b); [congruence|reflexivity].
Qed.
(** Views: reading and writing is reading and writing the memory of the caller, in any state, whatever the size says; and destroying the view does
    nothing to it ([C93_destroy]). *)
Theorem C93_view c p i n : exists a c', cstep (CData (Some (p, i)) n false) c = Some (CNew a, c') /\
  a = length (c_arr c) /\ array c' a = Some (mkArr (Some (p, i)) n false) /\ (forall q, block c' q = block c q).
Proof.
  exists (length (c_arr c)). eexists. split; [reflexivity|]. split; [reflexivity|]. split.
  - unfold array; cbn. rewrite nth_error_app2, Nat.sub_diag by lia. reflexivity.
  - intros [m|b]; cbn; [reflexivity|]. destruct (Nat.lt_ge_cases b (length (c_store c))) as [H|H].
    + rewrite nth_error_app1 by lia. reflexivity.
    + rewrite nth_error_app2 by lia. assert (nth_error (c_store c) b = None) as -> by (apply nth_error_None; lia). destruct (b - length (c_store c))%nat as [|[|]]; reflexivity.
Qed.
Theorem C93_view_access c a x p i k z : array c a = Some x -> a_data x = Some (p, i) -> 0 <= Z.of_nat i + k ->
  cstep (CGet a k) c = cstep (CRead (p, Z.to_nat (Z.of_nat i + k))) c /\ cstep (CSet a k z) c = cstep (CWrite (p, Z.to_nat (Z.of_nat i + k)) z) c.
Proof.
  intros A D H. cbn. rewrite A, D. unfold read, write, place. destruct (block c p); [|auto]. rewrite Z2Nat.id, Z.add_0_r by lia. auto.
Qed.

(** ** Copies of array objects *)
Lemma own_data c a x : simple c -> array c a = Some x -> a_own x = true -> a_data x = Some (PStore a, 0%nat) /\ exists l, block c (PStore a) = Some l.
Proof.
  intros S A O. destruct (simple_rep S) as (s & R). rewrite (rep_array a R) in A. rewrite (rep_block _ R). cbn.
  destruct (val s a) as [[l|p n]|]; try discriminate; injection A as <-; [|discriminate]. cbn. eauto.
Qed.
Lemma array_lt c a x : array c a = Some x -> (a < length (c_arr c))%nat.
Proof. unfold array. destruct (nth_error (c_arr c) a) eqn:N; [|discriminate]. intros _. apply nth_error_Some. congruence. Qed.
Lemma simple_len c : simple c -> length (c_store c) = length (c_arr c).
Proof. intros (s & R)%simple_rep. rewrite (r_len R), (r_slen R). reflexivity. Qed.
(** The copy has the same elements, not elements of its own; and they are freed twice. *)
Theorem C93_copied c a x : simple c -> array c a = Some x -> a_own x = true -> exists b c1, cstep (CCopy a) c = Some (CNew b, c1) /\ b <> a /\
  (forall k z c2, cstep (CSet b k z) c1 = Some (CDone, c2) -> cstep (CGet a k) c2 = Some (CVal z, c2)) /\
  cexec [CDestroy a; CDestroy b] c1 = None /\ cexec [CDestroy b; CDestroy a] c1 = None /\
  forall c2 k z, cstep (CDestroy b) c1 = Some (CDone, c2) -> cstep (CGet a k) c2 = None /\ cstep (CSet a k z) c2 = None.
Proof.
  intros S A O. destruct (own_data S A O) as (D & l & B). pose proof (array_lt A) as Lt. pose proof (simple_len S) as Ls.
  exists (length (c_arr c)). eexists. split; [cbn [cstep]; rewrite A; reflexivity|]. split; [lia|].
  set (c1 := mkC (c_user c) (c_store c ++ [None]) (c_arr c ++ [Some x])). set (b := length (c_arr c)) in *.
  assert (Ab : array c1 b = Some x) by (unfold array; cbn; rewrite nth_error_app2 by (unfold b; lia); unfold b; rewrite Nat.sub_diag; reflexivity).
  assert (Aa : array c1 a = Some x) by (unfold array in *; cbn; rewrite nth_error_app1 by lia; exact A).
  assert (Ba : block c1 (PStore a) = Some l) by (cbn in *; rewrite nth_error_app1 by lia; exact B).
  assert (Del : forall d e, array c1 d = Some x -> array c1 e = Some x -> d <> e -> exists c2, cstep (CDestroy d) c1 = Some (CDone, c2) /\ array c2 e = Some x /\ block c2 (PStore a) = None).
  { intros d e Ad Ae N. cbn [cstep]. rewrite Ad, O, D, Ba. eexists. split; [reflexivity|]. split.
    - unfold array in Ae |- *; cbn in Ae |- *. rewrite nth_list_set. destruct (Nat.eqb_spec d e); [contradiction|]. exact Ae.
    - cbn in Ba |- *. rewrite nth_list_set, Nat.eqb_refl. destruct (nth_error (c_store c ++ [None]) a); reflexivity. }
  assert (Dead : forall d e, array c1 d = Some x -> array c1 e = Some x -> d <> e -> cexec [CDestroy d; CDestroy e] c1 = None).
  { intros d e Ad Ae N. destruct (Del d e Ad Ae N) as (c2 & E & A2 & B2). cbn [cexec]. rewrite E. assert (cstep (CDestroy e) c2 = None) as ->; [|reflexivity].
    cbn [cstep]. rewrite A2, O, D, B2. reflexivity. }
  split; [|split; [|split]].
  - intros k z c2 E. cbn [cstep] in E |- *. rewrite Ab, D in E. unfold write in E. destruct (place c1 (Some (PStore a, 0%nat)) k) as [[[q i] m]|] eqn:P; [|discriminate].
    unfold place in P. rewrite Ba in P. destruct ((0 <=? Z.of_nat 0 + k) && (Z.of_nat 0 + k <? Z.of_nat (length l))) eqn:Rg; [|discriminate]. injection P as <- <- <-.
    assert (E2 : c2 = set_block c1 (PStore a) (Some (list_set l (Z.to_nat k) (Some z)))) by congruence. clear E.
    assert (A2 : array c2 a = Some x) by (rewrite E2; exact Aa).
    assert (B2 : block c2 (PStore a) = Some (list_set l (Z.to_nat k) (Some z))).
    { rewrite E2. cbn in Ba |- *. rewrite nth_list_set, Nat.eqb_refl. destruct (nth_error (c_store c ++ [None]) a); [reflexivity|discriminate]. }
    rewrite A2, D. unfold read, place. rewrite B2, list_set_length, Rg. change (Z.of_nat 0 + k) with k in *. rewrite nth_list_set, Nat.eqb_refl.
    destruct (nth_error l (Z.to_nat k)) eqn:Nk; [reflexivity|]. apply nth_error_None in Nk. apply andb_prop in Rg. destruct Rg as [Rg1 Rg2]. apply Z.leb_le in Rg1. apply Z.ltb_lt in Rg2. lia.
  - apply Dead; auto. lia.
  - apply Dead; auto. lia.
  - intros c2 k z E. destruct (Del b a Ab Aa) as (c3 & E3 & A3 & B3); [lia|]. assert (c2 = c3) as -> by congruence. cbn [cstep]. rewrite A3, D. unfold read, write, place. rewrite B3. auto.
Qed.
(** Copies of views are views, and can be destroyed. *)
Theorem C93_copied_view c a x : array c a = Some x -> a_own x = false -> exists b c1 c2, cstep (CCopy a) c = Some (CNew b, c1) /\ array c1 b = Some x /\
  array c1 a = Some x /\ cexec [CDestroy a; CDestroy b] c1 = Some ([CDone; CDone], c2) /\ forall p, block c2 p = block c1 p.
Proof.
  intros A O. pose proof (array_lt A) as Lt. exists (length (c_arr c)). eexists. eexists. split; [cbn [cstep]; rewrite A; reflexivity|].
  set (c1 := mkC (c_user c) (c_store c ++ [None]) (c_arr c ++ [Some x])). set (b := length (c_arr c)) in *.
  assert (Ab : array c1 b = Some x) by (unfold array; cbn; rewrite nth_error_app2 by (unfold b; lia); unfold b; rewrite Nat.sub_diag; reflexivity).
  assert (Aa : array c1 a = Some x) by (unfold array in *; cbn; rewrite nth_error_app1 by lia; exact A).
  split; [exact Ab|]. split; [exact Aa|]. split.
  - cbn [cexec]. assert (cstep (CDestroy a) c1 = Some (CDone, set_array c1 a None)) as -> by (cbn [cstep]; rewrite Aa, O; reflexivity).
    assert (array (set_array c1 a None) b = Some x) as A2.
    { unfold array in Ab |- *. cbn in Ab |- *. rewrite nth_list_set. destruct (Nat.eqb_spec a b); [lia|exact Ab]. }
    assert (cstep (CDestroy b) (set_array c1 a None) = Some (CDone, set_array (set_array c1 a None) b None)) as -> by (cbn [cstep]; rewrite A2, O; reflexivity).
    reflexivity.
  - intros [|]; reflexivity.
Qed.
(** Assigning one array object to another: the elements of the first are lost for ever, those of the second are freed twice. *)
Definition lost (c : cst) (a : nat) : Prop := block c (PStore a) <> None /\ (a < length (c_arr c))%nat /\
  forall b x, array c b = Some x -> a_own x = true -> forall i, a_data x <> Some (PStore a, i).
Lemma lost_step c o v c' a : lost c a -> plain o = true -> cstep o c = Some (v, c') -> lost c' a.
Proof.
  intros (B & Lt & F) P E.
  assert (Con : forall st_ z, construct c st_ z = Some (v, c') -> (a_own z = true -> a_data z = mine c) -> lost c' a).
  { intros st_ z [= _ <-] Hz. split; [|split].
    - cbn in B |- *. destruct (nth_error (c_store c) a) eqn:N; [|easy]. rewrite nth_error_app1, N; [exact B|]. apply nth_error_Some. congruence.
    - cbn. rewrite app_length. lia.
    - intros b x A O i. unfold array in A; cbn in A. destruct (Nat.lt_ge_cases b (length (c_arr c))) as [H|H].
      + rewrite nth_error_app1 in A by lia. apply (F b x A O).
      + rewrite nth_error_app2 in A by lia. destruct (b - length (c_arr c))%nat as [|[|]]; cbn in A; try discriminate. injection A as <-. rewrite (Hz O). intros [= Ha _]. lia. }
  assert (Wr : forall p k z, write c p k z = Some (v, c') -> lost c' a).
  { intros p k z H. unfold write in H. destruct (place c p k) as [[[q i] l]|]; [|discriminate]. injection H as _ <-. split; [|split].
    - destruct q as [n|b]; cbn in B |- *; [exact B|]. rewrite nth_list_set. destruct (Nat.eqb b a); [|exact B]. destruct (nth_error (c_store c) a); [discriminate|easy].
    - destruct q; exact Lt.
    - destruct q; exact F. }
  assert (Rd : forall p k, read c p k = Some (v, c') -> lost c' a).
  { intros p k H. unfold read in H. destruct (place c p k) as [[[b i] l]|]; [|discriminate]. destruct (nth_error l i) as [[z|]|]; try discriminate. injection H as _ <-. repeat split; auto. }
  assert (Rm : forall c0 b, lost c0 a -> lost (set_array c0 b None) a).
  { intros c0 b (B0 & L0 & F0). split; [exact B0|]. split; [cbn; rewrite list_set_length; exact L0|]. intros d x A O. unfold array in A; cbn in A. rewrite nth_list_set in A.
    destruct (Nat.eqb b d); [destruct (nth_error (c_arr c0) d); discriminate|]. apply (F0 d x A O). }
  destruct o as [m|[n|q]|[b i]|[b i] z| |n|m|q n [|]|b|b b'|b k|b k z|b|b|b]; cbn [plain] in P; try discriminate; cbn [cstep] in E; eauto.
  - injection E as _ <-. repeat split; auto.
  - destruct (block c (PUser n)); [|discriminate]. injection E as _ <-. repeat split; auto.
  - apply (Con _ _ E). discriminate.
  - destruct (n <? 0); [injection E as _ <-; repeat split; auto|]. apply (Con _ _ E). reflexivity.
  - destruct (n <? 0); [injection E as _ <-; repeat split; auto|]. destruct (copied c q n); [|discriminate]. apply (Con _ _ E). reflexivity.
  - apply (Con _ _ E). discriminate.
  - destruct (array c b); [eauto|discriminate].
  - destruct (array c b); [eauto|discriminate].
  - destruct (array c b); [|discriminate]. injection E as _ <-. repeat split; auto.
  - destruct (array c b); [|discriminate]. injection E as _ <-. repeat split; auto.
  - destruct (array c b) as [y|] eqn:Ab; [|discriminate]. destruct (a_own y) eqn:Oy.
    + destruct (a_data y) as [[p [|i]]|] eqn:Dy; try discriminate.
      * destruct (block c p); [|discriminate]. injection E as _ <-. apply Rm. split; [|split].
        -- destruct p as [n|d]; cbn in B |- *; [exact B|]. rewrite nth_list_set. destruct (Nat.eqb_spec d a) as [->|]; [|exact B]. destruct (F b y Ab Oy 0%nat). exact Dy.
        -- destruct p; exact Lt.
        -- destruct p; exact F.
      * injection E as _ <-. apply Rm. repeat split; auto.
    + injection E as _ <-. apply Rm. repeat split; auto.
Qed.
Theorem C93_assigned c a b x y : simple c -> a <> b -> array c a = Some x -> a_own x = true -> array c b = Some y -> a_own y = true ->
  exists c1, cstep (CAssign a b) c = Some (CDone, c1) /\ cexec [CDestroy a; CDestroy b] c1 = None /\
  forall l vs c2, forallb plain l = true -> cexec l c1 = Some (vs, c2) -> block c2 (PStore a) <> None /\ forall d z, array c2 d = Some z -> a_own z = true -> forall i, a_data z <> Some (PStore a, i).
Proof.
  intros S N A O Bb Ob. destruct (own_data S A O) as (D & l & B). destruct (own_data S Bb Ob) as (Db & lb & BBb).
  eexists. split; [cbn [cstep]; rewrite A, Bb; reflexivity|]. set (c1 := set_array c a (Some y)).
  assert (A1 : forall d, array c1 d = if Nat.eqb a d then Some y else array c d).
  { intros d. unfold array, c1; cbn. rewrite nth_list_set. destruct (Nat.eqb_spec a d) as [<-|]; [|reflexivity]. unfold array in A. destruct (nth_error (c_arr c) a); [reflexivity|discriminate]. }
  split.
  - cbn [cexec]. assert (cstep (CDestroy a) c1 = Some (CDone, set_array (set_block c1 (PStore b) None) a None)) as ->.
    { cbn [cstep]. rewrite A1, Nat.eqb_refl, Ob, Db. change (block c1 (PStore b)) with (block c (PStore b)). rewrite BBb. reflexivity. }
    assert (cstep (CDestroy b) (set_array (set_block c1 (PStore b) None) a None) = None) as ->; [|reflexivity].
    cbn [cstep]. assert (array (set_array (set_block c1 (PStore b) None) a None) b = Some y) as ->.
    { unfold array in *; cbn. rewrite !nth_list_set. destruct (Nat.eqb_spec a b); [contradiction|exact Bb]. }
    rewrite Ob, Db. cbn in BBb |- *. rewrite nth_list_set, Nat.eqb_refl. destruct (nth_error (c_store c) b); reflexivity.
  - assert (L1 : lost c1 a).
    { split; [change (block c (PStore a) <> None); congruence|]. split; [cbn; rewrite list_set_length; apply (array_lt A)|].
      intros d z Ad Oz i. rewrite A1 in Ad. destruct (Nat.eqb_spec a d) as [<-|Nd].
      - injection Ad as <-. rewrite Db. congruence.
      - destruct (own_data S Ad Oz) as (Dd & _). rewrite Dd. congruence. }
    clearbody c1. clear - L1. intros l vs. revert vs c1 L1. induction l as [|o l IH]; intros vs c1 L1 c2 P E; cbn in P, E.
    + injection E as <- <-. destruct L1 as (H1 & _ & H2). auto.
    + apply andb_prop in P. destruct P as [P1 P2]. destruct (cstep o c1) as [[v c3]|] eqn:E1; [|discriminate]. destruct (cexec l c3) as [[ws c4]|] eqn:E2; [|discriminate].
      injection E as <- <-. apply (IH ws c3 (lost_step L1 P1 E1) c4 P2 E2).
Qed.
(** A vector with 2^31 elements: the size is negative. *)
Theorem C93_huge c l : Z.of_nat (length l) = 2147483648 -> exists a c', cstep (CVector l) c = Some (CNew a, c') /\ cstep (CSize a) c' = Some (CVal (-2147483648), c').
Proof.
  intros H. eexists. eexists. split; [reflexivity|]. cbn [cstep]. unfold array; cbn [c_arr]. rewrite nth_error_app2, Nat.sub_diag by lia. cbn [nth_error a_len]. unfold jsize_of. rewrite H. reflexivity.
Qed.
(** Copying is not supported: a program that makes an array, copies it and destroys both. *)
Theorem C93_refuted : exists l a b, l = [CVector [1; 2]; CCopy a; CDestroy a; CDestroy b] /\ a <> b /\ cexec l cinit = None /\
  exists vs c, cexec [CVector [1; 2]; CCopy a; CSet b 0 7; CGet a 0] cinit = Some (vs, c) /\ vs = [CNew a; CNew b; CDone; CVal 7].
Proof. exists [CVector [1; 2]; CCopy 0; CDestroy 0; CDestroy 1], 0%nat, 1%nat. repeat (split; [try reflexivity; lia|]). eexists. eexists. split; reflexivity. Qed.

(** A block, a copy of its middle, a view of its end, writes through all of them, everything destroyed. *)
Definition demo : list cop :=
  [CAlloc [Some 1; Some 2; Some 3; None]; CData (Some (PUser 0, 1%nat)) 2 true; CData (Some (PUser 0, 2%nat)) 2 false; CWrite (PUser 0, 2%nat) 9; CGet 0 1; CGet 1 0;
   CSet 1 1 4; CRead (PUser 0, 3%nat); CGet 1 (-1); CArray 0; CWrite (PStore 0, 0%nat) 8; CGet 0 0; CSize 0; CDestroy 0; CDestroy 1; CRead (PUser 0, 2%nat)].
Example C93_case : exists c, cexec demo cinit = Some ([CNew 0; CNew 0; CNew 1; CDone; CVal 3; CVal 9; CDone; CVal 4; CVal 2; CPtr (Some (PStore 0, 0%nat)); CDone; CVal 8; CVal 2; CDone; CDone; CVal 9], c)
  /\ forallb plain demo = true /\ simple c /\ forall a, block c (PStore a) = None.
Proof.
  eexists. split; [reflexivity|]. split; [reflexivity|]. split; [exists demo; eexists; split; reflexivity|].
  intros [|[|[|a]]]; reflexivity.
Qed.
Example C93_hypotheses : exists c, simple c /\ (exists x, array c 0 = Some x /\ a_own x = true) /\ (exists x, array c 1 = Some x /\ a_own x = true) /\
  (exists x, array c 2 = Some x /\ a_own x = false) /\ made c (CData (Some (PUser 0, 1%nat)) 1 true) [Some 6] /\
  ~ writes c (CSet 0 0 1) (PStore 1) /\ ~ ends (CSet 0 0 1) (PStore 1) /\ writes c (CSet 2 0 1) (PUser 0) /\ block c (PStore 1) <> None.
Proof.
  exists (mkC [Some [Some 5; Some 6]] [Some [Some 1; Some 2]; Some [None]; None] [Some (mkArr (Some (PStore 0, 0%nat)) 2 true); Some (mkArr (Some (PStore 1, 0%nat)) 1 true); Some (mkArr (Some (PUser 0, 1%nat)) 1 false)]).
  split; [exists [CAlloc [Some 5; Some 6]; CVector [1; 2]; CLength 1; CData (Some (PUser 0, 1%nat)) 1 false]; eexists; split; reflexivity|].
  split; [eexists; split; reflexivity|]. split; [eexists; split; reflexivity|]. split; [eexists; split; reflexivity|].
  split; [apply (md_data (x := [Some 5]) (y := [])); reflexivity|]. split; [|split; [|split]].
  - intros H. inversion H as [|a x p i k z Ha Hd]; subst. cbn in Ha. injection Ha as <-. discriminate.
  - intros H. inversion H.
  - eapply wr_arr; reflexivity.
  - discriminate.
Qed.
Print Assumptions C93_refines. Print Assumptions C93_storage. Print Assumptions C93_all_destroyed. Print Assumptions C93_destroy. Print Assumptions C93_frame.
Print Assumptions C93_same_array. Print Assumptions C93_made. Print Assumptions C93_negative. Print Assumptions C93_get. Print Assumptions C93_set. Print Assumptions C93_view.
Print Assumptions C93_view_access. Print Assumptions C93_copied. Print Assumptions C93_copied_view. Print Assumptions C93_assigned. Print Assumptions C93_huge. Print Assumptions C93_refuted.
