(** Property C104: objects that hooks return. *)
From Verif Require Import Base BaseProofs VmState VmBase CObjModel CObjProps ResModel.
Set Implicit Arguments.
Unset Strict Implicit.
Local Open Scope Z_scope.

(** ** Specification *)
Definition robject (s : rst) (x : nat) (o : robj) : Prop := nth_error (r_objs s) x = Some o.
(** The object exists: a variable that has not ended, or an object with a shared pointer or a local reference to it. *)
Definition living (s : rst) (x : nat) : Prop :=
  exists o, robject s x o /\ ((ro_auto o = true /\ ro_gone o = false) \/ (ro_auto o = false /\ ((0 < ro_refs o)%nat \/ exists f, In f (r_frames s) /\ In x f))).
(** [o'] is [o] except that it has the Java class of [w] if it had none. *)
Definition classed (bound : cty -> bool) (w : cty) (o o' : robj) : Prop :=
  ro_ty o' = ro_ty o /\ ro_val o' = ro_val o /\ ro_refs o' = ro_refs o /\ ro_auto o' = ro_auto o /\ ro_gone o' = ro_gone o /\
  (forall c, ro_class o = Some c -> ro_class o' = Some c) /\
  (ro_class o = None -> bound w = true -> ro_class o' = Some w) /\ (ro_class o = None -> bound w = false -> ro_class o' = None).
(** The innermost frame has one reference more, to [x]; the other frames are as they were. *)
Definition referenced (s : rst) (x : nat) (s' : rst) : Prop :=
  exists f r, r_frames s = f :: r /\ r_frames s' = (f ++ [x]) :: r.
(** [x] is given out: no object but its Java class changes. *)
Definition given (bound : cty -> bool) (w : cty) (s : rst) (x : nat) (s' : rst) : Prop :=
  referenced s x s' /\ length (r_objs s') = length (r_objs s) /\ (forall y, y <> x -> nth_error (r_objs s') y = nth_error (r_objs s) y) /\
  exists o o', robject s x o /\ robject s' x o' /\ classed bound w o o'.
(** A new object [x] is given out, a copy of [o] that is a [w] and that only the reference keeps; all other objects are as they were. *)
Definition copy_given (bound : cty -> bool) (w : cty) (s : rst) (o : robj) (x : nat) (s' : rst) : Prop :=
  referenced s x s' /\ x = length (r_objs s) /\
  exists o', r_objs s' = r_objs s ++ [o'] /\ classed bound w (mkRobj w (ro_val o) (ro_class o) 0 false false) o'.

(** Histories in which the frame that is the innermost one at first stays, and [x] is not deleted. *)
Inductive quiet (x : nat) : list rop -> Prop :=
| q_nil : quiet x []
| q_op o l : o <> RPush -> o <> RPop -> o <> RDelete x -> quiet x l -> quiet x (o :: l)
| q_nest l1 l2 : quiet x l1 -> quiet x l2 -> quiet x (RPush :: l1 ++ RPop :: l2).

(** [x] is taken out once, from the innermost frame that has it. *)
Inductive taken_out (x : nat) (fs : list (list nat)) : list (list nat) -> Prop :=
| to_none : (forall f, In f fs -> ~ In x f) -> taken_out x fs fs
| to_one a f1 f2 b : fs = a ++ (f1 ++ x :: f2) :: b -> (forall f, In f a -> ~ In x f) -> ~ In x f1 -> taken_out x fs (a ++ (f1 ++ f2) :: b).
(** Only object [x] changes, to [o']. *)
Definition changed (s : rst) (x : nat) (o' : robj) (s' : rst) : Prop :=
  r_frames s' = r_frames s /\ length (r_objs s') = length (r_objs s) /\ robject s' x o' /\ (forall y, y <> x -> nth_error (r_objs s') y = nth_error (r_objs s) y).
(** When an operation is defined. *)
Definition allowed (s : rst) (o : rop) : Prop :=
  match o with
  | RNew _ _ | RAuto _ _ | RPush | RPop | RShared _ None | RPointer _ None => True
  | REnd x => exists o, robject s x o /\ ro_auto o = true /\ ro_gone o = false
  | RHold x | RDrop x => exists o, robject s x o /\ ro_auto o = false /\ (0 < ro_refs o)%nat
  | RValue x | RPut x _ | RClass x => living s x
  | RShared w (Some x) => exists o, robject s x o /\ ro_auto o = false /\ (0 < ro_refs o)%nat /\ sub (ro_ty o) w
  | RPointer w (Some x) | RReference w x => exists o, robject s x o /\ living s x /\ sub (ro_ty o) w
  | RDelete x | RResolve x => exists o, robject s x o /\ living s x /\ ro_auto o = false
  end.

Lemma memn_spec x l : memn x l = true <-> In x l.
Proof. unfold memn. rewrite existsb_exists. split; [intros (y & I & E); apply Nat.eqb_eq in E as ->; exact I|intros I; exists x; split; [exact I|apply Nat.eqb_refl]]. Qed.
Theorem C104_alive s x : ralive s x = true <-> living s x.
Proof.
  unfold ralive, living, robject. destruct (nth_error (r_objs s) x) as [o|] eqn:O.
  2: { split; [discriminate|]. intros (o & E & _). discriminate. }
  destruct (ro_auto o) eqn:A.
  - rewrite negb_true_iff. split.
    + intros G. exists o. split; [reflexivity|]. left. split; [exact A|exact G].
    + intros (o' & E & [[_ G]|[N _]]); injection E as <-; congruence.
  - rewrite orb_true_iff, Nat.ltb_lt, existsb_exists. split.
    + intros H. exists o. split; [reflexivity|]. right. split; [exact A|]. destruct H as [H|(f & I & M)]; [left; exact H|]. right. exists f. split; [exact I|apply memn_spec; exact M].
    + intros (o' & E & [[N _]|[_ H]]); injection E as <-; [congruence|]. destruct H as [H|(f & I & M)]; [left; exact H|]. right. exists f. split; [exact I|apply memn_spec; exact M].
Qed.

Section Std.
Variable cxx17 : bool.
Variable bound : cty -> bool.
Local Notation rstep := (rstep cxx17 bound).
Local Notation rexec := (rexec cxx17 bound).
Local Notation given := (given bound).
Local Notation copy_given := (copy_given bound).

Lemma to_ref_given w x o s : robject s x o -> r_frames s <> [] -> exists s', to_ref bound w x s = Some (ERef (Some x), s') /\ given w s x s'.
Proof.
  intros O F. unfold to_ref. rewrite O. destruct (r_frames s) as [|f r] eqn:R; [congruence|]. eexists. split; [reflexivity|].
  split; [exists f, r; split; [exact R|reflexivity]|]. split; [apply list_set_length|]. split.
  - intros y N. cbn. rewrite nth_list_set. destruct (Nat.eqb_spec y x); [congruence|reflexivity] || (destruct (Nat.eqb_spec x y); [congruence|reflexivity]).
  - eexists; eexists. split; [exact O|]. split; [unfold robject; cbn; rewrite nth_list_set, Nat.eqb_refl; rewrite ?O; try reflexivity|].
    unfold classed, GetClass; cbn. repeat (split; [reflexivity|]). split; [intros c ->; reflexivity|]. split; intros ->; [intros ->|intros ->]; reflexivity.
Qed.

Definition wf (s : rst) : Prop := r_frames s <> [] /\ forall f x, In f (r_frames s) -> In x f -> exists o, robject s x o /\ ro_auto o = false.

Lemma changed_set s x o o' : robject s x o -> changed s x o' (rset s x o').
Proof.
  intros O. split; [reflexivity|]. split; [apply list_set_length|]. split.
  - unfold robject, rset. cbn. rewrite nth_list_set, Nat.eqb_refl, O. reflexivity.
  - intros y N. unfold rset. cbn. rewrite nth_list_set. destruct (Nat.eqb_spec x y); [congruence|reflexivity].
Qed.
Lemma app_old s l o x f : robject s x o -> robject (mkRst (r_objs s ++ l) f) x o.
Proof. intros O. unfold robject. cbn. rewrite nth_error_app1; [exact O|]. apply nth_error_Some. intros H. unfold robject in O. congruence. Qed.
Lemma copied_given w o s : r_frames s <> [] -> exists s', copied bound w o s = Some (ERef (Some (length (r_objs s))), s') /\ copy_given w s o (length (r_objs s)) s'.
Proof.
  intros F. unfold copied, to_ref. cbn. rewrite nth_error_app2, Nat.sub_diag; [|lia]. cbn. destruct (r_frames s) as [|f r] eqn:R; [congruence|].
  eexists. split; [reflexivity|]. split; [exists f, r; split; [exact R|reflexivity]|]. split; [reflexivity|]. eexists. cbn. split; [apply list_set_mid|].
  unfold classed, GetClass; cbn. repeat (split; [reflexivity|]). split; [intros c ->; reflexivity|]. split; intros ->; [intros ->|intros ->]; reflexivity.
Qed.
Lemma remove_one_spec x f : In x f -> exists f1 f2, f = f1 ++ x :: f2 /\ ~ In x f1 /\ remove_one x f = f1 ++ f2.
Proof.
  induction f as [|y f IH]; [intros []|]. intros I. cbn. destruct (Nat.eqb_spec x y) as [->|N].
  - exists [], f. split; [reflexivity|]. split; [intros []|reflexivity].
  - destruct I as [E|I]; [congruence|]. destruct (IH I) as (f1 & f2 & -> & N1 & ->). exists (y :: f1), f2. split; [reflexivity|]. split; [|reflexivity]. intros [E|J]; [congruence|exact (N1 J)].
Qed.
Lemma delete_spec x fs : taken_out x fs (delete x fs).
Proof.
  induction fs as [|f fs IH]; cbn; [apply to_none; intros f []|]. destruct (memn x f) eqn:M.
  - apply memn_spec in M. destruct (remove_one_spec M) as (f1 & f2 & -> & N1 & ->). exact (to_one (a := []) eq_refl (fun f H => match H with end) N1).
  - assert (~ In x f) as N by (intros I; apply memn_spec in I; congruence). destruct IH as [A|a f1 f2 b -> A N1].
    + apply to_none. intros g [<-|J]; [exact N|exact (A g J)].
    + refine (to_one (a := f :: a) _ _ N1); [reflexivity|]. intros g [<-|J]; [exact N|exact (A g J)].
Qed.
Lemma delete_sub x fs f y : In f (delete x fs) -> In y f -> exists g, In g fs /\ In y g.
Proof.
  destruct (delete_spec x fs) as [A|a f1 f2 b -> A N1]; [intros I J; exists f; split; assumption|]. intros I J. apply in_app_iff in I. destruct I as [I|[<-|I]].
  - exists f. split; [apply in_app_iff; left; exact I|exact J].
  - exists (f1 ++ x :: f2). split; [apply in_app_iff; right; left; reflexivity|]. apply in_app_iff in J. apply in_app_iff. destruct J as [J|J]; [left; exact J|right; right; exact J].
  - exists f. split; [apply in_app_iff; right; right; exact I|exact J].
Qed.
Lemma delete_nil x fs : delete x fs = [] -> fs = [].
Proof. destruct fs as [|f fs]; cbn; [reflexivity|]. destruct (memn x f); discriminate. Qed.

(** Objects keep their class, their kind and their Java class. *)
Definition lasting (o o' : robj) : Prop := ro_ty o' = ro_ty o /\ ro_auto o' = ro_auto o /\ forall c, ro_class o = Some c -> ro_class o' = Some c.
Lemma lasting_refl o : lasting o o. Proof. split; [reflexivity|]. split; [reflexivity|]. intros c E; exact E. Qed.
Lemma lasting_trans a b c : lasting a b -> lasting b c -> lasting a c.
Proof. intros (A & B & C) (D & E & F). split; [congruence|]. split; [congruence|]. intros k H. apply F, C, H. Qed.

Lemma set_lasting s x a b y o v f : robject s x a -> lasting a b -> (ro_val b = ro_val a \/ y <> x \/ v = true) -> robject s y o ->
  exists o', robject (mkRst (list_set (r_objs s) x b) f) y o' /\ lasting o o' /\ (v = false -> ro_val o' = ro_val o).
Proof.
  intros X L V O. unfold robject. cbn. rewrite nth_list_set. destruct (Nat.eqb_spec x y) as [->|N].
  - unfold robject in *. rewrite O in *. injection X as <-. exists b. split; [reflexivity|]. split; [exact L|]. intros ->. destruct V as [V|[V|V]]; [exact V|congruence|discriminate].
  - exists o. split; [exact O|]. split; [apply lasting_refl|reflexivity].
Qed.
Lemma to_ref_last w x s v s' y o : to_ref bound w x s = Some (v, s') -> robject s y o -> exists o', robject s' y o' /\ lasting o o' /\ ro_val o' = ro_val o.
Proof.
  unfold to_ref. destruct (nth_error (r_objs s) x) as [a|] eqn:X; [|discriminate]. destruct (r_frames s); [discriminate|]. intros [= <- <-] O.
  match goal with |- exists o', robject (mkRst (list_set _ x ?b) ?f) _ _ /\ _ => assert (lasting a b) as L by (split; [reflexivity|]; split; [reflexivity|]; cbn; intros c ->; reflexivity); destruct (set_lasting (b := b) (v := false) f X L (or_introl eq_refl) O) as (o' & A & B & C) end.
  exists o'. split; [exact A|]. split; [exact B|]. apply C; reflexivity.
Qed.
Definition puts (x : nat) (o : rop) : Prop := exists v, o = RPut x v.
Lemma step_last p s v s' y o : rstep p s = Some (v, s') -> robject s y o -> exists o', robject s' y o' /\ lasting o o' /\ (~ puts y p -> ro_val o' = ro_val o).
Proof.
  intros E O.
  assert (forall q, robject s' y q -> lasting o q -> ro_val q = ro_val o -> exists o', robject s' y o' /\ lasting o o' /\ (~ puts y p -> ro_val o' = ro_val o)) as K
    by (intros q A B C; exists q; split; [exact A|]; split; [exact B|]; intros _; exact C).
  assert (forall x a b v f, s' = mkRst (list_set (r_objs s) x b) f -> nth_error (r_objs s) x = Some a -> lasting a b -> (ro_val b = ro_val a \/ y <> x \/ v = true) -> (v = true -> puts y p) -> exists o', robject s' y o' /\ lasting o o' /\ (~ puts y p -> ro_val o' = ro_val o)) as K2.
  { intros x a b u f -> X L V P. destruct (set_lasting (v := u) f X L V O) as (o' & A & B & C). exists o'. split; [exact A|]. split; [exact B|]. intros N. apply C. destruct u; [|reflexivity]. destruct (N (P eq_refl)). }
  assert (forall w x, to_ref bound w x s = Some (v, s') -> exists o', robject s' y o' /\ lasting o o' /\ (~ puts y p -> ro_val o' = ro_val o)) as K3.
  { intros w x T. destruct (to_ref_last T O) as (q & A & B & C). exact (K q A B C). }
  assert (forall w a, copied bound w a s = Some (v, s') -> exists o', robject s' y o' /\ lasting o o' /\ (~ puts y p -> ro_val o' = ro_val o)) as K4.
  { intros w a T. unfold copied in T. destruct (to_ref_last (y := y) (o := o) T) as (q & A & B & C); [apply app_old; exact O|exact (K q A B C)]. }
  assert (forall f, s' = mkRst (r_objs s) f -> exists o', robject s' y o' /\ lasting o o' /\ (~ puts y p -> ro_val o' = ro_val o)) as K5 by (intros f ->; exact (K o O (lasting_refl o) eq_refl)).
  destruct p as [z u|z u|x|x|x|x|x u|w [x|]|w [x|]|w x| | |x|x|x]; cbn [ResModel.rstep] in E.
  1,2: injection E as <- <-; refine (K o _ (lasting_refl o) eq_refl); apply app_old; exact O.
  all: try (destruct (nth_error (r_objs s) x) as [a|] eqn:X; [|discriminate]).
  - destruct (ro_auto a && negb (ro_gone a)) eqn:B; [|discriminate]. injection E as <- <-. apply andb_true_iff in B as (B & _). eapply (K2 x a) with (v := false); [reflexivity|exact X| |left; reflexivity|discriminate]. split; [reflexivity|]. split; [cbn; congruence|]. intros c H; exact H.
  - destruct (negb (ro_auto a) && (0 <? ro_refs a)%nat) eqn:B; [|discriminate]. injection E as <- <-. apply andb_true_iff in B as (B & _). apply negb_true_iff in B. eapply (K2 x a) with (v := false); [reflexivity|exact X| |left; reflexivity|discriminate]. split; [reflexivity|]. split; [cbn; congruence|]. intros c H; exact H.
  - destruct (negb (ro_auto a) && (0 <? ro_refs a)%nat) eqn:B; [|discriminate]. injection E as <- <-. apply andb_true_iff in B as (B & _). apply negb_true_iff in B. eapply (K2 x a) with (v := false); [reflexivity|exact X| |left; reflexivity|discriminate]. split; [reflexivity|]. split; [cbn; congruence|]. intros c H; exact H.
  - destruct (ralive s x); [|discriminate]. injection E as <- <-. exact (K o O (lasting_refl o) eq_refl).
  - destruct (ralive s x); [|discriminate]. injection E as <- <-. destruct (Nat.eq_dec y x) as [->|N].
    + eapply (K2 x a) with (v := true); [reflexivity|exact X| |right; right; reflexivity|intros _; exists u; reflexivity]. split; [reflexivity|]. split; [reflexivity|]. intros c H; exact H.
    + eapply (K2 x a) with (v := false); [reflexivity|exact X| |right; left; exact N|discriminate]. split; [reflexivity|]. split; [reflexivity|]. intros c H; exact H.
  - destruct (derives (ro_ty a) w && negb (ro_auto a) && (0 <? ro_refs a)%nat); [|discriminate]. exact (K3 w x E).
  - injection E as <- <-. exact (K o O (lasting_refl o) eq_refl).
  - destruct (derives (ro_ty a) w && ralive s x); [|discriminate]. destruct (cxx17 && negb (ro_auto a)); [exact (K3 w x E)|exact (K4 w a E)].
  - injection E as <- <-. exact (K o O (lasting_refl o) eq_refl).
  - destruct (derives (ro_ty a) w && ralive s x); [|discriminate]. exact (K4 w a E).
  - injection E as <- <-. exact (K5 _ eq_refl).
  - destruct (r_frames s) as [|f [|g r]]; [discriminate| |]; injection E as <- <-; exact (K5 _ eq_refl).
  - destruct (ralive s x && negb (ro_auto a)); [|discriminate]. injection E as <- <-. exact (K5 _ eq_refl).
  - destruct (ralive s x && negb (ro_auto a)) eqn:B; [|discriminate]. injection E as <- <-. apply andb_true_iff in B as (_ & B). apply negb_true_iff in B. eapply (K2 x a) with (v := false); [reflexivity|exact X| |left; reflexivity|discriminate]. split; [reflexivity|]. split; [cbn; congruence|]. intros c H; exact H.
  - destruct (ralive s x); [|discriminate]. injection E as <- <-. exact (K o O (lasting_refl o) eq_refl).
Qed.
(** The local frames after one operation *)
Lemma to_ref_frames w x s v s' : to_ref bound w x s = Some (v, s') -> exists f r, r_frames s = f :: r /\ r_frames s' = (f ++ [x]) :: r.
Proof. unfold to_ref. destruct (nth_error (r_objs s) x) as [a|]; [|discriminate]. destruct (r_frames s) as [|f r]; [discriminate|]. intros [= <- <-]. exists f, r. split; reflexivity. Qed.
Lemma step_frames p s v s' : rstep p s = Some (v, s') ->
  (r_frames s' = r_frames s) \/ (exists f r x o, r_frames s = f :: r /\ r_frames s' = (f ++ [x]) :: r /\ robject s' x o /\ ro_auto o = false) \/
  (p = RPush /\ r_frames s' = [] :: r_frames s) \/ (p = RPop /\ exists f r, r_frames s = f :: r /\ r_frames s' = match r with [] => [[]] | _ => r end) \/
  (exists x, p = RDelete x /\ r_frames s' = delete x (r_frames s)).
Proof.
  assert (forall w x a, nth_error (r_objs s) x = Some a -> ro_auto a = false -> to_ref bound w x s = Some (v, s') -> exists f r x o, r_frames s = f :: r /\ r_frames s' = (f ++ [x]) :: r /\ robject s' x o /\ ro_auto o = false) as K.
  { intros w x a X A T. destruct (to_ref_frames T) as (f & r & F & F'). destruct (to_ref_last T X) as (o' & O & (_ & L & _) & _). exists f, r, x, o'. split; [exact F|]. split; [exact F'|]. split; [exact O|congruence]. }
  assert (forall w a, copied bound w a s = Some (v, s') -> exists f r x o, r_frames s = f :: r /\ r_frames s' = (f ++ [x]) :: r /\ robject s' x o /\ ro_auto o = false) as K2.
  { intros w a T. assert (r_frames s <> []) as N by (intros E; unfold copied, to_ref in T; cbn in T; rewrite E in T; destruct (nth_error _ _) in T; discriminate).
    destruct (copied_given w a N) as (s2 & T2 & (f & r & F & F') & _ & o' & O & C). rewrite T in T2. injection T2 as -> <-. destruct C as (_ & _ & _ & C & _). exists f, r, (length (r_objs s)), o'.
    split; [exact F|]. split; [exact F'|]. split; [|exact C]. unfold robject. rewrite O, nth_error_app2, Nat.sub_diag; [reflexivity|lia]. }
  destruct p as [z u|z u|x|x|x|x|x u|w [x|]|w [x|]|w x| | |x|x|x]; cbn [ResModel.rstep]; intros E.
  1,2: injection E as <- <-; left; reflexivity.
  all: try (destruct (nth_error (r_objs s) x) as [a|] eqn:X; [|discriminate]).
  - destruct (ro_auto a && negb (ro_gone a)); [|discriminate]. injection E as <- <-. left; reflexivity.
  - destruct (negb (ro_auto a) && (0 <? ro_refs a)%nat); [|discriminate]. injection E as <- <-. left; reflexivity.
  - destruct (negb (ro_auto a) && (0 <? ro_refs a)%nat); [|discriminate]. injection E as <- <-. left; reflexivity.
  - destruct (ralive s x); [|discriminate]. injection E as <- <-. left; reflexivity.
  - destruct (ralive s x); [|discriminate]. injection E as <- <-. left; reflexivity.
  - destruct (derives (ro_ty a) w && negb (ro_auto a) && (0 <? ro_refs a)%nat) eqn:B; [|discriminate]. apply andb_true_iff in B as (B & _). apply andb_true_iff in B as (_ & B). apply negb_true_iff in B. right; left. exact (K w x a X B E).
  - injection E as <- <-. left; reflexivity.
  - destruct (derives (ro_ty a) w && ralive s x); [|discriminate]. right; left. destruct (cxx17 && negb (ro_auto a)) eqn:B; [|exact (K2 w a E)]. apply andb_true_iff in B as (_ & B). apply negb_true_iff in B. exact (K w x a X B E).
  - injection E as <- <-. left; reflexivity.
  - destruct (derives (ro_ty a) w && ralive s x); [|discriminate]. right; left. exact (K2 w a E).
  - injection E as <- <-. right; right; left. split; reflexivity.
  - right; right; right; left. split; [reflexivity|]. destruct (r_frames s) as [|f [|g r]]; [discriminate| |]; injection E as <- <-; eexists; eexists; split; reflexivity.
  - destruct (ralive s x && negb (ro_auto a)); [|discriminate]. injection E as <- <-. right; right; right; right. exists x. split; reflexivity.
  - destruct (ralive s x && negb (ro_auto a)); [|discriminate]. injection E as <- <-. left; reflexivity.
  - destruct (ralive s x); [|discriminate]. injection E as <- <-. left; reflexivity.
Qed.

Lemma wf_init : wf rinit.
Proof. split; [discriminate|]. intros f x [<-|[]] []. Qed.
Lemma wf_step p s v s' : rstep p s = Some (v, s') -> wf s -> wf s'.
Proof.
  intros E (N & W).
  assert (forall f x, In f (r_frames s) -> In x f -> exists o, robject s' x o /\ ro_auto o = false) as W'.
  { intros f x I J. destruct (W f x I J) as (o & O & A). destruct (step_last E O) as (o' & O' & (_ & L & _) & _). exists o'. split; [exact O'|congruence]. }
  destruct (step_frames E) as [F|[(f & r & x & o & F & F' & O & A)|[(-> & F)|[(-> & f & r & F & F')|(x & -> & F)]]]].
  - split; rewrite F; [exact N|exact W'].
  - split; rewrite F'; [discriminate|]. intros g y [<-|I] J.
    + apply in_app_iff in J. destruct J as [J|[<-|[]]]; [|exists o; split; assumption]. apply (W' f); [rewrite F; left; reflexivity|exact J].
    + apply (W' g); [rewrite F; right; exact I|exact J].
  - split; rewrite F; [discriminate|]. intros g y [<-|I] J; [destruct J|exact (W' g y I J)].
  - split; rewrite F'; [destruct r; discriminate|]. intros g y I J. destruct r as [|h r]; [destruct I as [<-|[]]; destruct J|]. apply (W' g); [rewrite F; right; exact I|exact J].
  - split; rewrite F; [intros D; apply delete_nil in D; exact (N D)|]. intros g y I J. destruct (delete_sub I J) as (h & K & L). exact (W' h y K L).
Qed.
Lemma wf_reach s : rreach cxx17 bound s -> wf s.
Proof.
  intros (l & vs & E). revert vs E. generalize wf_init. generalize rinit. induction l as [|p l IH]; cbn; intros s0 W vs E; [injection E as _ <-; exact W|].
  destruct (rstep p s0) as [(v, s1)|] eqn:S1; [|discriminate]. destruct (rexec l s1) as [(ws, s2)|] eqn:S2; [|discriminate]. injection E as _ <-. exact (IH s1 (wf_step S1 W) ws S2).
Qed.

(** ** Theorems *)
(** Exactly these operations are defined. *)
Theorem C104_defined s p : rreach cxx17 bound s -> (allowed s p <-> exists v s', rstep p s = Some (v, s')).
Proof.
  intros R. apply wf_reach in R. destruct R as (N & W).
  assert (forall w x o, nth_error (r_objs s) x = Some o -> exists v s', to_ref bound w x s = Some (v, s')) as T by (intros w x o X; destruct (to_ref_given w X N) as (s' & -> & _); eexists; eexists; reflexivity).
  assert (forall w o, exists v s', copied bound w o s = Some (v, s')) as T2 by (intros w o; destruct (copied_given w o N) as (s' & -> & _); eexists; eexists; reflexivity).
  assert (forall x, nth_error (r_objs s) x = None -> ~ living s x) as D by (intros x X (o & O & _); unfold robject in O; congruence).
  assert (forall b (v : rout) (s1 : rst), (exists v' s', (if b : bool then Some (v, s1) else None) = Some (v', s')) <-> b = true) as G.
  { intros [|] v s1; split; [reflexivity|intros _; eexists; eexists; reflexivity|intros (? & ? & [=])|discriminate]. }
  destruct p as [z u|z u|x|x|x|x|x u|w [x|]|w [x|]|w x| | |x|x|x]; cbn [ResModel.rstep allowed].
  1,2: split; [intros _; eexists; eexists; reflexivity|trivial].
  all: try (destruct (nth_error (r_objs s) x) as [a|] eqn:X;
    [|split; [first [intros (o & O & _); unfold robject in O; congruence|intros L; destruct (D x X L)]|intros (? & ? & [=])]]).
  - rewrite G, andb_true_iff, negb_true_iff. split; [intros (o & O & A); unfold robject in O; rewrite X in O; injection O as <-; exact A|intros A; exists a; split; [exact X|exact A]].
  - rewrite G, andb_true_iff, negb_true_iff, Nat.ltb_lt. split; [intros (o & O & A); unfold robject in O; rewrite X in O; injection O as <-; exact A|intros A; exists a; split; [exact X|exact A]].
  - rewrite G, andb_true_iff, negb_true_iff, Nat.ltb_lt. split; [intros (o & O & A); unfold robject in O; rewrite X in O; injection O as <-; exact A|intros A; exists a; split; [exact X|exact A]].
  - rewrite G. symmetry. apply C104_alive.
  - rewrite G. symmetry. apply C104_alive.
  - split.
    + intros (o & O & A & B & C). unfold robject in O. rewrite X in O. injection O as <-. apply derives_spec in C. apply Nat.ltb_lt in B. rewrite C, A, B. exact (T w x a X).
    + intros (v & s' & E). destruct (derives (ro_ty a) w && negb (ro_auto a) && (0 <? ro_refs a)%nat) eqn:B; [|discriminate]. rewrite !andb_true_iff, negb_true_iff, Nat.ltb_lt, derives_spec in B. destruct B as ((B & C) & F). exists a. split; [exact X|]. split; [exact C|]. split; [exact F|exact B].
  - split; [intros _; eexists; eexists; reflexivity|trivial].
  - split.
    + intros (o & O & L & C). unfold robject in O. rewrite X in O. injection O as <-. apply derives_spec in C. apply C104_alive in L. rewrite C, L. cbn [andb]. destruct (cxx17 && negb (ro_auto a)); [exact (T w x a X)|exact (T2 w a)].
    + intros (v & s' & E). destruct (derives (ro_ty a) w && ralive s x) eqn:B; [|discriminate]. rewrite andb_true_iff, derives_spec, C104_alive in B. destruct B as (B & C). exists a. split; [exact X|]. split; [exact C|exact B].
  - split; [intros _; eexists; eexists; reflexivity|trivial].
  - split.
    + intros (o & O & L & C). unfold robject in O. rewrite X in O. injection O as <-. apply derives_spec in C. apply C104_alive in L. rewrite C, L. cbn [andb]. exact (T2 w a).
    + intros (v & s' & E). destruct (derives (ro_ty a) w && ralive s x) eqn:B; [|discriminate]. rewrite andb_true_iff, derives_spec, C104_alive in B. destruct B as (B & C). exists a. split; [exact X|]. split; [exact C|exact B].
  - split; [intros _; eexists; eexists; reflexivity|trivial].
  - split; [intros _|trivial]. destruct (r_frames s) as [|f [|g r]]; [congruence| |]; eexists; eexists; reflexivity.
  - rewrite G, andb_true_iff, negb_true_iff, C104_alive. split; [intros (o & O & A); unfold robject in O; rewrite X in O; injection O as <-; exact A|intros A; exists a; split; [exact X|exact A]].
  - rewrite G, andb_true_iff, negb_true_iff, C104_alive. split; [intros (o & O & A); unfold robject in O; rewrite X in O; injection O as <-; exact A|intros A; exists a; split; [exact X|exact A]].
  - rewrite G. symmetry. apply C104_alive.
Qed.

(** A null pointer gives the null reference. *)
Theorem C104_null w s : rstep (RShared w None) s = Some (ERef None, s) /\ rstep (RPointer w None) s = Some (ERef None, s).
Proof. split; reflexivity. Qed.
(** A shared pointer gives a reference to its object. *)
Theorem C104_shared s w x : rreach cxx17 bound s -> allowed s (RShared w (Some x)) -> exists s', rstep (RShared w (Some x)) s = Some (ERef (Some x), s') /\ given w s x s'.
Proof.
  intros R (o & O & A & B & C). cbn [ResModel.rstep]. unfold robject in O. rewrite O, A. apply derives_spec in C. apply Nat.ltb_lt in B. rewrite C, B. exact (to_ref_given w O (proj1 (wf_reach R))).
Qed.
(** A pointer to an object of shared pointers gives a reference to it in C++17, otherwise one to a copy. *)
Theorem C104_pointer s w x o : rreach cxx17 bound s -> robject s x o -> allowed s (RPointer w (Some x)) ->
  if cxx17 && negb (ro_auto o) then exists s', rstep (RPointer w (Some x)) s = Some (ERef (Some x), s') /\ given w s x s'
  else exists s', rstep (RPointer w (Some x)) s = Some (ERef (Some (length (r_objs s))), s') /\ copy_given w s o (length (r_objs s)) s'.
Proof.
  intros R O (o' & O' & L & C). unfold robject in *. rewrite O in O'. injection O' as <-. cbn [ResModel.rstep]. rewrite O. apply derives_spec in C. apply C104_alive in L. rewrite C, L. cbn [andb].
  pose proof (proj1 (wf_reach R)) as N. destruct (cxx17 && negb (ro_auto o)); [exact (to_ref_given w O N)|exact (copied_given w o N)].
Qed.
(** A reference or a value gives a reference to a copy. *)
Theorem C104_reference s w x o : rreach cxx17 bound s -> robject s x o -> allowed s (RReference w x) ->
  exists s', rstep (RReference w x) s = Some (ERef (Some (length (r_objs s))), s') /\ copy_given w s o (length (r_objs s)) s'.
Proof.
  intros R O (o' & O' & L & C). unfold robject in *. rewrite O in O'. injection O' as <-. cbn [ResModel.rstep]. rewrite O. apply derives_spec in C. apply C104_alive in L. rewrite C, L. exact (copied_given w o (proj1 (wf_reach R))).
Qed.
(** A copy has an identity of its own: no reference or pointer from before refers to it. *)
Theorem C104_fresh s o w x s' y : rreach cxx17 bound s -> copy_given w s o x s' -> (living s y -> y <> x) /\ (forall f, In f (r_frames s) -> ~ In x f).
Proof.
  intros R (_ & -> & _). split.
  - intros (a & O & _) ->. unfold robject in O. assert (length (r_objs s) < length (r_objs s))%nat; [|lia]. apply nth_error_Some. congruence.
  - intros f I J. destruct (proj2 (wf_reach R) f _ I J) as (a & O & _). unfold robject in O. assert (length (r_objs s) < length (r_objs s))%nat; [|lia]. apply nth_error_Some. congruence.
Qed.
(** Objects and frames: the other operations. *)
Theorem C104_new s z v : rstep (RNew z v) s = Some (ENew (length (r_objs s)), mkRst (r_objs s ++ [mkRobj z v None 1 false false]) (r_frames s)) /\
  rstep (RAuto z v) s = Some (ENew (length (r_objs s)), mkRst (r_objs s ++ [mkRobj z v None 0 true false]) (r_frames s)).
Proof. split; reflexivity. Qed.
Theorem C104_count s x o : robject s x o -> ro_auto o = false -> (0 < ro_refs o)%nat ->
  (exists s', rstep (RHold x) s = Some (EDone, s') /\ changed s x (mkRobj (ro_ty o) (ro_val o) (ro_class o) (1 + ro_refs o) false false) s') /\
  (exists s', rstep (RDrop x) s = Some (EDone, s') /\ changed s x (mkRobj (ro_ty o) (ro_val o) (ro_class o) (ro_refs o - 1) false false) s').
Proof.
  intros O A B. apply Nat.ltb_lt in B. cbn [ResModel.rstep]. pose proof O as O2. unfold robject in O2. rewrite O2, A, B. rewrite <- Nat.sub_1_r.
  split; eexists; (split; [reflexivity|]); exact (changed_set _ O).
Qed.
Theorem C104_end s x o : robject s x o -> ro_auto o = true -> ro_gone o = false ->
  exists s', rstep (REnd x) s = Some (EDone, s') /\ changed s x (mkRobj (ro_ty o) (ro_val o) (ro_class o) 0 true true) s' /\ ~ living s' x.
Proof.
  intros O A B. cbn [ResModel.rstep]. pose proof O as O2. unfold robject in O2. rewrite O2, A, B. eexists. split; [reflexivity|]. split; [exact (changed_set _ O)|].
  intros (o' & O' & H). destruct (changed_set (mkRobj (ro_ty o) (ro_val o) (ro_class o) 0 true true) O) as (_ & _ & K & _). unfold robject in *. rewrite K in O'. injection O' as <-. destruct H as [(_ & H)|(H & _)]; discriminate.
Qed.
Theorem C104_read s x o : robject s x o -> living s x -> rstep (RValue x) s = Some (EVal (ro_val o), s) /\ rstep (RClass x) s = Some (EClass (ro_class o), s).
Proof. intros O L. apply C104_alive in L. cbn [ResModel.rstep]. unfold robject in O. rewrite O, L. split; reflexivity. Qed.
Theorem C104_write s x o v : robject s x o -> living s x ->
  exists s', rstep (RPut x v) s = Some (EDone, s') /\ changed s x (mkRobj (ro_ty o) v (ro_class o) (ro_refs o) (ro_auto o) (ro_gone o)) s'.
Proof. intros O L. apply C104_alive in L. cbn [ResModel.rstep]. pose proof O as O2. unfold robject in O2. rewrite O2, L. eexists. split; [reflexivity|exact (changed_set _ O)]. Qed.
(** A reference gives back its object, which its variable then keeps. *)
Theorem C104_resolve s x o : robject s x o -> living s x -> ro_auto o = false ->
  exists s', rstep (RResolve x) s = Some (ERef (Some x), s') /\ changed s x (mkRobj (ro_ty o) (ro_val o) (ro_class o) (1 + ro_refs o) false false) s'.
Proof. intros O L A. apply C104_alive in L. cbn [ResModel.rstep]. pose proof O as O2. unfold robject in O2. rewrite O2, L, A. eexists. split; [reflexivity|exact (changed_set _ O)]. Qed.
Theorem C104_frames s : rstep RPush s = Some (EDone, mkRst (r_objs s) ([] :: r_frames s)) /\
  (forall f g r, r_frames s = f :: g :: r -> rstep RPop s = Some (EDone, mkRst (r_objs s) (g :: r))) /\ (forall f, r_frames s = [f] -> rstep RPop s = Some (EDone, mkRst (r_objs s) [[]])).
Proof. split; [reflexivity|]. cbn [ResModel.rstep]. split; [intros f g r ->; reflexivity|intros f ->; reflexivity]. Qed.
Theorem C104_delete s x v s' : rstep (RDelete x) s = Some (v, s') -> v = EDone /\ r_objs s' = r_objs s /\ taken_out x (r_frames s) (r_frames s').
Proof.
  cbn [ResModel.rstep]. destruct (nth_error (r_objs s) x) as [r|]; [|discriminate]. destruct (ralive s x && negb (ro_auto r)); [|discriminate]. intros [= <- <-]. split; [reflexivity|]. split; [reflexivity|apply delete_spec].
Qed.

(** *** What a hook gave out stays *)
Definition keeps (x : nat) (fs fs' : list (list nat)) : Prop := Forall2 (fun f f' => In x f -> In x f') fs fs'.
Lemma keeps_refl x fs : keeps x fs fs.
Proof. induction fs; constructor; [trivial|exact IHfs]. Qed.
Lemma keeps_trans x a b c : keeps x a b -> keeps x b c -> keeps x a c.
Proof. intros H. revert c. induction H as [|f f' l l' A H IH]; intros c K; inversion K; subst; constructor; [intros I; auto|apply IH; assumption]. Qed.
Lemma remove_keeps x y f : x <> y -> In x f -> In x (remove_one y f).
Proof. intros N. induction f as [|z f IH]; cbn; [trivial|]. intros I. destruct (Nat.eqb_spec y z) as [->|M]; destruct I as [E|I]; [congruence|exact I|left; exact E|right; exact (IH I)]. Qed.
Lemma delete_keeps x y fs : x <> y -> keeps x fs (delete y fs).
Proof. intros N. induction fs as [|f fs IH]; cbn; [constructor|]. destruct (memn y f); constructor; [intros I; exact (remove_keeps N I)|apply keeps_refl|trivial|exact IH]. Qed.
Lemma step_keeps x p s v s' : rstep p s = Some (v, s') -> p <> RPush -> p <> RPop -> p <> RDelete x -> keeps x (r_frames s) (r_frames s').
Proof.
  intros E A B C. destruct (step_frames E) as [F|[(f & r & y & o & F & F' & _)|[(-> & _)|[(-> & _)|(y & -> & F)]]]]; [rewrite F; apply keeps_refl| |congruence|congruence|].
  - rewrite F, F'. constructor; [intros I; apply in_app_iff; left; exact I|apply keeps_refl].
  - rewrite F. apply delete_keeps. congruence.
Qed.
Lemma rexec_app l1 l2 s vs s' : rexec (l1 ++ l2) s = Some (vs, s') -> exists v1 v2 s1, rexec l1 s = Some (v1, s1) /\ rexec l2 s1 = Some (v2, s') /\ vs = v1 ++ v2.
Proof.
  revert s vs. induction l1 as [|p l1 IH]; cbn; intros s vs E; [exists [], vs, s; split; [reflexivity|]; split; [exact E|reflexivity]|].
  destruct (rstep p s) as [(v, s1)|]; [|discriminate]. destruct (rexec (l1 ++ l2) s1) as [(ws, s2)|] eqn:E2; [|discriminate]. injection E as <- <-. destruct (IH s1 ws E2) as (v1 & v2 & s3 & -> & H & ->). exists (v :: v1), v2, s3. split; [reflexivity|]. split; [exact H|reflexivity].
Qed.
Lemma quiet_keeps x l : quiet x l -> forall s vs s', rexec l s = Some (vs, s') -> r_frames s <> [] -> keeps x (r_frames s) (r_frames s').
Proof.
  induction 1 as [|p l A B C Q IH|l1 l2 Q1 IH1 Q2 IH2]; intros s vs s' E N.
  - injection E as _ <-. apply keeps_refl.
  - cbn in E. destruct (rstep p s) as [(v, s1)|] eqn:S1; [|discriminate]. destruct (rexec l s1) as [(ws, s2)|] eqn:S2; [|discriminate]. injection E as _ <-.
    pose proof (step_keeps S1 A B C) as K. refine (keeps_trans K (IH _ _ _ S2 _)). intros F. rewrite F in K. inversion K as [D|]. congruence.
  - change (rexec (RPush :: l1 ++ RPop :: l2) s) with (match rexec (l1 ++ RPop :: l2) (mkRst (r_objs s) ([] :: r_frames s)) with Some (ws, s2) => Some (EDone :: ws, s2) | None => None end) in E.
    destruct (rexec (l1 ++ RPop :: l2) (mkRst (r_objs s) ([] :: r_frames s))) as [(ws, s2)|] eqn:E2; [|discriminate]. injection E as _ ->.
    destruct (rexec_app E2) as (v1 & v2 & s1 & E1 & E3 & _). assert (keeps x ([] :: r_frames s) (r_frames s1)) as K by (exact (IH1 _ _ _ E1 ltac:(discriminate))).
    inversion K as [|f g r r' _ K' Ef Er]; subst. destruct (C104_frames s1) as (_ & P & _). destruct r' as [|h r']; [inversion K' as [D|]; congruence|]. specialize (P g h r' (eq_sym Er)).
    cbn [ResModel.rexec] in E3. rewrite P in E3. destruct (rexec l2 (mkRst (r_objs s1) (h :: r'))) as [(us, s3)|] eqn:E4; [|discriminate]. injection E3 as _ ->.
    refine (keeps_trans K' _). exact (IH2 _ _ _ E4 ltac:(discriminate)).
Qed.
Lemma exec_last l : forall s vs s' y o, rexec l s = Some (vs, s') -> robject s y o -> exists o', robject s' y o' /\ lasting o o' /\ ((forall p, In p l -> ~ puts y p) -> ro_val o' = ro_val o).
Proof.
  induction l as [|p l IH]; cbn; intros s vs s' y o E O; [injection E as _ <-; exists o; split; [exact O|]; split; [apply lasting_refl|reflexivity]|].
  destruct (rstep p s) as [(v, s1)|] eqn:S1; [|discriminate]. destruct (rexec l s1) as [(ws, s2)|] eqn:S2; [|discriminate]. injection E as _ <-.
  destruct (step_last S1 O) as (o1 & O1 & L1 & V1). destruct (IH _ _ _ _ _ S2 O1) as (o2 & O2 & L2 & V2). exists o2. split; [exact O2|]. split; [exact (lasting_trans L1 L2)|].
  intros H. rewrite V2, V1; [reflexivity|apply H; left; reflexivity|intros q I; apply H; right; exact I].
Qed.
(** An object with a local reference in some frame stays as long as this frame is not popped and no reference to it is deleted, whatever
    else is done; its class and Java class stay, and its content unless it is written. *)
Theorem C104_kept s l vs s' x o k f : rreach cxx17 bound s -> rexec l s = Some (vs, s') -> quiet x l -> robject s x o -> nth_error (r_frames s) k = Some f -> In x f ->
  living s' x /\ (exists f', nth_error (r_frames s') k = Some f' /\ In x f') /\
  exists o', robject s' x o' /\ ro_ty o' = ro_ty o /\ (forall c, ro_class o = Some c -> ro_class o' = Some c) /\ ((forall v, ~ In (RPut x v) l) -> ro_val o' = ro_val o).
Proof.
  intros R E Q O F I. destruct (wf_reach R) as (N & W). destruct (exec_last E O) as (o' & O' & (A & B & C) & V).
  assert (exists f', nth_error (r_frames s') k = Some f' /\ In x f') as (f' & F' & I').
  { pose proof (quiet_keeps Q E N) as K. clear - K F I. revert k F. induction K as [|g g' r r' A K IH]; intros [|k] F; try discriminate; [injection F as ->; exists g'; split; [reflexivity|exact (A I)]|exact (IH k F)]. }
  split; [|split; [exists f'; split; assumption|]].
  - destruct (W f x (nth_error_In _ _ F) I) as (o2 & O2 & A2). unfold robject in *. rewrite O in O2. injection O2 as <-. exists o'. split; [exact O'|]. right. split; [congruence|]. right. exists f'. split; [exact (nth_error_In _ _ F')|exact I'].
  - exists o'. split; [exact O'|]. split; [exact A|]. split; [exact C|]. intros H. apply V. intros p J (v & ->). exact (H v J).
Qed.
(** A copy that was given out ends with its frame. *)
Theorem C104_freed s o w x s1 v s2 : rreach cxx17 bound s -> copy_given w s o x s1 -> rstep RPop s1 = Some (v, s2) -> ~ living s2 x.
Proof.
  intros R G E (a & A & L). pose proof (C104_fresh x R G) as (_ & N). destruct G as ((f & r & F & F') & -> & o' & O & C). cbn [ResModel.rstep] in E.
  assert (r_objs s2 = r_objs s1 /\ (r_frames s2 = [[]] \/ r_frames s2 = r)) as (Q & P) by (rewrite F' in E; destruct r; injection E as _ <-; split; [reflexivity|left; reflexivity|reflexivity|right; reflexivity]).
  unfold robject in A. rewrite Q, O, nth_error_app2, Nat.sub_diag in A; [|lia]. cbn in A. injection A as <-. destruct C as (_ & _ & C1 & C2 & _). cbn in C1, C2.
  destruct L as [(L & _)|(_ & [L|(g & I & J)])]; [congruence|lia|]. destruct P as [P|P]; rewrite P in I.
  - destruct I as [<-|[]]. destruct J.
  - apply (N g); [rewrite F; right; exact I|exact J].
Qed.
End Std.

(** ** Refutations *)
(** A hook that returns a reference to an object does not give out that object: what is written to it later is not seen. *)
Theorem C104_identity_refuted : exists vs s, rexec true (fun _ => true) [RNew [1%nat] 5; RReference [1%nat] 0; RPut 0 7; RValue 1; RValue 0] rinit = Some (vs, s) /\
  vs = [ENew 0; ERef (Some 1%nat); EDone; EVal 5; EVal 7].
Proof. eexists; eexists. split; reflexivity. Qed.
(** Before C++17 this holds for pointers too. *)
Theorem C104_pointer_refuted : exists vs s, rexec false (fun _ => true) [RNew [1%nat] 5; RPointer [1%nat] (Some 0%nat); RPut 0 7; RValue 1; RValue 0] rinit = Some (vs, s) /\
  vs = [ENew 0; ERef (Some 1%nat); EDone; EVal 5; EVal 7].
Proof. eexists; eexists. split; reflexivity. Qed.
(** GetObjectClass of what a hook gave out need not be a class of the C++ object: the copy of a part has the Java class of the whole. *)
Theorem C104_class_refuted : exists vs s o, rexec true (fun _ => true) [RNew [2; 1]%nat 5; RShared [2; 1]%nat (Some 0%nat); RReference [1%nat] 0; RClass 1] rinit = Some (vs, s) /\
  vs = [ENew 0; ERef (Some 0%nat); ERef (Some 1%nat); EClass (Some [2; 1]%nat)] /\ robject s 1 o /\ ro_ty o = [1%nat] /\ ~ sub (ro_ty o) [2; 1]%nat.
Proof.
  eexists; eexists; eexists. split; [reflexivity|]. split; [reflexivity|]. split; [reflexivity|]. split; [reflexivity|]. intros H. apply sub_len in H. cbn in H. lia.
Qed.

(** ** Case *)
Example C104_case : exists s, rexec true (fun w => match w with [1%nat] => true | _ => false end)
  [RNew [2; 1]%nat 5; RPush; RPointer [1%nat] (Some 0%nat); RDrop 0; RValue 0; RClass 0; RAuto [1%nat] 3; RPointer [1%nat] (Some 1%nat); REnd 1; RValue 2; RResolve 2; RPush; RShared [1%nat] (Some 2%nat); RDrop 2; RPop; RValue 2; RDelete 2] rinit =
  Some ([ENew 0; EDone; ERef (Some 0%nat); EDone; EVal 5; EClass (Some [1%nat]); ENew 1; ERef (Some 2%nat); EDone; EVal 3; ERef (Some 2%nat); EDone; ERef (Some 2%nat); EDone; EDone; EVal 3; EDone], s) /\
  living s 0 /\ ~ living s 2.
Proof.
  eexists. split; [reflexivity|]. split; [apply C104_alive; reflexivity|]. intros H. apply C104_alive in H. discriminate.
Qed.
Example C104_kept_case : quiet 2 [RValue 2; RPush; RShared [1%nat] (Some 2%nat); RDrop 2; RPop; RPut 2 9].
Proof.
  apply q_op; [discriminate|discriminate|discriminate|]. apply (q_nest (l1 := [RShared [1%nat] (Some 2%nat); RDrop 2])); repeat first [apply q_nil|apply q_op; [discriminate|discriminate|discriminate|]].
Qed.

Print Assumptions C104_alive.
Print Assumptions C104_defined.
Print Assumptions C104_null.
Print Assumptions C104_shared.
Print Assumptions C104_pointer.
Print Assumptions C104_reference.
Print Assumptions C104_fresh.
Print Assumptions C104_new.
Print Assumptions C104_count.
Print Assumptions C104_end.
Print Assumptions C104_read.
Print Assumptions C104_write.
Print Assumptions C104_resolve.
Print Assumptions C104_frames.
Print Assumptions C104_delete.
Print Assumptions C104_kept.
Print Assumptions C104_freed.
Print Assumptions C104_identity_refuted.
Print Assumptions C104_pointer_refuted.
Print Assumptions C104_class_refuted.
