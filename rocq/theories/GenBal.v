(** C96: the generated code is well bracketed. *)
From Verif Require Import Base BaseProofs SigModel SigSpec SigProofs2 SigProps VmState VmModel VmStep VmSpec VmReg VmDemo GenModel GenSpec GenProofs GenText GenProps.
Set Implicit Arguments.
Unset Strict Implicit.
Local Open Scope char_scope.

(** ** Specification *)
(** Brackets and quotation marks *)
Definition mark (c : ascii) : bool := existsb (Ascii.eqb c) ["{"; "}"; "("; ")"; "["; "]"; """"].
Definition marks (t : str) : str := filter mark t.
(** Every bracket is closed by one of its kind, in order; quotation marks come in pairs with no bracket between them. *)
Inductive matched : str -> Prop :=
| mt_nil : matched []
| mt_app a b : matched a -> matched b -> matched (a ++ b)
| mt_brace a : matched a -> matched ("{" :: a ++ ["}"])
| mt_paren a : matched a -> matched ("(" :: a ++ [")"])
| mt_square a : matched a -> matched ("[" :: a ++ ["]"])
| mt_quote : matched [""""; """"].
Definition balanced (t : str) : Prop := matched (marks t).
(** A text without any of them *)
Definition clean (t : str) : Prop := forall c, In c t -> mark c = false.
Fixpoint type_clean (t : jty) : Prop := match t with JObj n => clean n | JArr t => type_clean t | _ => True end.
Definition result_clean (r : option jty) : Prop := match r with None => True | Some t => type_clean t end.
Definition tidy_field (f : fld) : Prop := clean (f_name f) /\ exists t, well_typed f t /\ type_clean t.
Definition tidy_method (m : mth) : Prop :=
  clean (m_name m) /\ (m_native m = None -> exists x, well_signed m x /\ Forall type_clean (fst x) /\ result_clean (snd x)).
Inductive tidy_class : gcls -> Prop :=
| tidy_class_ n p ks fs ms : clean n -> clean p -> Forall tidy_class ks -> Forall tidy_field fs -> Forall tidy_method ms -> tidy_class (GClass n p ks fs ms).
Inductive tidy_space : gns -> Prop :=
| tidy_space_ n cs ns : clean n -> Forall tidy_class cs -> Forall tidy_space ns -> tidy_space (GNs n cs ns).

(** ** Marks *)
Lemma marks_app a b : marks (a ++ b) = marks a ++ marks b. Proof. apply filter_app. Qed.
Lemma marks_cons c t : marks (c :: t) = if mark c then c :: marks t else marks t. Proof. reflexivity. Qed.
Lemma marks_nl : marks newline = []. Proof. reflexivity. Qed.
Lemma marks_clean t : clean t -> marks t = [].
Proof. induction t as [|c t IH]; intros C; [reflexivity|]. rewrite marks_cons, (C c (or_introl eq_refl)). apply IH. intros d D. apply C. right. exact D. Qed.
Lemma clean_marks t : marks t = [] -> clean t.
Proof. unfold marks. intros E c I. destruct (mark c) eqn:M; [|reflexivity]. assert (In c (filter mark t)) as X by (apply filter_In; auto). rewrite E in X. destruct X. Qed.
Lemma marks_indent b t : marks (indent_at b t) = marks t.
Proof.
  revert b. induction t as [|c t IH]; intros b; [reflexivity|]. cbn [indent_at]. destruct (Ascii.eqb_spec c (ascii_of_nat 10)) as [->|].
  - rewrite !marks_cons, IH. reflexivity.
  - rewrite marks_app, !marks_cons, IH. destruct b; reflexivity.
Qed.
Lemma marks_line t : marks (line t) = marks t.
Proof. unfold line. destruct t; [reflexivity|]. rewrite marks_app, marks_nl. unfold indent. rewrite marks_indent. apply app_nil_r. Qed.
Lemma marks_chunk t : marks (chunk t) = marks t.
Proof. unfold chunk. destruct t as [|c t]; [reflexivity|]. rewrite marks_app. destruct (Ascii.eqb _ _); [|rewrite marks_nl]; apply app_nil_r. Qed.
Ltac lits := repeat match goal with |- context [marks (S_ ?x)] => let v := eval vm_compute in (marks (S_ x)) in change (marks (S_ x)) with v end.
Ltac mk := repeat (rewrite marks_app || rewrite marks_nl); lits.

(** Deciding it for concrete marks *)
Definition closer (c : ascii) : ascii := if Ascii.eqb c "{" then "}" else if Ascii.eqb c "(" then ")" else "]".
Definition opens (c : ascii) : bool := existsb (Ascii.eqb c) ["{"; "("; "["].
Fixpoint check (st : str) (t : str) : bool :=
  match t with
  | [] => match st with [] => true | _ => false end
  | c :: r =>
    if opens c then check (c :: st) r
    else match st with
         | o :: st' => if Ascii.eqb c (closer o) then check st' r else match r with d :: r' => Ascii.eqb c """" && Ascii.eqb d """" && check st r' | [] => false end
         | [] => match r with d :: r' => Ascii.eqb c """" && Ascii.eqb d """" && check st r' | [] => false end
         end
  end.
Fixpoint closes (st : str) (t : str) : Prop :=
  match st with
  | [] => matched t
  | o :: st => opens o = true /\ exists a r, t = a ++ closer o :: r /\ matched a /\ closes st r
  end.
Lemma closes_pre st m r : matched m -> closes st r -> closes st (m ++ r).
Proof.
  destruct st as [|o st]; cbn.
  - apply mt_app.
  - intros M (O & a & q & -> & A & C). split; [exact O|]. exists (m ++ a), q. rewrite <- app_assoc. split; [reflexivity|]. split; [apply mt_app; assumption|exact C].
Qed.
Lemma opens_matched o a : opens o = true -> matched a -> matched (o :: a ++ [closer o]).
Proof.
  unfold opens. cbn [existsb]. rewrite !orb_true_iff, !Ascii.eqb_eq. intros [->|[->|[->|H]]] M; [apply mt_brace|apply mt_paren|apply mt_square|discriminate]; exact M.
Qed.
Lemma check_closes n : forall st t, length t <= n -> Forall (fun o => opens o = true) st -> check st t = true -> closes st t.
Proof.
  induction n as [|n IH]; intros st t L F H.
  - destruct t; [|cbn in L; lia]. destruct st; [apply mt_nil|discriminate].
  - destruct t as [|c r]; [destruct st; [apply mt_nil|discriminate]|]. cbn [check] in H. cbn [length] in L.
    assert (Q : forall st, Forall (fun o => opens o = true) st -> match r with d :: r' => Ascii.eqb c """" && Ascii.eqb d """" && check st r' | [] => false end = true -> closes st (c :: r)).
    { intros st0 F0 H0. destruct r as [|d r']; [discriminate|]. apply andb_true_iff in H0. destruct H0 as (H0 & H1). apply andb_true_iff in H0. destruct H0 as (H0 & H2). apply Ascii.eqb_eq in H0, H2. subst c d.
      change ("""" :: """" :: r') with ([""""; """"] ++ r'). apply closes_pre; [apply mt_quote|]. apply IH; [cbn in L; lia|exact F0|exact H1]. }
    destruct (opens c) eqn:O.
    + assert (closes (c :: st) r) as (_ & a & q & -> & A & C) by (apply IH; [lia|constructor; assumption|exact H]).
      change (c :: a ++ closer c :: q) with ((c :: a) ++ closer c :: q). replace ((c :: a) ++ closer c :: q) with ((c :: a ++ [closer c]) ++ q) by (cbn; rewrite <- app_assoc; reflexivity).
      apply closes_pre; [apply opens_matched; assumption|exact C].
    + destruct st as [|o st']; [apply Q; assumption|]. destruct (Ascii.eqb_spec c (closer o)) as [->|]; [|apply Q; assumption]. inversion F as [|? ? Fo Fr]; subst. cbn. split; [exact Fo|]. exists [], r. split; [reflexivity|]. split; [apply mt_nil|]. apply IH; [lia|exact Fr|exact H].
Qed.
Lemma check_matched t : check [] t = true -> matched t.
Proof. intros H. apply (@check_closes (length t) [] t); [lia|constructor|exact H]. Qed.

(** ** Types and parameters *)
Lemma marks_qualified n : clean n -> marks (qualified n) = [].
Proof.
  induction n as [|c n IH]; intros C; [reflexivity|]. cbn [qualified]. rewrite marks_app, IH by (intros d D; apply C; right; exact D).
  destruct (Ascii.eqb c "/" || Ascii.eqb c "$"); [reflexivity|]. rewrite marks_cons, (C c (or_introl eq_refl)). reflexivity.
Qed.
Lemma marks_prim fake t : is_prim t = true -> marks (prim_name fake t) = [].
Proof. destruct t, fake; cbn [is_prim]; intros H; try discriminate; reflexivity. Qed.
Lemma marks_obj fake n : clean n -> marks (obj_name fake n) = [].
Proof. intros C. unfold obj_name. pose proof (marks_qualified C) as Q. destruct fake; [repeat match goal with |- context [if ?b then _ else _] => destruct b; [reflexivity|] end|]; mk; rewrite Q; reflexivity. Qed.
Lemma marks_pointee fake t : type_clean t -> marks (pointee fake t) = [].
Proof.
  induction t; intros C; try reflexivity.
  - apply marks_obj. exact C.
  - cbn [pointee]. specialize (IHt C). destruct fake; destruct (is_prim t) eqn:P; mk; rewrite ?IHt, ?(marks_prim _ P); reflexivity.
Qed.
Lemma marks_type fake t : type_clean t -> marks (cxx_type fake t) = [].
Proof. intros C. unfold cxx_type. destruct (is_prim t) eqn:P; [apply marks_prim; exact P|]. mk. rewrite marks_pointee by exact C. reflexivity. Qed.
Lemma marks_ret fake r : result_clean r -> marks (cxx_ret fake r) = [].
Proof. destruct r as [t|]; intros C; [apply marks_type; exact C|reflexivity]. Qed.
Lemma marks_decimal n : marks (decimal n) = [].
Proof.
  apply marks_clean. intros c I. destruct (C10_decimal n) as (_ & D & _ & _). specialize (D c I). destruct (mark c) eqn:M; [|reflexivity]. exfalso.
  unfold mark in M. cbn [existsb] in M. rewrite !orb_true_iff, !Ascii.eqb_eq in M. destruct M as [->|[->|[->|[->|[->|[->|[->|M]]]]]]]; [| | | | | | |discriminate M]; vm_compute in D; lia.
Qed.
Lemma marks_commas l : Forall (fun t => marks t = []) l -> marks (commas l) = [].
Proof. induction 1 as [|x l E F IH]; [reflexivity|]. cbn [commas]. destruct l; [exact E|]. mk. rewrite E, IH. reflexivity. Qed.
Lemma marks_seps b l : Forall (fun t => marks t = []) l -> marks (seps b l) = [].
Proof. intros F. revert b. induction F as [|x l E F IH]; intros b; [reflexivity|]. cbn [seps]. mk. rewrite E, IH. destruct b; reflexivity. Qed.
Lemma marks_args k l : Forall (fun t => marks t = []) l -> Forall (fun t => marks t = []) (number_args k l).
Proof. intros F. revert k. induction F as [|x l E F IH]; intros k; cbn [number_args]; constructor; [|apply IH]. mk. rewrite E, marks_decimal. reflexivity. Qed.
Lemma marks_arg_names k l : marks (arg_names k l) = [].
Proof. revert k. induction l as [|x l IH]; intros k; [reflexivity|]. cbn [arg_names]. mk. rewrite marks_decimal, IH. reflexivity. Qed.
Lemma marks_types fake l : Forall type_clean l -> Forall (fun t => marks t = []) (map (cxx_type fake) l).
Proof. induction 1; constructor; [apply marks_type; assumption|assumption]. Qed.
Lemma marks_scope scope n : marks scope = [] -> marks n = [] -> marks (enter_scope scope n) = [].
Proof. intros A B. unfold enter_scope. mk. rewrite A. destruct scope; [exact B|]. mk. rewrite B. reflexivity. Qed.

(** ** Members *)
Section Fake.
Variable fake : bool.
Definition good_text (r : res str) : Prop := exists t, r = Ok t /\ matched (marks t).
Lemma field_header_ok f : tidy_field f -> good_text (Field_GenerateHeader fake (f_static f) (f_name f) (f_type f)).
Proof.
  intros (N & t & (Tk & ->) & C). destruct (@C10_field fake (f_static f) (f_name f) t [] Tk) as (-> & _). eexists. split; [reflexivity|]. mk. rewrite (marks_type _ C), (marks_clean N). destruct (f_static f); apply mt_nil.
Qed.
Lemma field_stub_ok f scope : tidy_field f -> marks scope = [] -> good_text (Field_GenerateStubs fake (f_static f) (f_name f) (f_type f) scope).
Proof.
  intros (N & t & (Tk & ->) & C) Sc. destruct (@C10_field fake (f_static f) (f_name f) t scope Tk) as (_ & ->). eexists. split; [reflexivity|]. destruct (f_static f); [|apply mt_nil]. mk. rewrite (marks_type _ C), (marks_clean N), Sc. apply check_matched. reflexivity.
Qed.
Lemma method_header_ok m cname : tidy_method m -> marks cname = [] -> good_text (Method_GenerateHeader fake (is_native m) (m_static m) (m_name m) (m_sig m) cname).
Proof.
  intros (N & W) Cn. unfold is_native. destruct (m_native m); [eexists; split; [reflexivity|apply mt_nil]|]. destruct (W eq_refl) as ([ps r] & (Ps & Rk & ->) & Cp & Cr). cbn [fst snd] in *.
  rewrite C10_header by assumption. eexists. split; [reflexivity|]. mk.
  assert (marks (commas (implicit_params fake (m_static m) ++ map (cxx_type fake) ps)) = []) as ->.
  { apply marks_commas, Forall_app. split; [|apply marks_types; exact Cp]. unfold implicit_params. destruct fake, (m_static m); repeat constructor. }
  destruct (str_eqb _ _); mk; rewrite ?Cn, ?(marks_ret _ Cr), ?(marks_clean N); [|destruct (m_static m)]; apply check_matched; reflexivity.
Qed.
Lemma method_stub_ok m scope cname : tidy_method m -> marks scope = [] -> marks cname = [] -> good_text (Method_GenerateStubs fake (is_native m) (m_static m) (m_name m) (m_sig m) scope cname).
Proof.
  intros (N & W) Sc Cn. unfold is_native. destruct (m_native m); [eexists; split; [reflexivity|apply mt_nil]|]. destruct (W eq_refl) as ([ps r] & (Ps & Rk & ->) & Cp & Cr). cbn [fst snd] in *.
  rewrite C10_stub by assumption. eexists. split; [reflexivity|]. mk.
  assert (marks (commas (stub_params fake (m_static m) ++ number_args 0 (map (cxx_type fake) ps))) = []) as ->.
  { apply marks_commas, Forall_app. split; [|apply marks_args, marks_types; exact Cp]. unfold stub_params. destruct fake, (m_static m); repeat constructor. }
  destruct (str_eqb _ _); mk; rewrite ?Cn, ?(marks_ret _ Cr), ?(marks_clean N), ?Sc; [|destruct r; mk]; apply check_matched; reflexivity.
Qed.
Lemma field_bind_ok f scope cname : tidy_field f -> marks scope = [] -> marks cname = [] -> matched (marks (Field_GenerateJNIBinding fake (f_static f) (f_name f) scope cname)).
Proof.
  intros (N & _) Sc Cn. unfold Field_GenerateJNIBinding. destruct fake; cbn [negb]; mk; rewrite Sc || rewrite Cn; rewrite (marks_clean N); [destruct (f_static f)|]; lits; apply check_matched; reflexivity.
Qed.
Lemma method_bind_ok m scope cname : tidy_method m -> marks scope = [] -> marks cname = [] -> good_text (Method_GenerateJNIBinding fake (is_native m) (m_static m) (m_name m) (m_sig m) scope cname).
Proof.
  intros (N & W) Sc Cn. unfold is_native, Method_GenerateJNIBinding. destruct (m_native m); [eexists; split; [reflexivity|apply mt_nil]|]. destruct (W eq_refl) as ([ps r] & (Ps & Rk & ->) & Cp & Cr). cbn [fst snd] in *.
  rewrite C10_types by assumption. cbn [rbind]. eexists. split; [reflexivity|].
  pose proof (marks_types fake Cp) as Ty. pose proof (marks_seps false Ty) as S1. pose proof (marks_seps false (marks_args 0 Ty)) as S2.
  destruct fake; cbn [negb]; [destruct (str_eqb _ _); [|destruct (m_static m)]|destruct (str_eqb _ _)]; mk; rewrite ?Sc, ?Cn, ?S1, ?S2, ?marks_arg_names, ?(marks_clean N); apply check_matched; reflexivity.
Qed.

(** ** Loops *)
Lemma cat_res_ok A (f : A -> res str) l : Forall (fun x => good_text (f x)) l -> good_text (cat_res f l).
Proof.
  induction 1 as [|x l (t & E & M) F (u & E2 & M2)]; [eexists; split; [reflexivity|apply mt_nil]|]. cbn [cat_res]. rewrite E. cbn [rbind]. rewrite E2. cbn [rbind].
  eexists. split; [reflexivity|]. mk. apply mt_app; assumption.
Qed.
Lemma cat_ok A (f : A -> str) l : Forall (fun x => matched (marks (f x))) l -> matched (marks (cat f l)).
Proof. induction 1 as [|x l M F IH]; [apply mt_nil|]. cbn [cat]. mk. apply mt_app; assumption. Qed.
Lemma map_text_ok (g : str -> str) r : (forall t, marks (g t) = marks t) -> good_text r -> good_text (let* t := r in Ok (g t)).
Proof. intros G (t & -> & M). cbn [rbind]. eexists. split; [reflexivity|]. rewrite G. exact M. Qed.
Lemma pre_declaration_ok c : tidy_class c -> matched (marks (Class_GeneratePreDeclaration c)).
Proof. intros [n p ks fs ms N P K F M]. unfold Class_GeneratePreDeclaration. cbn [g_name g_prefix]. destruct (skipped p); [apply mt_nil|]. mk. rewrite (marks_clean N). apply mt_nil. Qed.
Lemma class_header_ok c : tidy_class c -> forall scope, marks scope = [] -> good_text (Class_GenerateHeader fake scope c).
Proof.
  induction c as [n p ks fs ms IH] using gcls_ind2. intros T scope Sc. inversion T as [? ? ? ? ? N P K F M]; subst. cbn [Class_GenerateHeader]. destruct (skipped p); [eexists; split; [reflexivity|apply mt_nil]|].
  pose proof (marks_scope Sc (marks_clean N)) as Sc'. set (scope' := enter_scope scope n) in *.
  destruct (@cat_res_ok _ (fun f => let* t := Field_GenerateHeader fake (f_static f) (f_name f) (f_type f) in Ok (line t)) fs) as (tf & -> & Mf).
  { eapply Forall_impl; [|exact F]. intros f Tf. apply (map_text_ok marks_line), field_header_ok, Tf. }
  destruct (@cat_res_ok _ (fun m => let* t := Method_GenerateHeader fake (is_native m) (m_static m) (m_name m) (m_sig m) n in Ok (line t)) ms) as (tm & -> & Mm).
  { eapply Forall_impl; [|exact M]. intros m Tm. apply (map_text_ok marks_line), method_header_ok; [exact Tm|apply marks_clean, N]. }
  destruct (@cat_res_ok _ (Class_GenerateHeader fake scope') ks) as (tk & -> & Mk).
  { rewrite Forall_forall in IH, K |- *. intros k I. apply IH; auto. }
  cbn [rbind]. eexists. split; [reflexivity|]. mk. rewrite Sc'.
  assert (matched (marks (cat (fun k => line (Class_GeneratePreDeclaration k)) ks))) as Mp.
  { apply cat_ok. eapply Forall_impl; [|exact K]. intros k Tk. rewrite marks_line. apply pre_declaration_ok, Tk. }
  assert (matched (marks (if fake then S_ "    DEFINE_CLASS_NAME(""" ++ p ++ S_ """)" ++ newline else []))) as Md.
  { destruct fake; [|apply mt_nil]. mk. rewrite (marks_clean P). apply check_matched. reflexivity. }
  assert (marks (if fake then S_ "public FakeJni::JObject" else S_ "public jnivm::Object") = []) as -> by (destruct fake; reflexivity).
  revert Md. generalize (marks (if fake then S_ "    DEFINE_CLASS_NAME(""" ++ p ++ S_ """)" ++ newline else [])). intros md Md. cbn [app]. rewrite !app_assoc. change ("}" :: marks tk) with (["}"] ++ marks tk). rewrite app_assoc. apply (@mt_app (_ :: _ ++ ["}"])); [|exact Mk]. apply mt_brace. repeat apply mt_app; assumption.
Qed.
Lemma class_stubs_ok c : tidy_class c -> forall scope, marks scope = [] -> good_text (Class_GenerateStubs fake scope c).
Proof.
  induction c as [n p ks fs ms IH] using gcls_ind2. intros T scope Sc. inversion T as [? ? ? ? ? N P K F M]; subst. cbn [Class_GenerateStubs]. destruct (skipped p); [eexists; split; [reflexivity|apply mt_nil]|].
  pose proof (marks_scope Sc (marks_clean N)) as Sc'. set (scope' := enter_scope scope n) in *.
  destruct (@cat_res_ok _ (Class_GenerateStubs fake scope') ks) as (tk & -> & Mk).
  { rewrite Forall_forall in IH, K |- *. intros k I. apply IH; auto. }
  destruct (@cat_res_ok _ (fun f => Field_GenerateStubs fake (f_static f) (f_name f) (f_type f) scope') fs) as (tf & -> & Mf).
  { eapply Forall_impl; [|exact F]. intros f Tf. apply field_stub_ok; assumption. }
  destruct (@cat_res_ok _ (fun m => Method_GenerateStubs fake (is_native m) (m_static m) (m_name m) (m_sig m) scope' n) ms) as (tm & -> & Mm).
  { eapply Forall_impl; [|exact M]. intros m Tm. apply method_stub_ok; [exact Tm|exact Sc'|apply marks_clean, N]. }
  cbn [rbind]. eexists. split; [reflexivity|]. mk. repeat apply mt_app; assumption.
Qed.
Lemma class_register_ok c : tidy_class c -> matched (marks (Class_GenerateJNIPreDeclaration fake c)).
Proof.
  induction c as [n p ks fs ms IH] using gcls_ind2. intros T. inversion T as [? ? ? ? ? N P K F M]; subst. cbn [Class_GenerateJNIPreDeclaration]. destruct (skipped p); [apply mt_nil|]. rewrite marks_app. apply mt_app.
  - rewrite scope_qualified. pose proof (marks_qualified P) as Q. destruct fake; cbn [negb]; mk; rewrite Q, ?(marks_clean P); apply check_matched; reflexivity.
  - apply cat_ok. rewrite Forall_forall in IH, K |- *. intros k I. apply IH; auto.
Qed.
Lemma class_binding_ok c : tidy_class c -> forall scope, marks scope = [] -> good_text (Class_GenerateJNIBinding fake scope c).
Proof.
  induction c as [n p ks fs ms IH] using gcls_ind2. intros T scope Sc. inversion T as [? ? ? ? ? N P K F M]; subst. cbn [Class_GenerateJNIBinding]. destruct (skipped p); [eexists; split; [reflexivity|apply mt_nil]|].
  pose proof (marks_scope Sc (marks_clean N)) as Sc'. set (scope' := enter_scope scope n) in *.
  destruct (@cat_res_ok _ (Class_GenerateJNIBinding fake scope') ks) as (tk & -> & Mk).
  { rewrite Forall_forall in IH, K |- *. intros k I. apply IH; auto. }
  destruct (@cat_res_ok _ (fun m => Method_GenerateJNIBinding fake (is_native m) (m_static m) (m_name m) (m_sig m) scope' n) ms) as (tm & -> & Mm).
  { eapply Forall_impl; [|exact M]. intros m Tm. apply method_bind_ok; [exact Tm|exact Sc'|apply marks_clean, N]. }
  assert (matched (marks (cat (fun f => Field_GenerateJNIBinding fake (f_static f) (f_name f) scope' n) fs))) as Mf.
  { apply cat_ok. eapply Forall_impl; [|exact F]. intros f Tf. apply field_bind_ok; [exact Tf|exact Sc'|apply marks_clean, N]. }
  cbn [rbind]. eexists. split; [reflexivity|]. set (tf := cat _ fs) in *. clearbody tf. destruct fake; cbn [negb]; mk; rewrite ?Sc', ?(marks_clean P); cbn [app].
  - apply (@mt_app ["("; ")"]); [apply check_matched; reflexivity|]. repeat apply mt_app; assumption.
  - rewrite !app_assoc. apply (@mt_brace (["("; """"; """"; ")"] ++ (marks tk ++ marks tf) ++ marks tm)). apply mt_app; [apply check_matched; reflexivity|]. repeat apply mt_app; assumption.
Qed.

(** ** Namespaces *)
Lemma ns_scope_ok scope n : marks scope = [] -> marks n = [] -> marks (ns_scope scope n) = [].
Proof. intros A B. unfold ns_scope. destruct n; [exact A|]. apply marks_scope; assumption. Qed.
Lemma space_header_ok n : tidy_space n -> forall scope, marks scope = [] -> good_text (Namespace_GenerateHeader fake scope n).
Proof.
  induction n as [x cs ns IH] using gns_ind2. intros T scope Sc. inversion T as [? ? ? N C K]; subst. cbn [Namespace_GenerateHeader]. pose proof (ns_scope_ok Sc (marks_clean N)) as Sc'. set (scope' := ns_scope scope x) in *.
  destruct (@cat_res_ok _ (fun c => let* t := Class_GenerateHeader fake scope' c in Ok (chunk t)) cs) as (tc & -> & Mc).
  { eapply Forall_impl; [|exact C]. intros c Tc. apply (map_text_ok marks_chunk), class_header_ok; assumption. }
  destruct (@cat_res_ok _ (fun k => let* t := Namespace_GenerateHeader fake scope' k in Ok (chunk t)) ns) as (tn & -> & Mn).
  { rewrite Forall_forall in IH, K |- *. intros k I. apply (map_text_ok marks_chunk), IH; auto. }
  cbn [rbind]. eexists. split; [reflexivity|]. mk. apply mt_app; assumption.
Qed.
Lemma space_stubs_ok n : tidy_space n -> forall scope, marks scope = [] -> good_text (Namespace_GenerateStubs fake scope n).
Proof.
  induction n as [x cs ns IH] using gns_ind2. intros T scope Sc. inversion T as [? ? ? N C K]; subst. cbn [Namespace_GenerateStubs]. pose proof (ns_scope_ok Sc (marks_clean N)) as Sc'. set (scope' := ns_scope scope x) in *.
  destruct (@cat_res_ok _ (Class_GenerateStubs fake scope') cs) as (tc & -> & Mc).
  { eapply Forall_impl; [|exact C]. intros c Tc. apply class_stubs_ok; assumption. }
  destruct (@cat_res_ok _ (Namespace_GenerateStubs fake scope') ns) as (tn & -> & Mn).
  { rewrite Forall_forall in IH, K |- *. intros k I. apply IH; auto. }
  cbn [rbind]. eexists. split; [reflexivity|]. mk. apply mt_app; assumption.
Qed.
Lemma space_binding_ok n : tidy_space n -> forall scope, marks scope = [] -> good_text (Namespace_GenerateJNIBinding fake scope n).
Proof.
  induction n as [x cs ns IH] using gns_ind2. intros T scope Sc. inversion T as [? ? ? N C K]; subst. cbn [Namespace_GenerateJNIBinding]. pose proof (ns_scope_ok Sc (marks_clean N)) as Sc'. set (scope' := ns_scope scope x) in *.
  destruct (@cat_res_ok _ (Class_GenerateJNIBinding fake scope') cs) as (tc & -> & Mc).
  { eapply Forall_impl; [|exact C]. intros c Tc. apply class_binding_ok; assumption. }
  destruct (@cat_res_ok _ (Namespace_GenerateJNIBinding fake scope') ns) as (tn & -> & Mn).
  { rewrite Forall_forall in IH, K |- *. intros k I. apply IH; auto. }
  cbn [rbind]. eexists. split; [reflexivity|]. mk. apply mt_app; assumption.
Qed.
Lemma space_register_ok n : tidy_space n -> matched (marks (Namespace_GenerateJNIPreDeclaration fake n)).
Proof.
  induction n as [x cs ns IH] using gns_ind2. intros T. inversion T as [? ? ? N C K]; subst. cbn [Namespace_GenerateJNIPreDeclaration]. rewrite marks_app. apply mt_app; apply cat_ok.
  - eapply Forall_impl; [|exact C]. apply class_register_ok.
  - rewrite Forall_forall in IH, K |- *. intros k I. apply IH; auto.
Qed.
(** The text of the loop: nothing yet, or an opened namespace (if it has a name) with complete parts *)
Definition so_far (name : str) (empty : bool) (ss : str) : Prop :=
  if empty then ss = [] else exists m, matched m /\ marks ss = match name with [] => m | _ => "{" :: m end.
Lemma pre_loop_ok name l : marks name = [] -> Forall (fun t => matched (marks t)) l -> forall empty ss, so_far name empty ss -> let (e, r) := pre_loop name l empty ss in so_far name e r.
Proof.
  intros Nm F. induction F as [|t l M F IH]; intros empty ss H; cbn [pre_loop]; [exact H|]. destruct t as [|c t]; [apply IH, H|]. apply IH. unfold so_far.
  set (u := c :: t) in *. assert (marks (match name with [] => u | _ => indent u end) = marks u) as Mu by (destruct name; [reflexivity|apply marks_indent]).
  destruct empty; cbn [so_far] in H.
  - subst ss. exists (marks u). split; [exact M|]. rewrite app_nil_l, marks_app, Mu. destruct name as [|x name]; [reflexivity|]. mk. rewrite Nm. reflexivity.
  - destruct H as (m & Mm & E). exists (m ++ marks u). split; [apply mt_app; assumption|]. rewrite !marks_app, marks_nl, app_nil_r, Mu, E. destruct name; reflexivity.
Qed.
Lemma space_declare_ok n : tidy_space n -> matched (marks (Namespace_GeneratePreDeclaration n)).
Proof.
  induction n as [x cs ns IH] using gns_ind2. intros T. inversion T as [? ? ? N C K]; subst. cbn [Namespace_GeneratePreDeclaration]. pose proof (marks_clean N) as Nm.
  pose proof (@pre_loop_ok x (map Class_GeneratePreDeclaration cs) Nm) as L1. destruct (pre_loop x (map Class_GeneratePreDeclaration cs) true []) as (e1 & s1) eqn:E1.
  specialize (fun F => L1 F true [] eq_refl). rewrite E1 in L1.
  pose proof (@pre_loop_ok x (map Namespace_GeneratePreDeclaration ns) Nm) as L2. destruct (pre_loop x (map Namespace_GeneratePreDeclaration ns) e1 s1) as (e2 & s2) eqn:E2.
  specialize (fun F => L2 F e1 s1). rewrite E2 in L2.
  assert (so_far x e2 s2) as H.
  { apply L2; [|apply L1].
    - rewrite Forall_map. rewrite Forall_forall in IH, K |- *. intros k I. apply IH; auto.
    - rewrite Forall_map. eapply Forall_impl; [|exact C]. apply pre_declaration_ok. }
  destruct e2; cbn [so_far] in H.
  - subst s2. apply mt_nil.
  - destruct H as (m & M & E). destruct x as [|y x]; mk; rewrite E.
    + rewrite app_nil_r. exact M.
    + cbn [app]. apply mt_brace. exact M.
Qed.
(** ** The dump *)
(** Every part of a dump of classes whose names have no brackets or quotation marks is well bracketed, and so is the dump. *)
Theorem C96_parts np : tidy_space np ->
  balanced (VM_GeneratePreDeclaration fake np) /\ (exists t, VM_GenerateHeader fake np = Ok t /\ balanced t) /\ (exists t, VM_GenerateStubs fake np = Ok t /\ balanced t) /\
  balanced (VM_GenerateJNIPreDeclaration fake np) /\ (exists t, VM_GenerateJNIBinding fake np = Ok t /\ balanced t).
Proof.
  intros T. unfold balanced. split; [|split; [|split; [|split]]].
  - unfold VM_GeneratePreDeclaration. mk. assert (marks (if fake then S_ "<fake-jni/fake-jni.h>" else S_ "<jnivm.h>") = []) as -> by (destruct fake; reflexivity). apply space_declare_ok, T.
  - apply space_header_ok; [exact T|reflexivity].
  - apply space_stubs_ok; [exact T|reflexivity].
  - apply space_register_ok, T.
  - apply space_binding_ok; [exact T|reflexivity].
Qed.
Theorem C96_dump np : tidy_space np -> (exists t, VM_GenerateClassDump fake np = Ok t /\ balanced t) /\ exists t, printStatistics fake np = Ok t /\ balanced t.
Proof.
  intros T. destruct (C96_parts T) as (Pd & (h & Eh & Mh) & (u & Eu & Mu) & Rg & (b & Eb & Mb)). unfold balanced in *.
  unfold VM_GenerateClassDump, printStatistics. rewrite Eh, Eu, Eb. cbn [rbind]. split; eexists; (split; [reflexivity|]).
  - destruct fake; cbn [negb]; mk; repeat (apply mt_app; [assumption || apply mt_nil|]); cbn [app]; apply (@mt_app ["("; ")"]); try (apply check_matched; reflexivity); rewrite ?app_assoc; apply mt_brace; try apply mt_app; assumption.
  - mk. repeat (apply mt_app; [assumption || apply mt_nil|]). cbn [app]. apply (@mt_app ["("; ")"]); [apply check_matched; reflexivity|]. apply mt_brace. assumption.
Qed.
End Fake.

(** ** The dump of a VM *)
Record clean_state (s : st) : Prop := {
  cs_spaces : forall k x, nth_error (s_ns s) k = Some x -> clean (n_name x);
  cs_classes : forall i c, cls_of s i = Some c -> (forall d r, c_prefix c = d :: r -> d <> "[") -> clean (c_prefix c);   (* classes of arrays are not generated *)
  cs_fields : forall i f, field_at s i f -> tidy_field f;
  cs_methods : forall i m, method_at s i m -> tidy_method m
}.
Lemma join_last c (b : list str) n x : In x n -> In x (join c (b ++ [n])).
Proof.
  intros H. induction b as [|y b IH]; [exact H|]. cbn [app join]. destruct (b ++ [n])%list eqn:E; [destruct b; discriminate|]. apply in_or_app. right. right. exact IH.
Qed.
Lemma class_tidy s : clean_state s -> forall g i a b, Rc s i a b g -> tidy_class g.
Proof.
  intros Cs. induction g as [n p ks fs ms IH] using gcls_ind2. intros i a b R. inversion R as [? ? ? c ? ? ? Hc Hp Co Br Nd Ki Fi Mi]; subst. assert (clean (c_prefix c)) as P.
  { apply (cs_classes Cs Hc). intros d r E ->. rewrite E in Br. discriminate Br. }
  constructor; [|exact P| | |].
  - intros d D. apply P. rewrite Hp. unfold nm. apply in_or_app. right. apply join_last, D.
  - clear - IH Ki. revert IH. induction Ki as [|j k l r R F IHf]; intros IH; constructor; inversion IH; subst; eauto.
  - clear - Cs Fi. induction Fi as [|j f l r R F IHf]; constructor; [exact (cs_fields Cs R)|exact IHf].
  - clear - Cs Mi. induction Mi as [|j f l r R F IHf]; constructor; [exact (cs_methods Cs R)|exact IHf].
Qed.
Lemma space_tidy s : clean_state s -> forall g k a, Rn s k a g -> tidy_space g.
Proof.
  intros Cs. induction g as [n cs ns IH] using gns_ind2. intros k a R. inversion R as [? ? x ? ? Hx Wx Fx Nc Nn Ci Si]; subst.
  constructor; [exact (cs_spaces Cs Hx)| |].
  - clear - Cs Ci. induction Ci as [|j f l r R F IHf]; constructor; [exact (class_tidy Cs R)|exact IHf].
  - clear - IH Si. revert IH. induction Si as [|j f l r R F IHf]; intros IH; constructor; inversion IH; subst; eauto.
Qed.
Theorem C96_state G t s fake : reachable G t s -> clean_state s ->
  exists np d p, read_np s = Some np /\ VM_GenerateClassDump fake np = Ok d /\ balanced d /\ printStatistics fake np = Ok p /\ balanced p.
Proof.
  intros Rs Cs. destruct (the_np Rs) as (np & E & R). destruct (C96_dump fake (space_tidy Cs R)) as ((d & Ed & Bd) & p & Ep & Bp). exists np, d, p. auto.
Qed.
(** Without the condition it fails: a class named "a{". *)
Theorem C96_names_refuted : exists s np d, reachable Gd main s /\ read_np s = Some np /\ VM_GenerateClassDump false np = Ok d /\ ~ balanced d.
Proof.
  assert (exists s, s = after Gd [(main, FindClass_ (S_ "a{"))]) as (s & Es) by eauto.
  assert (reachable Gd main s) as Rs by (rewrite Es; apply after_reachable; vm_compute; reflexivity).
  destruct (read_np s) as [np|] eqn:En; [|exfalso; rewrite Es in En; revert En; vm_compute; discriminate].
  destruct (VM_GenerateClassDump false np) as [d| | | |] eqn:Ed; try (exfalso; assert (match read_np s with Some np => match VM_GenerateClassDump false np with Ok _ => true | _ => false end | None => true end = true) as X by (rewrite Es; vm_compute; reflexivity); rewrite En, Ed in X; discriminate X).
  exists s, np, d. split; [exact Rs|]. split; [exact En|]. split; [exact Ed|]. intros B.
  assert (forall t, matched t -> count_occ Ascii.ascii_dec t "{" = count_occ Ascii.ascii_dec t "}") as Cnt.
  { induction 1; rewrite ?count_occ_app; cbn; rewrite ?count_occ_app; cbn; lia. }
  apply Cnt in B.
  assert (match read_np s with Some np => match VM_GenerateClassDump false np with Ok d => Nat.eqb (count_occ Ascii.ascii_dec (marks d) "{") (count_occ Ascii.ascii_dec (marks d) "}") | _ => true end | None => true end = false) as X by (rewrite Es; vm_compute; reflexivity).
  rewrite En, Ed, B, Nat.eqb_refl in X. discriminate X.
Qed.

(** ** Cases *)
Definition cleanb (t : str) : bool := forallb (fun c => negb (mark c)) t.
Fixpoint ty_cleanb (t : jty) : bool := match t with JObj n => cleanb n | JArr t => ty_cleanb t | _ => true end.
Definition cleaned (k : candidates) (s : st) : bool :=
  forallb (fun t => ty_okb t && ty_cleanb t) (fst k) &&
  forallb (fun x => forallb (fun t => ty_okb t && ty_cleanb t) (fst x) && match snd x with None => true | Some t => ty_okb t && ty_cleanb t end) (snd k) &&
  forallb (fun x => cleanb (n_name x)) (s_ns s) &&
  forallb (fun o => match o with
    | Some o => match o_pay o with
                | PField f => cleanb (f_name f) && existsb (fun t => str_eqb (f_type f) (descr t)) (fst k)
                | PMethod m => cleanb (m_name m) && match m_native m with Some _ => true | None => existsb (fun x => str_eqb (m_sig m) (msig (fst x) (snd x))) (snd k) end
                | PClass c => bracket (c_prefix c) || cleanb (c_prefix c)
                | _ => true
                end
    | None => true
    end) (s_heap s).
Lemma cleanb_ok t : cleanb t = true -> clean t.
Proof. unfold cleanb. rewrite forallb_forall. intros H c C. apply H in C. apply negb_true_iff. exact C. Qed.
Lemma ty_cleanb_ok t : ty_cleanb t = true -> type_clean t.
Proof. induction t; cbn; auto. apply cleanb_ok. Qed.
Lemma cleaned_ok k s : cleaned k s = true -> clean_state s.
Proof.
  unfold cleaned. intros H. apply andb_prop in H. destruct H as [H H3]. apply andb_prop in H. destruct H as [H Hn]. apply andb_prop in H. destruct H as [H1 H2]. rewrite forallb_forall in H1, H2, H3, Hn.
  assert (forall i o, lookup s i = Some o -> In (Some o) (s_heap s)) as L.
  { intros i o. unfold lookup. destruct (nth_error (s_heap s) i) as [[x|]|] eqn:En; try discriminate. intros [= <-]. exact (nth_error_In _ _ En). }
  assert (forall t, ty_okb t && ty_cleanb t = true -> ty_ok t /\ type_clean t) as Tk.
  { intros t E. apply andb_prop in E. destruct E as [E1 E2]. split; [apply ty_okb_ok|apply ty_cleanb_ok]; assumption. }
  split.
  - intros n x E. apply cleanb_ok, Hn. exact (nth_error_In _ _ E).
  - intros i c E N. unfold cls_of in E. destruct (lookup s i) as [o|] eqn:Lo; [|discriminate]. apply L, H3 in Lo. destruct (o_pay o); try discriminate. injection E as ->. apply orb_prop in Lo. destruct Lo as [Lo|Lo]; [|exact (cleanb_ok Lo)].
    exfalso. destruct (c_prefix c) as [|d r] eqn:E; [discriminate|]. apply (N d r eq_refl). unfold bracket in Lo. destruct d as [[] [] [] [] [] [] [] []]; try discriminate. reflexivity.
  - intros i f (o & Lo & P). apply L, H3 in Lo. rewrite P in Lo. apply andb_prop in Lo. destruct Lo as [Nf Lo]. split; [exact (cleanb_ok Nf)|]. apply existsb_exists in Lo. destruct Lo as (t & Ht & Et). apply str_eqb_eq in Et. apply H1, Tk in Ht. exists t. split; [split|]; tauto.
  - intros i m (o & Lo & P). apply L, H3 in Lo. rewrite P in Lo. apply andb_prop in Lo. destruct Lo as [Nf Lo]. split; [exact (cleanb_ok Nf)|]. intros Nm. rewrite Nm in Lo. apply existsb_exists in Lo. destruct Lo as (t & Ht & Et). apply str_eqb_eq in Et. exists t. specialize (H2 _ Ht). apply andb_prop in H2. destruct H2 as [H2 H4].
    rewrite forallb_forall in H2. split; [split; [|split; [|exact Et]]|split].
    + apply Forall_forall. intros y Hy. apply Tk. auto.
    + destruct (snd t); cbn [ret_ok]; [apply Tk; exact H4|exact Logic.I].
    + apply Forall_forall. intros y Hy. apply Tk. auto.
    + destruct (snd t); cbn [result_clean]; [apply Tk; exact H4|exact Logic.I].
Qed.
Example C96_case : reachable Gd main (after Gd ex_dump) /\ clean_state (after Gd ex_dump).
Proof.
  split; [apply after_reachable; vm_compute; reflexivity|].
  apply (@cleaned_ok ([JArr JBool; JObj (S_ "java/lang/String")], [([JInt], Some (JObj (S_ "a/B$C"))); ([JArr (JObj (S_ "a/B$C")); JLong], Some (JObj (S_ "a/B")))])). vm_compute. reflexivity.
Qed.
Example C96_text : balanced (S_ "f() { g(""x"")[1]; }") /\ ~ balanced (S_ "{ ( } )").
Proof.
  split; [apply check_matched; reflexivity|]. change (~ matched ["{"; "("; "}"; ")"]).
  assert (forall t, matched t -> forall k st, check st (t ++ k) = check st k) as X.
  { induction 1 as [|a b _ IHa _ IHb|a _ IH|a _ IH|a _ IH|]; intros k st.
    - reflexivity.
    - rewrite <- app_assoc, IHa, IHb. reflexivity.
    - cbn [app check]. change (opens "{") with true. cbn [check]. rewrite <- app_assoc, IH. reflexivity.
    - cbn [app check]. change (opens "(") with true. cbn [check]. rewrite <- app_assoc, IH. reflexivity.
    - cbn [app check]. change (opens "[") with true. cbn [check]. rewrite <- app_assoc, IH. reflexivity.
    - destruct st as [|o st]; [reflexivity|]. cbn [app check]. change (opens """") with false. cbn [negb]. unfold closer. destruct (Ascii.eqb o "{"), (Ascii.eqb o "("); reflexivity. }
  intros M. specialize (X _ M [] []). discriminate X.
Qed.
Print Assumptions C96_parts.
Print Assumptions C96_dump.
Print Assumptions C96_state.
Print Assumptions C96_names_refuted.
