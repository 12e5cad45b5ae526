(** Properties C07-C10 and the signature part of C13. *)
From Verif Require Import Base BaseProofs SigModel SigSpec SigProofs SigProofs2.
Set Implicit Arguments.
Local Open Scope Z_scope.

Lemma load_put t v : in_ty t v -> load t (put (ty_size t) v) = v.
Proof.
  unfold in_ty, load, put. intros H. rewrite Z.mod_mod by (destruct t; discriminate).
  destruct (ty_signed t) eqn:S; cbn [andb].
  - assert (E : 2 ^ (8 * ty_size t) = 2 * (2 ^ (8 * ty_size t) / 2)) by (destruct t; try discriminate S; reflexivity).
    assert (P : 0 < 2 ^ (8 * ty_size t) / 2) by (destruct t; try discriminate S; reflexivity).
    set (h := 2 ^ (8 * ty_size t) / 2) in *. rewrite E.
    destruct (Z_lt_dec v 0).
    + replace (v mod (2 * h)) with (v + 2 * h).
      * destruct (Z.leb_spec h (v + 2 * h)); lia.
      * apply Z.mod_unique with (-1); lia.
    + rewrite Z.mod_small by lia. destruct (Z.leb_spec h v); lia.
  - apply Z.mod_small. assumption.
Qed.

(** *** C07: every parameter of a well-formed signature gets the matching argument. [f2d] and
    [d2f] are the platform's float-to-double and double-to-float conversions; the only thing
    assumed is that they round-trip on the floats actually passed. *)
Theorem C07_arguments d2f f2d ts ret vs rest :
  Forall ty_ok ts -> Forall2 in_ty ts vs ->
  (forall i v, nth_error ts i = Some JFloat -> nth_error vs i = Some v -> d2f (f2d v) = v) ->
  exists ws,
    JValuesfromValist d2f (promotes f2d ts vs ++ rest) (msig ts ret) = Ok (ws, rest) /\
    length ws = length ts /\
    forall i t v w, nth_error ts i = Some t -> nth_error vs i = Some v -> nth_error ws i = Some w ->
      load t w = v /\ 0 <= w < 2 ^ (8 * ty_size t).
Proof.
  intros F T HF.
  assert (LV : length vs = length ts) by (clear - T; induction T; simpl; congruence).
  exists (map (fun p => put (ty_size (fst p)) (snd p)) (combine ts vs)). split; [|split].
  - unfold JValuesfromValist. unfold rd at 1. cbn [msig app nth_error rbind Ascii.eqb Bool.eqb negb].
    apply (@JV_params d2f f2d ts vs ["("%char] (ret_descr ret)); auto.
    + intros i t v H1 H2 ->. eapply HF; eassumption.
    + unfold msig. cbn [length]. lia.
  - rewrite map_length, combine_length. lia.
  - clear F HF LV. intros i. revert ts vs T. induction i; intros ts vs T t v w H1 H2 H3; destruct T as [|t0 v0 ts vs T0 T]; try discriminate.
    + injection H1 as ->. injection H2 as ->. cbn in H3. injection H3 as <-. split; [apply load_put; assumption|].
      unfold put. apply Z.mod_pos_bound. destruct t; reflexivity.
    + cbn in H1, H2, H3. eapply IHi; eauto.
Qed.

Theorem C07_no_paren d2f l s :
  (forall r, s <> "("%char :: r) -> JValuesfromValist d2f l s = Thrown (Err (S_ "Signature doesn't begin with '(' " ++ s)).
Proof.
  intros H. unfold JValuesfromValist, rd. destruct s as [|c s]; cbn [app nth_error rbind].
  - reflexivity.
  - destruct (Ascii.eqb_spec c "("); [subst; destruct (H s); reflexivity|]. reflexivity.
Qed.

Definition demo_sig := [JArr (JArr (JObj (S_ "a/B$C"))); JFloat; JByte; JObj (S_ "x"); JLong; JArr JInt].
Example C07_case :
  Forall ty_ok demo_sig /\ Forall2 in_ty demo_sig [77; 1065353216; -128; 0; -(2^63); 12] /\
  msig demo_sig None = S_ "([[La/B$C;FBLx;J[I)V" /\
  JValuesfromValist (fun x => x) (promotes (fun x => x) demo_sig [77; 1065353216; -128; 0; -(2^63); 12]) (msig demo_sig None)
   = Ok ([77; 1065353216; 128; 0; 2 ^ 63; 12], []).
Proof.
  split; [|split; [|split; reflexivity]].
  - repeat constructor; intros H; cbn in H; intuition discriminate.
  - repeat constructor; vm_compute; intuition discriminate.
Qed.

(** *** C08: one descriptor is skipped exactly, wherever it stands and whatever follows. *)
Theorem C08_skip pre t post :
  ty_ok t ->
  SkipJNIType (skip_fuel (pre ++ descr t ++ post)) (pre ++ descr t ++ post) (length pre)
  = Ok (length (pre ++ descr t)).
Proof. intros H. rewrite Skip_descr by assumption. rewrite app_length. reflexivity. Qed.

(** Whatever text follows, the scan ends (no fuel artefact, no read outside) and reports a
    position past the text exactly when no complete element stands there. *)
Theorem C08_any pre r :
  exists k, SkipJNIType (skip_fuel (pre ++ r)) (pre ++ r) (length pre) = Ok (length pre + k)%nat /\
    (forall r', elem r r' <-> (k <= length r)%nat /\ r' = skipn k r).
Proof.
  exists (skipr r). split; [|intros; apply elem_skipr].
  apply Skip_suffix. unfold skip_fuel. rewrite app_length. lia.
Qed.

Example C08_case : ty_ok (JArr (JArr (JObj (S_ "java/util/Map$Entry")))).
Proof. split; intros H; cbn in H; intuition discriminate. Qed.

(** *** C09: malformed signatures.  Full statement (false): for every NUL terminated string the
    scan of variadic arguments, [Declare] and the code generator never read outside it. *)
Theorem C09_refuted :
  (forall l, JValuesfromValist (fun x => x) l (S_ "([Lfoo") = UB) /\
  (forall l, JValuesfromValist (fun x => x) l (S_ "([") = UB) /\
  Declare_names (S_ "(Lfoo)V") = UB /\
  Method_GenerateHeader false false false (S_ "m") (S_ "(Lfoo)V") (S_ "C") = UB.
Proof.
  split; [|split; [|split]].
  - intros [|[] l]; reflexivity.
  - intros [|[] l]; reflexivity.
  - reflexivity.
  - reflexivity.
Qed.

(** The exact set of texts on which the argument scan is memory safe: [safe] texts are decoded
    or rejected with an exception (given arguments of the types the text asks for), all others
    are undefined behaviour whatever the arguments. *)
Theorem C09_valist_partial d2f r :
  (safe r -> exists l, forall rest,
     (exists ws, JValuesfromValist d2f (l ++ rest) ("("%char :: r) = Ok (ws, rest)) \/
     JValuesfromValist d2f (l ++ rest) ("("%char :: r) = Thrown (Err (S_ "Signature missing ';' after 'L'"))) /\
  (~ safe r -> forall l, JValuesfromValist d2f l ("("%char :: r) = UB).
Proof.
  split.
  - intros S. destruct (@JV_safe d2f r S) as [l H]. exists l. intros rest.
    apply (H ["("%char] rest). simpl. lia.
  - intros NS l. apply (@JV_unsafe d2f (length r) r ltac:(lia) NS ["("%char]). simpl. lia.
Qed.

(** [Declare]: defined exactly on texts in which every 'L' is closed, and then it mentions the
    class names in order. *)
Theorem C09_declare_partial s :
  ~ In NUL s ->
  (forall ns, names s ns -> Declare_names s = Ok ns) /\
  ((forall ns, ~ names s ns) -> Declare_names s = UB).
Proof.
  intros NN. split.
  - intros ns H. unfold Declare_names.
    pose proof (Declare_ok H [] (fuel := length s + 2)%nat ltac:(lia)) as E. simpl in E. rewrite E. f_equal.
    clear -H NN. induction H as [|n r ns H N IH|c r ns H N IH]; simpl in *; auto.
    + rewrite in_app_iff in NN. simpl in NN. rewrite IH by tauto. f_equal. apply c_str_id. tauto.
  - intros H. apply (@Declare_bad (length s) s ltac:(lia) H []). lia.
Qed.

(** Well-formed signatures are inside both safe sets. *)
Theorem C09_wellformed ps ret :
  Forall ty_ok ps -> ret_ok ret ->
  safe (flat_map descr ps ++ ")"%char :: ret_descr ret) /\ names (msig ps ret) (sig_classes ps ret).
Proof.
  intros F R. split; [|apply names_msig; assumption].
  induction F as [|t ts Ht F IH]; simpl; [constructor|].
  rewrite <- app_assoc. destruct t; simpl; try (constructor; try discriminate; assumption).
  - rewrite <- app_assoc. apply safe_obj; [apply Ht|assumption].
  - eapply safe_arr; [|exact IH]. apply elem_descr. assumption.
Qed.

Example C09_case : safe (S_ "[[I(Lx;QLunterminated") /\ ~ safe (S_ "[Lx").
Proof.
  split.
  - cbn. eapply safe_arr. { apply elem_arr, elem_prim; discriminate. }
    apply safe_other; try discriminate.
    apply (@safe_obj ["x"%char]); [intros H; cbn in H; intuition discriminate|].
    apply safe_other; try discriminate.
    apply safe_open_obj. intros H; cbn in H; intuition discriminate.
  - intros S. inversion S; subst; try congruence.
    match goal with H : elem _ _ |- _ => inversion H; subst; try congruence end.
    match goal with H : _ ++ _ = _ |- _ => destruct n as [|? [|? ?]]; discriminate H end.
Qed.

(** *** C13 (signature part): the classes of a well-formed signature, in order. *)
Theorem C13_declared_names ps ret :
  Forall ty_ok ps -> ret_ok ret -> Declare_names (msig ps ret) = Ok (sig_classes ps ret).
Proof.
  intros F R. unfold Declare_names.
  pose proof (Declare_ok (names_msig ret F R) [] (fuel := length (msig ps ret) + 2)%nat ltac:(lia)) as E.
  cbn [app] in E. change (length (@nil ascii)) with 0%nat in E. rewrite E.
  rewrite sig_classes_nonul by assumption. reflexivity.
Qed.

Theorem C13_declared_field t : ty_ok t -> Declare_names (descr t) = Ok (ty_classes t).
Proof.
  intros H. unfold Declare_names. pose proof (names_app_ty t H names_nil) as N. rewrite !app_nil_r in N.
  pose proof (Declare_ok N [] (fuel := length (descr t) + 2)%nat ltac:(lia)) as E.
  cbn [app] in E. change (length (@nil ascii)) with 0%nat in E. rewrite E.
  rewrite ty_classes_nonul by assumption. reflexivity.
Qed.

(** *** C10: the code generator. *)
Theorem C10_types fake ps ret :
  Forall ty_ok ps -> ret_ok ret ->
  Gen_types fake (msig ps ret) = Ok (map (cxx_type fake) ps, cxx_ret fake ret).
Proof. apply Gen_msig. Qed.

(** The signature of a field has no parentheses: no parameters, the result is its type; likewise without any character. *)
Theorem C10_plain fake t : ty_ok t -> Gen_types fake (descr t) = Ok ([], cxx_type fake t).
Proof.
  intros H. unfold Gen_types. replace (length (descr t) + 2)%nat with (S (S (length (descr t)))) by lia.
  pose proof (@Gen_step fake (S (length (descr t))) [] t [] false [] [] H) as E. cbn [app length] in E. rewrite app_nil_r in E. rewrite E.
  cbn [Gen_loop]. rewrite Nat.eqb_refl. reflexivity.
Qed.
Example C10_plain_case : ty_ok (JArr (JObj (S_ "java/lang/String"))) /\ Gen_types false (S_ "[I") = Ok ([], S_ "std::shared_ptr<jnivm::Array<jint>>").
Proof. split; [split; intros H; simpl in H; intuition discriminate|reflexivity]. Qed.

(** Parameters of the generated function that do not come from the signature. *)
Definition implicit_params (fake static : bool) : list str :=
  if fake then [] else S_ "jnivm::ENV* env" :: (if static then [S_ "jnivm::Class* cl"] else []).

Theorem C10_header fake static name ps ret cname :
  Forall ty_ok ps -> ret_ok ret ->
  Method_GenerateHeader fake false static name (msig ps ret) cname = Ok (
    (if str_eqb name (S_ "<init>") then cname
     else (if static then S_ "static " else []) ++ cxx_ret fake ret ++ S_ " " ++ name)
    ++ S_ "(" ++ commas (implicit_params fake static ++ map (cxx_type fake) ps) ++ S_ ");").
Proof.
  intros F R. unfold Method_GenerateHeader. rewrite Gen_msig by assumption. cbn [rbind].
  f_equal. f_equal. f_equal. rewrite app_assoc. f_equal. destruct fake; cbn [negb implicit_params app].
  - rewrite seps_true. reflexivity.
  - destruct static; cbn [app].
    + rewrite <- seps_after. cbn [seps]. rewrite <- app_assoc. reflexivity.
    + rewrite <- seps_after, app_nil_r. reflexivity.
Qed.

Definition stub_params (fake static : bool) : list str :=
  if fake then [] else S_ "jnivm::ENV *" :: (if static then [S_ "jnivm::Class* cl"] else []).

Theorem C10_stub fake static name ps ret scope cname :
  Forall ty_ok ps -> ret_ok ret ->
  Method_GenerateStubs fake false static name (msig ps ret) scope cname = Ok (
    (if str_eqb name (S_ "<init>") then scope ++ S_ "::" ++ cname
     else cxx_ret fake ret ++ S_ " " ++ scope ++ S_ "::" ++ name)
    ++ S_ "(" ++ commas (stub_params fake static ++ number_args 0 (map (cxx_type fake) ps))
    ++ S_ ") {" ++ newline ++ S_ "    "
    ++ (if str_eqb name (S_ "<init>") then [] else match ret with None => [] | Some _ => S_ "return {};" end)
    ++ newline ++ S_ "}" ++ newline ++ newline).
Proof.
  intros F R. unfold Method_GenerateStubs. rewrite Gen_msig by assumption. cbn [rbind].
  assert (V : str_eqb (cxx_ret fake ret) (S_ "void") = match ret with None => true | Some _ => false end).
  { destruct ret as [t|]; [|reflexivity]. destruct t, fake; reflexivity. }
  rewrite V.
  assert (RT : (if negb (match ret with None => true | Some _ => false end) && negb (str_eqb name (S_ "<init>")) then S_ "return {};" else [])
    = (if str_eqb name (S_ "<init>") then [] else match ret with None => [] | Some _ => S_ "return {};" end)).
  { destruct ret, (str_eqb name (S_ "<init>")); reflexivity. }
  rewrite RT. f_equal. f_equal. f_equal. rewrite app_assoc. f_equal.
  destruct fake; cbn [negb stub_params app].
  - rewrite seps_true. reflexivity.
  - destruct static; cbn [app].
    + rewrite <- seps_after. cbn [seps]. rewrite <- app_assoc. reflexivity.
    + rewrite <- seps_after, app_nil_r. reflexivity.
Qed.

(** The parameters of a generated function have names of their own: " arg" and the decimal numeral of the position. *)
Local Open Scope nat_scope.
Definition digit_value (c : ascii) : nat := nat_of_ascii c - 48.
Definition numeral (s : str) (n : nat) : Prop :=
  s <> [] /\ (forall c, In c s -> 48 <= nat_of_ascii c <= 57) /\ (forall c r, s = c :: r -> r <> [] -> nat_of_ascii c <> 48) /\
  fold_left (fun a c => 10 * a + digit_value c) s 0 = n.
Lemma dec_digits_numeral f n : n < f -> numeral (dec_digits f n) n.
Proof.
  revert n. induction f as [|f IH]; intros n L; [lia|]. cbn [dec_digits].
  assert (nat_of_ascii (ascii_of_nat (48 + n mod 10)) = 48 + n mod 10) as D by (apply nat_ascii_embedding; pose proof (Nat.mod_upper_bound n 10); lia).
  pose proof (Nat.mod_upper_bound n 10 ltac:(lia)) as U. set (d := ascii_of_nat (48 + n mod 10)) in *.
  destruct (Nat.ltb_spec n 10) as [S|S].
  - assert (n mod 10 = n) as E by (apply Nat.mod_small; exact S). rewrite E in D. split; [discriminate|]. split; [intros c [<-|[]]; rewrite D; lia|].
    split; [intros c r [= <- <-]; congruence|]. cbn [fold_left]. unfold digit_value. lia.
  - pose proof (Nat.div_mod n 10 ltac:(lia)) as Dm. assert (0 < n / 10 < n) as (P & Q) by (split; [apply Nat.div_str_pos; lia|apply Nat.div_lt; lia]).
    destruct (IH (n / 10)) as (A & B & C & E); [lia|]. split; [destruct (dec_digits f (n / 10)); discriminate|].
    split; [intros c; rewrite in_app_iff; intros [H|[<-|[]]]; [auto|rewrite D; lia]|]. split.
    + intros c r E1 _. destruct (dec_digits f (n / 10)) as [|x l] eqn:Dd; [congruence|]. injection E1 as <- <-.
      destruct l as [|y l]; [|apply (C x (y :: l)); [reflexivity|discriminate]].
      intros Zx. cbn [fold_left] in E. unfold digit_value in E. lia.
    + rewrite fold_left_app, E. cbn [fold_left]. unfold digit_value. rewrite D. lia.
Qed.
Theorem C10_decimal n : numeral (decimal n) n.
Proof. apply dec_digits_numeral. lia. Qed.
Theorem C10_argument k l i x : nth_error l i = Some x -> nth_error (number_args k l) i = Some (x ++ S_ " arg" ++ decimal (k + i)).
Proof.
  revert k i. induction l as [|y l IH]; intros k i; destruct i; try discriminate; simpl.
  - intros [= ->]. rewrite Nat.add_0_r. reflexivity.
  - intros H. rewrite (IH (S k) i H). replace (S k + i) with (k + S i) by lia. reflexivity.
Qed.
Theorem C10_arguments_length k l : length (number_args k l) = length l.
Proof. revert k. induction l; simpl; auto. Qed.
Theorem C10_distinct m n : decimal m = decimal n -> m = n.
Proof. intros E. destruct (C10_decimal m) as (_ & _ & _ & <-), (C10_decimal n) as (_ & _ & _ & <-). rewrite E. reflexivity. Qed.
Example C10_arguments_case : number_args 0 [S_ "jint"; S_ "jlong"] = [S_ "jint arg0"; S_ "jlong arg1"] /\ decimal 1203 = S_ "1203".
Proof. split; reflexivity. Qed.
Local Close Scope nat_scope.

Theorem C10_native fake static name s scope cname :
  Method_GenerateHeader fake true static name s cname = Ok [] /\
  Method_GenerateStubs fake true static name s scope cname = Ok [].
Proof. auto. Qed.

Theorem C10_field fake static name t scope :
  ty_ok t ->
  Field_GenerateHeader fake static name (descr t) =
    Ok ((if static then S_ "static " else []) ++ cxx_type fake t ++ S_ " " ++ name ++ S_ ";") /\
  Field_GenerateStubs fake static name (descr t) scope =
    Ok (if static then cxx_type fake t ++ S_ " " ++ scope ++ S_ "::" ++ name ++ S_ " = {};" ++ newline ++ newline else []).
Proof.
  intros H. unfold Field_GenerateHeader, Field_GenerateStubs.
  pose proof (@Parse_descr fake t H (parse_fuel (descr t)) [] [] []) as E.
  rewrite app_nil_r in E. simpl app in E. simpl length in E. rewrite E by (unfold parse_fuel; lia).
  split; [reflexivity|]. destruct static; reflexivity.
Qed.

Example C10_case :
  cxx_type false (JArr (JArr (JObj (S_ "a/B$C")))) = S_ "std::shared_ptr<jnivm::Array<jnivm::Array<jnivm::a::B::C>>>" /\
  cxx_type true (JArr (JArr JInt)) = S_ "std::shared_ptr<FakeJni::JArray<FakeJni::JIntArray>>" /\
  Method_GenerateHeader false false true (S_ "m") (S_ "(I[Ljava/lang/String;)V") (S_ "C") =
   Ok (S_ "static void m(jnivm::ENV* env, jnivm::Class* cl, jint, std::shared_ptr<jnivm::Array<jnivm::java::lang::String>>);").
Proof. repeat split. Qed.

Print Assumptions C07_arguments.
Print Assumptions C07_no_paren.
Print Assumptions C08_skip.
Print Assumptions C08_any.
Print Assumptions C09_refuted.
Print Assumptions C09_valist_partial.
Print Assumptions C09_declare_partial.
Print Assumptions C09_wellformed.
Print Assumptions C10_types. Print Assumptions C10_plain.
Print Assumptions C10_header.
Print Assumptions C10_stub.
Print Assumptions C10_native.
Print Assumptions C10_field.
Print Assumptions C13_declared_names.
Print Assumptions C13_declared_field.
Print Assumptions C10_decimal.
Print Assumptions C10_argument.
Print Assumptions C10_arguments_length.
Print Assumptions C10_distinct.
