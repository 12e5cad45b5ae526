From Verif Require Import Base BaseProofs SigModel SigSpec SigProofs.
Set Implicit Arguments.
Local Open Scope char_scope.

Lemma adv (pre r : str) k : k <= length r ->
  pre ++ r = (pre ++ firstn k r) ++ skipn k r /\ length (pre ++ firstn k r) = length pre + k.
Proof.
  intros. split; [rewrite <- app_assoc, firstn_skipn; reflexivity|].
  rewrite app_length, firstn_length. lia.
Qed.

Lemma rd_past s i : i > length s -> rd s i = UB.
Proof.
  intros. unfold rd. assert (nth_error (s ++ [NUL]) i = None) as ->; [|reflexivity].
  apply nth_error_None. rewrite app_length. simpl. lia.
Qed.

Section Narrow.
Variable d2f : Z -> Z.

Definition fine {A B} (x : res (A * B)) (rest : B) : Prop :=
  (exists vs, x = Ok (vs, rest)) \/ x = Thrown (Err (S_ "Signature missing ';' after 'L'")).

Lemma JV_next pre r k v l fuel rest :
  k <= length r ->
  fine (JValues_loop d2f fuel ((pre ++ firstn k r) ++ skipn k r) (length (pre ++ firstn k r)) l) rest ->
  fine (let* (vs, l'') := JValues_loop d2f fuel (pre ++ r) (length pre + k) l in Ok (v :: vs, l'')) rest.
Proof.
  intros K. destruct (@adv pre r k K) as [E1 E2]. rewrite <- E1, E2.
  intros [(vs & ->)| ->]; [left|right]; simpl; eauto.
Qed.

Lemma skipn_obj (n q : str) : skipn (length ("L" :: n) + 1) ("L" :: n ++ ";" :: q) = q.
Proof.
  change ("L" :: n ++ ";" :: q) with (("L" :: n) ++ [";"] ++ q). rewrite app_assoc.
  rewrite skipn_app, skipn_all2 by (rewrite app_length; simpl; lia).
  rewrite app_length. simpl. rewrite Nat.sub_diag. reflexivity.
Qed.

Lemma find_obj n q : ~ In ";" n -> find_from ";" ("L" :: n ++ ";" :: q) 0 = length ("L" :: n).
Proof.
  intros H. apply (@find_in ";" ("L" :: n)). simpl. intros [|]; [discriminate|tauto].
Qed.

Lemma JV_safe r : safe r ->
  exists l, forall pre rest fuel, length r < fuel ->
    fine (JValues_loop d2f fuel (pre ++ r) (length pre) (l ++ rest)) rest.
Proof.
  induction 1 as [|r|n H|n r H S IH|r r' E S IH|c r H1 H2 H3 S IH].
  - exists []. intros. rewrite JV_suffix by assumption. left. exists []. reflexivity.
  - exists []. intros. rewrite JV_suffix by assumption. left. exists []. reflexivity.
  - exists []. intros. rewrite JV_suffix by assumption. cbn [Ascii.eqb Bool.eqb].
    rewrite find_none by (simpl; intros [|]; [discriminate|tauto]). rewrite Nat.eqb_refl. right. reflexivity.
  - destruct IH as [l IH]. exists (APtr 0 :: l). intros pre rest fuel L.
    rewrite JV_suffix by assumption. cbn [Ascii.eqb Bool.eqb app].
    rewrite find_obj by assumption.
    destruct (Nat.eqb_spec (length ("L" :: n)) (length ("L" :: n ++ ";" :: r))) as [Q|Q].
    { exfalso. simpl in Q. rewrite app_length in Q. simpl in Q. lia. }
    cbn [va_ptr rbind].
    cbn [length] in L. rewrite app_length in L. cbn [length] in L.
    apply JV_next. { simpl. rewrite app_length. simpl. lia. }
    rewrite skipn_obj. apply IH. lia.
  - destruct IH as [l IH]. exists (APtr 0 :: l). intros pre rest fuel L.
    rewrite JV_suffix by assumption. cbn [Ascii.eqb Bool.eqb va_ptr rbind app].
    apply elem_skipr in E. destruct E as [E1 E2]. cbn [length] in L.
    apply JV_next. { simpl. lia. }
    cbn [Nat.add skipn]. rewrite <- E2. apply IH. subst r'. rewrite skipn_length. pose proof (skipr_pos r). lia.
  - destruct IH as [l IH]. cbn [length] in *.
    assert (step : forall pre rest fuel v l', length (c :: r) < fuel ->
       l' = l ++ rest ->
       fine (let* (vs, l'') := JValues_loop d2f (fuel - 1) (pre ++ c :: r) (length pre + 1) l' in Ok (v :: vs, l'')) rest).
    { intros pre rest fuel v l' L ->. apply JV_next; [simpl; lia|]. simpl skipn. apply IH. simpl in L. lia. }
    apply Ascii.eqb_neq in H1, H2, H3.
    destruct (Ascii.eqb c "Z") eqn:E1; [|destruct (Ascii.eqb c "B") eqn:E2; [|destruct (Ascii.eqb c "S") eqn:E3;
    [|destruct (Ascii.eqb c "C") eqn:E4; [|destruct (Ascii.eqb c "I") eqn:E5; [|destruct (Ascii.eqb c "J") eqn:E6;
    [|destruct (Ascii.eqb c "F") eqn:E7; [|destruct (Ascii.eqb c "D") eqn:E8]]]]]]];
    [exists (AInt 0 :: l)|exists (AInt 0 :: l)|exists (AInt 0 :: l)|exists (AInt 0 :: l)|exists (AInt 0 :: l)
    |exists (ALong 0 :: l)|exists (ADouble 0 :: l)|exists (ADouble 0 :: l)|exists l];
    intros pre rest fuel L; rewrite JV_suffix by assumption; rewrite H1;
    repeat match goal with H : Ascii.eqb c _ = _ |- _ => rewrite H; clear H end;
    cbn [va_int va_long va_double va_ptr rbind app]; apply step; auto.
Qed.

Lemma JV_next_UB pre r k v l fuel :
  k <= length r ->
  JValues_loop d2f fuel ((pre ++ firstn k r) ++ skipn k r) (length (pre ++ firstn k r)) l = UB ->
  (let* (vs, l'') := JValues_loop d2f fuel (pre ++ r) (length pre + k) l in Ok (v :: vs, l'')) = UB.
Proof.
  intros K. destruct (@adv pre r k K) as [E1 E2]. rewrite <- E1, E2. intros ->. reflexivity.
Qed.

Lemma JV_unsafe n : forall r, length r <= n -> ~ safe r ->
  forall pre l fuel, length r < fuel -> JValues_loop d2f fuel (pre ++ r) (length pre) l = UB.
Proof.
  induction n; intros r LN NS pre l fuel L.
  { destruct r; [|simpl in LN; lia]. destruct NS. constructor. }
  destruct r as [|c r]; [destruct NS; constructor|].
  rewrite JV_suffix by assumption. cbn [length] in LN, L.
  destruct (Ascii.eqb_spec c ")"); [subst; destruct NS; constructor|].
  destruct (Ascii.eqb_spec c "L") as [EL|NL].
  - subst c. cbn [Ascii.eqb Bool.eqb].
    destruct (split_semi r) as [(m & q & -> & H)|H].
    + rewrite find_obj by assumption.
      destruct (Nat.eqb_spec (length ("L" :: m)) (length ("L" :: m ++ ";" :: q))) as [Q|Q].
      { exfalso. simpl in Q. rewrite app_length in Q. simpl in Q. lia. }
      rewrite app_length in LN, L. cbn [length] in LN, L.
      unfold rbind at 1. destruct (va_ptr l) as [[z l']| | | |] eqn:V; try (destruct l as [|[]]; discriminate); [|reflexivity].
      apply JV_next_UB. { simpl. rewrite app_length. simpl. lia. }
      rewrite skipn_obj. apply IHn; [lia| |lia]. intros S. apply NS. apply safe_obj; assumption.
    + destruct NS. constructor. assumption.
  - destruct (Ascii.eqb_spec c "[") as [EA|NA].
    + subst c. cbn [Ascii.eqb Bool.eqb].
      unfold rbind at 1. destruct (va_ptr l) as [[z l']| | | |] eqn:V; try (destruct l as [|[]]; discriminate); [|reflexivity].
      destruct (Nat.le_gt_cases (skipr r) (length r)) as [K|K].
      * pose proof (skipr_pos r).
        apply JV_next_UB. { simpl. lia. }
        cbn [Nat.add skipn]. apply IHn.
        { rewrite skipn_length. lia. }
        { intros S. apply NS. eapply safe_arr; [|exact S]. apply elem_skipr. auto. }
        rewrite skipn_length. lia.
      * destruct (fuel - 1) as [|f] eqn:EF; [lia|]. cbn [JValues_loop].
        rewrite rd_past; [reflexivity|]. rewrite app_length. simpl. lia.
    + assert (NS' : ~ safe r) by (intros S; apply NS; constructor; assumption).
      assert (step : forall v l', (let* (vs, l'') := JValues_loop d2f (fuel - 1) (pre ++ c :: r) (length pre + 1) l' in Ok (v :: vs, l'')) = UB).
      { intros v l'. apply JV_next_UB; [simpl; lia|]. simpl skipn. apply IHn; [lia|assumption|lia]. }
      destruct (Ascii.eqb_spec c "["); [contradiction|].
      destruct (Ascii.eqb_spec c "L"); [contradiction|].
      destruct l as [|[] l]; cbn [va_int va_long va_double va_ptr rbind];
      repeat match goal with |- context [Ascii.eqb c ?x] => destruct (Ascii.eqb c x) end; auto.
Qed.
End Narrow.

(** ** Declare *)
Lemma Declare_suffix fuel pre r : length r < fuel ->
  Declare_loop fuel (pre ++ r) (length pre) =
  match r with
  | [] => Ok []
  | c :: r1 =>
    if Ascii.eqb c "L" then
      let* t := Declare_loop (fuel - 1) (pre ++ r) (length pre + (find_from ";" r 0 + 1)) in
      Ok (c_str (firstn (find_from ";" r1 0) r1) :: t)
    else Declare_loop (fuel - 1) (pre ++ r) (length pre + 1)
  end.
Proof.
  intros L. destruct fuel; [lia|]. cbn [Declare_loop]. replace (S fuel - 1) with fuel by lia.
  destruct r as [|c r1].
  - rewrite app_nil_r, Nat.eqb_refl. reflexivity.
  - assert (Nat.eqb (length pre) (length (pre ++ c :: r1)) = false) as ->.
    { apply Nat.eqb_neq. rewrite app_length. simpl. lia. }
    rewrite rd_app0. unfold rd at 1. cbn [app nth_error rbind].
    destruct (Ascii.eqb_spec c "L"); [|reflexivity]. subst c.
    rewrite std_find_app. rewrite <- Nat.add_assoc.
    assert (E : substr (pre ++ "L" :: r1) (length pre + 1) (length pre + find_from ";" ("L" :: r1) 0)
                = firstn (find_from ";" r1 0) r1).
    { unfold substr. cbn [find_from Ascii.eqb Bool.eqb]. rewrite find_from_shift.
      replace (length pre + (1 + find_from ";" r1 0) - (length pre + 1)) with (find_from ";" r1 0) by lia.
      replace (length pre + 1) with (length (pre ++ ["L"])) by (rewrite app_length; simpl; lia).
      change (pre ++ "L" :: r1) with (pre ++ ["L"] ++ r1). rewrite app_assoc.
      rewrite skipn_app, skipn_all, Nat.sub_diag. reflexivity. }
    rewrite E. reflexivity.
Qed.

Lemma firstn_obj (n q : str) : ~ In ";" n -> firstn (find_from ";" (n ++ ";" :: q) 0) (n ++ ";" :: q) = n.
Proof.
  intros H. rewrite find_in by assumption. rewrite firstn_app, firstn_all, Nat.sub_diag. simpl. apply app_nil_r.
Qed.

Lemma Declare_ok r ns : names r ns -> forall pre fuel, length r < fuel ->
  Declare_loop fuel (pre ++ r) (length pre) = Ok (map c_str ns).
Proof.
  induction 1 as [|n r ns H N IH|c r ns H N IH]; intros pre fuel L.
  - rewrite Declare_suffix by assumption. reflexivity.
  - rewrite Declare_suffix by assumption. cbn [Ascii.eqb Bool.eqb].
    rewrite firstn_obj, find_obj by assumption. cbn [map].
    destruct (@adv pre ("L" :: n ++ ";" :: r) (length ("L" :: n) + 1)) as [E1 E2].
    { simpl. rewrite app_length. simpl. lia. }
    rewrite skipn_obj in E1. rewrite E1, <- E2. rewrite IH; [reflexivity|].
    cbn [length] in L. rewrite app_length in L. simpl in L. lia.
  - rewrite Declare_suffix by assumption.
    destruct (Ascii.eqb_spec c "L"); [contradiction|]. simpl in L.
    specialize (IH (pre ++ [c]) (fuel - 1)). rewrite <- app_assoc, app_length in IH. apply IH. lia.
Qed.

Lemma Declare_bad n : forall r, length r <= n -> (forall ns, ~ names r ns) ->
  forall pre fuel, length r < fuel -> Declare_loop fuel (pre ++ r) (length pre) = UB.
Proof.
  induction n; intros r LN NS pre fuel L.
  { destruct r; [|simpl in LN; lia]. destruct (NS []). constructor. }
  destruct r as [|c r]; [destruct (NS []); constructor|].
  rewrite Declare_suffix by assumption. cbn [length] in LN, L.
  destruct (Ascii.eqb_spec c "L") as [EL|NL].
  - subst c. destruct (split_semi r) as [(m & q & -> & H)|H].
    + rewrite find_obj by assumption.
      destruct (@adv pre ("L" :: m ++ ";" :: q) (length ("L" :: m) + 1)) as [E1 E2].
      { simpl. rewrite app_length. simpl. lia. }
      rewrite skipn_obj in E1. rewrite E1, <- E2.
      rewrite app_length in LN, L. simpl in LN, L.
      rewrite IHn; [reflexivity|lia| |lia]. intros ns S. apply (NS (m :: ns)). apply names_obj; assumption.
    + rewrite find_none by (simpl; intros [|]; [discriminate|tauto]).
      destruct (fuel - 1) as [|f] eqn:EF; [lia|]. cbn [Declare_loop].
      destruct (Nat.eqb_spec (length pre + (length ("L" :: r) + 1)) (length (pre ++ "L" :: r))) as [Q|Q].
      { rewrite app_length in Q. lia. }
      rewrite rd_past; [reflexivity|]. rewrite app_length. simpl. lia.
  - destruct (@adv pre (c :: r) 1) as [E1 E2]; [simpl; lia|]. rewrite E1, <- E2. simpl skipn.
    apply IHn; [lia| |lia]. intros ns S. apply (NS ns). constructor; assumption.
Qed.

Lemma names_app_ty t r ns : ty_ok t -> names r ns -> names (descr t ++ r) (ty_classes t ++ ns).
Proof.
  induction t; simpl; intros H N; try (constructor; [discriminate|assumption]).
  - rewrite <- app_assoc. apply names_obj; tauto.
  - constructor; [discriminate|]. auto.
Qed.

Lemma names_params ts r ns : Forall ty_ok ts -> names r ns ->
  names (flat_map descr ts ++ r) (flat_map ty_classes ts ++ ns).
Proof.
  induction 1; simpl; intros N; [assumption|]. rewrite <- !app_assoc. apply names_app_ty; auto.
Qed.

Lemma names_msig ps r : Forall ty_ok ps -> ret_ok r -> names (msig ps r) (sig_classes ps r).
Proof.
  intros F R. unfold msig, sig_classes. constructor; [discriminate|].
  apply names_params; [assumption|]. constructor; [discriminate|].
  destruct r as [t|]; simpl.
  - rewrite <- (app_nil_r (descr t)), <- (app_nil_r (ty_classes t)). apply names_app_ty; [assumption|constructor].
  - constructor; [discriminate|constructor].
Qed.

Lemma c_str_id (n : str) : ~ In NUL n -> c_str n = n.
Proof.
  induction n; simpl; [reflexivity|]. intros H.
  destruct (Ascii.eqb_spec a NUL); [subst; tauto|]. f_equal. tauto.
Qed.

Lemma ty_classes_nonul t : ty_ok t -> map c_str (ty_classes t) = ty_classes t.
Proof.
  induction t; simpl; intros H; auto. f_equal. apply c_str_id. tauto.
Qed.

Lemma sig_classes_nonul ps r : Forall ty_ok ps -> ret_ok r -> map c_str (sig_classes ps r) = sig_classes ps r.
Proof.
  intros F R. unfold sig_classes. rewrite map_app. f_equal.
  - induction F; simpl; [reflexivity|]. rewrite map_app, IHF, ty_classes_nonul by assumption. reflexivity.
  - destruct r; [apply ty_classes_nonul; assumption|reflexivity].
Qed.

(** ** Code generator *)
Lemma starts_with_app p s : starts_with p (p ++ s) = true.
Proof. induction p; simpl; [reflexivity|]. rewrite Ascii.eqb_refl. assumption. Qed.

Lemma unwrap_shared_spec p : unwrap_shared (shared ++ p ++ [">"]) = p.
Proof.
  unfold unwrap_shared. rewrite starts_with_app.
  rewrite app_assoc, last_last. cbn [Ascii.eqb Bool.eqb andb].
  unfold substr. rewrite !app_length. cbn [length].
  change (length shared) with 16.
  replace (16 + (16 + length p + 1 - 17) - 16) with (length p) by lia.
  rewrite <- app_assoc. rewrite skipn_app.
  change (length shared) with 16. rewrite (@skipn_all2 ascii 16 shared) by (simpl; lia).
  simpl. rewrite firstn_app, firstn_all, Nat.sub_diag. simpl. apply app_nil_r.
Qed.

Lemma scope_qualified n : scope_of n = qualified n.
Proof.
  induction n; simpl; [reflexivity|]. rewrite IHn.
  destruct (Ascii.eqb a "/" || Ascii.eqb a "$"); reflexivity.
Qed.

Lemma descr_len t : 1 <= length (descr t).
Proof. destruct t; simpl; lia. Qed.

Lemma descr_len1 t : Nat.eqb (length (descr t)) 1 = is_prim t.
Proof.
  destruct t; try reflexivity; cbn [is_prim]; apply Nat.eqb_neq; simpl.
  - rewrite app_length. simpl. lia.
  - pose proof (descr_len t). lia.
Qed.

Lemma S_app a b : S_ (String.append a b) = S_ a ++ S_ b.
Proof. unfold S_. induction a; simpl; [reflexivity|]. f_equal. assumption. Qed.

Lemma unwrap_cxx fake t : unwrap_shared (cxx_type fake t) = if is_prim t then prim_name fake t else pointee fake t.
Proof.
  unfold cxx_type. destruct (is_prim t) eqn:E.
  - destruct t; try discriminate E; destruct fake; reflexivity.
  - apply unwrap_shared_spec.
Qed.

Lemma str_assoc_help a b c d : (a ++ b) ++ c ++ d = a ++ (b ++ c) ++ d :> str.
Proof. rewrite <- !app_assoc. reflexivity. Qed.

Lemma Parse_descr fake t : ty_ok t -> forall fuel pre post old,
  length (descr t) <= fuel ->
  ParseJNIType fake fuel (pre ++ descr t ++ post) (length pre) old
  = Ok (length pre + length (descr t) - 1, cxx_type fake t).
Proof.
  induction t; intros H fuel pre post old L;
  (destruct fuel; [simpl in L; lia|]); cbn [ParseJNIType]; rewrite rd_app0;
  try (unfold rd; cbn [descr app nth_error rbind Ascii.eqb Bool.eqb length];
       replace (length pre + 1 - 1) with (length pre) by lia; destruct fake; reflexivity).
  - unfold rd. cbn [descr app nth_error rbind Ascii.eqb Bool.eqb length].
    assert (EF : std_find ";" (pre ++ "L" :: (name ++ [";"]) ++ post) (length pre + 1) = length pre + 1 + length name).
    { replace (length pre + 1) with (length (pre ++ ["L"])) by (rewrite app_length; simpl; lia).
      change (pre ++ "L" :: (name ++ [";"]) ++ post) with (pre ++ ["L"] ++ (name ++ [";"]) ++ post).
      rewrite app_assoc, std_find_app, <- app_assoc.
      change (name ++ [";"] ++ post) with (name ++ ";" :: post).
      rewrite find_in by (destruct H; assumption). reflexivity. }
    rewrite EF.
    assert (ES : substr (pre ++ "L" :: (name ++ [";"]) ++ post) (length pre + 1) (length pre + 1 + length name) = name).
    { unfold substr.
      replace (length pre + 1 + length name - (length pre + 1)) with (length name) by lia.
      replace (length pre + 1) with (length (pre ++ ["L"])) by (rewrite app_length; simpl; lia).
      change (pre ++ "L" :: (name ++ [";"]) ++ post) with (pre ++ ["L"] ++ (name ++ [";"]) ++ post).
      rewrite app_assoc, skipn_app, skipn_all, Nat.sub_diag, <- app_assoc. simpl.
      rewrite firstn_app, firstn_all, Nat.sub_diag. simpl. apply app_nil_r. }
    rewrite ES. f_equal. f_equal.
    + rewrite app_length. simpl. lia.
    + unfold cxx_type, is_prim, pointee, obj_name. rewrite scope_qualified. destruct fake; cbn [andb].
      * destruct (str_eqb name (S_ "java/lang/String")); [reflexivity|].
        destruct (str_eqb name (S_ "java/lang/Object")); [reflexivity|].
        destruct (str_eqb name (S_ "java/lang/Throwable")); [reflexivity|].
        destruct (str_eqb name (S_ "java/lang/Class")); [reflexivity|].
        destruct (str_eqb name (S_ "java/lang/ref/WeakReference")); [reflexivity|].
        rewrite <- app_assoc. reflexivity.
      * rewrite <- app_assoc. reflexivity.
  - unfold rd at 1. cbn [descr app nth_error rbind Ascii.eqb Bool.eqb length].
    cbn [ty_ok] in H. cbn [descr length] in L.
    specialize (IHt H fuel (pre ++ ["["]) post old). rewrite <- app_assoc, app_length in IHt. cbn [app length] in IHt.
    rewrite IHt by lia. cbn [rbind].
    pose proof (descr_len t) as DL.
    replace (length pre + S (length (descr t)) - 1) with (length pre + 1 + length (descr t) - 1) by lia.
    destruct fake; cbn [negb].
    + replace (length pre + 1 + length (descr t) - 1 - length pre) with (length (descr t)) by lia.
      rewrite descr_len1. destruct (is_prim t) eqn:EP.
      * assert (L1 : length (descr t) = 1) by (apply Nat.eqb_eq; rewrite descr_len1; assumption).
        rewrite L1. replace (length pre + 1 + 1 - 1) with (length pre + 1) by lia.
        rewrite rd_app. destruct t; try discriminate EP; reflexivity.
      * f_equal. f_equal. rewrite unwrap_cxx, EP. unfold cxx_type. cbn [is_prim pointee]. rewrite EP.
        change (S_ "std::shared_ptr<FakeJni::JArray<") with (S_ "std::shared_ptr<" ++ S_ "FakeJni::JArray<").
        change (S_ ">>") with (S_ ">" ++ S_ ">"). rewrite <- !app_assoc. reflexivity.
    + f_equal. f_equal. rewrite unwrap_cxx. unfold cxx_type. cbn [is_prim pointee].
      change (S_ "std::shared_ptr<jnivm::Array<") with (S_ "std::shared_ptr<" ++ S_ "jnivm::Array<").
      change (S_ ">>") with (S_ ">" ++ S_ ">"). rewrite <- !app_assoc. reflexivity.
Qed.

Lemma cxx_nonempty fake t : cxx_type fake t <> [].
Proof. destruct t, fake; discriminate. Qed.

Lemma descr_head t : exists c r, descr t = c :: r /\ c <> "(" /\ c <> ")".
Proof. destruct t; repeat eexists; discriminate. Qed.

Lemma Gen_step fake fuel pre t post inarg ps ret :
  ty_ok t ->
  Gen_loop fake (S fuel) (pre ++ descr t ++ post) (length pre) inarg ps ret =
  Gen_loop fake fuel (pre ++ descr t ++ post) (length (pre ++ descr t)) inarg
    (if inarg then cxx_type fake t :: ps else ps) (if inarg then ret else cxx_type fake t).
Proof.
  intros H. cbn [Gen_loop].
  pose proof (descr_len t) as DL.
  assert (Nat.eqb (length pre) (length (pre ++ descr t ++ post)) = false) as ->.
  { apply Nat.eqb_neq. rewrite !app_length. lia. }
  rewrite rd_app0. destruct (descr_head t) as (c & r & E & N1 & N2).
  assert (rd (descr t ++ post) 0 = Ok c) as -> by (rewrite E; reflexivity).
  cbn [rbind]. apply Ascii.eqb_neq in N1, N2. rewrite N1, N2.
  rewrite Parse_descr; [|assumption|unfold parse_fuel; rewrite !app_length; lia].
  cbn [rbind]. replace (length pre + length (descr t) - 1 + 1) with (length (pre ++ descr t)) by (rewrite app_length; lia).
  pose proof (cxx_nonempty fake t) as NE. destruct (cxx_type fake t) as [|a b] eqn:EC; [contradiction|].
  destruct inarg; reflexivity.
Qed.

Lemma Gen_params fake ts : Forall ty_ok ts -> forall fuel pre post ps ret,
  Gen_loop fake (length ts + fuel) (pre ++ flat_map descr ts ++ post) (length pre) true ps ret =
  Gen_loop fake fuel (pre ++ flat_map descr ts ++ post) (length (pre ++ flat_map descr ts)) true
    (rev (map (cxx_type fake) ts) ++ ps) ret.
Proof.
  induction 1 as [|t ts Ht F IH]; intros fuel pre post ps ret.
  - simpl. rewrite app_nil_r. reflexivity.
  - cbn [flat_map length Nat.add map rev].
    rewrite <- app_assoc. rewrite Gen_step by assumption.
    specialize (IH fuel (pre ++ descr t) post (cxx_type fake t :: ps) ret).
    rewrite <- !app_assoc in *. rewrite IH. reflexivity.
Qed.

Lemma params_len ts : length ts <= length (flat_map descr ts).
Proof. induction ts; simpl; [lia|]. rewrite app_length. pose proof (descr_len a). lia. Qed.

Lemma Gen_msig fake ps r : Forall ty_ok ps -> ret_ok r ->
  Gen_types fake (msig ps r) = Ok (map (cxx_type fake) ps, cxx_ret fake r).
Proof.
  intros F R. unfold Gen_types.
  assert (LEN : length (msig ps r) = length (flat_map descr ps) + 2 + length (ret_descr r)).
  { unfold msig. simpl. rewrite app_length. simpl. lia. }
  pose proof (params_len ps) as PL.
  set (s := msig ps r) in *.
  (* '(' *)
  assert (FU : exists f, length s + 2 = S (length ps + S (S (S f)))).
  { assert (1 <= length (ret_descr r)) by (destruct r as [t|]; [apply descr_len|simpl; lia]).
    exists (length s + 2 - 4 - length ps). lia. }
  destruct FU as [f ->]. cbn [Gen_loop].
  assert (Nat.eqb 0 (length s) = false) as -> by (apply Nat.eqb_neq; lia).
  assert (rd s 0 = Ok "(") as -> by reflexivity. cbn [rbind Ascii.eqb Bool.eqb Nat.add].
  (* parameters *)
  change s with (["("] ++ flat_map descr ps ++ (")" :: ret_descr r)).
  rewrite (@Gen_params fake ps F (S (S (S f))) ["("] (")" :: ret_descr r)).
  (* ')' *)
  rewrite (app_assoc ["("]). set (pre := ["("] ++ flat_map descr ps).
  assert (G1 : forall k inarg qs rt, Gen_loop fake (S k) (pre ++ ")" :: ret_descr r) (length pre) inarg qs rt =
     Gen_loop fake k (pre ++ ")" :: ret_descr r) (length pre + 1) false qs rt).
  { intros. cbn [Gen_loop].
    assert (Nat.eqb (length pre) (length (pre ++ ")" :: ret_descr r)) = false) as ->.
    { apply Nat.eqb_neq. rewrite app_length. simpl. lia. }
    rewrite rd_app0. reflexivity. }
  rewrite G1. rewrite app_nil_r.
  replace (length pre + 1) with (length (pre ++ [")"])) by (rewrite app_length; simpl; lia).
  replace (pre ++ ")" :: ret_descr r) with ((pre ++ [")"]) ++ ret_descr r) by (rewrite <- app_assoc; reflexivity).
  destruct r as [t|]; cbn [ret_descr ret_ok cxx_ret] in *.
  - rewrite <- (app_nil_r (descr t)). rewrite Gen_step by assumption. rewrite app_nil_r.
    cbn [Gen_loop]. rewrite Nat.eqb_refl. rewrite rev_involutive. reflexivity.
  - cbn [Gen_loop].
    assert (Nat.eqb (length (pre ++ [")"])) (length ((pre ++ [")"]) ++ ["V"])) = false) as ->.
    { apply Nat.eqb_neq. rewrite (app_length _ ["V"]). simpl. lia. }
    rewrite rd_app0. cbn [rd app nth_error rbind Ascii.eqb Bool.eqb].
    unfold parse_fuel. rewrite Nat.add_comm. cbn [Nat.add ParseJNIType]. rewrite rd_app0.
    unfold rd at 1. cbn [app nth_error rbind Ascii.eqb Bool.eqb].
    replace (length (pre ++ [")"]) + 1) with (length ((pre ++ [")"]) ++ ["V"])) by (rewrite (app_length _ ["V"]); reflexivity).
    cbn [S_ String.list_ascii_of_string]. rewrite Nat.eqb_refl, rev_involutive. reflexivity.
Qed.

Lemma seps_false l : seps false l = flat_map (fun x => S_ ", " ++ x) l.
Proof. induction l; simpl; [reflexivity|]. rewrite IHl. reflexivity. Qed.
Lemma seps_true l : seps true l = commas l.
Proof.
  destruct l as [|x l]; [reflexivity|]. simpl. revert x.
  induction l as [|y l IH]; intros x; simpl; [apply app_nil_r|].
  f_equal. simpl in IH. rewrite IH. reflexivity.
Qed.
Lemma seps_after x l : x ++ seps false l = commas (x :: l).
Proof. rewrite <- seps_true. reflexivity. Qed.
