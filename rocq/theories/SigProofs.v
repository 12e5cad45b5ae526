From Verif Require Import Base SigModel SigSpec BaseProofs.
Set Implicit Arguments.
Local Open Scope char_scope.

Lemma find_from_shift c r i : find_from c r i = i + find_from c r 0.
Proof.
  revert i. induction r; intros i; simpl; [lia|].
  destruct (Ascii.eqb a c); [lia|]. rewrite IHr, (IHr 1). lia.
Qed.

Lemma std_find_app c pre r : std_find c (pre ++ r) (length pre) = length pre + find_from c r 0.
Proof.
  unfold std_find. rewrite skipn_app, skipn_all, Nat.sub_diag. simpl. apply find_from_shift.
Qed.

Lemma find_in c n r : ~ In c n -> find_from c (n ++ c :: r) 0 = length n.
Proof.
  induction n; simpl; intros H.
  - rewrite Ascii.eqb_refl. reflexivity.
  - destruct (Ascii.eqb_spec a c); [subst; tauto|]. rewrite find_from_shift, IHn by tauto. lia.
Qed.

Lemma find_none c n : ~ In c n -> find_from c n 0 = length n.
Proof.
  induction n; simpl; intros H; [reflexivity|].
  destruct (Ascii.eqb_spec a c); [subst; tauto|]. rewrite find_from_shift, IHn by tauto. lia.
Qed.

Lemma split_semi (r : str) : (exists n q, r = n ++ ";" :: q /\ ~ In ";" n) \/ ~ In ";" r.
Proof.
  induction r as [|a r IH]; [right; simpl; tauto|].
  destruct (Ascii.eqb_spec a ";").
  - subst. left. exists [], r. simpl. tauto.
  - destruct IH as [(n' & q & -> & H)|H].
    + left. exists (a :: n'), q. simpl. split; [reflexivity|]. intros [|]; [subst; tauto|tauto].
    + right. simpl. intros [|]; [subst; tauto|tauto].
Qed.

(** ** SkipJNIType on a suffix *)
Fixpoint skipr (r : str) : nat :=
  match r with
  | [] => 1
  | c :: r' => if Ascii.eqb c "[" then 1 + skipr r'
               else if Ascii.eqb c "L" then find_from ";" r 0 + 1
               else if Ascii.eqb c "(" then 1 + skipr r'
               else 1
  end.

Lemma skipr_pos r : 1 <= skipr r.
Proof. destruct r as [|c r]; [simpl; lia|]. cbn [skipr].
  destruct (Ascii.eqb c "["); [lia|]. destruct (Ascii.eqb c "L"); [lia|].
  destruct (Ascii.eqb c "("); lia. Qed.

Lemma Skip_suffix fuel pre r :
  length r < fuel -> SkipJNIType fuel (pre ++ r) (length pre) = Ok (length pre + skipr r).
Proof.
  revert pre r. induction fuel; intros pre r L; [lia|].
  cbn [SkipJNIType]. rewrite rd_app0. destruct r as [|c r].
  - unfold rd. cbn. reflexivity.
  - unfold rd at 1. cbn [app nth_error rbind skipr].
    specialize (IHfuel (pre ++ [c]) r). rewrite <- app_assoc, app_length in IHfuel. simpl in IHfuel, L.
    destruct (Ascii.eqb c "[").
    + rewrite IHfuel by lia. cbn [rbind]. f_equal. pose proof (skipr_pos r). lia.
    + destruct (Ascii.eqb c "L").
      * rewrite std_find_app. f_equal. lia.
      * destruct (Ascii.eqb c "("); [rewrite IHfuel by lia; f_equal; lia|reflexivity].
Qed.

Lemma Skip_descr pre t post :
  ty_ok t ->
  SkipJNIType (skip_fuel (pre ++ descr t ++ post)) (pre ++ descr t ++ post) (length pre)
  = Ok (length pre + length (descr t)).
Proof.
  intros H. rewrite Skip_suffix by (unfold skip_fuel; rewrite !app_length; lia).
  f_equal. f_equal. induction t; try reflexivity.
  - change (find_from ";" ("L" :: (name ++ [";"]) ++ post) 0 + 1 = length (descr (JObj name))).
    rewrite <- app_assoc. change ("L" :: name ++ [";"] ++ post) with (("L" :: name) ++ ";" :: post).
    destruct H as [H _]. rewrite find_in.
    + simpl. rewrite app_length. simpl. lia.
    + simpl. intros [|]; [discriminate|tauto].
  - simpl. rewrite IHt by assumption. reflexivity.
Qed.

Lemma elem_skipr r r' : elem r r' <-> skipr r <= length r /\ r' = skipn (skipr r) r.
Proof.
  split.
  - induction 1 as [c r H1 H2 H3|n r H|r r' E IH|r r' E IH].
    + cbn [skipr]. apply Ascii.eqb_neq in H1, H2, H3. rewrite H1, H2, H3. simpl. split; [lia|reflexivity].
    + cbn [skipr]. cbn [Ascii.eqb Bool.eqb].
      change ("L" :: n ++ ";" :: r) with (("L" :: n) ++ ";" :: r). rewrite find_in.
      * change (skipn (length ("L" :: n) + 1) (("L" :: n) ++ ";" :: r)) with
          (skipn (length ("L" :: n) + 1) (("L" :: n) ++ [";"] ++ r)).
        rewrite app_assoc. split.
        { rewrite app_length; simpl; lia. }
        rewrite skipn_app, skipn_all2 by (rewrite app_length; simpl; lia).
        rewrite app_length. simpl. rewrite Nat.sub_diag. reflexivity.
      * simpl. intros [|]; [discriminate|tauto].
    + cbn [skipr]. cbn [Ascii.eqb Bool.eqb]. simpl. destruct IH as [I1 I2]. split; [lia|]. exact I2.
    + cbn [skipr]. cbn [Ascii.eqb Bool.eqb]. simpl. destruct IH as [I1 I2]. split; [lia|]. exact I2.
  - revert r'. induction r as [|c r IH]; intros r' [L E]; [simpl in L; lia|].
    cbn [skipr] in *.
    destruct (Ascii.eqb_spec c "[").
    { subst c. constructor. apply IH. simpl in L, E. split; [lia|exact E]. }
    destruct (Ascii.eqb_spec c "L").
    { subst c. destruct (split_semi r) as [(m & q & -> & H)|H].
      - change ("L" :: m ++ ";" :: q) with (("L" :: m) ++ ";" :: q) in *.
        assert (N : ~ In ";" ("L" :: m)) by (simpl; intros [|]; [discriminate|tauto]).
        rewrite find_in in E by assumption. subst r'.
        replace (skipn (length ("L" :: m) + 1) (("L" :: m) ++ ";" :: q)) with q.
        + apply (elem_obj _ q H).
        + change (("L" :: m) ++ ";" :: q) with (("L" :: m) ++ [";"] ++ q). rewrite app_assoc.
          rewrite skipn_app, skipn_all2 by (rewrite app_length; simpl; lia).
          rewrite app_length. simpl. rewrite Nat.sub_diag. reflexivity.
      - rewrite find_none in L by (simpl; intros [|]; [discriminate|tauto]). lia. }
    destruct (Ascii.eqb_spec c "(").
    { subst c. apply elem_par. apply IH. simpl in L, E. split; [lia|exact E]. }
    subst r'. simpl. constructor; assumption.
Qed.

Lemma elem_descr t post : ty_ok t -> elem (descr t ++ post) post.
Proof.
  induction t; simpl; intros H; try (constructor; discriminate).
  - rewrite <- app_assoc. apply (elem_obj _ post). tauto.
  - constructor. auto.
Qed.

(** ** JValuesfromValist *)
Section Narrow.
Variable d2f : Z -> Z.

(** Suffix form of the loop. *)
Lemma JV_suffix fuel pre r l : length r < fuel ->
  JValues_loop d2f fuel (pre ++ r) (length pre) l =
  match r with
  | [] => Ok ([], l)
  | c :: r1 =>
    if Ascii.eqb c ")" then Ok ([], l) else
    let next k v l' := let* (vs, l'') := JValues_loop d2f (fuel - 1) (pre ++ r) (length pre + k) l' in Ok (v :: vs, l'') in
    if Ascii.eqb c "Z" then let* (z, l') := va_int l in next 1 (put 1 z) l'
    else if Ascii.eqb c "B" then let* (z, l') := va_int l in next 1 (put 1 z) l'
    else if Ascii.eqb c "S" then let* (z, l') := va_int l in next 1 (put 2 z) l'
    else if Ascii.eqb c "C" then let* (z, l') := va_int l in next 1 (put 2 z) l'
    else if Ascii.eqb c "I" then let* (z, l') := va_int l in next 1 (put 4 z) l'
    else if Ascii.eqb c "J" then let* (z, l') := va_long l in next 1 (put 8 z) l'
    else if Ascii.eqb c "F" then let* (z, l') := va_double l in next 1 (put 4 (d2f z)) l'
    else if Ascii.eqb c "D" then let* (z, l') := va_double l in next 1 (put 8 z) l'
    else if Ascii.eqb c "[" then let* (z, l') := va_ptr l in next (1 + skipr r1) (put 8 z) l'
    else if Ascii.eqb c "L" then
      if Nat.eqb (find_from ";" r 0) (length r) then Thrown (Err (S_ "Signature missing ';' after 'L'"))
      else let* (z, l') := va_ptr l in next (find_from ";" r 0 + 1) (put 8 z) l'
    else next 1 0%Z l
  end.
Proof.
  intros L. destruct fuel; [lia|]. cbn [JValues_loop]. rewrite rd_app0.
  replace (S fuel - 1) with fuel by lia.
  destruct r as [|c r1].
  - unfold rd. cbn [app nth_error rbind]. rewrite app_nil_r, Nat.eqb_refl, orb_true_r. reflexivity.
  - unfold rd at 1. cbn [app nth_error rbind].
    assert (Nat.eqb (length pre) (length (pre ++ c :: r1)) = false) as ->.
    { apply Nat.eqb_neq. rewrite app_length. simpl. lia. }
    rewrite orb_false_r. destruct (Ascii.eqb c ")"); [reflexivity|].
    destruct (Ascii.eqb c "Z"); [reflexivity|].
    destruct (Ascii.eqb c "B"); [reflexivity|].
    destruct (Ascii.eqb c "S"); [reflexivity|].
    destruct (Ascii.eqb c "C"); [reflexivity|].
    destruct (Ascii.eqb c "I"); [reflexivity|].
    destruct (Ascii.eqb c "J"); [reflexivity|].
    destruct (Ascii.eqb c "F"); [reflexivity|].
    destruct (Ascii.eqb c "D"); [reflexivity|].
    destruct (Ascii.eqb c "[").
    + pose proof (@Skip_suffix (skip_fuel (pre ++ c :: r1)) (pre ++ [c]) r1) as E.
      rewrite <- app_assoc, app_length in E. cbn [app length] in E.
      rewrite E by (unfold skip_fuel; rewrite app_length; simpl; lia). cbn [rbind].
      pose proof (skipr_pos r1).
      replace (length pre + 1 + skipr r1 - 1 + 1) with (length pre + (1 + skipr r1)) by lia. reflexivity.
    + destruct (Ascii.eqb c "L"); [|reflexivity].
      rewrite std_find_app, app_length.
      replace (Nat.eqb (length pre + find_from ";" (c :: r1) 0) (length pre + length (c :: r1))) with
        (Nat.eqb (find_from ";" (c :: r1) 0) (length (c :: r1))).
      * destruct (Nat.eqb (find_from ";" (c :: r1) 0) (length (c :: r1))); [reflexivity|].
        replace (length pre + find_from ";" (c :: r1) 0 + 1) with (length pre + (find_from ";" (c :: r1) 0 + 1)) by lia.
        reflexivity.
      * destruct (Nat.eqb_spec (find_from ";" (c :: r1) 0) (length (c :: r1)));
        destruct (Nat.eqb_spec (length pre + find_from ";" (c :: r1) 0) (length pre + length (c :: r1))); auto; lia.
Qed.

Lemma JV_params f2d ts vs pre post fuel rest :
  Forall ty_ok ts -> length vs = length ts ->
  (forall i t v, nth_error ts i = Some t -> nth_error vs i = Some v -> t = JFloat -> d2f (f2d v) = v) ->
  length (flat_map descr ts ++ ")" :: post) < fuel ->
  JValues_loop d2f fuel (pre ++ flat_map descr ts ++ ")" :: post) (length pre) (promotes f2d ts vs ++ rest)
  = Ok (map (fun p => put (ty_size (fst p)) (snd p)) (combine ts vs), rest).
Proof.
  intros F. revert vs pre fuel. induction F as [|t ts Ht F IH]; intros vs pre fuel LV HF L.
  - destruct vs; [|discriminate]. rewrite JV_suffix by assumption. reflexivity.
  - destruct vs as [|v vs]; [discriminate|]. injection LV as LV.
    assert (HF' : forall i t v, nth_error ts i = Some t -> nth_error vs i = Some v -> t = JFloat -> d2f (f2d v) = v)
      by (intros i; apply (HF (S i))).
    assert (HF0 : t = JFloat -> d2f (f2d v) = v) by (apply (HF 0 t v); reflexivity).
    cbn [flat_map promotes app combine map fst snd].
    rewrite <- app_assoc.
    specialize (IH vs (pre ++ descr t) (fuel - 1) LV HF').
    rewrite <- app_assoc, (app_length pre (descr t)) in IH.
    cbn [flat_map] in L. rewrite <- app_assoc, app_length in L.
    rewrite JV_suffix by (rewrite app_length; exact L).
    assert (0 < length (descr t)) by (destruct t; simpl; lia).
    destruct t; cbn [descr app Ascii.eqb Bool.eqb promote]; cbn [descr length app] in IH, L;
      try (cbn [va_int va_long va_double va_ptr rbind]; rewrite IH by lia; reflexivity).
    + cbn [va_double rbind]. rewrite IH by lia. cbn [rbind]. rewrite HF0 by reflexivity. reflexivity.
    + destruct Ht as [Hn _].
      assert (N : ~ In ";" ("L" :: name)) by (simpl; intros [|]; [discriminate|tauto]).
      assert (E : find_from ";" ("L" :: (name ++ [";"]) ++ flat_map descr ts ++ ")" :: post) 0 = length ("L" :: name)).
      { rewrite <- app_assoc. apply (@find_in ";" ("L" :: name) _ N). }
      rewrite E. destruct (Nat.eqb_spec (length ("L" :: name)) (length ("L" :: (name ++ [";"]) ++ flat_map descr ts ++ ")" :: post))) as [Q|Q].
      { exfalso. simpl in Q. rewrite !app_length in Q. simpl in Q. lia. }
      cbn [va_ptr rbind]. rewrite (app_length name) in IH, L. cbn [length] in *.
      replace (S (length name) + 1) with (S (length name + 1)) by lia. rewrite IH by lia. reflexivity.
    + cbn [va_ptr rbind]. cbn [ty_ok] in Ht.
      destruct (elem_skipr (descr t ++ flat_map descr ts ++ ")" :: post) (flat_map descr ts ++ ")" :: post)) as [ES _].
      destruct (ES (elem_descr _ _ Ht)) as [SL SE].
      assert (SK : skipr (descr t ++ flat_map descr ts ++ ")" :: post) = length (descr t)).
      { apply (f_equal (@length ascii)) in SE. rewrite skipn_length in SE.
        rewrite (app_length (descr t)) in SL, SE. rewrite app_length in SL, SE. lia. }
      rewrite SK. replace (1 + length (descr t)) with (S (length (descr t))) by lia.
      rewrite IH by lia. reflexivity.
Qed.
End Narrow.
