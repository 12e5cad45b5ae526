From Verif Require Import Base BaseProofs UtfModel UtfSpec.
Local Open Scope Z_scope.
Set Implicit Arguments.

Lemma len_app sgn pre s :
  UTFToJCharLength sgn (pre ++ s) (length pre) = UTFToJCharLength sgn s 0.
Proof.
  unfold UTFToJCharLength. rewrite rd_app0, !rd_app. reflexivity.
Qed.

Lemma dec_app sgn pre s :
  UTFToJChar sgn (pre ++ s) (length pre) = UTFToJChar sgn s 0.
Proof.
  unfold UTFToJChar. rewrite len_app, rd_app0, !rd_app. reflexivity.
Qed.

(** ** Small exhaustive facts *)
Fixpoint zrange (n : nat) (z : Z) : list Z :=
  match n with O => [] | S n' => z :: zrange n' (z + 1) end.

Lemma zrange_in n z c : z <= c < z + Z.of_nat n -> In c (zrange n z).
Proof.
  revert z. induction n; intros z H; simpl; [lia|].
  destruct (Z.eq_dec z c); [left; assumption|right]. apply IHn. lia.
Qed.

(** ** Arbitrary bytes *)
Definition dec_class (sgn : bool) (b : ascii) : bool :=
  let v := val b in
  Bool.eqb (Z.land (c2i sgn b) 128 =? 0) (v <? 128) &&
  Bool.eqb (Z.land (c2i sgn b) 224 =? 192) ((192 <=? v) && (v <? 224)) &&
  Bool.eqb (Z.land (c2i sgn b) 240 =? 224) ((224 <=? v) && (v <? 240)) &&
  Bool.eqb (Z.land (c2i sgn b) 192 =? 128) ((128 <=? v) && (v <? 192)).

Definition all_bytes : list ascii := map (fun z => byte z) (zrange 256 0).
Lemma all_bytes_in b : In b all_bytes.
Proof.
  unfold all_bytes. apply in_map_iff. exists (val b). split.
  - unfold byte, val. rewrite N2Z.id. apply ascii_N_embedding.
  - apply zrange_in. unfold val. pose proof (N_ascii_bounded b). lia.
Qed.
Lemma dec_class_all : forallb (fun b => dec_class true b && dec_class false b) all_bytes = true.
Proof. vm_compute. reflexivity. Qed.
Lemma dec_class_ok sgn b : dec_class sgn b = true.
Proof.
  pose proof dec_class_all as E. rewrite forallb_forall in E. specialize (E b (all_bytes_in b)).
  apply andb_true_iff in E. destruct sgn; tauto.
Qed.

Lemma class128 sgn b : (Z.land (c2i sgn b) 128 =? 0) = (val b <? 128).
Proof. pose proof (dec_class_ok sgn b) as H. unfold dec_class in H. rewrite !andb_true_iff in H.
  apply eqb_prop. tauto. Qed.
Lemma class224 sgn b : (Z.land (c2i sgn b) 224 =? 192) = ((192 <=? val b) && (val b <? 224)).
Proof. pose proof (dec_class_ok sgn b) as H. unfold dec_class in H. rewrite !andb_true_iff in H.
  apply eqb_prop. tauto. Qed.
Lemma class240 sgn b : (Z.land (c2i sgn b) 240 =? 224) = ((224 <=? val b) && (val b <? 240)).
Proof. pose proof (dec_class_ok sgn b) as H. unfold dec_class in H. rewrite !andb_true_iff in H.
  apply eqb_prop. tauto. Qed.
Lemma class192 sgn b : (Z.land (c2i sgn b) 192 =? 128) = ((128 <=? val b) && (val b <? 192)).
Proof. pose proof (dec_class_ok sgn b) as H. unfold dec_class in H. rewrite !andb_true_iff in H.
  apply eqb_prop. tauto. Qed.

Definition contb (b : ascii) : bool := (128 <=? val b) && (val b <? 192).
Lemma contb_iff b : contb b = true <-> cont b.
Proof. unfold contb, cont. rewrite andb_true_iff, Z.leb_le, Z.ltb_lt. tauto. Qed.

Definition hd_ (s : str) : ascii := match s with [] => NUL | a :: _ => a end.

(** Result of looking at a suffix [r] of the string. *)
Definition unit_at (r : str) : option nat :=
  match r with
  | [] => Some 1%nat
  | a :: r1 =>
    if val a <? 128 then Some 1%nat
    else if (192 <=? val a) && (val a <? 224) then if contb (hd_ r1) then Some 2%nat else None
    else if (224 <=? val a) && (val a <? 240) then
      if contb (hd_ r1) then if contb (hd_ (tl r1)) then Some 3%nat else None else None
    else None
  end.

Lemma len_suffix sgn r :
  UTFToJCharLength sgn r 0 = match unit_at r with Some k => Ok k | None => bad_utf end.
Proof.
  unfold UTFToJCharLength, unit_at, rd.
  destruct r as [|a r1]; [destruct sgn; reflexivity|].
  cbn [app nth_error rbind]. rewrite class128, class224, class240.
  destruct (val a <? 128); [reflexivity|].
  destruct ((192 <=? val a) && (val a <? 224)).
  - destruct r1 as [|b r2]; cbn [app nth_error rbind Nat.add hd_]; rewrite class192; fold (contb NUL) || idtac.
    + reflexivity.
    + fold (contb b). destruct (contb b); reflexivity.
  - destruct ((224 <=? val a) && (val a <? 240)); [|reflexivity].
    destruct r1 as [|b r2]; cbn [app nth_error rbind Nat.add hd_ tl]; rewrite class192.
    + reflexivity.
    + fold (contb b). destruct (contb b); [|reflexivity]. cbn [negb].
      destruct r2 as [|d r3]; cbn [app nth_error rbind Nat.add hd_ tl]; rewrite class192.
      * reflexivity.
      * fold (contb d). destruct (contb d); reflexivity.
Qed.

Lemma unit_at_bound a r1 k : unit_at (a :: r1) = Some k -> (1 <= k <= length (a :: r1))%nat.
Proof.
  unfold unit_at. destruct (val a <? 128); [intros [= <-]; simpl; lia|].
  destruct ((192 <=? val a) && (val a <? 224)).
  - destruct r1; simpl; [discriminate|]. destruct (contb a0); [intros [= <-]; lia|discriminate].
  - destruct ((224 <=? val a) && (val a <? 240)); [|discriminate].
    destruct r1 as [|b [|d r]]; simpl; try discriminate.
    + destruct (contb b); discriminate.
    + destruct (contb b); [|discriminate]. destruct (contb d); [intros [= <-]; lia|discriminate].
Qed.

Definition low_ok (sgn : bool) (b : ascii) : bool :=
  (Z.land (c2i sgn b) 31 =? val b mod 32) && (Z.land (c2i sgn b) 15 =? val b mod 16) &&
  (Z.land (c2i sgn b) 63 =? val b mod 64) && (negb (val b <? 128) || (to_jchar (c2i sgn b) =? val b)).
Lemma low_all : forallb (fun b => low_ok true b && low_ok false b) all_bytes = true.
Proof. vm_compute. reflexivity. Qed.
Lemma low_spec sgn b :
  Z.land (c2i sgn b) 31 = val b mod 32 /\ Z.land (c2i sgn b) 15 = val b mod 16 /\
  Z.land (c2i sgn b) 63 = val b mod 64 /\ (val b < 128 -> to_jchar (c2i sgn b) = val b).
Proof.
  pose proof low_all as E. rewrite forallb_forall in E. specialize (E b (all_bytes_in b)).
  apply andb_true_iff in E.
  assert (L : low_ok sgn b = true) by (destruct sgn; tauto).
  unfold low_ok in L. rewrite !andb_true_iff, !Z.eqb_eq, orb_true_iff, negb_true_iff, Z.eqb_eq, Z.ltb_ge in L.
  intuition lia.
Qed.

Lemma lor_add x y n : 0 <= n -> 0 <= y < 2 ^ n -> Z.lor (x * 2 ^ n) y = x * 2 ^ n + y.
Proof.
  intros N H.
  assert (L : Z.land (x * 2 ^ n) y = 0).
  { apply Z.bits_inj'. intros k K. rewrite Z.land_spec, Z.bits_0.
    destruct (Z_lt_dec k n).
    - rewrite Z.mul_pow2_bits_low by lia. reflexivity.
    - rewrite <- (Z.mod_small y (2 ^ n)) by lia. rewrite Z.mod_pow2_bits_high by lia.
      apply andb_false_r. }
  rewrite <- Z.lxor_lor by assumption. symmetry. apply Z.add_nocarry_lxor. assumption.
Qed.
Lemma lor2 x y : 0 <= x < 32 -> 0 <= y < 64 -> Z.lor (Z.shiftl x 6) y = x * 64 + y.
Proof. intros. rewrite Z.shiftl_mul_pow2 by lia. apply lor_add; lia. Qed.
Lemma lor3 x y z : 0 <= x < 16 -> 0 <= y < 64 -> 0 <= z < 64 ->
  Z.lor (Z.lor (Z.shiftl x 12) (Z.shiftl y 6)) z = x * 4096 + y * 64 + z.
Proof.
  intros. rewrite !Z.shiftl_mul_pow2 by lia.
  rewrite (@lor_add x (y * 2 ^ 6) 12) by lia.
  replace (x * 2 ^ 12 + y * 2 ^ 6) with ((x * 64 + y) * 2 ^ 6) by lia.
  rewrite lor_add by lia. lia.
Qed.

Definition uval (r : str) : Z :=
  match r with
  | [] => 0
  | a :: r1 =>
    if val a <? 128 then val a
    else if val a <? 224 then (val a - 192) * 64 + (val (hd_ r1) - 128)
    else (val a - 224) * 4096 + (val (hd_ r1) - 128) * 64 + (val (hd_ (tl r1)) - 128)
  end.

Lemma mod_sub v m k : 0 < m -> m * k <= v < m * k + m -> v mod m = v - m * k.
Proof. intros. symmetry. apply Z.mod_unique with k; lia. Qed.

Lemma dec_suffix sgn a r1 k :
  unit_at (a :: r1) = Some k -> UTFToJChar sgn (a :: r1) 0 = Ok (uval (a :: r1), k).
Proof.
  intros E. unfold UTFToJChar, rbind. rewrite len_suffix, E.
  unfold unit_at in E. unfold uval.
  destruct (low_spec sgn a) as (A1 & A2 & A3 & A4).
  destruct (Z.ltb_spec (val a) 128).
  { injection E as <-. unfold rd; cbn [app nth_error]. rewrite A4 by lia. reflexivity. }
  destruct (Z.leb_spec 192 (val a)); destruct (Z.ltb_spec (val a) 224); cbn [andb] in E;
  destruct (Z.leb_spec 224 (val a)); destruct (Z.ltb_spec (val a) 240); cbn [andb] in E; try discriminate; try lia.
  - destruct r1 as [|b r]; cbn [hd_] in *; [discriminate|]. destruct (contb b) eqn:B; [|discriminate].
    injection E as <-. apply contb_iff in B. unfold cont in B.
    destruct (low_spec sgn b) as (B1 & B2 & B3 & B4).
    unfold rd; cbn [app nth_error Nat.add]. rewrite A1, B3.
    rewrite (@mod_sub (val a) 32 6), (@mod_sub (val b) 64 2) by lia.
    rewrite lor2 by lia. unfold to_jchar. rewrite Z.mod_small by lia. repeat f_equal; try lia.
  - destruct r1 as [|b [|d r]]; cbn [hd_ tl] in *; try discriminate.
    { destruct (contb b); discriminate. }
    destruct (contb b) eqn:B; [|discriminate]. destruct (contb d) eqn:D; [|discriminate].
    injection E as <-. apply contb_iff in B, D. unfold cont in B, D.
    destruct (low_spec sgn b) as (B1 & B2 & B3 & B4). destruct (low_spec sgn d) as (D1 & D2 & D3 & D4).
    unfold rd; cbn [app nth_error Nat.add]. rewrite A2, B3, D3.
    rewrite (@mod_sub (val a) 16 14), (@mod_sub (val b) 64 2), (@mod_sub (val d) 64 2) by lia.
    rewrite lor3 by lia. unfold to_jchar. rewrite Z.mod_small by lia. repeat f_equal; try lia.
Qed.

(** ** One unit *)
Lemma val_byte z : 0 <= z < 256 -> val (byte z) = z.
Proof. intros. unfold val, byte. rewrite N_ascii_embedding by lia. lia. Qed.

Definition marker_ok (sgn : bool) (k n y : Z) : bool :=
  Ascii.eqb (i2c (Z.lor (charlit sgn k) y)) (byte (k + y)).
Lemma marker_all : forallb (fun sgn =>
    forallb (marker_ok sgn 192 32) (zrange 32 0) && forallb (marker_ok sgn 128 64) (zrange 64 0) &&
    forallb (marker_ok sgn 224 16) (zrange 16 0)) [true; false] = true.
Proof. vm_compute. reflexivity. Qed.
Lemma marker sgn : 
  (forall y, 0 <= y < 32 -> i2c (Z.lor (charlit sgn 192) y) = byte (192 + y)) /\
  (forall y, 0 <= y < 64 -> i2c (Z.lor (charlit sgn 128) y) = byte (128 + y)) /\
  (forall y, 0 <= y < 16 -> i2c (Z.lor (charlit sgn 224) y) = byte (224 + y)).
Proof.
  pose proof marker_all as E. rewrite forallb_forall in E.
  specialize (E sgn ltac:(destruct sgn; simpl; auto)).
  rewrite !andb_true_iff, !forallb_forall in E. destruct E as [[E1 E2] E3].
  repeat split; intros y Hy; apply Ascii.eqb_eq.
  - apply (E1 y), zrange_in; lia.
  - apply (E2 y), zrange_in; lia.
  - apply (E3 y), zrange_in; lia.
Qed.

Lemma land_mask c n : 0 <= n -> Z.land c (2 ^ n - 1) = c mod 2 ^ n.
Proof. intros. replace (2 ^ n - 1) with (Z.ones n) by (rewrite Z.ones_equiv; lia). apply Z.land_ones. lia. Qed.

Lemma enc_unit sgn c : is_unit c -> JCharToUTF sgn c 3 = Ok (mutf8 c).
Proof.
  intros H. unfold is_unit in H. unfold JCharToUTF, JCharToUTFLength, mutf8.
  destruct (marker sgn) as (M1 & M2 & M3).
  change (128 - 1) with (2 ^ 7 - 1). change (Z.shiftl 1 (5 + 6) - 1) with (2 ^ 11 - 1).
  change 31 with (2 ^ 5 - 1). change 63 with (2 ^ 6 - 1). change 15 with (2 ^ 4 - 1).
  rewrite !land_mask by lia. rewrite !Z.shiftr_div_pow2 by lia.
  change (2 ^ 7) with 128. change (2 ^ 11) with 2048. change (2 ^ 5) with 32.
  change (2 ^ 6) with 64. change (2 ^ 4) with 16. change (2 ^ 12) with 4096.
  pose proof (Z.mod_pos_bound c 64 ltac:(lia)).
  pose proof (Z.mod_pos_bound (c / 64) 32 ltac:(lia)).
  pose proof (Z.mod_pos_bound (c / 64) 64 ltac:(lia)).
  pose proof (Z.mod_pos_bound (c / 4096) 16 ltac:(lia)).
  destruct (Z.eqb_spec c 0).
  { subst c. simpl Z.gtb. cbn [Z.eqb Pos.eqb]. rewrite M1, M2 by lia. reflexivity. }
  destruct (Z.eqb_spec (c mod 128) c) as [E|E].
  { pose proof (Z.mod_pos_bound c 128 ltac:(lia)).
    destruct (Z.leb_spec 1 c); [|lia]. destruct (Z.leb_spec c 127); [|lia].
    simpl. unfold i2c, byte. rewrite Z.mod_small by lia. reflexivity. }
  assert (c >= 128). { destruct (Z_lt_dec c 128); [|lia]. rewrite Z.mod_small in E by lia. lia. }
  destruct (Z.leb_spec c 127); [lia|]. rewrite andb_false_r.
  destruct (Z.eqb_spec (c mod 2048) c) as [E2|E2].
  { pose proof (Z.mod_pos_bound c 2048 ltac:(lia)).
    destruct (Z.leb_spec c 2047); [|lia]. cbn [Z.gtb Z.compare Pos.compare Pos.compare_cont Z.eqb Pos.eqb].
    rewrite M1, M2 by lia. rewrite (Z.mod_small (c / 64)); [reflexivity|].
    split; [apply Z.div_pos; lia|apply Z.div_lt_upper_bound; lia]. }
  assert (c >= 2048). { destruct (Z_lt_dec c 2048); [|lia]. rewrite Z.mod_small in E2 by lia. lia. }
  destruct (Z.leb_spec c 2047); [lia|]. cbn [Z.gtb Z.compare Pos.compare Pos.compare_cont Z.eqb Pos.eqb].
  rewrite M3, !M2 by lia. rewrite (Z.mod_small (c / 4096)); [reflexivity|].
  split; [apply Z.div_pos; lia|apply Z.div_lt_upper_bound; lia].
Qed.

Lemma mutf8_len c : (1 <= length (mutf8 c) <= 3)%nat.
Proof.
  unfold mutf8. destruct ((1 <=? c) && (c <=? 127)); [simpl; lia|].
  destruct (c <=? 2047); simpl; lia.
Qed.

Lemma mutf8_scan c post : is_unit c ->
  unit_at (mutf8 c ++ post) = Some (length (mutf8 c)) /\ uval (mutf8 c ++ post) = c.
Proof.
  intros H. unfold is_unit in H. unfold mutf8.
  pose proof (Z.mod_pos_bound c 64 ltac:(lia)).
  pose proof (Z.mod_pos_bound (c / 64) 64 ltac:(lia)).
  assert (D1 : c = 64 * (c / 64) + c mod 64) by (apply Z.div_mod; lia).
  assert (D2 : c / 64 = 64 * (c / 4096) + (c / 64) mod 64).
  { replace (c / 4096) with (c / 64 / 64) by (rewrite Z.div_div by lia; reflexivity). apply Z.div_mod; lia. }
  assert (0 <= c / 64) by (apply Z.div_pos; lia).
  assert (0 <= c / 4096) by (apply Z.div_pos; lia).
  destruct (Z.leb_spec 1 c); destruct (Z.leb_spec c 127); cbn [andb];
  [|destruct (Z.leb_spec c 2047)..]; cbn [app unit_at uval hd_ tl length]; unfold contb;
  rewrite !val_byte by lia.
  - destruct (Z.ltb_spec c 128); [auto|lia].
  - destruct (Z.ltb_spec (192 + c / 64) 128); [lia|].
    destruct (Z.leb_spec 192 (192 + c / 64)); [|lia]. destruct (Z.ltb_spec (192 + c / 64) 224); [|lia].
    destruct (Z.leb_spec 128 (128 + c mod 64)); [|lia]. destruct (Z.ltb_spec (128 + c mod 64) 192); [|lia].
    split; [reflexivity|lia].
  - destruct (Z.ltb_spec (224 + c / 4096) 128); [lia|].
    destruct (Z.ltb_spec (224 + c / 4096) 224); [lia|]. rewrite andb_false_r.
    destruct (Z.leb_spec 224 (224 + c / 4096)); [|lia]. destruct (Z.ltb_spec (224 + c / 4096) 240); [|lia].
    destruct (Z.leb_spec 128 (128 + c mod 64)); [|lia]. destruct (Z.ltb_spec (128 + c mod 64) 192); [|lia].
    destruct (Z.leb_spec 128 (128 + (c / 64) mod 64)); [|lia]. destruct (Z.ltb_spec (128 + (c / 64) mod 64) 192); [|lia].
    split; [reflexivity|lia].
  - assert (c = 0) by lia. subst c. split; reflexivity.
  - lia.
  - lia.
  - lia.
Qed.

Lemma dec_unit sgn c post :
  is_unit c ->
  UTFToJCharLength sgn (mutf8 c ++ post) 0 = Ok (length (mutf8 c)) /\
  UTFToJChar sgn (mutf8 c ++ post) 0 = Ok (c, length (mutf8 c)).
Proof.
  intros H. destruct (mutf8_scan post H) as [E1 E2].
  split; [rewrite len_suffix, E1; reflexivity|].
  destruct (mutf8 c ++ post) as [|a r] eqn:Q.
  { apply (f_equal (@length _)) in Q. rewrite app_length in Q. pose proof (mutf8_len c). simpl in Q. lia. }
  rewrite (dec_suffix sgn _ _ E1), E2. reflexivity.
Qed.

Lemma mutf8_no_nul c : is_unit c -> ~ In NUL (mutf8 c).
Proof.
  intros H HI. unfold is_unit in H.
  assert (N : forall z, 1 <= z < 256 -> byte z <> NUL).
  { intros z Z E. apply (f_equal val) in E. rewrite val_byte in E by lia. change (val NUL) with 0 in E. lia. }
  pose proof (Z.mod_pos_bound c 64 ltac:(lia)).
  pose proof (Z.mod_pos_bound (c / 64) 64 ltac:(lia)).
  assert (0 <= c / 64) by (apply Z.div_pos; lia).
  assert (0 <= c / 4096 < 16) by (split; [apply Z.div_pos; lia|apply Z.div_lt_upper_bound; lia]).
  unfold mutf8 in HI. 
  destruct (Z.leb_spec 1 c); destruct (Z.leb_spec c 127); cbn [andb] in HI;
  [|destruct (Z.leb_spec c 2047)..]; cbn [In] in HI;
  repeat match goal with H : _ \/ _ |- _ => destruct H end; try contradiction;
  match goal with H : byte ?z = NUL |- _ => revert H; apply N end; try lia;
  assert (c / 64 < 32) by (apply Z.div_lt_upper_bound; lia); lia.
Qed.

(** ** NewString *)
Lemma NewString_loop_spec sgn cs :
  Forall is_unit cs -> NewString_loop sgn cs (length cs) = Ok (mutf8s cs).
Proof.
  induction 1; [reflexivity|].
  simpl. unfold rbind. rewrite enc_unit by assumption. rewrite IHForall. reflexivity.
Qed.

Lemma NewString_spec sgn cs :
  Forall is_unit cs -> NewString sgn cs (Z.of_nat (length cs)) = Ok (mutf8s cs).
Proof. intros. unfold NewString. rewrite Nat2Z.id. apply NewString_loop_spec; assumption. Qed.

Lemma NewString_loop_prefix sgn cs n :
  Forall is_unit cs -> (n <= length cs)%nat ->
  NewString_loop sgn cs n = Ok (mutf8s (firstn n cs)).
Proof.
  revert n. induction cs as [|c cs IH]; intros n F L; destruct n; try reflexivity; simpl in *; try lia.
  inversion F; subst. unfold rbind. rewrite enc_unit by assumption.
  rewrite IH by (auto; lia). reflexivity.
Qed.

Lemma NewString_prefix sgn cs n :
  Forall is_unit cs -> n <= Z.of_nat (length cs) ->
  NewString sgn cs n = Ok (mutf8s (firstn (Z.to_nat n) cs)).
Proof. intros. unfold NewString. apply NewString_loop_prefix; [assumption|lia]. Qed.

Lemma mutf8s_app a b : mutf8s (a ++ b) = mutf8s a ++ mutf8s b.
Proof. apply flat_map_app. Qed.

Lemma mutf8s_no_nul cs : Forall is_unit cs -> ~ In NUL (mutf8s cs).
Proof.
  induction 1; simpl; [tauto|]. rewrite in_app_iff. intros [A|A]; [|tauto].
  eapply mutf8_no_nul; eassumption.
Qed.

Lemma mutf8s_len cs : (length cs <= length (mutf8s cs))%nat.
Proof.
  induction cs; simpl; [lia|]. rewrite app_length. pose proof (mutf8_len a). lia.
Qed.

(** ** Walking over encoded units *)
Lemma skip_units_spec sgn pre cs post :
  Forall is_unit cs ->
  skip_units sgn (pre ++ mutf8s cs ++ post) (length cs) (length pre)
  = Ok (length (pre ++ mutf8s cs)).
Proof.
  intros F. revert pre. induction F; intros pre; simpl.
  - rewrite app_nil_r. reflexivity.
  - unfold rbind. rewrite len_app. rewrite <- (app_assoc (mutf8 x)).
    destruct (dec_unit sgn (mutf8s l ++ post) H) as [E _]. rewrite E.
    specialize (IHF (pre ++ mutf8 x)).
    rewrite <- !app_assoc in IHF. rewrite app_length in IHF. rewrite IHF. reflexivity.
Qed.

Lemma decode_units_spec sgn pre cs post cap :
  Forall is_unit cs -> (length cs <= cap)%nat ->
  decode_units sgn (pre ++ mutf8s cs ++ post) (length cs) cap (length pre) = Ok cs.
Proof.
  intros F. revert pre cap. induction F; intros pre cap L; simpl; [reflexivity|].
  unfold rbind. rewrite dec_app. rewrite <- (app_assoc (mutf8 x)).
  destruct (dec_unit sgn (mutf8s l ++ post) H) as [_ E]. rewrite E.
  simpl in L. destruct cap as [|cap]; [lia|].
  specialize (IHF (pre ++ mutf8 x) cap).
  rewrite <- !app_assoc in IHF. rewrite app_length in IHF. rewrite IHF by lia. reflexivity.
Qed.

Lemma substr_mid (a b c : str) : substr (a ++ b ++ c) (length a) (length a + length b) = b.
Proof.
  unfold substr. replace (length a + length b - length a)%nat with (length b) by lia.
  rewrite skipn_app, skipn_all, Nat.sub_diag. simpl.
  rewrite firstn_app, firstn_all, Nat.sub_diag. simpl. apply app_nil_r.
Qed.

Lemma copy_units_spec sgn pre cs post cap :
  Forall is_unit cs -> (length (mutf8s cs) <= cap)%nat ->
  copy_units sgn (pre ++ mutf8s cs ++ post) (length cs) cap (length pre) = Ok (mutf8s cs).
Proof.
  intros F. revert pre cap. induction F; intros pre cap L; simpl; [reflexivity|].
  unfold rbind. rewrite len_app. rewrite <- (app_assoc (mutf8 x)).
  destruct (dec_unit sgn (mutf8s l ++ post) H) as [E _]. rewrite E.
  simpl in L. rewrite app_length in L.
  destruct (Nat.ltb_spec cap (length (mutf8 x))); [lia|].
  specialize (IHF (pre ++ mutf8 x) (cap - length (mutf8 x))%nat).
  rewrite <- !app_assoc in IHF. rewrite app_length in IHF. rewrite IHF by lia.
  rewrite <- !app_assoc. rewrite substr_mid. reflexivity.
Qed.

Lemma length_loop_spec sgn pre cs fuel n :
  Forall is_unit cs -> (length cs < fuel)%nat ->
  0 <= n -> n + Z.of_nat (length cs) <= jsize_max ->
  length_loop sgn fuel (pre ++ mutf8s cs) (length pre) n = Ok (n + Z.of_nat (length cs)).
Proof.
  intros F. revert pre fuel n. induction F; intros pre fuel n L N M; destruct fuel; simpl in L; try lia.
  - simpl. rewrite app_nil_r, Nat.eqb_refl. simpl. f_equal. lia.
  - simpl mutf8s. simpl length_loop.
    assert (Nat.eqb (length pre) (length (pre ++ mutf8 x ++ mutf8s l)) = false) as ->.
    { apply Nat.eqb_neq. rewrite !app_length. pose proof (mutf8_len x). lia. }
    destruct (Z.ltb_spec n 0); [lia|]. simpl.
    unfold rbind. rewrite len_app. destruct (dec_unit sgn (mutf8s l) H) as [E _]. rewrite E.
    simpl length in M. rewrite Nat2Z.inj_succ in M.
    destruct (Z.eqb_spec n jsize_max); [lia|].
    specialize (IHF (pre ++ mutf8 x) fuel (n + 1)).
    rewrite <- !app_assoc in IHF. rewrite app_length in IHF. rewrite IHF by lia.
    f_equal. simpl length. lia.
Qed.

Lemma GetStringLength_spec sgn cs :
  Forall is_unit cs -> Z.of_nat (length cs) <= jsize_max ->
  GetStringLength sgn (Some (mutf8s cs)) = Ok (Z.of_nat (length cs)).
Proof.
  intros F M. unfold GetStringLength.
  pose proof (@length_loop_spec sgn [] cs (S (length (mutf8s cs))) 0 F) as E.
  simpl app in E. simpl length in E. unfold rbind. rewrite E.
  - destruct (Z.ltb_spec (0 + Z.of_nat (length cs)) 0); [lia|]. f_equal; lia.
  - pose proof (mutf8s_len cs). lia.
  - lia.
  - lia.
Qed.

Lemma skip_start_spec sgn cs start :
  Forall is_unit cs -> 0 <= start -> start <= Z.of_nat (length cs) ->
  skip_start sgn (mutf8s cs) start = Ok (length (mutf8s (firstn (Z.to_nat start) cs))).
Proof.
  intros F S0 S1. unfold skip_start. destruct (Z.ltb_spec start 0); [lia|].
  rewrite <- (firstn_skipn (Z.to_nat start) cs) at 1. rewrite mutf8s_app.
  assert (F1 : Forall is_unit (firstn (Z.to_nat start) cs)).
  { rewrite <- (firstn_skipn (Z.to_nat start) cs) in F. apply Forall_app in F. tauto. }
  pose proof (skip_units_spec sgn [] (mutf8s (skipn (Z.to_nat start) cs)) F1) as E.
  rewrite firstn_length in E. replace (Nat.min (Z.to_nat start) (length cs)) with (Z.to_nat start) in E by lia.
  exact E.
Qed.

Lemma region_split {A} (cs : list A) start len :
  cs = firstn (Z.to_nat start) cs ++ region cs start len
       ++ skipn (Z.to_nat len) (skipn (Z.to_nat start) cs).
Proof. unfold region. rewrite firstn_skipn. rewrite firstn_skipn. reflexivity. Qed.

Lemma region_length {A} (cs : list A) start len :
  in_range cs start len -> length (region cs start len) = Z.to_nat len.
Proof.
  intros (H1 & H2 & H3). unfold region. rewrite firstn_length, skipn_length. lia.
Qed.

Lemma region_Forall (P : Z -> Prop) cs start len :
  Forall P cs -> Forall P (region cs start len).
Proof.
  intros F. rewrite (region_split cs start len) in F. rewrite !Forall_app in F. tauto.
Qed.

Lemma GetStringRegion_spec sgn cs start len cap :
  Forall is_unit cs -> in_range cs start len -> (Z.to_nat len <= cap)%nat ->
  GetStringRegion sgn (mutf8s cs) start len cap = Ok (region cs start len).
Proof.
  intros F R C. pose proof R as (R1 & R2 & R3). unfold GetStringRegion, rbind.
  rewrite skip_start_spec by (auto; lia).
  destruct (Z.ltb_spec len 0); [lia|].
  rewrite (region_split cs start len) at 1. rewrite !mutf8s_app.
  rewrite <- (region_length R).
  apply decode_units_spec; [apply region_Forall; assumption|rewrite (region_length R); lia].
Qed.

Lemma GetStringUTFRegion_spec sgn cs start len cap :
  Forall is_unit cs -> in_range cs start len ->
  (length (mutf8s (region cs start len)) < cap)%nat ->
  GetStringUTFRegion sgn (mutf8s cs) start len cap = Ok (mutf8s (region cs start len) ++ [NUL]).
Proof.
  intros F R C. pose proof R as (R1 & R2 & R3). unfold GetStringUTFRegion, rbind.
  rewrite skip_start_spec by (auto; lia).
  destruct (Z.ltb_spec len 0); [lia|].
  rewrite (region_split cs start len) at 1. rewrite !mutf8s_app.
  rewrite <- (region_length R).
  rewrite copy_units_spec; [|apply region_Forall; assumption|lia].
  destruct (Nat.ltb_spec (length (mutf8s (region cs start len))) cap); [reflexivity|lia].
Qed.

Lemma GetStringChars_spec sgn cs :
  Forall is_unit cs -> Z.of_nat (length cs) <= jsize_max ->
  GetStringChars sgn (Some (mutf8s cs)) = Ok cs.
Proof.
  intros F M. unfold GetStringChars, rbind. rewrite GetStringLength_spec by assumption.
  rewrite GetStringRegion_spec; auto.
  - unfold region. simpl. rewrite Nat2Z.id. rewrite firstn_all. reflexivity.
  - unfold in_range; lia.
Qed.

Lemma c_str_no_nul s : ~ In NUL s -> c_str s = s.
Proof.
  induction s; simpl; [reflexivity|]. intros H.
  destruct (Ascii.eqb_spec a NUL); [subst; tauto|]. f_equal. tauto.
Qed.

Lemma units_step a r1 n :
  units (a :: r1) (S n) <->
  exists k, unit_at (a :: r1) = Some k /\ units (skipn k (a :: r1)) n.
Proof.
  unfold unit_at. split.
  - intros U. inversion U; subst; unfold lead1, lead2, lead3 in *.
    + destruct (Z.ltb_spec (val a) 128); [|lia]. exists 1%nat. auto.
    + destruct (Z.ltb_spec (val a) 128); [lia|].
      destruct (Z.leb_spec 192 (val a)); [|lia]. destruct (Z.ltb_spec (val a) 224); [|lia].
      simpl. apply contb_iff in H3. rewrite H3. exists 2%nat. auto.
    + destruct (Z.ltb_spec (val a) 128); [lia|].
      destruct (Z.ltb_spec (val a) 224); [lia|]. rewrite andb_false_r.
      destruct (Z.leb_spec 224 (val a)); [|lia]. destruct (Z.ltb_spec (val a) 240); [|lia].
      simpl. apply contb_iff in H3, H4. rewrite H3, H4. exists 3%nat. auto.
  - intros (k & E & U).
    destruct (Z.ltb_spec (val a) 128). { injection E as <-. constructor; assumption. }
    destruct (Z.leb_spec 192 (val a)); destruct (Z.ltb_spec (val a) 224); simpl in E;
    destruct (Z.leb_spec 224 (val a)); destruct (Z.ltb_spec (val a) 240); simpl in E; try discriminate; try lia.
    + destruct r1 as [|b r]; simpl in E; [discriminate|]. destruct (contb b) eqn:B; [|discriminate].
      injection E as <-. apply units_2; [split; assumption|apply contb_iff; assumption|exact U].
    + destruct r1 as [|b [|d r]]; simpl in E; try discriminate.
      * destruct (contb b); discriminate.
      * destruct (contb b) eqn:B; [|discriminate]. destruct (contb d) eqn:D; [|discriminate].
        injection E as <-. apply units_3; [split; assumption|apply contb_iff; assumption|apply contb_iff; assumption|exact U].
Qed.

Lemma units_det s n m : units s n -> units s m -> n = m.
Proof.
  intros U. revert m. induction U; intros m V; inversion V; subst;
    unfold lead1, lead2, lead3 in *; try lia; f_equal; auto.
Qed.

Lemma units_skip_le (s : str) k : (k <= length s)%nat -> s = firstn k s ++ skipn k s /\ length (firstn k s) = k.
Proof. intros. split; [symmetry; apply firstn_skipn|]. rewrite firstn_length. lia. Qed.

Lemma units_le s n : units s n -> (n <= length s)%nat.
Proof. induction 1; simpl; lia. Qed.

(** The walk on arbitrary content: it ends with the number of units, or throws, and never
    leaves the buffer. *)
Lemma length_loop_any sgn fuel pre r n :
  (length r < fuel)%nat -> 0 <= n -> n + Z.of_nat (length r) <= jsize_max ->
  (exists m, units r m /\ length_loop sgn fuel (pre ++ r) (length pre) n = Ok (n + Z.of_nat m))
  \/ ((forall m, ~ units r m) /\ length_loop sgn fuel (pre ++ r) (length pre) n = bad_utf).
Proof.
  revert pre r n. induction fuel; intros pre r n L N M; [lia|].
  simpl. destruct r as [|a r1].
  - rewrite app_nil_r, Nat.eqb_refl. left. exists 0%nat. split; [constructor|]. simpl. f_equal. lia.
  - assert (Nat.eqb (length pre) (length (pre ++ a :: r1)) = false) as ->.
    { apply Nat.eqb_neq. rewrite app_length. simpl. lia. }
    destruct (Z.ltb_spec n 0); [lia|]. simpl. unfold rbind. rewrite len_app, len_suffix.
    destruct (unit_at (a :: r1)) as [k|] eqn:E.
    + pose proof (unit_at_bound _ _ E) as B.
      assert (M' : n <> jsize_max) by (simpl length in M; lia).
      destruct (Z.eqb_spec n jsize_max); [contradiction|].
      destruct (units_skip_le (a :: r1) (k:=k)) as [S1 S2]; [lia|].
      assert (LS : (length (skipn k (a :: r1)) + k = length (a :: r1))%nat) by (rewrite skipn_length; lia).
      specialize (IHfuel (pre ++ firstn k (a :: r1)) (skipn k (a :: r1)) (n + 1)).
      destruct IHfuel as [(m & U & Q)|(U & Q)]; try lia.
      * left. exists (S m). split; [apply units_step; eauto|].
        rewrite <- app_assoc, <- S1 in Q. rewrite app_length, S2 in Q. rewrite Q. f_equal. lia.
      * right. split.
        { intros m U'. destruct m; [inversion U'|]. apply units_step in U'.
          destruct U' as (k' & E' & U'). rewrite E in E'. injection E' as <-. exact (U _ U'). }
        rewrite <- app_assoc, <- S1 in Q. rewrite app_length, S2 in Q. exact Q.
    + right. split; [|reflexivity]. intros m U'. destruct m; [inversion U'|].
      apply units_step in U'. destruct U' as (k' & E' & _). congruence.
Qed.

Lemma GetStringLength_any sgn s :
  Z.of_nat (length s) <= jsize_max ->
  (exists n, units s n /\ GetStringLength sgn (Some s) = Ok (Z.of_nat n))
  \/ ((forall n, ~ units s n) /\ GetStringLength sgn (Some s) = bad_utf).
Proof.
  intros M. unfold GetStringLength.
  destruct (@length_loop_any sgn (S (length s)) [] s 0) as [(m & U & E)|(U & E)]; try lia;
  simpl app in E; simpl length in E; unfold rbind; rewrite E.
  - left. exists m. split; [assumption|]. destruct (Z.ltb_spec (0 + Z.of_nat m) 0); [lia|]. f_equal.
  - right. auto.
Qed.

(** Out-of-range regions run off the buffer. *)
Lemma len_past sgn s i : (i > length s)%nat -> UTFToJCharLength sgn s i = UB.
Proof.
  intros H. unfold UTFToJCharLength, rd.
  assert (nth_error (s ++ [NUL]) i = None) as ->; [|reflexivity].
  apply nth_error_None. rewrite app_length. simpl. lia.
Qed.
Lemma len_end sgn s : UTFToJCharLength sgn s (length s) = Ok 1%nat.
Proof. rewrite <- (app_nil_r s) at 1. rewrite len_app. destruct sgn; reflexivity. Qed.
Lemma dec_past sgn s i : (i > length s)%nat -> UTFToJChar sgn s i = UB.
Proof. intros. unfold UTFToJChar, rbind. rewrite len_past by assumption. reflexivity. Qed.
Lemma dec_end sgn s : UTFToJChar sgn s (length s) = Ok (0, 1%nat).
Proof. rewrite <- (app_nil_r s) at 1. rewrite dec_app. destruct sgn; reflexivity. Qed.

Lemma skip_past sgn s n : (n >= 2)%nat -> skip_units sgn s n (length s) = UB.
Proof.
  intros. destruct n as [|[|n]]; try lia. cbn [skip_units]. unfold rbind. rewrite len_end, len_past by lia.
  reflexivity.
Qed.

Lemma skip_units_app sgn s n m cur :
  skip_units sgn s (n + m) cur = rbind (skip_units sgn s n cur) (skip_units sgn s m).
Proof.
  revert cur. induction n; intros; simpl; [reflexivity|].
  unfold rbind. destruct (UTFToJCharLength sgn s cur); auto. apply IHn.
Qed.

Lemma skip_all sgn cs : Forall is_unit cs ->
  skip_units sgn (mutf8s cs) (length cs) 0 = Ok (length (mutf8s cs)).
Proof.
  intros F. pose proof (skip_units_spec sgn [] [] F) as E. simpl in E. rewrite !app_nil_r in E. exact E.
Qed.

Lemma decode_past sgn s n cap : (n >= 2)%nat -> decode_units sgn s n cap (length s) = UB.
Proof.
  intros. destruct n as [|[|n]]; try lia. cbn [decode_units]. unfold rbind. rewrite dec_end.
  destruct cap; [reflexivity|]. cbn [decode_units]. unfold rbind. rewrite dec_past by lia. reflexivity.
Qed.

Lemma decode_units_app_UB sgn pre cs post n cap :
  Forall is_unit cs ->
  decode_units sgn (pre ++ mutf8s cs ++ post) n (cap - length cs) (length pre + length (mutf8s cs)) = UB ->
  decode_units sgn (pre ++ mutf8s cs ++ post) (length cs + n) cap (length pre) = UB.
Proof.
  intros F. revert pre cap. induction F; intros pre cap Q; simpl in *.
  - rewrite Nat.add_0_r in Q. rewrite Nat.sub_0_r in Q. exact Q.
  - unfold rbind. rewrite dec_app. rewrite <- (app_assoc (mutf8 x)).
    destruct (dec_unit sgn (mutf8s l ++ post) H) as [_ E]. rewrite E.
    destruct cap as [|cap]; [reflexivity|].
    specialize (IHF (pre ++ mutf8 x) cap).
    rewrite <- !app_assoc in IHF, Q. rewrite !app_length in IHF. rewrite IHF; [reflexivity|].
    rewrite app_length in Q.
    replace (length pre + length (mutf8 x) + length (mutf8s l))%nat
      with (length pre + (length (mutf8 x) + length (mutf8s l)))%nat by lia.
    exact Q.
Qed.

Lemma decode_units_app sgn pre cs post n cap :
  Forall is_unit cs -> (length cs <= cap)%nat ->
  decode_units sgn (pre ++ mutf8s cs ++ post) (length cs + n) cap (length pre) =
  let* t := decode_units sgn (pre ++ mutf8s cs ++ post) n (cap - length cs) (length pre + length (mutf8s cs)) in
  Ok (cs ++ t).
Proof.
  intros F. revert pre cap. induction F; intros pre cap L.
  - simpl. rewrite Nat.add_0_r, Nat.sub_0_r. unfold rbind.
    destruct (decode_units sgn (pre ++ post) n cap (length pre)); reflexivity.
  - cbn [length Nat.add decode_units]. simpl mutf8s. unfold rbind at 1. rewrite dec_app. rewrite <- (app_assoc (mutf8 x)).
    destruct (dec_unit sgn (mutf8s l ++ post) H) as [_ E]. rewrite E.
    simpl in L. destruct cap as [|cap]; [lia|].
    specialize (IHF (pre ++ mutf8 x) cap).
    rewrite <- !app_assoc in IHF. rewrite !app_length in IHF. rewrite IHF by lia.
    rewrite app_length. rewrite Nat.add_assoc. cbn [Nat.sub].
    unfold rbind. destruct (decode_units sgn _ n (cap - length l) _); reflexivity.
Qed.

Lemma mutf8s_tail cs n : mutf8s cs = mutf8s (firstn n cs) ++ mutf8s (skipn n cs) ++ [].
Proof. rewrite app_nil_r, <- mutf8s_app, firstn_skipn. reflexivity. Qed.

Lemma Forall_skipn' (P : Z -> Prop) cs n : Forall P cs -> Forall P (skipn n cs).
Proof. intros F. rewrite <- (firstn_skipn n cs) in F. apply Forall_app in F. tauto. Qed.
Lemma Forall_firstn' (P : Z -> Prop) cs n : Forall P cs -> Forall P (firstn n cs).
Proof. intros F. rewrite <- (firstn_skipn n cs) in F. apply Forall_app in F. tauto. Qed.

Lemma skip_start_far sgn cs start :
  Forall is_unit cs -> start < 0 \/ start > Z.of_nat (length cs) + 1 ->
  skip_start sgn (mutf8s cs) start = UB.
Proof.
  intros F H. unfold skip_start. pose proof (skip_all sgn F) as A.
  pose proof (mutf8s_len cs) as L.
  assert (B : forall k, (k >= length cs + 2)%nat -> skip_units sgn (mutf8s cs) k 0 = UB).
  { intros k K. replace k with (length cs + (k - length cs))%nat by lia.
    rewrite skip_units_app, A. simpl rbind. apply skip_past. lia. }
  destruct (Z.ltb_spec start 0).
  - rewrite B by lia. reflexivity.
  - apply B. lia.
Qed.

Lemma skip_start_one sgn cs :
  Forall is_unit cs ->
  skip_start sgn (mutf8s cs) (Z.of_nat (length cs) + 1) = Ok (length (mutf8s cs) + 1)%nat.
Proof.
  intros F. unfold skip_start. destruct (Z.ltb_spec (Z.of_nat (length cs) + 1) 0); [lia|].
  replace (Z.to_nat (Z.of_nat (length cs) + 1)) with (length cs + 1)%nat by lia.
  rewrite skip_units_app, skip_all by assumption. simpl rbind. cbn [skip_units]. unfold rbind.
  rewrite len_end. reflexivity.
Qed.

(** What GetStringRegion really does outside the string. *)
Lemma GetStringRegion_oob sgn cs start len cap :
  Forall is_unit cs -> ~ in_range cs start len ->
  (Z.to_nat len <= cap)%nat ->
  GetStringRegion sgn (mutf8s cs) start len cap =
    if (0 <=? start) && (0 <=? len) && (start + len =? Z.of_nat (length cs) + 1)
    then Ok (skipn (Z.to_nat start) (cs ++ [0]))
    else UB.
Proof.
  intros F R C. unfold in_range in R. unfold GetStringRegion.
  destruct (Z_lt_dec start 0) as [S0|S0].
  { rewrite skip_start_far by auto. destruct (Z.leb_spec 0 start); [lia|]. reflexivity. }
  destruct (Z_gt_dec start (Z.of_nat (length cs) + 1)) as [S1|S1].
  { rewrite skip_start_far by auto. destruct (Z.leb_spec 0 start); [|lia].
    destruct (Z.leb_spec 0 len); [|reflexivity].
    destruct (Z.eqb_spec (start + len) (Z.of_nat (length cs) + 1)); [lia|]. reflexivity. }
  destruct (Z.leb_spec 0 start); [|lia].
  destruct (Z.eq_dec start (Z.of_nat (length cs) + 1)) as [S2|S2].
  { subst start. rewrite skip_start_one by assumption. simpl rbind.
    assert (P : forall n, (n > 0)%nat -> decode_units sgn (mutf8s cs) n cap (length (mutf8s cs) + 1) = UB).
    { intros n N. destruct n; [lia|]. cbn [decode_units]. unfold rbind. rewrite dec_past by lia. reflexivity. }
    destruct (Z.leb_spec 0 len).
    - destruct (Z.ltb_spec len 0); [lia|].
      destruct (Z.eqb_spec (Z.of_nat (length cs) + 1 + len) (Z.of_nat (length cs) + 1)).
      + assert (len = 0) by lia. subst len. simpl.
        rewrite skipn_all2; [reflexivity|]. rewrite app_length. simpl. lia.
      + simpl. apply P. lia.
    - destruct (Z.ltb_spec len 0); [|lia]. rewrite P by lia. reflexivity. }
  rewrite skip_start_spec by (auto; lia). simpl rbind.
  set (n := Z.to_nat start) in *.
  assert (NL : (n <= length cs)%nat) by (unfold n; lia).
  assert (SL : length (skipn n cs) = (length cs - n)%nat) by apply skipn_length.
  assert (FS : Forall is_unit (skipn n cs)) by (apply Forall_skipn'; assumption).
  assert (EL : (length (mutf8s (firstn n cs)) + length (mutf8s (skipn n cs)) = length (mutf8s cs))%nat).
  { rewrite (mutf8s_tail cs n), !app_length. simpl. lia. }
  assert (FAR : forall m, (m >= length cs - n + 2)%nat ->
     decode_units sgn (mutf8s cs) m cap (length (mutf8s (firstn n cs))) = UB).
  { intros m Hm. rewrite (mutf8s_tail cs n).
    replace m with (length (skipn n cs) + (m - length (skipn n cs)))%nat by lia.
    apply decode_units_app_UB; [assumption|]. rewrite <- (mutf8s_tail cs n), EL.
    apply decode_past. lia. }
  destruct (Z.leb_spec 0 len).
  - destruct (Z.ltb_spec len 0); [lia|].
    destruct (Z.eqb_spec (start + len) (Z.of_nat (length cs) + 1)).
    + simpl. replace (Z.to_nat len) with (length (skipn n cs) + 1)%nat by (unfold n in *; lia).
      rewrite (mutf8s_tail cs n). rewrite decode_units_app; [|assumption|unfold n in *; lia].
      rewrite <- (mutf8s_tail cs n), EL. cbn [decode_units]. unfold rbind. rewrite dec_end.
      destruct (cap - length (skipn n cs))%nat eqn:E; [unfold n in *; lia|].
      rewrite skipn_app. replace (n - length cs)%nat with 0%nat by lia. reflexivity.
    + simpl. apply FAR. unfold n in *; lia.
  - destruct (Z.ltb_spec len 0); [|lia]. rewrite FAR; [reflexivity|].
    pose proof (mutf8s_len cs). lia.
Qed.

(** ** Decoding arbitrary content *)
Lemma decodes_step a r1 us :
  decodes (a :: r1) us <->
  exists k us', unit_at (a :: r1) = Some k /\ us = uval (a :: r1) :: us' /\ decodes (skipn k (a :: r1)) us'.
Proof.
  unfold unit_at, uval. split.
  - intros U. inversion U; subst; unfold lead1, lead2, lead3 in *.
    + destruct (Z.ltb_spec (val a) 128); [|lia]. exists 1%nat. eauto.
    + destruct (Z.ltb_spec (val a) 128); [lia|].
      destruct (Z.leb_spec 192 (val a)); [|lia]. destruct (Z.ltb_spec (val a) 224); [|lia].
      simpl. match goal with H : cont _ |- _ => apply contb_iff in H; rewrite H end. exists 2%nat. eauto.
    + destruct (Z.ltb_spec (val a) 128); [lia|].
      destruct (Z.ltb_spec (val a) 224); [lia|]. rewrite andb_false_r.
      destruct (Z.leb_spec 224 (val a)); [|lia]. destruct (Z.ltb_spec (val a) 240); [|lia].
      simpl. repeat match goal with H : cont _ |- _ => apply contb_iff in H; rewrite H end. exists 3%nat. eauto.
  - intros (k & us' & E & -> & U).
    destruct (Z.ltb_spec (val a) 128). { injection E as <-. constructor; assumption. }
    destruct (Z.leb_spec 192 (val a)); destruct (Z.ltb_spec (val a) 224); simpl in E;
    destruct (Z.leb_spec 224 (val a)); destruct (Z.ltb_spec (val a) 240); simpl in E; try discriminate; try lia.
    + destruct r1 as [|b r]; simpl in E; [discriminate|]. destruct (contb b) eqn:B; [|discriminate].
      injection E as <-. apply dec_2; [split; assumption|apply contb_iff; assumption|exact U].
    + destruct r1 as [|b [|d r]]; simpl in E; try discriminate.
      * destruct (contb b); discriminate.
      * destruct (contb b) eqn:B; [|discriminate]. destruct (contb d) eqn:D; [|discriminate].
        injection E as <-. apply dec_3; [split; assumption|apply contb_iff; assumption|apply contb_iff; assumption|exact U].
Qed.

Lemma decodes_units s us : decodes s us -> units s (length us).
Proof. induction 1; simpl; eauto using units. Qed.

Lemma units_decodes s n : units s n -> exists us, decodes s us /\ length us = n.
Proof.
  induction 1.
  - exists []. split; constructor.
  - destruct IHunits as (us & D & L). eexists. split; [apply dec_1; eauto|]. simpl. lia.
  - destruct IHunits as (us & D & L). eexists. split; [apply dec_2; eauto|]. simpl. lia.
  - destruct IHunits as (us & D & L). eexists. split; [apply dec_3; eauto|]. simpl. lia.
Qed.

Lemma decode_units_any sgn pre r us cap :
  decodes r us -> (length us <= cap)%nat ->
  decode_units sgn (pre ++ r) (length us) cap (length pre) = Ok us.
Proof.
  revert pre r cap. induction us as [|u us IH]; intros pre r cap D L; [reflexivity|].
  destruct r as [|a r1]; [inversion D|].
  apply decodes_step in D. destruct D as (k & us' & E & Q & D). injection Q as -> <-.
  cbn [length decode_units]. unfold rbind. rewrite dec_app, (dec_suffix sgn _ _ E).
  simpl in L. destruct cap as [|cap]; [lia|].
  pose proof (unit_at_bound _ _ E) as B.
  destruct (units_skip_le (a :: r1) (k:=k)) as [S1 S2]; [lia|].
  specialize (IH (pre ++ firstn k (a :: r1)) (skipn k (a :: r1)) cap D).
  rewrite <- app_assoc, <- S1 in IH. rewrite app_length, S2 in IH. rewrite IH by lia. reflexivity.
Qed.

Lemma GetStringChars_any sgn s :
  Z.of_nat (length s) <= jsize_max ->
  (exists us, decodes s us /\ GetStringChars sgn (Some s) = Ok us)
  \/ ((forall us, ~ decodes s us) /\ GetStringChars sgn (Some s) = bad_utf).
Proof.
  intros M. unfold GetStringChars.
  destruct (@GetStringLength_any sgn s M) as [(n & U & E)|(U & E)]; rewrite E.
  - left. destruct (units_decodes U) as (us & D & L). exists us. split; [assumption|].
    cbn [rbind]. unfold GetStringRegion, skip_start. cbn [Z.ltb Z.compare Z.to_nat skip_units rbind].
    destruct (Z.ltb_spec (Z.of_nat n) 0); [lia|]. rewrite Nat2Z.id, <- L.
    apply (@decode_units_any sgn [] s us); [assumption|lia].
  - right. split; [|reflexivity]. intros us D. exact (U _ (decodes_units D)).
Qed.

Lemma mutf8_decodes c : is_unit c -> forall s us, decodes s us -> decodes (mutf8 c ++ s) (c :: us).
Proof.
  intros H s us D.
  pose proof (dec_unit true s H) as [L E]. rewrite len_suffix in L.
  destruct (mutf8 c ++ s) as [|a r] eqn:M.
  { destruct (mutf8 c) eqn:Q; [pose proof (mutf8_len c); rewrite Q in *; simpl in *; lia|discriminate]. }
  apply decodes_step. destruct (unit_at (a :: r)) as [k|] eqn:Uk; [|discriminate].
  exists k, us. rewrite (dec_suffix true _ _ Uk) in E.
  assert (E1 : uval (a :: r) = c) by congruence. assert (E2 : k = length (mutf8 c)) by congruence.
  split; [reflexivity|]. split; [congruence|]. rewrite <- M, E2, skipn_app, skipn_all, Nat.sub_diag.
  exact D.
Qed.
Lemma mutf8s_decodes cs : Forall is_unit cs -> decodes (mutf8s cs) cs.
Proof. induction 1; simpl; [constructor|]. apply mutf8_decodes; assumption. Qed.
