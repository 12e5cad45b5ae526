(** Properties C01-C06: strings. *)
From Verif Require Import Base UtfModel UtfSpec UtfProofs.
Local Open Scope Z_scope.
Set Implicit Arguments.

(** *** C01 NewString round trip *)
Theorem C01_region sgn cs :
  Forall is_unit cs ->
  exists s, NewString sgn cs (Z.of_nat (length cs)) = Ok s /\
    GetStringRegion sgn s 0 (Z.of_nat (length cs)) (length cs) = Ok cs.
Proof.
  intros F. exists (mutf8s cs). split; [apply NewString_spec; assumption|].
  rewrite GetStringRegion_spec; auto.
  - unfold region. simpl. rewrite Nat2Z.id, firstn_all. reflexivity.
  - unfold in_range. lia.
  - lia.
Qed.

Theorem C01_chars sgn cs :
  Forall is_unit cs -> Z.of_nat (length cs) <= 2147483647 ->
  exists s, NewString sgn cs (Z.of_nat (length cs)) = Ok s /\ GetStringChars sgn (Some s) = Ok cs.
Proof. change 2147483647 with jsize_max.
  intros F M. exists (mutf8s cs). split; [apply NewString_spec; assumption|].
  apply GetStringChars_spec; assumption.
Qed.

(** Only the first [size] units of the buffer are used; a negative size gives the empty string. *)
Theorem C01_prefix sgn cs n :
  Forall is_unit cs -> n <= Z.of_nat (length cs) ->
  NewString sgn cs n = NewString sgn (firstn (Z.to_nat n) cs) (Z.of_nat (Z.to_nat n)).
Proof.
  intros F L. rewrite (NewString_prefix sgn F L).
  replace (Z.of_nat (Z.to_nat n)) with (Z.of_nat (length (firstn (Z.to_nat n) cs))).
  - symmetry. apply NewString_spec. apply Forall_firstn'. assumption.
  - rewrite firstn_length. lia.
Qed.

(** Witness: U+0000, an unpaired surrogate, the limits of every length class. *)
Definition demo_units := [0; 65; 127; 128; 2047; 2048; 55296; 57343; 65535].
Example C01_case : Forall is_unit demo_units /\
  NewString true demo_units 9 <> Ok [] /\ Z.of_nat (length demo_units) <= jsize_max.
Proof.
  split; [unfold is_unit, demo_units; repeat constructor; lia|].
  split; [vm_compute; discriminate|vm_compute; discriminate].
Qed.

(** *** C02 lengths *)
Theorem C02_length sgn cs :
  Forall is_unit cs -> Z.of_nat (length (mutf8s cs)) <= 2147483647 ->
  exists s, NewString sgn cs (Z.of_nat (length cs)) = Ok s /\
    GetStringLength sgn (Some s) = Ok (Z.of_nat (length cs)) /\
    GetStringUTFLength (Some s) = Ok (Z.of_nat (length (mutf8s cs))) /\
    GetStringUTFChars (Some s) = mutf8s cs /\
    ~ In NUL (mutf8s cs).
Proof. change 2147483647 with jsize_max.
  intros F M. exists (mutf8s cs). pose proof (mutf8s_len cs).
  repeat split.
  - apply NewString_spec; assumption.
  - apply GetStringLength_spec; [assumption|lia].
  - unfold GetStringUTFLength. rewrite Z.gtb_ltb.
    destruct (Z.ltb_spec jsize_max (Z.of_nat (length (mutf8s cs)))); [lia|reflexivity].
  - apply mutf8s_no_nul; assumption.
Qed.

(** Strings survive a round trip through the UTF functions. *)
Theorem C02_utf_round_trip cs :
  Forall is_unit cs ->
  NewStringUTF (Some (GetStringUTFChars (Some (mutf8s cs)))) = mutf8s cs.
Proof. intros F. simpl. apply c_str_no_nul, mutf8s_no_nul. assumption. Qed.

(** Longer strings are reported, not truncated. *)
Theorem C02_utf_length_overflow s :
  Z.of_nat (length s) > 2147483647 -> GetStringUTFLength (Some s) = Thrown (Err (S_ "String to long, to fit in jsize")).
Proof. change 2147483647 with jsize_max.
  intros H. unfold GetStringUTFLength. rewrite Z.gtb_ltb.
  destruct (Z.ltb_spec jsize_max (Z.of_nat (length s))); [reflexivity|lia].
Qed.

(** The number of units has no such check: a string with more units than a jsize can count overflows it.  (The check for a negative
    length in GetStringLength comes too late, nothing is reported.) *)
Lemma length_loop_overflow sgn cs : Forall is_unit cs -> forall pre fuel n, (length cs < fuel)%nat ->
  0 <= n <= jsize_max -> n + Z.of_nat (length cs) > jsize_max -> length_loop sgn fuel (pre ++ mutf8s cs) (length pre) n = UB.
Proof.
  intros F. induction F as [|x l H F IH]; intros pre fuel n L N M; destruct fuel; cbn [length] in *; try lia.
  simpl mutf8s. cbn [length_loop].
  assert (Nat.eqb (length pre) (length (pre ++ mutf8 x ++ mutf8s l)) = false) as ->.
  { apply Nat.eqb_neq. rewrite !app_length. pose proof (mutf8_len x). lia. }
  destruct (Z.ltb_spec n 0); [lia|]. cbn [orb].
  unfold rbind. rewrite len_app. destruct (dec_unit sgn (mutf8s l) H) as [E _]. rewrite E.
  destruct (Z.eqb_spec n jsize_max); [reflexivity|].
  specialize (IH (pre ++ mutf8 x) fuel (n + 1)). rewrite <- !app_assoc, app_length in IH. apply IH; lia.
Qed.
Theorem C02_length_overflow sgn cs : Forall is_unit cs -> Z.of_nat (length cs) > 2147483647 ->
  GetStringLength sgn (Some (mutf8s cs)) = UB.
Proof. change 2147483647 with jsize_max.
  intros F M. unfold GetStringLength, rbind.
  pose proof (@length_loop_overflow sgn cs F [] (S (length (mutf8s cs))) 0) as E. simpl app in E. simpl length in E. rewrite E; auto.
  - pose proof (mutf8s_len cs). lia.
  - unfold jsize_max. lia.
Qed.
Example C02_length_overflow_case : exists cs, Forall is_unit cs /\ Z.of_nat (length cs) > jsize_max.
Proof.
  exists (repeat 65 (Z.to_nat (jsize_max + 1))). split; [apply Forall_forall; intros x H; apply repeat_spec in H; subst; unfold is_unit; lia|].
  rewrite repeat_length, Z2Nat.id; unfold jsize_max; lia.
Qed.

Theorem C02_null sgn :
  GetStringLength sgn None = Ok 0 /\ GetStringUTFLength None = Ok 0 /\ GetStringUTFChars None = [] /\ GetStringChars sgn None = Ok [0].
Proof. auto. Qed.

Example C02_case : Forall is_unit demo_units /\ Z.of_nat (length (mutf8s demo_units)) = 20.
Proof. split; [apply C01_case|vm_compute; reflexivity]. Qed.

(** *** C03 encoder *)
Theorem C03_encoder c :
  is_unit c -> forall sgn, JCharToUTF sgn c 3 = Ok (mutf8 c) /\
    JCharToUTFLength c = Z.of_nat (length (mutf8 c)).
Proof.
  intros H sgn. pose proof (enc_unit sgn H) as E. split; [assumption|].
  unfold JCharToUTF in E. revert E. unfold JCharToUTFLength.
  destruct (c =? 0); [intros [= E]; rewrite <- E; reflexivity|].
  destruct (Z.land c (128 - 1) =? c); [intros [= E]; rewrite <- E; reflexivity|].
  destruct (Z.land c (Z.shiftl 1 (5 + 6) - 1) =? c); intros [= E]; rewrite <- E; reflexivity.
Qed.

(** A buffer that is too small is reported and nothing is written. *)
Theorem C03_short_buffer c sgn len :
  is_unit c -> len < Z.of_nat (length (mutf8 c)) -> JCharToUTF sgn c len = Thrown (Err (S_ "End of String")).
Proof.
  intros H L. destruct (C03_encoder H sgn) as [_ E]. unfold JCharToUTF. rewrite E.
  rewrite Z.gtb_ltb. destruct (Z.ltb_spec len (Z.of_nat (length (mutf8 c)))); [reflexivity|lia].
Qed.

Theorem C03_decoder c rest :
  is_unit c -> forall sgn, UTFToJChar sgn (mutf8 c ++ rest) 0 = Ok (c, length (mutf8 c)).
Proof. intros H sgn. apply dec_unit. assumption. Qed.

Example C03_case : is_unit 55357 /\ map val (mutf8 55357) = [237; 160; 189].
Proof. split; [unfold is_unit; lia|reflexivity]. Qed.

(** *** C04 regions *)
Theorem C04_region sgn cs start len cap :
  Forall is_unit cs -> in_range cs start len -> (Z.to_nat len <= cap)%nat ->
  GetStringRegion sgn (mutf8s cs) start len cap = Ok (region cs start len).
Proof. apply GetStringRegion_spec. Qed.

Theorem C04_utf_region sgn cs start len cap :
  Forall is_unit cs -> in_range cs start len ->
  (length (mutf8s (region cs start len)) < cap)%nat ->
  GetStringUTFRegion sgn (mutf8s cs) start len cap = Ok (mutf8s (region cs start len) ++ [NUL]).
Proof. apply GetStringUTFRegion_spec. Qed.

(** A buffer that is too small is overrun: the caller must provide the room. *)
Lemma decode_small sgn pre cs post cap : Forall is_unit cs -> (cap < length cs)%nat ->
  decode_units sgn (pre ++ mutf8s cs ++ post) (length cs) cap (length pre) = UB.
Proof.
  intros F. revert pre cap. induction F as [|x l H F IHF]; intros pre cap L; cbn [length] in *; [lia|]. cbn [decode_units]. simpl mutf8s.
  unfold rbind. rewrite dec_app. rewrite <- (app_assoc (mutf8 x)). destruct (dec_unit sgn (mutf8s l ++ post) H) as [_ E]. rewrite E.
  destruct cap as [|cap]; [reflexivity|]. specialize (IHF (pre ++ mutf8 x) cap).
  rewrite <- !app_assoc in IHF. rewrite app_length in IHF. rewrite IHF by lia. reflexivity.
Qed.
Lemma copy_units_app sgn pre cs post n cap : Forall is_unit cs ->
  copy_units sgn (pre ++ mutf8s cs ++ post) (length cs + n) cap (length pre) =
  if (length (mutf8s cs) <=? cap)%nat then
    let* t := copy_units sgn (pre ++ mutf8s cs ++ post) n (cap - length (mutf8s cs)) (length pre + length (mutf8s cs)) in Ok (mutf8s cs ++ t)
  else UB.
Proof.
  intros F. revert pre cap. induction F as [|x l H F IHF]; intros pre cap.
  - simpl. rewrite Nat.add_0_r, Nat.sub_0_r. unfold rbind. destruct (copy_units sgn (pre ++ post) n cap (length pre)); reflexivity.
  - cbn [length Nat.add copy_units]. simpl mutf8s. unfold rbind at 1. rewrite len_app. rewrite <- (app_assoc (mutf8 x)).
    destruct (dec_unit sgn (mutf8s l ++ post) H) as [E _]. rewrite E, app_length.
    destruct (Nat.ltb_spec cap (length (mutf8 x))); [destruct (Nat.leb_spec (length (mutf8 x) + length (mutf8s l)) cap); [lia|reflexivity]|].
    specialize (IHF (pre ++ mutf8 x) (cap - length (mutf8 x))%nat). rewrite <- !app_assoc in IHF. rewrite app_length in IHF. rewrite IHF.
    destruct (Nat.leb_spec (length (mutf8s l)) (cap - length (mutf8 x))), (Nat.leb_spec (length (mutf8 x) + length (mutf8s l)) cap); try lia; [|reflexivity].
    rewrite Nat.add_assoc, Nat.sub_add_distr. unfold rbind. destruct (copy_units sgn _ n _ _); auto.
    f_equal. rewrite <- !app_assoc. rewrite substr_mid. reflexivity.
Qed.
Theorem C04_buffer sgn cs start len cap : Forall is_unit cs -> in_range cs start len -> (cap < Z.to_nat len)%nat ->
  GetStringRegion sgn (mutf8s cs) start len cap = UB.
Proof.
  intros F R C. pose proof R as (R1 & R2 & R3). unfold GetStringRegion, rbind. rewrite skip_start_spec by (auto; lia). destruct (Z.ltb_spec len 0); [lia|].
  rewrite (region_split cs start len) at 1. rewrite !mutf8s_app. rewrite <- (region_length R).
  apply decode_small; [apply region_Forall; assumption|rewrite (region_length R); lia].
Qed.
Theorem C04_utf_buffer sgn cs start len cap : Forall is_unit cs -> in_range cs start len -> (cap <= length (mutf8s (region cs start len)))%nat ->
  GetStringUTFRegion sgn (mutf8s cs) start len cap = UB.
Proof.
  intros F R C. pose proof R as (R1 & R2 & R3). unfold GetStringUTFRegion, rbind at 1. rewrite skip_start_spec by (auto; lia). destruct (Z.ltb_spec len 0); [lia|].
  rewrite (region_split cs start len) at 1. rewrite !mutf8s_app. rewrite <- (region_length R). rewrite <- (Nat.add_0_r (length (region cs start len))).
  rewrite copy_units_app by (apply region_Forall; assumption).
  destruct (Nat.leb_spec (length (mutf8s (region cs start len))) cap); [|reflexivity]. simpl. rewrite app_nil_r.
  destruct (Nat.ltb_spec (length (mutf8s (region cs start len))) cap); [lia|reflexivity].
Qed.
Example C04_buffer_case : in_range demo_units 3 4 /\ length (mutf8s (region demo_units 3 4)) = 10%nat.
Proof. split; [vm_compute; repeat split; discriminate|reflexivity]. Qed.

Example C04_case : in_range demo_units 3 4 /\ region demo_units 3 4 = [128; 2047; 2048; 55296].
Proof. split; [vm_compute; repeat split; discriminate|reflexivity]. Qed.

(** *** C05 arbitrary bytes: no read beyond the terminator, exact classification *)
Theorem C05_length sgn s :
  Z.of_nat (length s) <= 2147483647 ->
  (exists n, units s n /\ GetStringLength sgn (Some s) = Ok (Z.of_nat n))
  \/ ((forall n, ~ units s n) /\ GetStringLength sgn (Some s) = Thrown (Err (S_ "UtfDataFormatError"))).
Proof. change 2147483647 with jsize_max. apply GetStringLength_any. Qed.

Theorem C05_chars sgn s :
  Z.of_nat (length s) <= 2147483647 ->
  (exists us, decodes s us /\ GetStringChars sgn (Some s) = Ok us)
  \/ ((forall us, ~ decodes s us) /\ GetStringChars sgn (Some s) = Thrown (Err (S_ "UtfDataFormatError"))).
Proof. change 2147483647 with jsize_max. apply GetStringChars_any. Qed.

(** The bytes written by NewString are among the well-formed ones. *)
Theorem C05_encoder_wellformed cs : Forall is_unit cs -> decodes (mutf8s cs) cs.
Proof. apply mutf8s_decodes. Qed.

Example C05_case :
  let bad := [byte 228; byte 189] in
  GetStringLength true (Some (NewStringUTF (Some bad))) = Thrown (Err (S_ "UtfDataFormatError")) /\
  GetStringLength true (Some [byte 228; byte 189; byte 160; byte 65]) = Ok 2.
Proof. split; reflexivity. Qed.

(** *** C06 out-of-range regions are NOT reported.  Full statement (false):
    forall cs start len, ~ in_range cs start len -> GetStringRegion reports an error. *)
Theorem C06_refuted :
  exists cs start len cap, Forall is_unit cs /\ ~ in_range cs start len /\ (Z.to_nat len <= cap)%nat /\
    GetStringRegion true (mutf8s cs) start len cap = UB /\
    GetStringUTFRegion true (mutf8s cs) start len cap = UB.
Proof.
  exists [65; 66], 1, 3, 3%nat. repeat split; try (repeat constructor; unfold is_unit; lia).
  unfold in_range. simpl. lia.
Qed.

(** What happens instead, for every out-of-range region: one unit too many returns the
    terminator as U+0000, anything else is undefined; no error is ever reported. *)
Theorem C06_partial sgn cs start len cap :
  Forall is_unit cs -> ~ in_range cs start len -> (Z.to_nat len <= cap)%nat ->
  GetStringRegion sgn (mutf8s cs) start len cap =
    if (0 <=? start) && (0 <=? len) && (start + len =? Z.of_nat (length cs) + 1)
    then Ok (skipn (Z.to_nat start) (cs ++ [0]))
    else UB.
Proof. apply GetStringRegion_oob. Qed.

(** GetStringUTFRegion outside the string: likewise, the terminator is copied as a byte of its own. *)
Theorem C06_utf_partial sgn cs start len cap :
  Forall is_unit cs -> ~ in_range cs start len ->
  GetStringUTFRegion sgn (mutf8s cs) start len cap =
    if (0 <=? start) && (0 <=? len) && (start + len =? Z.of_nat (length cs) + 1)
    then let b := mutf8s (skipn (Z.to_nat start) cs) ++ (if len =? 0 then [] else [NUL]) in
         if (length b <? cap)%nat then Ok (b ++ [NUL]) else UB
    else UB.
Proof.
  intros F R. unfold in_range in R. unfold GetStringUTFRegion.
  assert (PAST : forall n c i, (n > 0)%nat -> (i > length (mutf8s cs))%nat -> copy_units sgn (mutf8s cs) n c i = UB).
  { intros n c i N I. destruct n; [lia|]. cbn [copy_units]. unfold rbind. rewrite len_past by lia. reflexivity. }
  destruct (Z_lt_dec start 0) as [S0|S0].
  { rewrite skip_start_far by auto. destruct (Z.leb_spec 0 start); [lia|]. reflexivity. }
  destruct (Z_gt_dec start (Z.of_nat (length cs) + 1)) as [S1|S1].
  { rewrite skip_start_far by auto. destruct (Z.leb_spec 0 start); [|lia]. destruct (Z.leb_spec 0 len); [|reflexivity].
    destruct (Z.eqb_spec (start + len) (Z.of_nat (length cs) + 1)); [lia|]. reflexivity. }
  destruct (Z.leb_spec 0 start); [|lia].
  destruct (Z.eq_dec start (Z.of_nat (length cs) + 1)) as [S2|S2].
  { subst start. rewrite skip_start_one by assumption. cbn [rbind]. destruct (Z.leb_spec 0 len).
    - destruct (Z.ltb_spec len 0); [lia|]. destruct (Z.eqb_spec (Z.of_nat (length cs) + 1 + len) (Z.of_nat (length cs) + 1)).
      + assert (len = 0) by lia. subst len. cbn [andb Z.eqb]. rewrite skipn_all2 by lia. reflexivity.
      + cbn [andb]. rewrite PAST by lia. reflexivity.
    - destruct (Z.ltb_spec len 0); [|lia]. rewrite PAST by lia. reflexivity. }
  rewrite skip_start_spec by (auto; lia). cbn [rbind]. set (n := Z.to_nat start) in *.
  assert (NL : (n <= length cs)%nat) by (unfold n; lia). assert (SL : length (skipn n cs) = (length cs - n)%nat) by apply skipn_length.
  assert (FS : Forall is_unit (skipn n cs)) by (apply Forall_skipn'; assumption).
  assert (EL : (length (mutf8s (firstn n cs)) + length (mutf8s (skipn n cs)) = length (mutf8s cs))%nat).
  { rewrite (mutf8s_tail cs n), !app_length. simpl. lia. }
  assert (ALL : forall k c, copy_units sgn (mutf8s cs) (length (skipn n cs) + k) c (length (mutf8s (firstn n cs))) =
    if (length (mutf8s (skipn n cs)) <=? c)%nat then
      let* t := copy_units sgn (mutf8s cs) k (c - length (mutf8s (skipn n cs))) (length (mutf8s cs)) in Ok (mutf8s (skipn n cs) ++ t)
    else UB).
  { intros k c. rewrite (mutf8s_tail cs n) at 1. rewrite copy_units_app by assumption. rewrite <- (mutf8s_tail cs n), EL. reflexivity. }
  assert (ONE : forall k c, copy_units sgn (mutf8s cs) (S k) c (length (mutf8s cs)) = if (1 <=? c)%nat then let* t := copy_units sgn (mutf8s cs) k (c - 1) (length (mutf8s cs) + 1) in Ok (NUL :: t) else UB).
  { intros k c. cbn [copy_units]. unfold rbind at 1. rewrite len_end. destruct (Nat.ltb_spec c 1), (Nat.leb_spec 1 c); try lia; [reflexivity|].
    unfold rbind. destruct (copy_units sgn (mutf8s cs) k (c - 1) (length (mutf8s cs) + 1)); auto. f_equal. f_equal.
    pose proof (substr_mid (mutf8s cs) [NUL] []) as Q. cbn [length app] in Q. rewrite Q. reflexivity. }
  assert (FAR : forall m c, (m >= length cs - n + 2)%nat -> copy_units sgn (mutf8s cs) m c (length (mutf8s (firstn n cs))) = UB).
  { intros m c Hm. replace m with (length (skipn n cs) + S (S (m - length (skipn n cs) - 2)))%nat by lia. rewrite ALL, ONE.
    rewrite PAST by lia. destruct (length (mutf8s (skipn n cs)) <=? c)%nat; auto. destruct (1 <=? c - length (mutf8s (skipn n cs)))%nat; reflexivity. }
  pose proof (mutf8s_len cs) as ML.
  destruct (Z.leb_spec 0 len).
  - destruct (Z.ltb_spec len 0); [lia|]. destruct (Z.eqb_spec (start + len) (Z.of_nat (length cs) + 1)).
    + cbn [andb]. destruct (Z.eqb_spec len 0); [lia|]. replace (Z.to_nat len) with (length (skipn n cs) + 1)%nat by (unfold n in *; lia).
      rewrite ALL, ONE. cbn [copy_units]. cbn [rbind]. cbv zeta. rewrite app_length. cbn [length].
      destruct (Nat.leb_spec (length (mutf8s (skipn n cs))) cap); [|destruct (Nat.ltb_spec (length (mutf8s (skipn n cs)) + 1) cap); [lia|reflexivity]].
      destruct (Nat.leb_spec 1 (cap - length (mutf8s (skipn n cs)))); [|destruct (Nat.ltb_spec (length (mutf8s (skipn n cs)) + 1) cap); [lia|reflexivity]].
      cbn [rbind]. rewrite app_length. cbn [length]. reflexivity.
    + cbn [andb]. rewrite FAR by (unfold n in *; lia). reflexivity.
  - destruct (Z.ltb_spec len 0); [|lia]. rewrite FAR by lia. reflexivity.
Qed.
Example C06_utf_case : ~ in_range demo_units 2 20 /\ GetStringUTFRegion true (mutf8s [65; 66]) 1 2 3 = Ok (S_ "B" ++ [NUL; NUL]).
Proof. split; [unfold in_range, demo_units; simpl; lia|reflexivity]. Qed.

Print Assumptions C04_buffer.
Print Assumptions C04_utf_buffer.
Print Assumptions C06_utf_partial.
Print Assumptions C01_region.
Print Assumptions C01_chars.
Print Assumptions C01_prefix.
Print Assumptions C02_length.
Print Assumptions C02_utf_round_trip.
Print Assumptions C03_encoder.
Print Assumptions C04_region.
Print Assumptions C04_utf_region.
Print Assumptions C05_length.
Print Assumptions C05_chars.
Print Assumptions C06_refuted.
Print Assumptions C06_partial.
