(** Field values: C58 for primitive members. *)
From Verif Require Import Base BaseProofs VmState FieldModel.
Set Implicit Arguments.
Unset Strict Implicit.
Local Open Scope Z_scope.

(** * Specification *)
(** The values of a JNI type; floating point values are given by their bits, as are references. *)
Definition value_of (p : pty) (z : Z) : Prop :=
  match p with
  | PtZ => 0 <= z < 2 ^ 8 | PtB => - 2 ^ 7 <= z < 2 ^ 7 | PtC => 0 <= z < 2 ^ 16 | PtS => - 2 ^ 15 <= z < 2 ^ 15
  | PtI => - 2 ^ 31 <= z < 2 ^ 31 | PtJ => - 2 ^ 63 <= z < 2 ^ 63 | PtF => 0 <= z < 2 ^ 32 | PtD => 0 <= z < 2 ^ 64
  end.
(** A bool can only be true or false *)
Definition fits (c : cty) (z : Z) : Prop := match c with CBool => z = 0 \/ z = 1 | CJni p => value_of p z end.
(** The variable behind a field of an object; the same accessor for reading and writing *)
Definition data_member (f : field) (a : access) : Prop := get f = Some a /\ set f = Some a.
(** the object is of the class that has the member; variables need no object *)
Definition reaches (a : access) (x : target) : Prop := match a_place a, x with _, Null => False | Global _, _ => True | Member _, Inst _ => True | Member _, _ => False end.
(** Two accesses to the same variable *)
Definition same_variable (a : access) (x : target) (b : access) (y : target) : Prop :=
  a_place a = a_place b /\ match a_place a with Global _ => True | Member _ => x = y end.

(** * Bytes *)
Lemma bytes_length n z : length (bytes_of n z) = n.
Proof. revert z. induction n; intros; cbn; auto. Qed.
Lemma of_bytes_of n z : of_bytes (bytes_of n z) = z mod 2 ^ (8 * Z.of_nat n).
Proof.
  revert z. induction n as [|n IH]; intros z; cbn [bytes_of of_bytes]; [cbn; rewrite Z.mod_1_r; reflexivity|].
  rewrite IH. replace (8 * Z.of_nat (S n)) with (8 + 8 * Z.of_nat n) by lia. rewrite Z.pow_add_r by lia. change (2 ^ 8) with 256.
  rewrite Z.rem_mul_r by lia. reflexivity.
Qed.
Lemma jvalue_round p z : value_of p z -> jvalue_as p (to_jvalue p z) = z.
Proof.
  intros H. unfold jvalue_as, to_jvalue, overwrite. rewrite firstn_app, bytes_length, Nat.sub_diag, firstn_O, app_nil_r.
  rewrite firstn_all2 by (rewrite bytes_length; lia). unfold decode. rewrite of_bytes_of.
  destruct p; cbn [size_of is_signed andb value_of] in *; try (rewrite Z.mod_small by exact H; reflexivity).
  - change (8 * Z.of_nat 1) with 8. change (8 - 1) with 7. destruct (Z.leb_spec (2 ^ 7) (z mod 2 ^ 8)); destruct (Z_lt_dec z 0).
    + rewrite <- (Z.mod_unique z (2 ^ 8) (-1) (z + 2 ^ 8)) by lia. lia.
    + rewrite Z.mod_small in H0 by lia. lia.
    + rewrite <- (Z.mod_unique z (2 ^ 8) (-1) (z + 2 ^ 8)) in H0 by lia. lia.
    + apply Z.mod_small. lia.
  - change (8 * Z.of_nat 2) with 16. change (16 - 1) with 15. destruct (Z.leb_spec (2 ^ 15) (z mod 2 ^ 16)); destruct (Z_lt_dec z 0).
    + rewrite <- (Z.mod_unique z (2 ^ 16) (-1) (z + 2 ^ 16)) by lia. lia.
    + rewrite Z.mod_small in H0 by lia. lia.
    + rewrite <- (Z.mod_unique z (2 ^ 16) (-1) (z + 2 ^ 16)) in H0 by lia. lia.
    + apply Z.mod_small. lia.
  - change (8 * Z.of_nat 4) with 32. change (32 - 1) with 31. destruct (Z.leb_spec (2 ^ 31) (z mod 2 ^ 32)); destruct (Z_lt_dec z 0).
    + rewrite <- (Z.mod_unique z (2 ^ 32) (-1) (z + 2 ^ 32)) by lia. lia.
    + rewrite Z.mod_small in H0 by lia. lia.
    + rewrite <- (Z.mod_unique z (2 ^ 32) (-1) (z + 2 ^ 32)) in H0 by lia. lia.
    + apply Z.mod_small. lia.
  - change (8 * Z.of_nat 8) with 64. change (64 - 1) with 63. destruct (Z.leb_spec (2 ^ 63) (z mod 2 ^ 64)); destruct (Z_lt_dec z 0).
    + rewrite <- (Z.mod_unique z (2 ^ 64) (-1) (z + 2 ^ 64)) by lia. lia.
    + rewrite Z.mod_small in H0 by lia. lia.
    + rewrite <- (Z.mod_unique z (2 ^ 64) (-1) (z + 2 ^ 64)) in H0 by lia. lia.
    + apply Z.mod_small. lia.
Qed.
(** Every value of every type survives the union jvalue, which always has 8 bytes, zero behind the value. *)
Theorem C58_jvalue p z : value_of p z -> jvalue_as p (to_jvalue p z) = z /\ length (to_jvalue p z) = 8%nat /\ Forall (fun b => 0 <= b < 256) (to_jvalue p z) /\
  skipn (size_of p) (to_jvalue p z) = repeat 0 (8 - size_of p).
Proof.
  intros H. split; [apply jvalue_round; auto|]. unfold to_jvalue, overwrite. rewrite bytes_length. split; [|split].
  - rewrite app_length, bytes_length, skipn_length. destruct p; reflexivity.
  - apply Forall_app. split.
    + generalize (size_of p). intros n. revert z H. intros z _. revert z. induction n; intros z; cbn; constructor; auto. apply Z.mod_pos_bound. lia.
    + destruct p; cbn; repeat constructor; lia.
  - rewrite skipn_app, bytes_length, Nat.sub_diag. rewrite skipn_all2 by (rewrite bytes_length; lia). destruct p; reflexivity.
Qed.

(** * Property C58 *)
Lemma locate_reaches a x : reaches a x -> exists o, locate a x = Ok (a_place a, o) /\ (match a_place a with Global _ => o = O | Member _ => x = Inst o end).
Proof. unfold reaches, locate. destruct (a_place a), x; try contradiction; intros _; eauto. Qed.
Lemma pty_eqb_refl p : pty_eqb p p = true.
Proof. destruct p; reflexivity. Qed.
Lemma read_write pl o z s : read pl o (write pl o z s) = z.
Proof. destruct pl; cbn; unfold upd; rewrite ?Nat.eqb_refl; reflexivity. Qed.
Lemma read_write_other pl o pl' o' z s : (pl <> pl' \/ (exists k, pl = Member k) /\ o <> o') -> read pl' o' (write pl o z s) = read pl' o' s.
Proof.
  intros H. destruct pl as [k|k], pl' as [k'|k']; cbn; unfold upd; auto.
  - destruct (Nat.eqb_spec k' k); auto. destruct H as [H|((j & H) & _)]; congruence.
  - destruct (Nat.eqb_spec o' o); auto. subst. destruct (Nat.eqb_spec k' k); auto. subst. destruct H as [H|(_ & H)]; congruence.
Qed.
(** Setting a field through a data member and getting it returns the value: for every type, every value of the member's type, every
    object, static or not. *)
Theorem C58_round_trip : forall f a x z s, data_member f a -> reaches a x -> fits (a_type a) z ->
  exists s', SetField (jni_type (a_type a)) (static f) x (Some f) z s = Ok s' /\ GetField (jni_type (a_type a)) (static f) x (Some f) s' = Ok z.
Proof.
  intros f a x z s [G S] R F. destruct (locate_reaches R) as (o & L & Ho).
  assert (assign (a_type a) (jvalue_as (jni_type (a_type a)) (to_jvalue (jni_type (a_type a)) z)) = z) as V.
  { destruct (a_type a) as [p|]; cbn [assign jni_type fits] in *; [apply jvalue_round; auto|].
    rewrite jvalue_round by (cbn; lia). destruct F as [-> | ->]; reflexivity. }
  exists (write (a_place a) o z s). unfold SetField, GetField. rewrite G, S, Bool.eqb_reflx, pty_eqb_refl. cbn [negb]. rewrite L, V, read_write. split; [|reflexivity].
  unfold reaches in R. destruct x; auto. destruct (a_place a); contradiction.
Qed.
(** Null IDs and fields without getter or setter: zero, and nothing changes. *)
Theorem C58_null p cls x z s : GetField p cls x None s = Ok 0 /\ SetField p cls x None z s = Ok s /\
  (forall f, get f = None -> GetField p cls x (Some f) s = Ok 0) /\ (forall f, set f = None -> SetField p cls x (Some f) z s = Ok s).
Proof.
  split; [reflexivity|]. split; [destruct x; reflexivity|]. split; intros f H; unfold GetField, SetField; rewrite H; [reflexivity|destruct x; reflexivity].
Qed.
(** What setting does to any other field: nothing, unless it is the same variable. *)
Theorem C58_frame : forall p cls x f a z s s', SetField p cls x (Some f) z s = Ok s' -> set f = Some a -> reaches a x ->
  forall p' cls' y g b, get g = Some b -> ~ same_variable a x b y -> GetField p' cls' y (Some g) s' = GetField p' cls' y (Some g) s.
Proof.
  intros p cls x f a z s s' E S R p' cls' y g b Gb N. destruct (locate_reaches R) as (o & L & Ho). unfold SetField in E. rewrite S in E.
  assert (s' = s \/ exists v, s' = write (a_place a) o v s) as [->|(v & ->)]; [|reflexivity|].
  { destruct x; try (injection E as <-; auto; fail); destruct (negb _); try discriminate; destruct (pty_eqb _ _); try discriminate; rewrite L in E; injection E as <-; eauto. }
  clear E. unfold GetField. rewrite Gb. destruct (negb _); auto. destruct (pty_eqb _ _); auto. destruct (locate b y) as [[pl o']| | | |] eqn:Lb; auto. f_equal.
  apply read_write_other. unfold same_variable in N. unfold locate in Lb. destruct (a_place a) as [k|k] eqn:Pa, (a_place b) as [k'|k'] eqn:Pb.
  - injection Lb as <- <-. left. intros [= ->]. apply N. auto.
  - left. destruct y; try discriminate. injection Lb as <- <-. discriminate.
  - injection Lb as <- <-. left. discriminate.
  - destruct y; try discriminate. injection Lb as <- <-. subst x. destruct (Nat.eq_dec k k') as [->|]; [|left; congruence]. right. split; [eauto|]. intros ->. apply N. auto.
Qed.
(** All outcomes of SetField: nothing for null or without setter; an error for the wrong kind, type or object. *)
Theorem C58_outcomes : forall p cls x f z s,
  (x = Null \/ f = None \/ (exists g, f = Some g /\ set g = None) -> SetField p cls x f z s = Ok s) /\
  (forall g a, f = Some g -> set g = Some a -> x <> Null ->
     (static g <> cls -> SetField p cls x f z s = Abort) /\
     (static g = cls -> jni_type (a_type a) <> p -> SetField p cls x f z s = Thrown (Err (S_ "Mismatched MethodHandle!"))) /\
     (static g = cls -> jni_type (a_type a) = p -> ~ reaches a x -> SetField p cls x f z s = Thrown (Err (S_ "Invalid Reference, Unexpected Type")))).
Proof.
  intros p cls x f z s. split.
  - intros [->|[->|(g & -> & S)]]; unfold SetField; [reflexivity|destruct x; reflexivity|rewrite S; destruct x; reflexivity].
  - intros g a -> S Nx. unfold SetField. rewrite S. split; [|split].
    + intros N. assert (Bool.eqb (static g) cls = false) as -> by (destruct (static g), cls; cbn; congruence). destruct x; try congruence; reflexivity.
    + intros -> N. rewrite Bool.eqb_reflx. assert (pty_eqb (jni_type (a_type a)) p = false) as -> by (destruct (jni_type (a_type a)), p; try congruence; reflexivity). destruct x; try congruence; reflexivity.
    + intros -> <- N. rewrite Bool.eqb_reflx, pty_eqb_refl. cbn [negb]. unfold locate, reaches in *. destruct x; try congruence; destruct (a_place a); try tauto; reflexivity.
Qed.

(** Histories of SetField calls: a field has the value that was set last. *)
Record call := mkC { k_type : pty; k_cls : bool; k_obj : target; k_field : option field; k_value : Z }.
Fixpoint sets (l : list call) (s : store) : res store :=
  match l with
  | [] => Ok s
  | c :: r =>
      match SetField (k_type c) (k_cls c) (k_obj c) (k_field c) (k_value c) s with
      | Ok s' => sets r s'
      | Thrown _ => sets r s  (* the caller handles the exception *)
      | UB => UB | Abort => Abort | Fuel => Fuel
      end
  end.
(** [c] assigns to the variable of access [a] on [x] *)
Definition assigns (c : call) (a : access) (x : target) : Prop :=
  exists g b, k_field c = Some g /\ set g = Some b /\ same_variable b (k_obj c) a x.
Theorem C58_history : forall l f a x z s s1 s2, data_member f a -> reaches a x -> fits (a_type a) z ->
  SetField (jni_type (a_type a)) (static f) x (Some f) z s = Ok s1 -> (forall c, In c l -> ~ assigns c a x) -> sets l s1 = Ok s2 ->
  GetField (jni_type (a_type a)) (static f) x (Some f) s2 = Ok z.
Proof.
  intros l f a x z s s1 s2 D R F E N Ex. destruct (C58_round_trip s D R F) as (s' & E' & Gt). rewrite E in E'. injection E' as <-. clear E. revert s1 Ex Gt.
  induction l as [|c l IH]; intros s1 Ex Gt; [injection Ex as <-; exact Gt|]. cbn [sets] in Ex.
  destruct (SetField (k_type c) (k_cls c) (k_obj c) (k_field c) (k_value c) s1) as [s'| | | |] eqn:E; try discriminate; [|apply (IH (fun d H => N d (or_intror H)) _ Ex Gt)].
  apply (IH (fun d H => N d (or_intror H)) _ Ex). rewrite <- Gt.
  destruct (k_field c) as [g|] eqn:Kf; [|unfold SetField in E; destruct (k_obj c); injection E as <-; reflexivity].
  destruct (set g) as [b|] eqn:Sg; [|unfold SetField in E; rewrite Sg in E; destruct (k_obj c); injection E as <-; reflexivity].
  assert (k_obj c = Null \/ reaches b (k_obj c)) as [Q|Rb].
  { unfold SetField in E. rewrite Sg in E. unfold reaches. destruct (k_obj c); auto; right; destruct (negb _); try discriminate; destruct (pty_eqb _ _); try discriminate;
    unfold locate in E; destruct (a_place b); auto; discriminate. }
  - rewrite Q in E. injection E as <-. reflexivity.
  - apply (@C58_frame _ _ _ _ b _ _ _ E Sg Rb _ _ _ _ a (proj1 D)). intros S. apply (N c (or_introl eq_refl)). exists g, b. auto.
Qed.
(** A member of C++ type bool keeps only whether the value is zero: other jboolean values do not come back. *)
Theorem C58_bool : forall f pl x z s, data_member f (mkA pl CBool) -> reaches (mkA pl CBool) x -> value_of PtZ z ->
  exists s', SetField PtZ (static f) x (Some f) z s = Ok s' /\ GetField PtZ (static f) x (Some f) s' = Ok (if z =? 0 then 0 else 1).
Proof.
  intros f pl x z s [G S] R V. destruct (locate_reaches R) as (o & L & Ho). cbn [a_place] in *.
  exists (write pl o (if z =? 0 then 0 else 1) s). unfold SetField, GetField. rewrite G, S, Bool.eqb_reflx. cbn [negb a_type jni_type pty_eqb assign]. rewrite L, read_write, (jvalue_round V). split; [|reflexivity].
  unfold reaches in R. destruct x; auto. cbn [a_place] in R. destruct pl; contradiction.
Qed.

(** * Examples *)
Definition s0 : store := mkS (fun _ => 0) (fun _ _ => 0).
Definition f_int := mkF false (Some (mkA (Member 1) (CJni PtI))) (Some (mkA (Member 1) (CJni PtI))).
Definition f_bool := mkF true (Some (mkA (Global 4) CBool)) (Some (mkA (Global 4) CBool)).
Example C58_case : (exists s1 s2, SetField PtI false (Inst 3) (Some f_int) (- 2 ^ 31) s0 = Ok s1 /\
    sets [mkC PtI false (Inst 2) (Some f_int) 7; mkC PtZ true Clazz (Some f_bool) 1; mkC PtZ false (Inst 3) (Some f_int) 1; mkC PtI false (Alien 3) (Some f_int) 1] s1 = Ok s2 /\
    GetField PtI false (Inst 3) (Some f_int) s2 = Ok (- 2 ^ 31) /\ GetField PtI false (Inst 2) (Some f_int) s2 = Ok 7 /\ GetField PtZ true Clazz (Some f_bool) s2 = Ok 1) /\
  to_jvalue PtI (- 2 ^ 31) = [0; 0; 0; 128; 0; 0; 0; 0] /\ to_jvalue PtS (-2) = [254; 255; 0; 0; 0; 0; 0; 0].
Proof. split; [do 2 eexists; repeat split; reflexivity|split; reflexivity]. Qed.
Example C58_bool_case : exists s1, SetField PtZ true Clazz (Some f_bool) 2 s0 = Ok s1 /\ GetField PtZ true Clazz (Some f_bool) s1 = Ok 1.
Proof. eexists. split; reflexivity. Qed.

Print Assumptions C58_jvalue.
Print Assumptions C58_round_trip.
Print Assumptions C58_frame.
Print Assumptions C58_outcomes.
Print Assumptions C58_history.
Print Assumptions C58_bool.
Print Assumptions C58_null.
