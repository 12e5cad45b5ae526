(** Lemmas about [Base]. *)
From Verif Require Import Base.
Set Implicit Arguments.

(** ** Reading through a prefix *)
Lemma rd_app pre s k : rd (pre ++ s) (length pre + k) = rd s k.
Proof.
  unfold rd. rewrite <- app_assoc. rewrite nth_error_app2 by lia.
  replace (length pre + k - length pre)%nat with k by lia. reflexivity.
Qed.

Lemma rd_app0 pre s : rd (pre ++ s) (length pre) = rd s 0.
Proof. rewrite <- (rd_app pre s 0). f_equal. lia. Qed.

Lemma str_eqb_eq a b : str_eqb a b = true -> a = b.
Proof.
  revert b. induction a; destruct b; simpl; try discriminate; auto.
  rewrite andb_true_iff. intros [H1 H2]. apply Ascii.eqb_eq in H1. f_equal; auto.
Qed.

Lemma str_eqb_refl a : str_eqb a a = true.
Proof. induction a; simpl; auto. rewrite Ascii.eqb_refl. auto. Qed.


Lemma str_eqb_spec a b : reflect (a = b) (str_eqb a b).
Proof.
  destruct (str_eqb a b) eqn:E; constructor.
  - apply str_eqb_eq. assumption.
  - intros ->. rewrite str_eqb_refl in E. discriminate.
Qed.
