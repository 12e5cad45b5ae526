(** Small programs used by the examples of the Props files. *)
From Verif Require Import Base VmState VmModel VmStep.
Set Implicit Arguments.

(** user classes: 0 : Object; 1 : Extends<0>; 2 : Extends<1>; 3 : Extends<Object>; 4 : Extends<1, 3>; others: Object *)
Definition demo_bases (n : nat) : option (list (option nat)) :=
  match n with
  | 1 => Some [Some 0]
  | 2 => Some [Some 1]
  | 3 => Some [None]
  | 4 => Some [Some 1; Some 3]
  | _ => None
  end.
(** default build: debug, asserts on, classes are created on demand *)
Definition Gd : cfg := mkCfg true false false true demo_bases.
(** VM(..., ReturnNull = true) *)
Definition Gn : cfg := mkCfg true false true true demo_bases.
(** JNI_DEBUG off, NDEBUG *)
Definition Gr : cfg := mkCfg false true false true demo_bases.

Definition main := 1.
Definition start (G : cfg) : st := init_vm G main.
(** state after a program and its observations *)
Definition after (G : cfg) (l : list event) : st :=
  match exec G l (start G) with Some (_, s) => s | None => empty_vm end.
Definition seen (G : cfg) (l : list event) : list obs :=
  match exec G l (start G) with Some (v, _) => v | None => [] end.
Definition runs (G : cfg) (l : list event) : bool :=
  match exec G l (start G) with Some _ => true | None => false end.

Lemma after_reachable G l : runs G l = true -> reachable G main (after G l).
Proof.
  unfold runs, after, reachable, start. destruct (exec G l (init_vm G main)) as [[vs s]|] eqn:E; [|discriminate].
  intros _. exists l, vs. auto.
Qed.
Lemma after_exec G l : runs G l = true -> exec G l (start G) = Some (seen G l, after G l).
Proof. unfold runs, after, seen. destruct (exec G l (start G)) as [[vs s]|]; [auto|discriminate]. Qed.
