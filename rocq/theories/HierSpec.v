(** Class hierarchies and reflection: specification only. *)
From Verif Require Import Base VmState VmSpec MemSpec.
Set Implicit Arguments.
Unset Strict Implicit.
(** [b] is [a] or reachable from it through base classes *)
Inductive ancestor (G : cfg) (s : st) (a : oid) : oid -> Prop :=
| ac_self : ancestor G s a a
| ac_base b c : ancestor G s a b -> In c (supers G s b) -> ancestor G s a c.
(** No infinite chain of base classes starts in [a]. *)
Inductive acyclic (G : cfg) (s : st) (a : oid) : Prop :=
| acyclic_node : (forall b, In b (supers G s a) -> acyclic G s b) -> acyclic G s a.
