(** What is claimed of the members that concurrent lookups and hooks return. *)
From Verif Require Import Base SigModel VmState VmModel ConcModel ConcLogic ConcSpec.
Set Implicit Arguments.
Unset Strict Implicit.

(** The class has a method (a field, if not [meth]) with key [x], whose ID is [i]. *)
Definition listed (s : shared) (meth : bool) (c : nat) (x : key) (i : nat) : Prop := In (x, i) (if meth then methods s c else fields s c).
(** The call looks the member up, or hooks it in the class. *)
Definition looks_up (k : call) (meth : bool) (c : nat) (x : key) : Prop := k = if meth then CGetMethodID c x else CGetFieldID c x.
Definition installs (k : call) (meth : bool) (c : nat) (x : key) : Prop := if meth then k = CHookMethod c x else k = CHookField c x.
(** IDs belong to one member of one class, and none is the address of a new object. *)
Definition tidy_ids (s : shared) : Prop :=
  (forall m c x i, listed s m c x i -> i < next s) /\ (forall m c x n d y i, listed s m c x i -> listed s n d y i -> m = n /\ c = d /\ x = y).
(** The call may add such a member to the class itself. *)
Definition may_add (G : ccfg) (k : call) (meth : bool) (c : nat) (x : key) : Prop := installs k meth c x \/ (meth = true /\ registers k c x) \/ (looks_up k meth c x /\ c_retnull G = false).
(** Only thread [t] makes such calls. *)
Definition only_by (G : ccfg) (t : nat) (calls : list (list call)) (meth : bool) (c : nat) (x : key) : Prop :=
  forall u l k, nth_error calls u = Some l -> In k l -> may_add G k meth c x -> u = t.
Definition own_member (s : shared) (meth : bool) (c : nat) (x : key) : option nat := find_key (if meth then methods s c else fields s c) x.
Definition hook_of (meth : bool) (c : nat) (x : key) : call := if meth then CHookMethod c x else CHookField c x.
Definition look_of (meth : bool) (c : nat) (x : key) : call := if meth then CGetMethodID c x else CGetFieldID c x.
(** No thread unregisters the natives of the class (fields are not concerned). *)
Definition keeps_natives (calls : list (list call)) (meth : bool) (c : nat) : Prop := meth = true -> no_call calls (CUnregisterNatives c).
(** The method has a native function. *)
Definition native_id (s : shared) (i : nat) : Prop := In i (natives s).
Definition tidy_natives (s : shared) : Prop := forall i, native_id s i -> i < next s.
