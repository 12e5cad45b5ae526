(** Common definitions: characters, C strings and outcomes of C++ code. *)
From Coq Require Export ZArith NArith List Ascii Bool Lia.
From Coq Require Import String.
Export ListNotations.
Export Coq.Strings.String.StringSyntax.

Delimit Scope string_scope with string.
Set Implicit Arguments.

(** A [std::string] / NUL terminated C string is the list of its characters
    without the terminator. *)
Notation str := (list ascii).
Definition S_ (s : string) : str := list_ascii_of_string s.
Arguments S_ s%string.

Definition NUL : ascii := Ascii.zero.

(** Exceptions: messages of [std::runtime_error] & co. thrown by the library, or an
    exception thrown by user code (a hook), identified by a number. *)
Inductive exn :=
| Err (msg : str)
| UserExn (n : nat).

(** Outcome of running a piece of C++.
    [Ok]     normal return;
    [Thrown] a C++ exception leaves the function;
    [UB]     the code performs an operation whose behaviour is undefined
             (read/write outside an object, null or dangling dereference, ...);
    [Abort]  [abort()] was called;
    [Fuel]   artefact of the model: a recursion bound was too small.  Every theorem
             that talks about termination excludes it explicitly. *)
Inductive res (A : Type) :=
| Ok (a : A)
| Thrown (e : exn)
| UB
| Abort
| Fuel.
Arguments Ok {A} a.
Arguments Thrown {A} e.
Arguments UB {A}.
Arguments Abort {A}.
Arguments Fuel {A}.

Definition rbind {A B} (m : res A) (f : A -> res B) : res B :=
  match m with
  | Ok a => f a
  | Thrown e => Thrown e
  | UB => UB
  | Abort => Abort
  | Fuel => Fuel
  end.

Definition rmap {A B} (f : A -> B) (m : res A) : res B := rbind m (fun a => Ok (f a)).

Notation "'let*' x ':=' m 'in' f" := (rbind m (fun x => f))
  (at level 200, x pattern, m at level 100, f at level 200, right associativity).

(** Reading [p[i]] where [p] points to the NUL terminated array holding [s]
    ([std::string::data()] or a C string): indices up to and including [length s]
    (the terminator) are readable, everything behind is out of bounds. *)
Definition rd (s : str) (i : nat) : res ascii :=
  match nth_error (s ++ [NUL]) i with
  | Some c => Ok c
  | None => UB
  end.

(** [std::find(first, last, c)] on [s] from index [i]: the index of the first
    occurrence at or after [i], or [length s]. *)
Fixpoint find_from (c : ascii) (s : str) (i : nat) : nat :=
  match s with
  | [] => i
  | x :: r => if Ascii.eqb x c then i else find_from c r (S i)
  end.
Definition std_find (c : ascii) (s : str) (i : nat) : nat :=
  find_from c (skipn i s) i.

(** [std::string(first, last)] for two indices into [s]. *)
Definition substr (s : str) (i j : nat) : str := firstn (j - i) (skipn i s).

(** String equality. *)
Fixpoint str_eqb (a b : str) : bool :=
  match a, b with
  | [], [] => true
  | x :: a', y :: b' => Ascii.eqb x y && str_eqb a' b'
  | _, _ => false
  end.

(** What a C function sees of a character array: everything up to the first NUL. *)
Fixpoint c_str (s : str) : str :=
  match s with
  | [] => []
  | x :: r => if Ascii.eqb x NUL then [] else x :: c_str r
  end.

(** A C variadic argument after the default argument promotions. Floating point and pointer
    values are represented by their bits. *)
Inductive varg :=
| AInt (z : Z)      (* int, in [-2^31, 2^31) *)
| ALong (z : Z)     (* jlong, in [-2^63, 2^63) *)
| ADouble (b : Z)   (* double, by its bits *)
| APtr (p : Z).     (* pointer *)

