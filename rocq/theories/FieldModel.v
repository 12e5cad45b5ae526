(** Set<Type>Field and Get<Type>Field on hooked data members of primitive type, down to the bytes of jvalue. *)
From Verif Require Import Base VmState.
Set Implicit Arguments.
Unset Strict Implicit.
Local Open Scope Z_scope.

(** ** Bytes of a value (little endian, as on all targets of the library) *)
Definition size_of (p : pty) : nat :=
  match p with PtZ | PtB => 1 | PtC | PtS => 2 | PtI | PtF => 4 | PtJ | PtD => 8 end%nat.
Fixpoint bytes_of (n : nat) (z : Z) : list Z :=
  match n with O => [] | S k => z mod 256 :: bytes_of k (z / 256) end.
Fixpoint of_bytes (l : list Z) : Z := match l with [] => 0 | b :: r => b + 256 * of_bytes r end.
Definition is_signed (p : pty) : bool := match p with PtB | PtS | PtI | PtJ => true | _ => false end.
(** the value of type [p] with the given bytes; floating point values are represented by their bits *)
Definition decode (p : pty) (l : list Z) : Z :=
  let u := of_bytes l in
  if is_signed p && (2 ^ (8 * Z.of_nat (size_of p) - 1) <=? u) then u - 2 ^ (8 * Z.of_nat (size_of p)) else u.

(** jni.h [union jvalue]: 8 bytes; field.cpp 148-150, method.cpp 7-13 [toJValue]: memset, then memcpy of the value *)
Definition overwrite (l b : list Z) : list Z := b ++ skipn (length b) l.
Definition to_jvalue (p : pty) (z : Z) : list Z := overwrite (repeat 0 8) (bytes_of (size_of p) z).
(** jnitypes.h 125-243 [JNITypes<T>::JNICast(env, v)]: reading the member of the union of type [p] *)
Definition jvalue_as (p : pty) (v : list Z) : Z := decode p (firstn (size_of p) v).

(** ** Data members *)
(** The C++ type of a member: one of the JNI types or bool, which is treated like jboolean (jnitypes.h 139, wrap.h 243) *)
Inductive cty := CJni (p : pty) | CBool.
Definition jni_type (c : cty) : pty := match c with CJni p => p | CBool => PtZ end.
(** [member = JNICast(env, values[0])]: conversion to bool on assignment *)
Definition assign (c : cty) (z : Z) : Z := match c with CJni _ => z | CBool => if z =? 0 then 0 else 1 end.
(** A hooked variable: a pointer to a variable or a pointer to a member (function.h 52-66) *)
Inductive place := Global (k : nat) | Member (k : nat).
Record access := mkA { a_place : place; a_type : cty }.
(** field.h 9-22: [get], [set] are the handles that hooking installed, separately (hookManager.h 99-140) *)
Record field := mkF { static : bool; get : option access; set : option access }.

(** What the object argument designates: null, an object of the C++ class of the hooked members, an object of another class, or
    the class object.  (Simplified: references are resolved already, see C26.) *)
Inductive target := Null | Inst (o : nat) | Alien (o : nat) | Clazz.
(** the variables of the program *)
Record store := mkS { globals : nat -> Z; members : nat -> nat -> Z }.
Definition upd {A} (f : nat -> A) (k : nat) (x : A) : nat -> A := fun j => if Nat.eqb j k then x else f j.
Definition read (a : place) (o : nat) (s : store) : Z := match a with Global k => globals s k | Member k => members s o k end.
Definition write (a : place) (o : nat) (z : Z) (s : store) : store :=
  match a with
  | Global k => mkS (upd (globals s) k z) (members s)
  | Member k => mkS (globals s) (upd (members s) o (upd (members s o) k z))
  end.
(** wrap.h 160-192: which variable an accessor works on.  The object is not looked at for variables outside of objects; a null
    object is dereferenced; [Thrown]: jnitypes.h 338. *)
Definition locate (a : access) (x : target) : res (place * nat) :=
  match a_place a, x with
  | Global k, _ => Ok (Global k, O)
  | Member k, Inst o => Ok (Member k, o)
  | Member k, Null => UB
  | Member k, _ => Thrown (Err (S_ "Invalid Reference, Unexpected Type"))
  end.
Definition mismatch {A} : res A := Thrown (Err (S_ "Mismatched MethodHandle!")).

(** field.cpp 107-131 [GetField<T, O>]: [cls] is [O = jclass], [f = None] the null field ID; wrap.h 166-190 [StaticGet], [InstanceGet] *)
Definition GetField (p : pty) (cls : bool) (x : target) (f : option field) (s : store) : res Z :=
  match f with
  | None => Ok 0
  | Some f =>
      match get f with
      | None => Ok 0
      | Some a =>
          if negb (Bool.eqb (static f) cls) then Abort
          else if pty_eqb (jni_type (a_type a)) p then
            match locate a x with
            | Ok (pl, o) => Ok (read pl o s)
            | Thrown e => Thrown e
            | UB => UB | Abort => Abort | Fuel => Fuel
            end
          else mismatch
      end
  end.
(** field.cpp 133-159 [SetField<T, O>], wrap.h 163-187 [StaticSet], [InstanceSet] *)
Definition SetField (p : pty) (cls : bool) (x : target) (f : option field) (z : Z) (s : store) : res store :=
  match x, f with
  | Null, _ | _, None => Ok s
  | _, Some f =>
      match set f with
      | None => Ok s
      | Some a =>
          if negb (Bool.eqb (static f) cls) then Abort
          else if pty_eqb (jni_type (a_type a)) p then
            match locate a x with
            | Ok (pl, o) => Ok (write pl o (assign (a_type a) (jvalue_as (jni_type (a_type a)) (to_jvalue p z))) s)
            | Thrown e => Thrown e
            | UB => UB | Abort => Abort | Fuel => Fuel
            end
          else mismatch
      end
  end.
