(** What a hook returns, and what C++ code passes to Method::invoke: conversion of a std::shared_ptr, pointer, reference or value
    to a local reference (jnitypes.h 44-85, 286-314; wrap.h 294-328; method.h 100-137), with the lifetime of the object.

    C++ classes are those of [CObjModel].  [ro_class] is the member clazz (object.h 23): the Java class that belongs to a C++ class,
    null if there is none.  Simplified: one thread; each class has one number as its content; classes are never destroyed. *)
From Verif Require Import Base VmState CObjModel.
Set Implicit Arguments.
Unset Strict Implicit.
Local Open Scope Z_scope.

(** An object: its class, content and Java class, the shared pointers of user code, whether it is a variable (not made by
    make_shared) and whether that variable has ended. *)
Record robj := mkRobj { ro_ty : cty; ro_val : Z; ro_class : option cty; ro_refs : nat; ro_auto : bool; ro_gone : bool }.
(** env.h [localframe], the innermost frame first *)
Record rst := mkRst { r_objs : list robj; r_frames : list (list nat) }.
(** env.cpp: a new ENV has one frame *)
Definition rinit : rst := mkRst [] [[]].
Definition rset (s : rst) (x : nat) (o : robj) : rst := mkRst (list_set (r_objs s) x o) (r_frames s).
Definition memn (x : nat) (l : list nat) : bool := existsb (Nat.eqb x) l.
(** A variable until it ends, another object as long as a shared pointer of user code or a local reference refers to it. *)
Definition ralive (s : rst) (x : nat) : bool :=
  match nth_error (r_objs s) x with
  | None => false
  | Some o => if ro_auto o then negb (ro_gone o) else (0 <? ro_refs o)%nat || existsb (memn x) (r_frames s)
  end.

Inductive rop :=
| RNew (z : cty) (v : Z)                       (* std::make_shared<Z>(v), kept in a variable *)
| RAuto (z : cty) (v : Z)                      (* Z x(v) *)
| REnd (x : nat)                               (* the end of its scope *)
| RHold (x : nat) | RDrop (x : nat)            (* one shared pointer more, one less *)
| RValue (x : nat) | RPut (x : nat) (v : Z)    (* the content of the object *)
| RShared (w : cty) (x : option nat)           (* a hook returns, or an argument is, a std::shared_ptr<W> *)
| RPointer (w : cty) (x : option nat)          (* a hook returns a W* *)
| RReference (w : cty) (x : nat)               (* a hook returns a W&, const W& or the W that x is *)
| RPush | RPop                                 (* PushLocalFrame(n), PopLocalFrame(NULL) *)
| RDelete (x : nat)                            (* DeleteLocalRef *)
| RResolve (x : nat)                           (* JNICast<std::shared_ptr<Object>> of a local reference, kept in a variable *)
| RClass (x : nat).                            (* GetObjectClass *)
Inductive rout := EDone | ENew (x : nat) | EVal (z : Z) | ERef (x : option nat) | EClass (c : option cty).

Section Std.
(** The feature macro __cpp_lib_enable_shared_from_this (jnitypes.h 57): C++17 and later. *)
Variable cxx17 : bool.
(** Whether the C++ class has a Java class (typecheck, jnitypes.h 286-295) *)
Variable bound : cty -> bool.

(** jnitypes.h 286-295 GetClass *)
Definition GetClass (w : cty) : option cty := if bound w then Some w else None.
(** jnitypes.h 297-314 ToJNIType(env, const std::shared_ptr<W>&), of an object that exists *)
Definition to_ref (w : cty) (x : nat) (s : rst) : option (rout * rst) :=
  match nth_error (r_objs s) x, r_frames s with
  | Some o, f :: r =>
      let c := match ro_class o with Some c => Some c | None => GetClass w end in
      Some (ERef (Some x), mkRst (list_set (r_objs s) x (mkRobj (ro_ty o) (ro_val o) c (ro_refs o) (ro_auto o) (ro_gone o))) ((f ++ [x]) :: r))
  | _, _ => None
  end.
(** [std::make_shared<W>( *p )]: the copy constructor of [W], which copies clazz too (object.h 21-32), and the conversion of it *)
Definition copied (w : cty) (o : robj) (s : rst) : option (rout * rst) :=
  to_ref w (length (r_objs s)) (mkRst (r_objs s ++ [mkRobj w (ro_val o) (ro_class o) 0 false false]) (r_frames s)).

(** vm.cpp 191-206: the first entry of the first frame that has one *)
Fixpoint remove_one (x : nat) (l : list nat) : list nat :=
  match l with [] => [] | y :: r => if Nat.eqb x y then r else y :: remove_one x r end.
Fixpoint delete (x : nat) (fs : list (list nat)) : list (list nat) :=
  match fs with [] => [] | f :: r => if memn x f then remove_one x f :: r else f :: delete x r end.

(** One operation; [None]: undefined behaviour, or a program that does not compile. *)
Definition rstep (o : rop) (s : rst) : option (rout * rst) :=
  match o with
  | RNew z v => Some (ENew (length (r_objs s)), mkRst (r_objs s ++ [mkRobj z v None 1 false false]) (r_frames s))
  | RAuto z v => Some (ENew (length (r_objs s)), mkRst (r_objs s ++ [mkRobj z v None 0 true false]) (r_frames s))
  | REnd x =>
      match nth_error (r_objs s) x with
      | Some o => if ro_auto o && negb (ro_gone o) then Some (EDone, rset s x (mkRobj (ro_ty o) (ro_val o) (ro_class o) 0 true true)) else None
      | None => None
      end
  | RHold x =>
      match nth_error (r_objs s) x with
      | Some o => if negb (ro_auto o) && (0 <? ro_refs o)%nat then Some (EDone, rset s x (mkRobj (ro_ty o) (ro_val o) (ro_class o) (S (ro_refs o)) false false)) else None
      | None => None
      end
  | RDrop x =>
      match nth_error (r_objs s) x with
      | Some o => if negb (ro_auto o) && (0 <? ro_refs o)%nat then Some (EDone, rset s x (mkRobj (ro_ty o) (ro_val o) (ro_class o) (Nat.pred (ro_refs o)) false false)) else None
      | None => None
      end
  | RValue x => match nth_error (r_objs s) x with Some o => if ralive s x then Some (EVal (ro_val o), s) else None | None => None end
  | RPut x v =>
      match nth_error (r_objs s) x with
      | Some o => if ralive s x then Some (EDone, rset s x (mkRobj (ro_ty o) v (ro_class o) (ro_refs o) (ro_auto o) (ro_gone o))) else None
      | None => None
      end
  (* jnitypes.h 50-53, 298 *)
  | RShared w None => Some (ERef None, s)
  | RShared w (Some x) =>
      match nth_error (r_objs s) x with
      | Some o => if derives (ro_ty o) w && negb (ro_auto o) && (0 <? ro_refs o)%nat then to_ref w x s else None
      | None => None
      end
  (* jnitypes.h 54-63, 77-80: the object itself if it is managed by shared pointers and the library can tell, otherwise a copy *)
  | RPointer w None => Some (ERef None, s)
  | RPointer w (Some x) =>
      match nth_error (r_objs s) x with
      | Some o => if derives (ro_ty o) w && ralive s x then if cxx17 && negb (ro_auto o) then to_ref w x s else copied w o s else None
      | None => None
      end
  (* jnitypes.h 73-76, 81-84: always a copy.  The wrapper returns [auto] (wrap.h 66-121), so this is the copy of a copy, of which the
     first ends with the call. *)
  | RReference w x =>
      match nth_error (r_objs s) x with
      | Some o => if derives (ro_ty o) w && ralive s x then copied w o s else None
      | None => None
      end
  | RPush => Some (EDone, mkRst (r_objs s) ([] :: r_frames s))
  (* vm.cpp 134-148: the last frame is made anew *)
  | RPop => match r_frames s with [] => None | [_] => Some (EDone, mkRst (r_objs s) [[]]) | _ :: r => Some (EDone, mkRst (r_objs s) r) end
  | RDelete x =>
      match nth_error (r_objs s) x with
      | Some o => if ralive s x && negb (ro_auto o) then Some (EDone, mkRst (r_objs s) (delete x (r_frames s))) else None
      | None => None
      end
  | RResolve x =>
      match nth_error (r_objs s) x with
      | Some o => if ralive s x && negb (ro_auto o) then Some (ERef (Some x), rset s x (mkRobj (ro_ty o) (ro_val o) (ro_class o) (S (ro_refs o)) false false)) else None
      | None => None
      end
  (* vm.cpp 241-243, object.cpp 5-7 *)
  | RClass x => match nth_error (r_objs s) x with Some o => if ralive s x then Some (EClass (ro_class o), s) else None | None => None end
  end.
Fixpoint rexec (l : list rop) (s : rst) : option (list rout * rst) :=
  match l with
  | [] => Some ([], s)
  | o :: q =>
      match rstep o s with
      | None => None
      | Some (v, s1) => match rexec q s1 with Some (vs, s2) => Some (v :: vs, s2) | None => None end
      end
  end.
Definition rreach (s : rst) : Prop := exists l vs, rexec l rinit = Some (vs, s).
End Std.
