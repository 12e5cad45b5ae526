(** How hooks receive their parameters: conversion of references and values to the C++ types of the parameters of a function
    (jnitypes.h 39-42, 129-220, 316-383; wrap.h 26-121).  Model definitions only; the temporary shared pointers and local references of
    a conversion are those of the operations [UHold_], [UToJNI_] and [UDrop_] of the VM model. *)
From Verif Require Import Base VmState VmModel VmStep WrapModel.
Set Implicit Arguments.
Unset Strict Implicit.

(** Classes of C++ whose objects the VM model knows.  Simplified: no object of the VM model is an array of bool (impl::Array<bool> is not
    used for jbooleanArray) or an array of String, Class, Throwable or arrays with that static element type. *)
Definition ty_of (c : ccls) : option ty :=
  match c with
  | ClObject => Some TObject | ClString => Some TString | ClClass => Some TClass | ClThrowable => Some TThrowable
  | ClUser n => Some (TUser n) | ClPrims p => Some (TPArr p)
  | ClArr ClObject => Some (TArr None) | ClArr (ClUser n) => Some (TArr (Some n))
  | ClBools | ClArr _ => None
  end.

(** What the function gets: an environment, a number, the handle itself, a std::shared_ptr, a pointer, a reference, a copy of an object. *)
Inductive cval := KEnv | KNum (z : Z) | KHandle (h : option oid) | KShared (o : option oid) | KPtr (o : option oid) | KRef (i : oid) | KCopy (i : oid).
(** jnitypes.h 359-366 *)
Definition null_value : exn := Err (S_ "Cannot assign null to value type!").

Section Cfg.
Variable G : cfg.
Variable t : tid.

(** jnitypes.h 319-339, 381-383 UnpackJObject<T>: the result is kept in a temporary.  [None]: undefined behaviour. *)
Definition unpack (c : ccls) (h : option oid) (s : st) : option ((option oid + exn) * st) :=
  match ty_of c with
  | Some Y =>
      match step G t (UHold_ Y h) s with
      | Some (OVal (RRef o), s') => Some (inl o, s')
      | Some (OExn e, s') => Some (inr e, s')
      | _ => None
      end
  | None =>
      match step G t (UHold_ TObject h) s with
      | Some (OVal (RRef None), s') => Some (inl None, s')
      | Some (OVal (RRef (Some _)), _) => Some (inr (Err bad_ref), s)
      | _ => None
      end
  end.
(** End of the life of a std::shared_ptr *)
Definition drop (o : option oid) (s : st) : option st :=
  match o with
  | None => Some s
  | Some i => match step G t (UDrop_ i) s with Some (OVal _, s') => Some s' | _ => None end
  end.
(** jnitypes.h 374-379: a pointer; a local reference keeps the object *)
Definition cast_ptr (c : ccls) (h : option oid) (s : st) : option ((cval + exn) * st) :=
  match unpack c h s with
  | Some (inl (Some i), s1) =>
      match ty_of c with
      | None => None
      | Some Y =>
          match step G t (UToJNI_ Y i) s1 with
          | Some (OVal _, s2) => option_map (fun s3 => (inl (KPtr (Some i)), s3)) (drop (Some i) s2)
          | _ => None
          end
      end
  | Some (inl None, s1) => Some (inl (KPtr None), s1)
  | Some (inr e, s1) => Some (inr e, s1)
  | None => None
  end.
(** jnitypes.h 359-366: a reference or a value *)
Definition cast_ref (mk : oid -> cval) (c : ccls) (h : option oid) (s : st) : option ((cval + exn) * st) :=
  match unpack c h s with
  | Some (inl (Some i), s1) => option_map (fun s2 => (inl (mk i), s2)) (drop (Some i) s1)
  | Some (inl None, s1) => Some (inr null_value, s1)
  | Some (inr e, s1) => Some (inr e, s1)
  | None => None
  end.
(** JNITypes<T>::JNICast(env, value).  bool is converted from jboolean. *)
Definition cast (T : cty) (v : arg) (s : st) : option ((cval + exn) * st) :=
  match T, v with
  | Cprim _, ArgZ z => Some (inl (KNum z), s)
  | Cbool, ArgZ z => Some (inl (KNum (if Z.eqb z 0 then 0 else 1)), s)
  | Cjobject, ArgL h => Some (inl (KHandle h), s)
  | Cshared c, ArgL h => match unpack c h s with Some (inl o, s1) => Some (inl (KShared o), s1) | Some (inr e, s1) => Some (inr e, s1) | None => None end
  | Cptr c, ArgL h => cast_ptr c h s
  | Cjclass, ArgL h => cast_ptr ClClass h s
  | Cjthrowable, ArgL h => cast_ptr ClThrowable h s
  | Cref c, ArgL h | Ccref c, ArgL h => cast_ref KRef c h s
  | Cval c, ArgL h => cast_ref KCopy c h s
  | _, _ => None
  end.

(** Where a parameter comes from: values[i], or it is implicit and made from the receiver or from the class (wrap.h 26-60) *)
Inductive source := Value (a : arg) | Receiver (h : option oid) | TheClass (c : oid).
(** wrap.h 49-54 AnotherHelper<jclass>::GetEnvOrClass: [JNITypes<Class*>::ToJNIType(env, clazz->shared_from_this())] converts a
    std::shared_ptr<Object>, so that is the type whose class the Class gets if it has none. *)
Definition the_class (c : oid) (s : st) : option ((cval + exn) * st) :=
  match unpack ClClass (Some c) s with
  | Some (inl (Some i), s1) =>
      match step G t (UToJNI_ TObject i) s1 with
      | Some (OVal _, s2) => option_map (fun s3 => (inl (KPtr (Some i)), s3)) (drop (Some i) s2)
      | _ => None
      end
  | _ => None
  end.
Definition provide (T : cty) (v : source) (s : st) : option ((cval + exn) * st) :=
  match v, T with
  | Value a, _ => cast T a s
  | _, CJNIEnv | _, CENV => Some (inl KEnv, s)
  | Receiver h, _ => cast T (ArgL h) s
  | TheClass c, Cjclass => the_class c s
  | TheClass c, Cptr ClClass => Some (inl (KPtr (Some c)), s)
  | TheClass _, _ => None
  end.
Definition shared (x : cval) : option oid := match x with KShared o => o | _ => None end.
(** All parameters; an exception destroys the std::shared_ptr made before.  Simplified: from left to right (C++ leaves the order open). *)
Fixpoint convert (l : list (cty * source)) (s : st) : option ((list cval + exn) * st) :=
  match l with
  | [] => Some (inl [], s)
  | (T, v) :: r =>
      match provide T v s with
      | Some (inl x, s1) =>
          match convert r s1 with
          | Some (inl xs, s2) => Some (inl (x :: xs), s2)
          | Some (inr e, s2) => option_map (fun s3 => (inr e, s3)) (drop (shared x) s2)
          | None => None
          end
      | Some (inr e, s1) => Some (inr e, s1)
      | None => None
      end
  end.

(** Parameters of function [f] with [k] implicit ones; [None]: values[i] does not exist *)
Definition pairs (f : callable) (k : nat) (implicit : source) (args : list arg) : option (list (cty * source)) :=
  if Nat.leb (length (skipn k (params f))) (length args)
  then Some (map (fun T => (T, implicit)) (firstn k (params f)) ++ combine (skipn k (params f)) (map Value args))
  else None.
(** wrap.h 66-68, 85-87, 112-114: the receiver of a member function is kept by a temporary, the parameters follow.  A null receiver is
    undefined behaviour.  [inl (this, values)]: the function runs. *)
Definition begin (f : callable) (k : nat) (implicit : source) (args : list arg) (s : st) : option ((option oid * list cval + exn) * st) :=
  match pairs f k implicit args with
  | None => None
  | Some l =>
      match f, implicit with
      | MemFn C _ _, Receiver h =>
          match unpack C h s with
          | Some (inl (Some i), s1) =>
              match convert l s1 with
              | Some (inl xs, s2) => Some (inl (Some i, xs), s2)
              | Some (inr e, s2) => option_map (fun s3 => (inr e, s3)) (drop (Some i) s2)
              | None => None
              end
          | Some (inl None, _) => None
          | Some (inr e, s1) => Some (inr e, s1)
          | None => None
          end
      | Fn _ _, _ =>
          match convert l s with
          | Some (inl xs, s1) => Some (inl (None, xs), s1)
          | Some (inr e, s1) => Some (inr e, s1)
          | None => None
          end
      | _, _ => None
      end
  end.
(** A hook was entered: its function runs, or a conversion fails and the call ends as if the function had thrown. *)
Definition receive (f : callable) (k : nat) (implicit : source) (args : list arg) (s : st) : option ((option oid * list cval + obs) * st) :=
  match begin f k implicit args s with
  | Some (inl x, s1) => Some (inl x, s1)
  | Some (inr e, s1) => option_map (fun p => (inr (fst p), snd p)) (step G t (HookThrow_ e) s1)
  | None => None
  end.
End Cfg.
