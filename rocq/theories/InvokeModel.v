(** Calls from C++ code to methods of the VM: Method::invoke and MethodProxy (method.h 37-80, 96-152; method.cpp 7-114), and
    FakeJni::Jvm::start (fake-jni.cpp 106-123).  Model definitions only; every effect on the VM is one of the operations of [VmStep]. *)
From Verif Require Import Base VmState VmModel VmStep CastModel.
Set Implicit Arguments.
Unset Strict Implicit.
Local Open Scope char_scope.

(** An argument in C++: a number, or a std::shared_ptr<Y>.  Simplified: other parameter types (pointers, references, strings) are not
    modelled; a number is the value that toJValue stores. *)
Inductive cparam := CNum (z : Z) | CObj (Y : ty) (o : option oid).

(** std::string::find_last_of *)
Fixpoint find_last (c : ascii) (l : str) : option nat :=
  match l with
  | [] => None
  | x :: r => match find_last c r with Some k => Some (S k) | None => if Ascii.eqb x c then Some 0 else None end
  end.
(** signature[signature.find_last_of(')') + 1] (method.h 97, method.cpp 19, 66).  npos + 1 is 0; the element at size() is the null character. *)
Definition result_letter (sig : str) : ascii :=
  nth (match find_last ")" sig with Some k => S k | None => 0 end) sig "000".
(** The cases of the switches (method.h 98-134, method.cpp 20-56, 67-103) *)
Definition result_type (sig : str) : option rty :=
  let c := result_letter sig in
  if Ascii.eqb c "V" then Some RVoid
  else if Ascii.eqb c "Z" then Some (RPrim PtZ)
  else if Ascii.eqb c "B" then Some (RPrim PtB)
  else if Ascii.eqb c "S" then Some (RPrim PtS)
  else if Ascii.eqb c "C" then Some (RPrim PtC)
  else if Ascii.eqb c "I" then Some (RPrim PtI)
  else if Ascii.eqb c "J" then Some (RPrim PtJ)
  else if Ascii.eqb c "F" then Some (RPrim PtF)
  else if Ascii.eqb c "D" then Some (RPrim PtD)
  else if Ascii.eqb c "[" || Ascii.eqb c "L" then Some RObj
  else None.
Definition unsupported : exn := Err (S_ "Unsupported signature").
Definition empty_signature : exn := Err (S_ "jni signature is empty").

(** What the invocation has come to: it ended, the native function runs, or a hook runs.  The code that runs is the user's; when it ends,
    [invoke_end] follows. *)
Inductive progress :=
| IDone (r : rval + exn)
| INative (fn : nat) (T : rty) (recv : option oid) (args : list arg)
| IHook (T : rty) (f : nat) (recv : option oid) (args : list arg).

Section Cfg.
Variable G : cfg.
Variable t : tid.

(** A copy of a std::shared_ptr<Y> to [i]: parameters are passed by value, and the receiver is a temporary until the end of the full
    expression (method.h 146-152) *)
Definition keep (Y : ty) (i : oid) (s : st) : option st :=
  match step G t (UHold_ Y (Some i)) s with
  | Some (OVal (RRef (Some j)), s') => if Nat.eqb j i then Some s' else None
  | _ => None
  end.
Fixpoint keep_all (ps : list cparam) (s : st) : option st :=
  match ps with
  | [] => Some s
  | CObj Y (Some i) :: r => match keep Y i s with Some s1 => keep_all r s1 | None => None end
  | _ :: r => keep_all r s
  end.
(** jnitypes.h 297-314 ToJNIType of a shared_ptr<Y> *)
Definition give (Y : ty) (i : oid) (s : st) : option (option oid * st) :=
  match step G t (UToJNI_ Y i) s with Some (OVal (RRef h), s') => Some (h, s') | _ => None end.
(** JNITypes<param>::ToJNIReturnType(env, params)...  Simplified: from left to right, which C++ guarantees for the array (method.h 137) but not
    for the parameters of a native function. *)
Fixpoint marshal (ps : list cparam) (s : st) : option (list arg * st) :=
  match ps with
  | [] => Some ([], s)
  | CNum z :: r => match marshal r s with Some (a, s1) => Some (ArgZ z :: a, s1) | None => None end
  | CObj Y None :: r => match marshal r s with Some (a, s1) => Some (ArgL None :: a, s1) | None => None end
  | CObj Y (Some i) :: r =>
      match give Y i s with
      | Some (h, s1) => match marshal r s1 with Some (a, s2) => Some (ArgL h :: a, s2) | None => None end
      | None => None
      end
  end.

(** The objects that the C++ frames of the invocation keep *)
Definition kept_objects (ps : list cparam) : list oid :=
  flat_map (fun p => match p with CObj _ (Some i) => [i] | _ => [] end) ps.
Fixpoint drop_all (l : list oid) (s : st) : option st :=
  match l with
  | [] => Some s
  | i :: r => match drop G t (Some i) s with Some s1 => drop_all r s1 | None => None end
  end.
(** The invocation returns or throws; its temporaries are destroyed. *)
Definition leave (held : list oid) (r : rval + exn) (s : st) : option ((rval + exn) * st) :=
  match drop_all held s with Some s1 => Some (r, s1) | None => None end.
(** method.h 140-143: the pending exception is thrown (and not cleared), otherwise the result is returned. *)
Definition invoke_end (held : list oid) (w : rval) (s : st) : option ((rval + exn) * st) :=
  match get_env s t with
  | None => None
  | Some e =>
      match e_exc e with
      | None => leave held (inl w) s
      | Some j =>
          match lookup s j with
          | Some o => match o_pay o with PThrow x => leave held (inr x) s | _ => None end
          | None => None
          end
      end
  end.
Definition finished (o : option ((rval + exn) * st)) : option (progress * st) :=
  match o with Some (r, s) => Some (IDone r, s) | None => None end.

(** What an invocation keeps until it ends *)
Definition held_by (r : oid) (ps : list cparam) : list oid := r :: rev (kept_objects ps).
(** method.h 94-152 [Method::invoke] of method [m] for a Class ([isClass]) or an Object [r]; method.cpp 15-114 jinvoke.
    [None]: undefined behaviour. *)
Definition invoke (isClass : bool) (r m : oid) (ps : list cparam) (s : st) : option (progress * st) :=
  let Y := if isClass then TClass else TObject in
  match keep_all ps s with
  | None => None
  | Some s1 =>
      match keep Y r s1 with
      | None => None
      | Some s2 =>
          match give Y r s2, mth_of s m with
          | Some (h, s3), Some x =>
              match m_native x with
              | Some fn =>
                  match result_type (m_sig x) with
                  | None => finished (leave (held_by r ps) (inr unsupported) s3)
                  | Some T => match marshal ps s3 with Some (a, s4) => Some (INative fn T h a, s4) | None => None end
                  end
              | None =>
                  match marshal ps s3 with
                  | None => None
                  | Some (a, s4) =>
                      match m_sig x with
                      | [] => finished (leave (held_by r ps) (inr empty_signature) s4)
                      | _ =>
                          match result_type (m_sig x) with
                          | None => finished (leave (held_by r ps) (inr unsupported) s4)
                          | Some T =>
                              match step G t (if isClass then CallStaticMethodA_ T h (Some m) a else CallMethodA_ T h (Some m) a) s4 with
                              | Some (OVal (RCall (Entered f rv b)), s5) => Some (IHook T f rv b, s5)
                              | Some (OVal (RCall Default), s5) => finished (invoke_end (held_by r ps) (default_val T) s5)
                              | Some (OExn e, s5) => finished (leave (held_by r ps) (inr e) s5)
                              | _ => None
                              end
                          end
                      end
                  end
              end
          | _, _ => None
          end
      end
  end.

(** ** MethodProxy (method.h 36-85): the result of Class::getMethod *)
Record proxy := mkProxy { x_member : option oid; x_static : option oid; x_native : option oid }.
Definition no_such_method : exn := Err (S_ "No such Method!").
Definition both_found : exn := Err (S_ "Fake-jni Api Bug, both static and non static functions found").
(** 48-56 *)
Definition proxy_pick (isClass : bool) (x : proxy) : option oid :=
  match (if isClass then x_static x else x_member x) with Some m => Some m | None => x_native x end.
Definition proxy_invoke (isClass : bool) (x : proxy) (r : oid) (ps : list cparam) (s : st) : option (progress * st) :=
  match proxy_pick isClass x with
  | None => Some (IDone (inr no_such_method), s)
  | Some m => invoke isClass r m ps s
  end.
(** 60-62 operator bool *)
Definition proxy_bool (x : proxy) : bool :=
  xorb (bool_of (x_member x)) (bool_of (x_static x)) || bool_of (x_native x).
(** 63-77 operator Method*; [main != nullptr] uses it *)
Definition proxy_ptr (x : proxy) : option oid + exn :=
  match x_member x, x_static x with
  | Some _, Some _ => inr both_found
  | Some m, None => inl (Some m)
  | None, Some m => inl (Some m)
  | None, None => inl (x_native x)
  end.

(** ** FakeJni::Jvm::start (fake-jni.cpp 112-123) *)
Definition main_name : str := S_ "main".
Definition main_sig : str := S_ "([Ljava/lang/String;)V".
Definition no_main : exn := Err (S_ "main with [Ljava/lang/String;)V not found in any class!").
(** End of the LocalFrame (fake-jni.h 139-141) *)
Definition pop (s : st) : option st :=
  match step G t (PopLocalFrame_ None) s with Some (_, s') => Some s' | None => None end.
Definition popped (r : rval + exn) (o : option st) : option (progress * st) :=
  match o with Some s => Some (IDone r, s) | None => None end.
(** [order]: the order in which the unordered_map [classes] is iterated.  [Y], [args]: the static type of the array of arguments and the array.
    Simplified: the calling thread is already attached, so that JniEnvContext does not attach it. *)
Fixpoint start (Y : ty) (args : option oid) (order : list oid) (s : st) : option (progress * st) :=
  match order with
  | [] => Some (IDone (inr no_main), s)
  | c :: rest =>
      match step G t (PushLocalFrame_ 0) s with
      | Some (_, s1) =>
          match step G t (UGetMethod_ c main_sig main_name) s1 with
          | Some (OVal (RTriple a b n), s2) =>
              match proxy_ptr (mkProxy a b n) with
              | inr e => popped (inr e) (pop s2)
              | inl None => match pop s2 with Some s3 => start Y args rest s3 | None => None end
              | inl (Some _) =>
                  match proxy_invoke true (mkProxy a b n) c [CObj Y args] s2 with
                  | Some (IDone r, s3) => popped r (pop s3)
                  | x => x
                  end
              end
          | _ => None
          end
      | None => None
      end
  end.
(** ... when [main] of class [c] ended *)
Definition start_end (c : oid) (Y : ty) (args : option oid) (s : st) : option ((rval + exn) * st) :=
  match invoke_end (held_by c [CObj Y args]) VUnit s with
  | Some (r, s1) => match pop s1 with Some s2 => Some (r, s2) | None => None end
  | None => None
  end.
End Cfg.
