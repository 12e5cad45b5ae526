(** Signatures of hooks: how [Class::Hook] & co. turn the C++ type of a function, member function, variable or data member into
    methods and fields (jnitypes.h, wrap.h, function.h, class.h 62-140, hookManager.h).  C++ types are data here, template
    specialisations are cases; [None] stands for a program that does not compile. *)
From Verif Require Import Base VmState.
Set Implicit Arguments.
Unset Strict Implicit.
Local Open Scope char_scope.

(** Classes derived from jnivm::Object: the built in ones, user classes, impl::Array of a primitive type, of bool, of a class
    (array.h; jnivm::Array<T> removes pointers and shared_ptr from T, array.h 262).  Other built in classes behave like user classes. *)
Inductive ccls := ClObject | ClString | ClClass | ClThrowable | ClUser (n : nat) | ClPrims (p : pty) | ClBools | ClArr (c : ccls).
(** Types of parameters, results and variables: [Cval T], [Cptr T*], [Cref T&], [Ccref const T&], [Cshared std::shared_ptr<T>],
    [Ccshared const std::shared_ptr<T>&].  Simplified: other types (const T*, jintArray, ...) are left out. *)
Inductive cty :=
| Cvoid | Cprim (p : pty) | Cbool | Cjobject | Cjstring | Cjclass | Cjthrowable | CJNIEnv | CENV
| Cval (c : ccls) | Cptr (c : ccls) | Cref (c : ccls) | Ccref (c : ccls) | Cshared (c : ccls) | Ccshared (c : ccls).

(** What the signatures depend on: [n_reg] the name of the class registered for a type (typecheck, nativeprefix), [n_own] the result of
    T::getClassName() if T has it (jnitypes.h 20-26, 262-271). *)
Record names := mkNames { n_reg : ccls -> option str; n_own : ccls -> option str }.

(** jnitypes.h 129-220 *)
Definition letter (p : pty) : ascii :=
  match p with PtZ => "Z" | PtB => "B" | PtC => "C" | PtS => "S" | PtI => "I" | PtJ => "J" | PtF => "F" | PtD => "D" end.
(** jnitypes.h 276-284 JNITypesObjectBase::GetJNISignature *)
Definition object_sig (N : names) (c : ccls) : res str :=
  match n_reg N c with
  | Some n => Ok ("L" :: n ++ [";"])
  | None => match n_own N c with Some n => Ok ("L" :: n ++ [";"]) | None => Thrown (Err (S_ "Unknown class")) end
  end.
(** Result of code that also looks up (InternalFindClass, creating) the array classes listed first. *)
Definition out (A : Type) : Type := (list str * res A)%type.
Definition obind A B (m : out A) (f : A -> out B) : out B :=
  match snd m with
  | Ok a => (fst m ++ fst (f a), snd (f a))
  | Thrown e => (fst m, Thrown e)
  | UB => (fst m, UB) | Abort => (fst m, Abort) | Fuel => (fst m, Fuel)
  end.
Definition oret A (a : A) : out A := ([], Ok a).
(** jnitypes.h 229-257 JNITypes<impl::Array<T>>::GetJNISignature, utility_: the class of an array of objects is looked up. *)
Fixpoint value_sig (N : names) (c : ccls) : out str :=
  match c with
  | ClPrims p => oret ["["; letter p]
  | ClBools => oret ["["; "Z"]
  | ClArr e => obind (value_sig N e) (fun s => (["[" :: s], Ok ("[" :: s)))
  | _ => ([], object_sig N c)
  end.
(** JNITypes<T>::GetJNISignature.  Pointers and references are resolved to JNITypes<T, T*> etc. (93-97), which the specialisation for
    arrays (247) does not match; only std::shared_ptr<impl::Array<T>> has one (256). *)
Definition GetJNISignature (N : names) (T : cty) : out str :=
  match T with
  | Cvoid => oret ["V"]
  | Cprim p => oret [letter p]
  | Cbool => oret ["Z"]
  | Cjobject => ([], object_sig N ClObject)
  | Cjstring => ([], object_sig N ClString)
  | Cjclass => ([], object_sig N ClClass)
  | Cjthrowable => ([], object_sig N ClThrowable)
  | CJNIEnv | CENV => ([], Thrown (Err (S_ "Unknown class")))
  | Cval c | Cshared c => value_sig N c
  | Cptr c | Cref c | Ccref c | Ccshared c => ([], object_sig N c)
  end.
(** wrap.h 14-24.  Simplified: evaluated from left to right (C++ leaves the order open). *)
Fixpoint UnfoldJNISignature (N : names) (l : list cty) : out str :=
  match l with
  | [] => oret []
  | A :: T => obind (GetJNISignature N A) (fun s => obind (UnfoldJNISignature N T) (fun t => oret (s ++ t)))
  end.
(** wrap.h 75-77, 99-101, 123-125; [P]: the parameters behind the implicit ones *)
Definition invoke_sig (N : names) (P : list cty) (R : cty) : out str :=
  obind (UnfoldJNISignature N P) (fun p => obind (GetJNISignature N R) (fun r => oret ("(" :: p ++ ")" :: r))).

(** function.h 18-68: [Fn] functions, references to them and function objects, [MemFn] member functions, [Var] variables, [MemVar] data members *)
Inductive callable := Fn (R : cty) (P : list cty) | MemFn (C : ccls) (R : cty) (P : list cty) | Var (R : cty) | MemVar (C : ccls) (R : cty).
Definition Return (f : callable) : cty := match f with Fn R _ | MemFn _ R _ | Var R | MemVar _ R => R end.
Definition params (f : callable) : list cty := match f with Fn _ P | MemFn _ _ P => P | _ => [] end.
(** function.h 6-15 FunctionType: the bits Instance = 1, Getter = 2, Setter = 4 *)
Record ftype := mkFt { b_inst : bool; b_get : bool; b_set : bool }.
Definition type (f : callable) : ftype :=
  match f with Fn _ _ => mkFt false false false | MemFn _ _ _ => mkFt true false false | Var _ => mkFt false true true | MemVar _ _ => mkFt true true true end.
(** function.h: Parameter<I> is void behind the parameters *)
Definition ParameterAt (f : callable) (i : nat) : cty := nth i (params f) Cvoid.

(** wrap.h 251-252 __JNIType, as far as MethodHandle has a base for it (methodhandlebase.h 44): otherwise override fails *)
Definition tag (T : cty) : option rty :=
  match T with
  | Cvoid => Some RVoid | Cprim p => Some (RPrim p) | Cbool => Some (RPrim PtZ)
  | Cjobject | Cval _ | Cshared _ => Some RObj
  | _ => None
  end.
(** Parameters whose JNITypes<T>::JNICast result converts to T: not jstring (its JNICast returns std::shared_ptr<String>, jnitypes.h 103), not
    arrays by value (247), not const std::shared_ptr<T>& (OrgTypeConverter has no case for it, 359-379), not Class by value (it cannot be
    copied), not void or environments *)
Definition castable (T : cty) : bool :=
  match T with Cvoid | Cjstring | CJNIEnv | CENV | Ccshared _ | Cval ClClass => false | Cval (ClPrims _) | Cval ClBools | Cval (ClArr _) => false | _ => true end.
(** Member of jvalue that JNICast reads (jnitypes.h 39-41, 129-220) *)
Inductive member := Mz | Mb | Mc | Ms | Mi | Mj | Mf | Md | Ml.
Definition JNICast_member (T : cty) : member :=
  match T with
  | Cprim PtZ | Cbool => Mz | Cprim PtB => Mb | Cprim PtC => Mc | Cprim PtS => Ms | Cprim PtI => Mi | Cprim PtJ => Mj | Cprim PtF => Mf | Cprim PtD => Md
  | _ => Ml
  end.
(** wrap.h 66-121: the value for the parameter behind [k] implicit ones comes from values[0], the next from values[1], ... *)
Definition reads (f : callable) (k : nat) : list member := map JNICast_member (skipn k (params f)).

(** A hooked method, getter or setter *)
Inductive what := WMethod | WGet | WSet.
Record hook := mkHook { k_what : what; k_static : bool; k_sig : str; k_handle : handle; k_implicit : nat }.
Definition isMemFn (f : callable) : bool := match f with MemFn _ _ _ => true | _ => false end.
(** hookManager.h 46-65, 89-97 with wrap.h 257-283, 295-321, 335 (a wrapper of a member function has no StaticInvoke) *)
Definition install_method (N : names) (id : nat) (inst : bool) (f : callable) (k : nat) : option (out (list hook)) :=
  match f, tag (Return f) with
  | Fn R P, Some t | MemFn _ R P, Some t =>
      if forallb castable (skipn k P) && (inst || negb (isMemFn f))
      then Some (obind (invoke_sig N (skipn k P) R) (fun s => oret [mkHook WMethod (negb inst) s (mkHandle id (if inst then KInst else KStatic) t (isMemFn f)) k]))
      else None
  | _, _ => None
  end.
(** hookManager.h 99-118, 142-159 with wrap.h 95-105, 119-129, 145-157, 303-309, 322-328 *)
Definition install_getter (N : names) (id : nat) (inst : bool) (f : callable) (k : nat) : option (out (list hook)) :=
  let go := match tag (Return f) with
            | None | Some RVoid => None
            | Some t => Some (obind (GetJNISignature N (Return f)) (fun s => oret [mkHook WGet (negb inst) s (mkHandle id (if inst then KInstGet else KStaticGet) t false) k]))
            end in
  match f with
  | Fn _ P => if Nat.eqb (length P) k then go else None
  | Var _ => go
  | MemVar _ _ => if inst then go else None
  | MemFn _ _ _ => None
  end.
(** hookManager.h 99-118, 146-163 with wrap.h 72-81, 91-94, 106-108, 115-118, 130-132, 145-157, 265-272, 284-291, 330-332: the static setter
    returns the result of the function from a function returning void *)
Definition install_setter (N : names) (id : nat) (inst : bool) (f : callable) (k : nat) : option (out (list hook)) :=
  let go (T : cty) (t : option rty) :=
    match t with
    | None => None
    | Some t => if castable T then Some (obind (GetJNISignature N T) (fun s => oret [mkHook WSet (negb inst) s (mkHandle id (if inst then KInstSet else KStaticSet) t (isMemFn f)) k])) else None
    end in
  match f with
  | Fn R P => if Nat.eqb (length P) (k + 1) && (inst || match R with Cvoid => true | _ => false end) then go (ParameterAt f k) (tag (ParameterAt f (length P - 1))) else None
  | MemFn _ _ P => if Nat.eqb (length P) (k + 1) && inst then go (ParameterAt f k) (tag (ParameterAt f (length P - 1))) else None
  | Var R => go R (tag R)
  | MemVar _ R => if inst then go R (tag R) else None
  end.
Definition andthen A (m n : option (out (list A))) : option (out (list A)) :=
  match m, n with Some a, Some b => Some (obind a (fun x => obind b (fun y => oret (x ++ y)))) | _, _ => None end.
(** hookManager.h 89-177 HookManager<bind, Wrap<T, implicit ...>>::install with [k] implicit parameters *)
Definition HookManager (N : names) (id : nat) (b : ftype) (f : callable) (k : nat) : option (out (list hook)) :=
  match b_get b, b_set b with
  | false, false => install_method N id (b_inst b) f k
  | true, false => install_getter N id (b_inst b) f k
  | false, true => install_setter N id (b_inst b) f k
  | true, true => andthen (install_getter N id (b_inst b) f k) (install_setter N id (b_inst b) f k)
  end.

(** class.h 98: EnvArg *)
Definition is_env (T : cty) : bool := match T with CJNIEnv | CENV => true | _ => false end.
(** class.h 67: may the parameter be the receiver?  Instance: a class or a pointer to one (remove_pointer_t, is_base_of), or jobject. *)
Definition receiver (inst : bool) (T : cty) : bool :=
  if inst then match T with Cval _ | Cptr _ | Cjobject => true | _ => false end else match T with Cptr ClClass | Cjclass => true | _ => false end.
(** class.h 74-79, 87-92: the filter at runtime; [mine c]: the class registered for [c] is the one that is hooked *)
Definition accepts (mine : ccls -> bool) (inst : bool) (T : cty) : bool :=
  if inst then match T with Cptr ClObject | Cjobject => true | Cval c | Cptr c => mine c | _ => false end else true.
(** wrap.h 26-60: can the receiver be made?  AnotherHelper<Class*> (55-60) has no GetEnvOrObject; JNITypes<jobject> has no JNICast from a
    jobject (jnitypes.h 141-148 hides the one of the base class with the one from a jvalue); by value the same types as behind the receiver. *)
Definition receivable (inst : bool) (T : cty) : bool :=
  if inst then match T with Cptr ClClass | Cjobject => false | Cval _ => castable T | _ => true end else true.
(** class.h 67-95 HookManagerHelper *)
Definition HookManagerHelper (N : names) (mine : ccls -> bool) (id : nat) (b : ftype) (f : callable) (off : nat) : option (out (list hook)) :=
  match f with
  | Fn _ _ =>
      let T := ParameterAt f off in
      if receiver (b_inst b) T then
        if negb (receivable (b_inst b) T) then None
        else match HookManager N id b f (off + 1) with
             | None => None
             | Some o => if accepts mine (b_inst b) T then Some o else Some (oret [])
             end
      else Some (oret [])
  | _ => Some (oret [])
  end.
(** class.h 97-112 HookManagerHelper2 *)
Definition HookManagerHelper2 (N : names) (mine : ccls -> bool) (id : nat) (b : ftype) (f : callable) : option (out (list hook)) :=
  let off := if is_env (ParameterAt f 0) then 1 else 0 in
  if (b_get b && Nat.ltb off (length (params f))) || (b_set b && Nat.ltb (off + 1) (length (params f)))
  then HookManagerHelper N mine id b f off
  else andthen (HookManager N id b f off) (HookManagerHelper N mine id b f off).

(** class.h 113-139 *)
Definition Hook N mine id f := HookManagerHelper2 N mine id (type f) f.
Definition HookInstance N mine id f := HookManagerHelper2 N mine id (mkFt true (b_get (type f)) (b_set (type f))) f.
Definition HookInstanceFunction N mine id f := HookManagerHelper2 N mine id (mkFt true false false) f.
Definition HookInstanceGetterFunction N mine id f := HookManagerHelper2 N mine id (mkFt true true false) f.
Definition HookInstanceSetterFunction N mine id f := HookManagerHelper2 N mine id (mkFt true false true) f.
Definition HookGetterFunction N mine id f := HookManagerHelper2 N mine id (mkFt false true false) f.
Definition HookSetterFunction N mine id f := HookManagerHelper2 N mine id (mkFt false false true) f.
Definition HookInstanceProperty N mine id f := HookManagerHelper2 N mine id (mkFt true true true) f.
