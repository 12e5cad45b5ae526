(** The build option JNIVM_ENABLE_RETURN_NON_ZERO (CMakeLists.txt 39-41): what a call of a method without implementation returns if the
    result is an object (src/jnivm/internal/method.cpp 92-165 defaultVal<jobject>).  Model definitions only, composed of the operations of
    the VM model. *)
From Verif Require Import Base VmState VmModel VmStep.
Set Implicit Arguments.
Unset Strict Implicit.
Local Open Scope char_scope.

(** method.cpp 95: the text after the last closing parenthesis; all of it without one, since npos + 1 is 0 *)
Definition result_text (sg : str) : str := last (split_on ")" sg) [].
(** method.cpp 96-115: the types for which New<Type>Array is called; there is no case for 'Z' *)
Definition array_pty (c : ascii) : option pty :=
  match c with
  | "B" => Some PtB | "S" => Some PtS | "C" => Some PtC | "I" => Some PtI | "J" => Some PtJ | "F" => Some PtF | "D" => Some PtD
  | _ => None
  end.
(** method.cpp 118 and 126: the text between a leading 'L' and a final ';' *)
Definition class_text (x : str) : option str :=
  match x with
  | "L" :: r => match rev r with ";" :: q => Some (rev q) | _ => None end
  | _ => None
  end.

Section Cfg.
Variable G : cfg.
Variable t : tid.
Notation null s := (Some (OVal (RRef None), s)).

(** The object is handed out: a local reference is made and the std::shared_ptr destroyed (jnitypes.h 297-314). *)
Definition hand_out (i : oid) (s : st) : option (obs * st) :=
  match step G t (UToJNI_ TObject i) s with
  | Some (v, s1) => match step G t (UDrop_ i) s1 with Some (_, s2) => Some (v, s2) | None => None end
  | None => None
  end.
(** method.cpp 117-118 *)
Definition empty_array (name : str) (s : st) : option (obs * st) :=
  match step G t (FindClass_ name) s with
  | Some (OVal (RRef c), s1) => step G t (NewObjectArray_ 0 c None) s1
  | _ => None
  end.
(** method.cpp 133-141: an entry of the table of types leads to the class *)
Definition has_type_entry (c : oid) (s : st) : bool :=
  existsb (fun e => match snd e with Some k => Nat.eqb k c | None => false end) (s_types s).
(** method.cpp 127-148.  [vars]: the number of data members of the instances of the class.  Simplified: the mutex of the VM is held for
    the dummy object, which makes no difference to this thread. *)
Definition new_object (vars : nat) (name : str) (s : st) : option (obs * st) :=
  match step G t (UFindClass_ false name) s with
  | Some (OVal (RRef (Some c)), s1) =>
      match get_cls c s1 with
      | Ret k _ =>
          match c_inst k with
          | Some _ =>
              match step G t (UInstantiate_ c vars) s1 with
              | Some (OVal (RRef (Some i)), s2) => hand_out i s2
              | _ => None
              end
          | None =>
              if has_type_entry c s1 then null s1
              else match step G t (UPlain_ (Some c)) s1 with
                   | Some (OVal (RRef (Some i)), s2) => hand_out i s2
                   | _ => None
                   end
          end
      | _ => None
      end
  | _ => None
  end.
(** method.cpp 92-165 *)
Definition defaultVal (vars : nat) (sg : str) (s : st) : option (obs * st) :=
  match sg with
  | [] => null s
  | _ =>
      let x := result_text sg in
      match x with
      | "[" :: r =>
          match r with
          | [] => null s
          | c :: _ =>
              match array_pty c with
              | Some p => step G t (NewArray_ p 0) s
              | None =>
                  if Ascii.eqb c "L" || Ascii.eqb c "[" then empty_array (match class_text r with Some n => n | None => x end) s
                  else null s
              end
          end
      | _ =>
          match class_text x with
          | Some n => new_object vars n s
          | None => null s
          end
      end
  end.
(** The object result of a call or access, with the ID used *)
Definition object_result (o : op) : option (option oid) :=
  match o with
  | CallMethodA_ RObj _ id _ | CallNonvirtualMethodA_ RObj _ _ id _ | CallStaticMethodA_ RObj _ id _ | GetField_ _ RObj _ id => Some id
  | _ => None
  end.
(** [mid ? mid->signature : ""] and [fid ? fid->type : ""] *)
Definition signature_of (id : option oid) (s : st) : str :=
  match id with
  | None => []
  | Some i =>
      match lookup s i with
      | Some o => match o_pay o with PMethod m => m_sig m | PField f => f_type f | _ => [] end
      | None => []
      end
  end.
(** method.cpp 214, 221, 276, 283, 309, 315 and field.cpp 129: an operation that has only the default to return.  The default
    returned when a running hook throws is in NzHistModel. *)
Definition step_nz (vars : nat) (o : op) (s : st) : option (obs * st) :=
  match step G t o s with
  | Some (OVal (RCall Default), s1) =>
      match object_result o with
      | Some id => defaultVal vars (signature_of id s1) s1
      | None => Some (OVal (RCall Default), s1)
      end
  | r => r
  end.
End Cfg.
