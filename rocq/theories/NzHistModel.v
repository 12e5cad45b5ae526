(** Histories of a build with JNIVM_ENABLE_RETURN_NON_ZERO: the operations of [ReplModel], where calls and accesses of the result type
    jobject that have only the default to return give the object of [NonZeroModel.defaultVal], also when a running hook throws
    (src/jnivm/internal/method.cpp 207-222, 269-283, 302-315; field.cpp 122-130).  Model definitions only. *)
From Verif Require Import Base VmState VmModel VmStep NonZeroModel ReplModel.
Set Implicit Arguments.
Unset Strict Implicit.

Section Cfg.
Variable G : cfg.
(** The number of data members of the instances of the class that a signature names; any function *)
Variable vars : st -> str -> nat.

(** The default for signature [sg] instead of the result *)
Definition instead (t : tid) (sg : str) (p : rst) : option (option obs * rst) :=
  match defaultVal G t (vars (p_vm p) sg) sg (p_vm p) with
  | Some (v, s) => Some (Some v, mkRst s (p_gen p) (p_run p))
  | None => None
  end.
(** The signature for which an operation with result [v] returns the default.  method.cpp 214, 276, 309: after an exception it is that of the
    method whose function ran, read before the references of the call end; 221, 283, 315, field.cpp 129: there is nothing to run. *)
Definition lacking (t : tid) (x : rop) (v : option obs) (p p' : rst) : option str :=
  match x, v with
  | ROp (HookThrow_ _), Some (OVal (RVal (VRef None))) => option_map (fun r => signature_of (Some (r_member r)) (p_vm p)) (innermost t (p_run p))
  | ROp o, Some (OVal (RCall Default)) => option_map (fun id => signature_of id (p_vm p')) (object_result o)
  | _, _ => None
  end.
(** One operation; [None]: undefined behaviour (as in [rstep]).  Simplified: the references of a call whose function has thrown end before the
    default is made, not after it. *)
Definition nzstep (t : tid) (x : rop) (p : rst) : option (option obs * rst) :=
  match rstep G t x p with
  | None => None
  | Some (v, p') => match lacking t x v p p' with Some sg => instead t sg p' | None => Some (v, p') end
  end.
Fixpoint nzexec (l : list revent) (p : rst) : option (list (option obs) * rst) :=
  match l with
  | [] => Some ([], p)
  | (t, x) :: r =>
      match nzstep t x p with
      | None => None
      | Some (v, p') => match nzexec r p' with Some (vs, p'') => Some (v :: vs, p'') | None => None end
      end
  end.
Definition nzreachable (t0 : tid) (p : rst) : Prop := exists l vs, nzexec l (rinit G t0) = Some (vs, p).
End Cfg.
