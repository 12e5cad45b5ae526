(** Replacing hooks while they run.  The functions of VmModel treat the function object of a hook as a number; here
    each registration makes a function object, owned by the member only (hookManager.h 64, 85, 117, 138: the
    shared_ptr in the member is the only one), and calls use it, and the member, by raw pointer
    (method.cpp 207, 269, 302; field.cpp 122, 152).  Model definitions only. *)
From Verif Require Import Base VmState VmModel VmStep.
Set Implicit Arguments.
Local Open Scope vm_scope.

(** Where a member keeps function objects: method.h 24 [nativehandle], field.h 14-15 [getnativehandle] and
    [setnativehandle]. *)
Inductive slot := OnCall | OnGet | OnSet.
Definition slot_eqb (a b : slot) : bool :=
  match a, b with OnCall, OnCall | OnGet, OnGet | OnSet, OnSet => true | _, _ => false end.
(** A running call: the thread, the member and slot whose function object runs, and which function object of that slot
    it is (how often the slot had been assigned). *)
Record rcall := mkRc { r_thread : tid; r_member : oid; r_slot : slot; r_gen : nat }.
(** The VM, how often each slot has been assigned, and the calls that are running, newest first. *)
Record rst := mkRst { p_vm : st; p_gen : oid -> slot -> nat; p_run : list rcall }.
(** What a thread can do next: an operation of the VM, or, inside a hook, using the function object of that hook
    (e.g. a captured variable of a lambda). *)
Inductive rop := ROp (o : op) | RUse.

Section Cfg.
Variable G : cfg.

(** The member whose function object a call runs: method.cpp 201-202, 268, 292; field.cpp 108, 134. *)
Definition called_member (t : tid) (o : op) (s : st) : option (oid * slot) :=
  match o with
  | CallMethodA_ _ obj (Some i) _ =>
      match (k <- GetObjectClass G t obj ;; cl <- jnicast G TClass k ;; findVirtualOverload cl i) s with
      | Ret j _ => Some (j, OnCall)
      | _ => None
      end
  | CallNonvirtualMethodA_ _ _ c (Some i) _ =>
      match (cl <- jnicast G TClass c ;; o <- findNonVirtualOverload cl i ;; nonnull o) s with
      | Ret j _ => Some (j, OnCall)
      | _ => None
      end
  | CallStaticMethodA_ _ _ (Some i) _ => Some (i, OnCall)
  | GetField_ _ _ _ (Some i) => Some (i, OnGet)
  | SetField_ _ _ _ (Some i) _ => Some (i, OnSet)
  | _ => None
  end.
(** The slot that a Hook has assigned (hookManager.h 64, 85, 117, 138). *)
Definition assigned (o : op) (v : obs) : option (oid * slot) :=
  match o, v with
  | UHookMethod_ _ _ _ _ _, OVal (RRef (Some i)) => Some (i, OnCall)
  | UHookField_ _ _ g _ _ _, OVal (RRef (Some i)) => Some (i, if g then OnGet else OnSet)
  | _, _ => None
  end.
Definition bump (o : op) (v : obs) (g : oid -> slot -> nat) : oid -> slot -> nat :=
  match assigned o v with
  | Some (i, sl) => fun j x => if Nat.eqb i j && slot_eqb sl x then S (g j x) else g j x
  | None => g
  end.
(** The innermost call of a thread, and the list without it *)
Fixpoint innermost (t : tid) (l : list rcall) : option rcall :=
  match l with [] => None | r :: l => if Nat.eqb (r_thread r) t then Some r else innermost t l end.
Fixpoint leave (t : tid) (l : list rcall) : list rcall :=
  match l with [] => [] | r :: l => if Nat.eqb (r_thread r) t then l else r :: leave t l end.
Definition track (t : tid) (o : op) (s : st) (v : obs) (g : oid -> slot -> nat) (l : list rcall) : list rcall :=
  match o with
  | HookReturn_ _ | HookThrow_ _ => leave t l
  | _ => match v, called_member t o s with
         | OVal (RCall (Entered _ _ _)), Some (i, sl) => mkRc t i sl (g i sl) :: l
         | _, _ => l
         end
  end.
(** When the function of a method throws, the handler reads the signature of the Method (method.cpp 214, 276, 309), which
    must still exist; getters and setters have no handler. *)
Definition can_throw (t : tid) (p : rst) : bool :=
  match innermost t (p_run p) with
  | Some r => match r_slot r with OnCall => live (p_vm p) (r_member r) | _ => true end
  | None => true
  end.
(** The function object of a running call exists while its member does and the slot is not assigned again. *)
Definition function_alive (p : rst) (r : rcall) : bool :=
  live (p_vm p) (r_member r) && Nat.eqb (p_gen p (r_member r) (r_slot r)) (r_gen r).
(** One operation; [None]: undefined behaviour (as in [step]). *)
Definition rstep (t : tid) (x : rop) (p : rst) : option (option obs * rst) :=
  match x with
  | RUse => match innermost t (p_run p) with
            | Some r => if function_alive p r then Some (None, p) else None
            | None => None
            end
  | ROp o =>
      if match o with HookThrow_ _ => can_throw t p | _ => true end then
        match step G t o (p_vm p) with
        | Some (v, s') => Some (Some v, mkRst s' (bump o v (p_gen p)) (track t o (p_vm p) v (p_gen p) (p_run p)))
        | None => None
        end
      else None
  end.
Definition revent := (tid * rop)%type.
Fixpoint rexec (l : list revent) (p : rst) : option (list (option obs) * rst) :=
  match l with
  | [] => Some ([], p)
  | (t, x) :: r =>
      match rstep t x p with
      | None => None
      | Some (v, p') => match rexec r p' with Some (vs, p'') => Some (v :: vs, p'') | None => None end
      end
  end.
(** A new VM (vm.cpp 460-536): nothing has been hooked by the program, nothing runs. *)
Definition rinit (t0 : tid) : rst := mkRst (init_vm G t0) (fun _ _ => 0) [].
Definition rreachable (t0 : tid) (p : rst) : Prop := exists l vs, rexec l (rinit t0) = Some (vs, p).
End Cfg.
