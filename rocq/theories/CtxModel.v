(** Scoped contexts of fake-jni: JniEnvContext, LocalFrame, on threads and several virtual machines.
    FakeJni::Jvm keeps, besides the table of environments of each VM, one thread local weak pointer to the Env of the
    thread (fake-jni.h 108-122), shared by all VMs. *)
From Verif Require Import Base VmState VmModel VmStep.
Set Implicit Arguments.
Unset Strict Implicit.

Section Cfg.
Variable G : cfg.

(** [w_vms]: the VMs in the order of their creation, [None] after destruction
    [w_cur t]: the VM of the Env that the thread local pointer [JniEnvContext::env] of thread [t] points to, if it is
    alive *)
Record world := mkW { w_vms : list (option st); w_cur : list (tid * nat) }.
Definition cur (w : world) (t : tid) : option nat := aget Nat.eqb (w_cur w) t.
Definition vm (w : world) (v : nat) : option st := match nth_error (w_vms w) v with Some x => x | None => None end.
Definition set_vm (w : world) (v : nat) (s : st) : world := mkW (list_set (w_vms w) v (Some s)) (w_cur w).

(** jvm.cpp 26-37 [Jvm::CreateEnv], reached from AttachCurrentThread (vm.cpp 468-486) of a thread that VM [v] does
    not know: an Env of any VM that is still alive on this thread makes it throw.  That leaves a null entry in the
    table of VM [v], with which nothing can be done any more; the model ends there ([None]). *)
Definition attach (t : tid) (v : nat) (w : world) : option world :=
  match vm w v with
  | None => None
  | Some s =>
      match get_env s t with
      | Some _ => Some w
      | None =>
          match cur w t with
          | Some _ => None
          | None => match step G t Attach_ s with
                    | Some (_, s') => Some (mkW (list_set (w_vms w) v (Some s')) (aset Nat.eqb (w_cur w) t v))
                    | None => None
                    end
          end
      end
  end.
(** DetachCurrentThread (vm.cpp 487-498): the last shared pointer to the Env goes away, the weak pointer expires.
    (In ~JniEnvContext, fake-jni.cpp 23-27, the member env2 keeps the Env until the end of the destructor.) *)
Definition detach (t : tid) (v : nat) (w : world) : option world :=
  match vm w v with
  | None => None
  | Some s =>
      match step G t Detach_ s with
      | Some (_, s') =>
          Some (mkW (list_set (w_vms w) v (Some s'))
                    (match cur w t with
                     | Some x => if Nat.eqb x v then adel Nat.eqb (w_cur w) t else w_cur w
                     | None => w_cur w end))
      | None => None
      end
  end.
(** Construction of a Jvm on thread [t] (jvm.cpp 6-13, vm.cpp 525-536): attaches the thread *)
Definition create (t : tid) (w : world) : option world :=
  match cur w t with
  | Some _ => None
  | None => Some (mkW (w_vms w ++ [Some (init_vm G t)]) (aset Nat.eqb (w_cur w) t (length (w_vms w))))
  end.
(** fake-jni.cpp 29-38 [~ThreadContext]: the end of thread [t], from its thread local destructors.  Simplified: the Env is only held by the
    table of its VM and not by a JniEnvContext that outlives the thread; then the program would be aborted.  ([cur] is the VM of the Env,
    as getVM returns.) *)
Definition thread_exit (t : tid) (w : world) : option world :=
  match cur w t with
  | Some v => detach t v w
  | None => Some w
  end.
(** Destruction of the VM [v] (vm.h 57-95, env.h 31: the members of VM and Jvm): the table of environments is destroyed, so that the
    weak pointers of its threads expire.  Undefined while code called by the VM runs.  Libraries are in [LibModel]; contexts of this VM that
    still exist afterwards are outside of the model. *)
Definition destroy (v : nat) (w : world) : option world :=
  match vm w v with
  | None => None
  | Some s =>
      if forallb (fun e => match e_calls (snd e) with [] => true | _ => false end) (s_envs s)
      then Some (mkW (list_set (w_vms w) v None) (fold_right (fun e c => adel Nat.eqb c (fst e)) (w_cur w) (s_envs s)))
      else None
  end.

(** An operation on the VM [v] *)
Definition vmop (t : tid) (v : nat) (o : op) (w : world) : option (obs * world) :=
  match vm w v with
  | None => None
  | Some s => match step G t o s with Some (r, s') => Some (r, set_vm w v s') | None => None end
  end.
Inductive wop := WNew (t : tid) | WAttach (t : tid) (v : nat) | WDetach (t : tid) (v : nat) | WOp (t : tid) (v : nat) (o : op) | WExit (t : tid) | WDestroy (v : nat).
Definition threads_op (o : op) : bool := match o with Attach_ | Detach_ => true | _ => false end.
Definition wstep (o : wop) (w : world) : option world :=
  match o with
  | WNew t => create t w
  | WAttach t v => attach t v w
  | WDetach t v => detach t v w
  | WOp t v o => if threads_op o then None else match vmop t v o w with Some (_, w') => Some w' | None => None end
  | WExit t => thread_exit t w
  | WDestroy v => destroy v w
  end.
Inductive wreach : world -> Prop :=
| wr_start : wreach (mkW [] [])
| wr_step o w w' : wreach w -> wstep o w = Some w' -> wreach w'.

(** Code of one thread with scopes.
    [PDo o]: a JNI function called through the Env of the context; [POther]: other threads;
    [PScope (Some v) None b]: { JniEnvContext c(vm v); b }   [PScope None None b]: { JniEnvContext c; b }
    [PScope x (Some n) b]: the same with LocalFrame of size [n]   [PTry b]: try { b } catch(...) {} *)
Inductive prog :=
| PDo (o : op)
| POther (o : wop)
| PScope (v : option nat) (frame : option Z) (body : list prog)
| PTry (body : list prog).

(** fake-jni.cpp 7-21: constructors of JniEnvContext; the result is the member [vm] *)
Definition enter (t : tid) (v : option nat) (w : world) : option (option nat * world) :=
  match cur w t, v with
  | None, Some x => match attach t x w with Some w' => Some (Some x, w') | None => None end
  | _, _ => Some (None, w)
  end.
(** fake-jni.cpp 23-27: ~JniEnvContext *)
Definition leave (t : tid) (own : option nat) (w : world) : option world :=
  match own with Some x => detach t x w | None => Some w end.

Definition is_exn (r : obs) : bool := match r with OExn _ => true | OVal _ => false end.
(** [true]: a C++ exception is in flight *)
Definition result := option (bool * world).
Definition then_leave (t : tid) (own : option nat) (r : result) : result :=
  match r with
  | Some (b, w) => match leave t own w with Some w' => Some (b, w') | None => None end
  | None => None
  end.
(** fake-jni.cpp 42-47 [getJniEnv] throws without Env *)
Definition do_op (t : tid) (o : op) (w : world) : result :=
  match cur w t with
  | None => Some (true, w)
  | Some v => match vmop t v o w with Some (r, w') => Some (is_exn r, w') | None => None end
  end.
(** fake-jni.h 132-141 ~LocalFrame after the body; runs whether or not an exception is in flight *)
Definition then_pop (t : tid) (r : result) : result :=
  match r with
  | Some (b, w) => match do_op t (PopLocalFrame_ None) w with Some (_, w') => Some (b, w') | None => None end
  | None => None
  end.

Fixpoint pexec (t : tid) (p : prog) (w : world) {struct p} : result :=
  let list_exec := fix go (l : list prog) (w : world) : result :=
    match l with
    | [] => Some (false, w)
    | p :: r => match pexec t p w with
                | Some (false, w') => go r w'
                | x => x
                end
    end in
  match p with
  | PDo o => do_op t o w
  | POther o => match wstep o w with Some w' => Some (false, w') | None => None end
  | PTry b => match list_exec b w with Some (_, w') => Some (false, w') | None => None end
  | PScope v frame b =>
      match enter t v w with
      | None => None
      | Some (own, w1) =>
          match frame with
          | None => then_leave t own (list_exec b w1)
          | Some n =>
              (* LocalFrame: if PushLocalFrame throws, only the base class is destroyed *)
              match do_op t (PushLocalFrame_ n) w1 with
              | Some (true, w2) => then_leave t own (Some (true, w2))
              | Some (false, w2) => then_leave t own (then_pop t (list_exec b w2))
              | None => None
              end
          end
      end
  end.
Definition pexecs (t : tid) : list prog -> world -> result :=
  fix go (l : list prog) (w : world) : result :=
    match l with
    | [] => Some (false, w)
    | p :: r => match pexec t p w with
                | Some (false, w') => go r w'
                | x => x
                end
    end.
End Cfg.
