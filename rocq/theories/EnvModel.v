(** Attaching and detaching of threads: the table of environments VM::jnienvs and its mutex, interleaved step by step (vm.cpp 468-512, 525-552). *)
From Verif Require Import Base VmState.
Set Implicit Arguments.
Unset Strict Implicit.

(** VM::jnienvs: the key is the thread (pthread_self, no two threads at the same time have the same); no entry, an entry with a null pointer, or an
    environment.  Environments are numbered in the order of their creation. *)
Record table := mkTable { entry : nat -> option (option nat); created : nat }.
Definition set_entry (t : nat) (e : option (option nat)) (s : table) : table := mkTable (fun u => if Nat.eqb u t then e else entry s u) (created s).

(** The calls of a thread: the functions of JNIInvokeInterface with "penv is not null", and VM::GetEnv of the C++ interface *)
Inductive ecall := EAttach (penv : bool) | EAttachDaemon (penv : bool) | EGetEnv (penv : bool) | EDetach | ECppGetEnv.
(** What the caller has: nothing stored in *penv, an environment, or the (possibly null) pointer returned by VM::GetEnv *)
Inductive eres := ENothing | EEnv (e : nat) | ERef (e : option nat).

(** Where a thread is in a call; all but the first and the last are in a critical section of VM::mtx *)
Inductive pc :=
| PStart                      (* before the mutex is taken *)
| PIndex (penv : bool)        (* 472: nvm.jnienvs[pthread_self()] *)
| PTest (penv : bool)         (* 473: if(!nenv) *)
| PCreate (penv : bool)       (* 474: nenv = nvm.CreateEnv() *)
| PStore (penv : bool)        (* 476-478 *)
| PFind                       (* 491-492 *)
| PErase                      (* 494 *)
| PUnlock (r : eres)          (* end of the block *)
| PRef                        (* 548: return jnienvs[pthread_self()] without the mutex *)
| PEnd (r : eres).
Record ethread := mkEt { e_cur : option (ecall * pc); e_todo : list ecall; e_done : list (ecall * eres) }.
Record econf := mkEc { tab : table; holder : option nat; ethrs : list ethread }.

(** operator[] of a map: inserts a null pointer if there is no entry *)
Definition index (t : nat) (s : table) : table := match entry s t with None => set_entry t (Some None) s | Some _ => s end.
Definition env_at (t : nat) (s : table) : option nat := match entry s t with Some (Some e) => Some e | _ => None end.

(** One step of thread [t] at [p]: table, mutex and the next place; [None]: it waits for the mutex.
    vm.cpp 468-486 (AttachCurrentThread), 487-498 (DetachCurrentThread), 499-509 (GetEnv), 510-512 (AttachCurrentThreadAsDaemon).
    Simplified: CreateEnv and the hooks that it runs (563-569) are one step that takes no mutex. *)
Definition pstep (t : nat) (c : ecall) (p : pc) (s : table) (h : option nat) : option (table * option nat * pc) :=
  match p with
  | PStart =>
      match c with
      | EGetEnv false => Some (s, h, PEnd ENothing)
      | ECppGetEnv => Some (s, h, PRef)
      | EAttach b | EAttachDaemon b | EGetEnv b => match h with None => Some (s, Some t, PIndex b) | Some _ => None end
      | EDetach => match h with None => Some (s, Some t, PFind) | Some _ => None end
      end
  | PIndex b => Some (index t s, h, PTest b)
  | PTest b => Some (s, h, match env_at t s with None => PCreate b | Some _ => PStore b end)
  | PCreate b => Some (mkTable (entry (set_entry t (Some (Some (created s))) s)) (S (created s)), h, PStore b)
  | PStore b => Some (s, h, PUnlock (if b then match env_at t s with Some e => EEnv e | None => ENothing end else ENothing))
  | PFind => Some (s, h, match entry s t with Some _ => PErase | None => PUnlock ENothing end)
  | PErase => Some (set_entry t None s, h, PUnlock ENothing)
  | PUnlock r => Some (s, None, PEnd r)
  | PRef => Some (index t s, h, PEnd (ERef (env_at t (index t s))))
  | PEnd r => None
  end.
Definition estep (t : nat) (C : econf) : option econf :=
  match nth_error (ethrs C) t with
  | None => None
  | Some x =>
      match e_cur x with
      | None => match e_todo x with [] => None | c :: r => Some (mkEc (tab C) (holder C) (list_set (ethrs C) t (mkEt (Some (c, PStart)) r (e_done x)))) end
      | Some (c, PEnd r) => Some (mkEc (tab C) (holder C) (list_set (ethrs C) t (mkEt None (e_todo x) (e_done x ++ [(c, r)]))))
      | Some (c, p) =>
          match pstep t c p (tab C) (holder C) with
          | Some (s, h, q) => Some (mkEc s h (list_set (ethrs C) t (mkEt (Some (c, q)) (e_todo x) (e_done x))))
          | None => None
          end
      end
  end.
Fixpoint erun (l : list nat) (C : econf) : option econf := match l with [] => Some C | t :: r => match estep t C with Some D => erun r D | None => None end end.
(** vm.cpp 525-526 VM::initialize: the thread that constructs the VM, number 0, has an environment *)
Definition booted : table := mkTable (fun t => if Nat.eqb t 0 then Some (Some 0) else None) 1.
Definition einit (calls : list (list ecall)) : econf := mkEc booted None (map (fun l => mkEt None l []) calls).
(** The access to the table that a thread makes next: [true] if it changes it.  operator[] is not const and may insert and rehash. *)
Definition access (p : pc) : option bool :=
  match p with
  | PIndex _ | PCreate _ | PErase | PRef => Some true
  | PTest _ | PStore _ | PFind => Some false
  | PStart | PUnlock _ | PEnd _ => None
  end.
