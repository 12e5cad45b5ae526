(** Threads: which mutexes the functions of the VM take around which accesses to shared data, as programs that are interleaved step by step.
    Unlike VmModel.v, where every operation is one step, a search and the insertion that follows it are separate steps here. *)
From Verif Require Import Base SigModel VmState VmModel.
Set Implicit Arguments.
Unset Strict Implicit.
Local Open Scope char_scope.

(** The mutexes: VM::mtx (vm.h 63) and Class::mtx (class.h 20); classes are numbers. *)
Inductive lock := LVm | LCls (c : nat).
Definition lock_eq_dec (a b : lock) : {a = b} + {a <> b}. Proof. decide equality; apply Nat.eq_dec. Defined.
(** The data shared by threads: the registry of classes (np, classes of the VM), Class::fields and Class::methods of a class, VM::typecheck,
    VM::globals, VM::jnienvs *)
Inductive loc := XReg | XFields (c : nat) | XMethods (c : nat) | XTypes | XGlobals | XEnvs.

(** The registry as a list of nodes: namespaces (namespace.h) and classes of a namespace or class, [KMap] entries of VM::classes for names that
    do not live in namespaces.  Nodes are identified by their position, [None] is the root namespace. *)
Inductive kind := KNs | KCl | KMap.
Record node := mkNode { n_par : option nat; n_kind : kind; n_text : str }.
(** static, name, type or signature *)
Record key := mkKey { k_stat : bool; k_name : str; k_type : str }.
Record shared := mkShared {
  reg : list node;
  fields : nat -> list (key * nat);
  methods : nat -> list (key * nat);
  types : nat -> option nat;
  globals : list nat;
  envs : nat -> option (option nat);  (* vm.h 42, by thread; entries may be null *)
  next : nat;  (* address of the next new object *)
  natives : list nat  (* the methods whose Method::native is set (method.h 23) *) }.

(** What a thread does in one function *)
Inductive prog :=
| Done (r : option nat)
| Acq (m : lock) (k : prog)
| Rel (m : lock) (k : prog)
| Rd (x : loc) (f : shared -> prog)
| Wr (x : loc) (u : shared -> shared) (f : shared -> prog).  (* [f] sees the state before [u] *)

Definition kind_eqb (a b : kind) : bool := match a, b with KNs, KNs | KCl, KCl | KMap, KMap => true | _, _ => false end.
Definition opt_eqb (a b : option nat) : bool := match a, b with None, None => true | Some x, Some y => Nat.eqb x y | _, _ => false end.
Definition node_eqb (a b : node) : bool := opt_eqb (n_par a) (n_par b) && kind_eqb (n_kind a) (n_kind b) && str_eqb (n_text a) (n_text b).
(** std::find_if over the namespaces or classes of a node (findclass.cpp 28-31, 48-51, 65-68); vm->classes.find (84) *)
Fixpoint child_from (i : nat) (l : list node) (x : node) : option nat :=
  match l with [] => None | y :: r => if node_eqb y x then Some i else child_from (S i) r x end.
Definition child (l : list node) (x : node) : option nat := child_from 0 l x.
Definition add_node (x : node) (s : shared) : shared := mkShared (reg s ++ [x]) (fields s) (methods s) (types s) (globals s) (envs s) (next s) (natives s).

(** The components of a class name: findclass.cpp 18-81 (debug build), else the name as a whole (82-95).  Simplified: in the debug build the
    entry of VM::classes is written together with the node. *)
Definition path_of (debug : bool) (name : str) : list (kind * str) :=
  if debug && negb (match name with "[" :: _ => true | _ => false end)
  then map (pair KNs) (removelast (split_on "/" name)) ++ map (pair KCl) (split_on "$" (last (split_on "/" name) []))
  else [(KMap, name)].
(** findclass.cpp 7-100 InternalFindClass from node [cur], searching and inserting component by component *)
Fixpoint walk (zero : bool) (cur : option nat) (path : list (kind * str)) (k : option nat -> prog) : prog :=
  match path with
  | [] => k cur
  | (w, n) :: r =>
      Rd XReg (fun s => match child (reg s) (mkNode cur w n) with
                        | Some i => walk zero (Some i) r k
                        | None => if zero then k None else Wr XReg (add_node (mkNode cur w n)) (fun s => walk zero (Some (length (reg s))) r k)
                        end)
  end.

(** [c_bases]: the base classes of a class (extends.h 14-27); they are registered before the threads run *)
Record ccfg := mkCcfg { c_debug : bool; c_retnull : bool; c_bases : nat -> list nat }.
Section Funs.
Variable G : ccfg.

Definition InternalFindClass (zero : bool) (name : str) (k : option nat -> prog) : prog := walk zero None (path_of (c_debug G) name) k.
(** vm.cpp 28-33 *)
Definition FindClass (name : str) : prog := Acq LVm (InternalFindClass (c_retnull G) name (fun r => Rel LVm (Done r))).
(** findclass.cpp 106-116 Declare, only in the debug build (field.cpp 54, method.cpp 71) *)
Fixpoint declare_all (l : list str) (k : prog) : prog :=
  match l with [] => k | n :: r => InternalFindClass false n (fun _ => declare_all r k) end.
Definition declare (ty : str) (k : prog) : prog :=
  if c_debug G then match Declare_names ty with Ok l => declare_all l k | _ => k end else k.

Definition key_eqb (a b : key) : bool := Bool.eqb (k_stat a) (k_stat b) && str_eqb (k_name a) (k_name b) && str_eqb (k_type a) (k_type b).
Fixpoint find_key (l : list (key * nat)) (x : key) : option nat :=
  match l with [] => None | (y, i) :: r => if key_eqb y x then Some i else find_key r x end.
Definition upd A (f : nat -> A) (c : nat) (a : A) : nat -> A := fun d => if Nat.eqb d c then a else f d.
Definition add_field (c : nat) (x : key) (s : shared) : shared :=
  mkShared (reg s) (upd (fields s) c (fields s c ++ [(x, next s)])) (methods s) (types s) (globals s) (envs s) (S (next s)) (natives s).
Definition add_method (c : nat) (x : key) (s : shared) : shared :=
  mkShared (reg s) (fields s) (upd (methods s) c (methods s c ++ [(x, next s)])) (types s) (globals s) (envs s) (S (next s)) (natives s).

(** field.cpp 11-63 GetFieldID<isStatic, ReturnNull>: the mutex of the class is held to the end, also while the base classes are searched; reading
    the base classes accesses VM::typecheck (extends.h 15).  [fuel]: depth of the hierarchy. *)
Fixpoint field_prog (fuel : nat) (c : nat) (x : key) (rn : bool) (k : option nat -> prog) : prog :=
  match fuel with
  | 0 => Rel LVm (Done None)  (* no step: the mutex is not held *)
  | S n =>
      Acq (LCls c) (Rd (XFields c) (fun s =>
        match find_key (fields s c) x with
        | Some i => Rel (LCls c) (k (Some i))
        | None => Rd XTypes (fun _ =>
            (fix loop (l : list nat) : prog :=
               match l with
               | [] => if rn then Rel (LCls c) (k None)
                       else Wr (XFields c) (add_field c x) (fun s => declare (k_type x) (Rel (LCls c) (k (Some (next s)))))
               | b :: r => field_prog n b x true (fun o => match o with Some i => Rel (LCls c) (k (Some i)) | None => loop r end)
               end) (c_bases G c))
        end))
  end.
(** method.cpp 7-84 GetMethodID<isStatic, ReturnNull, false>: the mutex is held during the search only (27-35).  Simplified: <init> (16-25) is left
    out, it is the call for the static method with the rewritten signature. *)
Fixpoint method_prog (fuel : nat) (c : nat) (x : key) (rn : bool) (k : option nat -> prog) : prog :=
  match fuel with
  | 0 => Rel LVm (Done None)
  | S n =>
      Acq (LCls c) (Rd (XMethods c) (fun s => Rel (LCls c)
        match find_key (methods s c) x with
        | Some i => k (Some i)
        | None => Rd XTypes (fun _ =>
            (fix loop (l : list nat) : prog :=
               match l with
               | [] => if rn then k None else Wr (XMethods c) (add_method c x) (fun s => declare (k_type x) (k (Some (next s))))
               | b :: r => method_prog n b x true (fun o => match o with Some i => k (Some i) | None => loop r end)
               end) (c_bases G c))
        end))
  end.
(** vm.cpp 164-173, 152-161 NewGlobalRef: the class of the handle is looked up before the mutex is taken; the handle is a new object *)
Definition new_global (s : shared) : shared := mkShared (reg s) (fields s) (methods s) (types s) (globals s ++ [next s]) (envs s) (S (next s)) (natives s).
Definition NewRef (cname : str) : prog :=
  InternalFindClass false cname (fun _ => Acq LVm (Wr XGlobals new_global (fun s => Rel LVm (Done (Some (next s)))))).
Definition NewGlobalRef : prog := NewRef (S_ "internal/lang/Global").
(** vm.cpp 313-322 NewWeakGlobalRef *)
Definition NewWeakGlobalRef : prog := NewRef (S_ "java/lang/ref/WeakReference").
(** env.h 87-93 GetClass<T>(name) *)
Definition set_type (T : nat) (i : option nat) (s : shared) : shared := mkShared (reg s) (fields s) (methods s) (upd (types s) T i) (globals s) (envs s) (next s) (natives s).
Definition GetClassT (T : nat) (name : str) : prog :=
  Acq LVm (InternalFindClass false name (fun r => Wr XTypes (set_type T r) (fun _ => Rel LVm (Done r)))).
(** jnitypes.h 286-295 JNITypesObjectBase<T>::GetClass, used by ToJNIType (305): the mutex is commented out *)
Definition ClassOf (T : nat) : prog := Rd XTypes (fun s => Done (types s T)).
(** jnitypes.h 276-284 GetJNISignature *)
Definition SignatureOf (T : nat) : prog := Acq LVm (Rd XTypes (fun s => Rel LVm (Done (types s T)))).
(** vm.cpp 270-274: a method with a native function; null functions are left out *)
Definition add_native (c : nat) (x : key) (s : shared) : shared :=
  mkShared (reg s) (fields s) (upd (methods s) c (methods s c ++ [(x, next s)])) (types s) (globals s) (envs s) (S (next s)) (next s :: natives s).
(** vm.cpp 262-274, the loop of RegisterNatives over the array: each entry becomes a new method, whether there is one already
    or not; the guard of 261 ends with the call, which returns 0.  Class::natives (263), which the library never reads, is left out.  Keys are (non-static) names and signatures. *)
Fixpoint register_loop (c : nat) (l : list key) : prog :=
  match l with
  | [] => Rel (LCls c) (Done None)
  | x :: r => Wr (XMethods c) (add_native c x) (fun _ => register_loop c r)
  end.
(** vm.cpp 256-278 RegisterNatives of a class: one mutex for the whole array *)
Definition RegisterNatives (c : nat) (l : list key) : prog := Acq (LCls c) (register_loop c l).
(** vm.cpp 286-291: the methods that have a native function leave the class, whatever their names are *)
Definition is_native (s : shared) (p : key * nat) : bool := existsb (Nat.eqb (snd p)) (natives s).
Definition drop_natives (c : nat) (s : shared) : shared :=
  mkShared (reg s) (fields s) (upd (methods s) c (filter (fun p => negb (is_native s p)) (methods s c))) (types s) (globals s) (envs s) (next s) (natives s).
(** vm.cpp 279-294 UnregisterNatives of a class.  Simplified: the loop is one step; it holds the mutex. *)
Definition UnregisterNatives (c : nat) : prog := Acq (LCls c) (Wr (XMethods c) (drop_natives c) (fun _ => Rel (LCls c) (Done None))).

(** vm.cpp 173-190, 324-326 DeleteGlobalRef, DeleteWeakGlobalRef of a global reference *)
Fixpoint without (g : nat) (l : list nat) : list nat := match l with [] => [] | a :: r => if Nat.eqb a g then r else a :: without g r end.
Definition del_global (g : nat) (s : shared) : shared := mkShared (reg s) (fields s) (methods s) (types s) (without g (globals s)) (envs s) (next s) (natives s).
Definition DeleteRef (g : nat) : prog :=
  Acq LVm (Rd XGlobals (fun s => if existsb (Nat.eqb g) (globals s) then Wr XGlobals (del_global g) (fun _ => Rel LVm (Done None)) else Rel LVm (Done None))).
(** hookManager.h 71-91 Class::Hook with a signature, functions: no mutex.  The handle that is stored in the method afterwards is left out.  Without
    a signature (47-69), GetJNISignature of the parameter types comes first. *)
Definition HookMethod (c : nat) (x : key) : prog :=
  Rd (XMethods c) (fun s => match find_key (methods s c) x with Some i => Done (Some i) | None => Wr (XMethods c) (add_method c x) (fun s => Done (Some (next s))) end).
(** hookManager.h 127-147 getters and setters of fields *)
Definition HookField (c : nat) (x : key) : prog :=
  Rd (XFields c) (fun s => match find_key (fields s c) x with Some i => Done (Some i) | None => Wr (XFields c) (add_field c x) (fun s => Done (Some (next s))) end).
Definition set_env (t : nat) (e : option (option nat)) (s : shared) : shared := mkShared (reg s) (fields s) (methods s) (types s) (globals s) (upd (envs s) t e) (next s) (natives s).
Definition add_env (t : nat) (s : shared) : shared := mkShared (reg s) (fields s) (methods s) (types s) (globals s) (upd (envs s) t (Some (Some (next s)))) (S (next s)) (natives s).
(** vm.cpp 468-486 AttachCurrentThread of thread [t]; GetEnv (500-510) and AttachCurrentThreadAsDaemon (511-513) do the same *)
Definition Attach (t : nat) : prog :=
  Acq LVm (Rd XEnvs (fun s => match envs s t with
                              | Some (Some e) => Rel LVm (Done (Some e))
                              | _ => Wr XEnvs (add_env t) (fun s => Rel LVm (Done (Some (next s))))
                              end)).
(** vm.cpp 487-499 DetachCurrentThread *)
Definition Detach (t : nat) : prog :=
  Acq LVm (Rd XEnvs (fun s => match envs s t with
                              | Some _ => Wr XEnvs (set_env t None) (fun _ => Rel LVm (Done None))
                              | None => Rel LVm (Done None)
                              end)).
(** vm.cpp 546-552 VM::GetEnv, used by VM::GetJNIEnv (542-544) and the FakeJni and Baron classes: no mutex; operator[] adds a null entry *)
Definition CurrentEnv (t : nat) : prog :=
  Rd XEnvs (fun s => match envs s t with
                     | Some e => Done e
                     | None => Wr XEnvs (set_env t (Some None)) (fun _ => Done None)
                     end).

(** The calls of threads.  [c_height]: the depth of the hierarchy below a class. *)
Inductive call :=
| CFindClass (name : str) | CGetFieldID (c : nat) (x : key) | CGetMethodID (c : nat) (x : key) | CNewGlobalRef | CNewWeakGlobalRef
| CGetClassT (T : nat) (name : str) | CClassOf (T : nat) | CSignatureOf (T : nat) | CRegisterNatives (c : nat) (l : list key)
| CDeleteGlobalRef (g : nat) | CHookMethod (c : nat) (x : key) | CHookField (c : nat) (x : key) | CAttach (t : nat) | CDetach (t : nat) | CCurrentEnv (t : nat)
| CUnregisterNatives (c : nat).
Variable height : nat -> nat.
Definition prog_of (c : call) : prog :=
  match c with
  | CFindClass n => FindClass n
  | CGetFieldID c x => field_prog (S (height c)) c x (c_retnull G) Done
  | CGetMethodID c x => method_prog (S (height c)) c x (c_retnull G) Done
  | CNewGlobalRef => NewGlobalRef
  | CNewWeakGlobalRef => NewWeakGlobalRef
  | CGetClassT T n => GetClassT T n
  | CClassOf T => ClassOf T
  | CSignatureOf T => SignatureOf T
  | CRegisterNatives c l => RegisterNatives c l
  | CDeleteGlobalRef g => DeleteRef g
  | CHookMethod c x => HookMethod c x
  | CHookField c x => HookField c x
  | CAttach t => Attach t
  | CDetach t => Detach t
  | CCurrentEnv t => CurrentEnv t
  | CUnregisterNatives c => UnregisterNatives c
  end.

(** ** Interleaving *)
(** A thread: the running call, the calls to come, the finished ones with their results *)
Record thread := mkThread { t_cur : option (call * prog); t_todo : list call; t_done : list (call * option nat) }.
Record conf := mkConf { sh : shared; own : lock -> option nat; thrs : list thread }.
Definition set_own (f : lock -> option nat) (m : lock) (o : option nat) : lock -> option nat := fun n => if lock_eq_dec n m then o else f n.
Definition set_thr (l : list thread) (t : nat) (x : thread) : list thread := list_set l t x.
(** One step of thread [t]; [None]: it has finished, or waits for a mutex (also one that it holds itself: undefined behaviour of std::mutex) *)
Definition cstep (t : nat) (C : conf) : option conf :=
  match nth_error (thrs C) t with
  | None => None
  | Some x =>
      match t_cur x with
      | None => match t_todo x with [] => None | c :: r => Some (mkConf (sh C) (own C) (set_thr (thrs C) t (mkThread (Some (c, prog_of c)) r (t_done x)))) end
      | Some (c, p) =>
          let go s o q := Some (mkConf s o (set_thr (thrs C) t (mkThread (Some (c, q)) (t_todo x) (t_done x)))) in
          match p with
          | Done r => Some (mkConf (sh C) (own C) (set_thr (thrs C) t (mkThread None (t_todo x) (t_done x ++ [(c, r)]))))
          | Acq m k => match own C m with None => go (sh C) (set_own (own C) m (Some t)) k | Some _ => None end
          | Rel m k => if opt_eqb (own C m) (Some t) then go (sh C) (set_own (own C) m None) k else None
          | Rd _ f => go (sh C) (own C) (f (sh C))
          | Wr _ u f => go (u (sh C)) (own C) (f (sh C))
          end
      end
  end.
(** A schedule says whose turn it is *)
Fixpoint crun (l : list nat) (C : conf) : option conf := match l with [] => Some C | t :: r => match cstep t C with Some D => crun r D | None => None end end.
Definition cinit (s : shared) (calls : list (list call)) : conf := mkConf s (fun _ => None) (map (fun l => mkThread None l []) calls).
End Funs.
(** The access a program makes next *)
Definition accesses (p : prog) : option (loc * bool) := match p with Rd x _ => Some (x, false) | Wr x _ _ => Some (x, true) | _ => None end.
