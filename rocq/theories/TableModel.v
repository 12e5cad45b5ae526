(** The function tables of JavaVM and JNIEnv: construction, overriding, hooks for new environments, and the way back from
    a JNI pointer to the object of the library. *)
From Verif Require Import Base.
Set Implicit Arguments.
Unset Strict Implicit.

(** What reserved0 can point to: a jnivm::VM, a jnivm::ENV, or anything else *)
Inductive ptr := PVm (v : nat) | PEnv (e : nat) | PForeign (n : nat).
Definition ptr_eqb (a b : ptr) : bool :=
  match a, b with
  | PVm x, PVm y => Nat.eqb x y
  | PEnv x, PEnv y => Nat.eqb x y
  | PForeign x, PForeign y => Nat.eqb x y
  | _, _ => false
  end.
(** jni.h [JNIInvokeInterface], [JNINativeInterface]: reserved0 and the function pointers (with reserved1, ...) *)
Record table := mkT { t_self : option ptr; t_slots : list nat }.

(** env.h 14-22 [ENV]: its VM and the table [ninterface]; the JNIEnv it hands out always points to that table *)
Record envr := mkE { n_vm : nat; n_table : table }.
(** vm.h 34-50 [VM]: [iinterface] (to which its JavaVM points), the template [ninterface], [jnienvhooks], [jnienvs] *)
Record vmr := mkV { m_inv : table; m_tmpl : table; m_hooks : list (table -> table); m_envs : list (nat * nat) }.
(** all objects; the number of an object is its address *)
Record mem := mkM { vms : list vmr; envs : list envr }.

Definition set_nth {A} (l : list A) (i : nat) (x : A) : list A := firstn i l ++ x :: skipn (S i) l.

(** vm.cpp 460-523: the tables come from the library; [slots], [inv]: its functions *)
Definition new_vm (inv slots : list nat) (m : mem) : mem :=
  mkM (vms m ++ [mkV (mkT (Some (PVm (length (vms m)))) inv) (mkT None slots) [] []]) (envs m).
(** vm.cpp 563-569 [CreateEnv] with env.cpp 9-15 [ENV::ENV]; stored for thread [t] (vm.cpp 468-486).
    Hooks are functions of the table alone. *)
Definition create_env (t v : nat) (x : vmr) (m : mem) : mem :=
  let tmpl := fold_left (fun tb h => h tb) (m_hooks x) (m_tmpl x) in
  let e := length (envs m) in
  mkM (set_nth (vms m) v (mkV (m_inv x) (m_tmpl x) (m_hooks x) ((t, e) :: m_envs x)))
      (envs m ++ [mkE v (mkT (Some (PEnv e)) (t_slots tmpl))]).
Definition env_of (x : vmr) (t : nat) : option nat :=
  match find (fun p => Nat.eqb (fst p) t) (m_envs x) with Some p => Some (snd p) | None => None end.

(** vm.cpp 554-561, env.cpp 21-28: [old] the table, [new] the argument *)
Definition override (old new : table) : option table :=
  let foreign := match t_self new with
                 | None => false
                 | Some p => match t_self old with Some q => negb (ptr_eqb p q) | None => true end
                 end in
  if foreign then None else Some (mkT (t_self old) (t_slots new)).

Inductive top :=
| TNew (inv slots : list nat)              (* a VM is constructed *)
| TAttach (t v : nat)                      (* AttachCurrentThread of thread [t] *)
| TDetach (t v : nat)
| THook (v : nat) (h : table -> table)     (* vm.h 53-55 AddHook *)
| TOverVm (v : nat) (tb : table)           (* OverrideJNIInvokeInterface *)
| TOverEnv (e : nat) (tb : table).         (* OverrideJNINativeInterface *)

(** [Thrown]: the exception of a rejected table, nothing changed; [UB]: no such object.  Destroyed environments stay in
    the list (nobody may use them any more). *)
Definition tstep (o : top) (m : mem) : res mem * mem :=
  match o with
  | TNew inv slots => let m' := new_vm inv slots m in (Ok m', m')
  | TAttach t v =>
      match nth_error (vms m) v with
      | None => (UB, m)
      | Some x => match env_of x t with
                  | Some _ => (Ok m, m)
                  | None => let m' := create_env t v x m in (Ok m', m')
                  end
      end
  | TDetach t v =>
      match nth_error (vms m) v with
      | None => (UB, m)
      | Some x => let m' := mkM (set_nth (vms m) v (mkV (m_inv x) (m_tmpl x) (m_hooks x) (filter (fun p => negb (Nat.eqb (fst p) t)) (m_envs x)))) (envs m) in
                  (Ok m', m')
      end
  | THook v h =>
      match nth_error (vms m) v with
      | None => (UB, m)
      | Some x => let m' := mkM (set_nth (vms m) v (mkV (m_inv x) (m_tmpl x) (m_hooks x ++ [h]) (m_envs x))) (envs m) in (Ok m', m')
      end
  | TOverVm v tb =>
      match nth_error (vms m) v with
      | None => (UB, m)
      | Some x => match override (m_inv x) tb with
                  | None => (Thrown (Err (S_ "Updating `iinterface.reserved0` to a different value is forbidden")), m)
                  | Some tb' => let m' := mkM (set_nth (vms m) v (mkV tb' (m_tmpl x) (m_hooks x) (m_envs x))) (envs m) in (Ok m', m')
                  end
      end
  | TOverEnv e tb =>
      match nth_error (envs m) e with
      | None => (UB, m)
      | Some x => match override (n_table x) tb with
                  | None => (Thrown (Err (S_ "Updating `ninterface.reserved0` to a different value is forbidden")), m)
                  | Some tb' => let m' := mkM (vms m) (set_nth (envs m) e (mkE (n_vm x) tb')) in (Ok m', m')
                  end
      end
  end.
Fixpoint truns (l : list top) (m : mem) : mem := match l with [] => m | o :: r => truns r (snd (tstep o m)) end.
Definition tstart : mem := mkM [] [].

(** vm.cpp 575-578 [FromJavaVM], env.cpp 38-41 [FromJNIEnv]: [None] is the null pointer, otherwise the holder of the
    given object *)
Definition FromJavaVM (vm : option nat) (m : mem) : res ptr :=
  match vm with
  | None => Thrown (Err (S_ "Failed to get reference to jnivm::VM"))
  | Some v => match nth_error (vms m) v with
              | None => UB
              | Some x => match t_self (m_inv x) with
                          | None => Thrown (Err (S_ "Failed to get reference to jnivm::VM"))
                          | Some p => Ok p
                          end
              end
  end.
Definition FromJNIEnv (env : option nat) (m : mem) : res ptr :=
  match env with
  | None => Thrown (Err (S_ "Failed to get reference to jnivm::ENV"))
  | Some e => match nth_error (envs m) e with
              | None => UB
              | Some x => match t_self (n_table x) with
                          | None => Thrown (Err (S_ "Failed to get reference to jnivm::ENV"))
                          | Some p => Ok p
                          end
              end
  end.
