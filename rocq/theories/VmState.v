(** State of a jnivm::VM: heap of shared objects, reference tables, class registry, threads.
    Model definitions only; proofs live in the Vm*Proofs files. *)
From Verif Require Import Base.
Set Implicit Arguments.

(** An object is identified by the address of its [jnivm::Object] sub object.  Addresses are
    never reused in the model: a C++ allocator may reuse the address of a destroyed object,
    but every access through a stale handle already is undefined behaviour here. *)
Definition oid := nat.
(** pthread_t *)
Definition tid := nat.

(** ** Types *)

(** The eight primitive JNI types: boolean byte char short int long float double *)
Inductive pty := PtZ | PtB | PtC | PtS | PtI | PtJ | PtF | PtD.
(** Result type [T] of [MethodHandleBase<T>] (methodhandlebase.h 10, 44). *)
Inductive rty := RObj | RPrim (p : pty) | RVoid.

Definition pty_eqb (a b : pty) : bool :=
  match a, b with
  | PtZ, PtZ | PtB, PtB | PtC, PtC | PtS, PtS | PtI, PtI | PtJ, PtJ | PtF, PtF | PtD, PtD => true
  | _, _ => false
  end.
Definition rty_eqb (a b : rty) : bool :=
  match a, b with
  | RObj, RObj | RVoid, RVoid => true
  | RPrim p, RPrim q => pty_eqb p q
  | _, _ => false
  end.

(** C++ types derived from [jnivm::Object], i.e. the keys ([std::type_index]) of [VM::typecheck]
    and the targets of [dynamic_cast].
    [TArr None] is [Array<Object>], [TArr (Some n)] is [Array<user type n>], [TVArr] is
    [Array<void>] (the common base of all arrays), [TUser n] is a user defined class. *)
Inductive ty :=
| TObject | TClass | TString | TBuffer | TThrowable | TMethod | TField | TWeak | TGlobal
| TVArr | TPArr (p : pty) | TArr (t : option nat) | TUser (n : nat).

Definition ty_eqb (a b : ty) : bool :=
  match a, b with
  | TObject, TObject | TClass, TClass | TString, TString | TBuffer, TBuffer
  | TThrowable, TThrowable | TMethod, TMethod | TField, TField | TWeak, TWeak
  | TGlobal, TGlobal | TVArr, TVArr | TArr None, TArr None => true
  | TPArr p, TPArr q => pty_eqb p q
  | TArr (Some n), TArr (Some m) => Nat.eqb n m
  | TUser n, TUser m => Nat.eqb n m
  | _, _ => false
  end.

(** Build options and the user's class hierarchy.
    [debug]: JNI_DEBUG (CMakeLists option JNIVM_ENABLE_DEBUG); [ndebug]: NDEBUG;
    [retnull]: the VM was constructed with ReturnNull (vm.cpp 460); [csigned]: plain char is signed;
    [ubases n = None]: user class n derives from [Object] directly and inherits
    [Object::GetBaseClasses] (object.cpp 9-11);
    [ubases n = Some l]: user class n is [Extends<l...>] (extends.h 11-27), an entry [None]
    of [l] is [Object] itself. *)
Record cfg := mkCfg {
  debug : bool;
  ndebug : bool;
  retnull : bool;
  csigned : bool;
  ubases : nat -> option (list (option nat))
}.

(** ** Objects *)

(** Which virtual function of [MethodHandle] the handle overrides (wrap.h 255-335). *)
Inductive hkind := KInst | KStatic | KInstGet | KStaticGet | KInstSet | KStaticSet.

(** A [MethodHandle] made from a hooked C++ function or data member.  [h_id] identifies the
    user's function; [h_memfn] tells that it is a member function pointer, for which
    NonVirtualInstanceInvoke throws (wrap.h 66-68). *)
Record handle := mkHandle { h_id : nat; h_kind : hkind; h_ret : rty; h_memfn : bool }.

(** method.h 14-35 [Method]; [m_native] is the registered function pointer (null = None). *)
Record mth := mkMth {
  m_name : str; m_sig : str; m_static : bool; m_native : option nat; m_handle : option handle }.

(** field.h 9-22 [Field] *)
Record fld := mkFld {
  f_name : str; f_type : str; f_static : bool; f_get : option handle; f_set : option handle }.

(** class.h 18-60 [Class].  [c_inner] = [classes] (JNI_DEBUG), [c_inst] = the type that
    [Instantiate] creates, [c_instarr] = the element type of [InstantiateArray] ([Some None] for
    Array<Object>), [c_bases] = the type whose GetBaseClasses is stored in [baseclasses]. *)
Record cls := mkCls {
  c_name : str; c_prefix : str;
  c_inner : list oid; c_fields : list oid; c_methods : list oid;
  c_natives : list (str * nat);
  c_inst : option ty; c_instarr : option nat; c_bases : option ty }.

(** Dynamic type and contents of an object.
    [PUser n vars]: user object of class n with strong references in its data members;
    [PWeak t] / [PGlobal t]: weak.h [Weak] / [Global] wrapping object [t];
    [PThrow e]: [Throwable] with its exception_ptr. *)
Inductive pay :=
| PPlain
| PUser (n : nat) (vars : list (option oid))
| PClass (c : cls)
| PString (s : str)
| PBuffer (addr : Z) (cap : Z)
| PThrow (e : exn)
| PMethod (m : mth)
| PField (f : fld)
| PWeak (t : oid)
| PGlobal (t : oid)
| PPrim (p : pty) (elems : list Z)
| PArr (t : option nat) (elems : list (option oid)).

(** object.h 21-33 [Object]: [o_clazz] is the weak pointer [clazz]; [o_mon] is the owner and
    recursion count of the recursive_mutex [lock]. *)
Record obj := mkObj { o_clazz : option oid; o_mon : option (tid * nat); o_pay : pay }.

Definition new_obj (cl : option oid) (p : pay) : obj := mkObj cl None p.

Definition somes {A} (l : list (option A)) : list A :=
  flat_map (fun o => match o with Some x => [x] | None => [] end) l.

(** The strong references ([std::shared_ptr] members) of an object. *)
Definition refs (p : pay) : list oid :=
  match p with
  | PUser _ vars => somes vars
  | PClass c => c_inner c ++ c_fields c ++ c_methods c
  | PGlobal t => [t]
  | PArr _ e => somes e
  | _ => []
  end.

(** ** The VM *)

(** internal/codegen/namespace.h [Namespace]; namespaces are stored in one list and refer to
    each other by index, index 0 is [VM::np]. *)
Record nsnode := mkNs { n_name : str; n_subs : list nat; n_classes : list oid }.

(** A call of a hook that has started and not returned yet: [k_ret] result type,
    [k_catch] the call is inside the try block of CallMethod, [k_hook] the function that runs,
    [k_held] the class kept alive by the C++ stack frame, if any. *)
Record call := mkCall { k_ret : rty; k_catch : bool; k_hook : nat; k_held : list oid }.

(** env.h 13-41 [ENV]; [e_id] stands for its address; head of [e_frames] is
    [localframe.front()], the innermost frame. *)
Record env := mkEnv {
  e_id : nat;
  e_frames : list (list oid);
  e_free : list (list oid);
  e_exc : option oid;
  e_calls : list call }.

(** vm.h 38-78 [VM].  [s_ext]: shared pointers held by user C++ code, [s_tmp]: shared pointers
    in local variables of the library function that currently runs. *)
Record st := mkSt {
  s_heap : list (option obj);
  s_globals : list oid;
  s_classes : list (str * oid);
  s_ns : list nsnode;
  s_types : list (ty * option oid);
  s_envs : list (tid * env);
  s_nextenv : nat;
  s_ext : list oid;
  s_tmp : list oid }.

Definition with_heap s x := mkSt x (s_globals s) (s_classes s) (s_ns s) (s_types s) (s_envs s) (s_nextenv s) (s_ext s) (s_tmp s).
Definition with_globals s x := mkSt (s_heap s) x (s_classes s) (s_ns s) (s_types s) (s_envs s) (s_nextenv s) (s_ext s) (s_tmp s).
Definition with_classes s x := mkSt (s_heap s) (s_globals s) x (s_ns s) (s_types s) (s_envs s) (s_nextenv s) (s_ext s) (s_tmp s).
Definition with_ns s x := mkSt (s_heap s) (s_globals s) (s_classes s) x (s_types s) (s_envs s) (s_nextenv s) (s_ext s) (s_tmp s).
Definition with_types s x := mkSt (s_heap s) (s_globals s) (s_classes s) (s_ns s) x (s_envs s) (s_nextenv s) (s_ext s) (s_tmp s).
Definition with_envs s x := mkSt (s_heap s) (s_globals s) (s_classes s) (s_ns s) (s_types s) x (s_nextenv s) (s_ext s) (s_tmp s).
Definition with_nextenv s x := mkSt (s_heap s) (s_globals s) (s_classes s) (s_ns s) (s_types s) (s_envs s) x (s_ext s) (s_tmp s).
Definition with_ext s x := mkSt (s_heap s) (s_globals s) (s_classes s) (s_ns s) (s_types s) (s_envs s) (s_nextenv s) x (s_tmp s).
Definition with_tmp s x := mkSt (s_heap s) (s_globals s) (s_classes s) (s_ns s) (s_types s) (s_envs s) (s_nextenv s) (s_ext s) x.

Definition lookup (s : st) (i : oid) : option obj :=
  match nth_error (s_heap s) i with Some (Some o) => Some o | _ => None end.
Definition live (s : st) (i : oid) : bool :=
  match lookup s i with Some _ => true | None => false end.

Fixpoint list_set {A} (l : list A) (i : nat) (x : A) : list A :=
  match l, i with
  | [], _ => []
  | _ :: r, 0 => x :: r
  | y :: r, S i' => y :: list_set r i' x
  end.

(** Association lists: [std::unordered_map]; [aset] is [m[k] = v]. *)
Section Assoc.
  Context {K V : Type} (eqb : K -> K -> bool).
  Fixpoint aget (m : list (K * V)) (k : K) : option V :=
    match m with
    | [] => None
    | (k', v) :: r => if eqb k' k then Some v else aget r k
    end.
  Fixpoint aset (m : list (K * V)) (k : K) (v : V) : list (K * V) :=
    match m with
    | [] => [(k, v)]
    | (k', v') :: r => if eqb k' k then (k', v) :: r else (k', v') :: aset r k v
    end.
  Fixpoint adel (m : list (K * V)) (k : K) : list (K * V) :=
    match m with
    | [] => []
    | (k', v) :: r => if eqb k' k then adel r k else (k', v) :: adel r k
    end.
End Assoc.

Definition get_env (s : st) (t : tid) : option env := aget Nat.eqb (s_envs s) t.
Definition get_class (s : st) (n : str) : option oid := aget str_eqb (s_classes s) n.
(** [typecheck.find(typeid(T))]: [Some None] is an entry holding a null pointer. *)
Definition get_type (s : st) (t : ty) : option (option oid) := aget ty_eqb (s_types s) t.

(** ** Reference counting *)

Definition opt_list {A} (o : option A) : list A := match o with Some x => [x] | None => [] end.
Definition env_roots (e : env) : list oid :=
  concat (e_frames e) ++ concat (e_free e) ++ opt_list (e_exc e) ++ flat_map k_held (e_calls e).
(** Every shared_ptr that is not a member of a heap object. *)
Definition roots (s : st) : list oid :=
  s_globals s ++ map snd (s_classes s) ++ flat_map n_classes (s_ns s) ++
  somes (map snd (s_types s)) ++ flat_map (fun e => env_roots (snd e)) (s_envs s) ++
  s_ext s ++ s_tmp s.
Definition heap_refs (h : list (option obj)) : list oid :=
  flat_map (fun o => match o with Some x => refs (o_pay x) | None => [] end) h.

Definition memb (i : oid) (l : list oid) : bool := existsb (Nat.eqb i) l.

(** One round of destroying all objects whose use count is zero: not referenced by a root or by
    an existing object. *)
Fixpoint sweep_ (held : list oid) (i : oid) (h : list (option obj)) : list (option obj) :=
  match h with
  | [] => []
  | o :: r => (if memb i held then o else None) :: sweep_ held (S i) r
  end.
Definition sweep (s : st) : st :=
  with_heap s (sweep_ (roots s ++ heap_refs (s_heap s)) 0 (s_heap s)).
Fixpoint iter {A} (n : nat) (f : A -> A) (x : A) : A :=
  match n with 0 => x | S n' => iter n' f (f x) end.
(** Reference counting runs to completion: destroying an object drops its references, which may
    destroy further objects.  Cycles survive.  [length heap] rounds reach the fixed point. *)
Definition collect (s : st) : st := iter (length (s_heap s)) sweep s.

(** ** Effects *)

(** Outcome of a library function.
    [Ret]   returns; [Thr] a C++ exception leaves the function;
    [Undef] undefined behaviour; [Abrt] abort(); [Block] waits for a mutex owned by another
    thread; [Div] does not terminate (unbounded recursion or self-deadlock). *)
Inductive out (A : Type) :=
| Ret (a : A) (s : st)
| Thr (e : exn) (s : st)
| Undef
| Abrt
| Block
| Div.
Arguments Ret {A} a s. Arguments Thr {A} e s. Arguments Undef {A}.
Arguments Abrt {A}. Arguments Block {A}. Arguments Div {A}.

Definition M (A : Type) := st -> out A.
Definition ret {A} (a : A) : M A := fun s => Ret a s.
Definition bind {A B} (m : M A) (f : A -> M B) : M B := fun s =>
  match m s with
  | Ret a s' => f a s'
  | Thr e s' => Thr e s'
  | Undef => Undef | Abrt => Abrt | Block => Block | Div => Div
  end.
Definition throw {A} (e : exn) : M A := fun s => Thr e s.
Definition undef {A} : M A := fun _ => Undef.
Definition abrt {A} : M A := fun _ => Abrt.
Definition block {A} : M A := fun _ => Block.
Definition div {A} : M A := fun _ => Div.
Definition gets {A} (f : st -> A) : M A := fun s => Ret (f s) s.

Declare Scope vm_scope.
Delimit Scope vm_scope with vm.
Notation "x <- m ;; k" := (bind m (fun x => k))
  (at level 61, m at next level, right associativity) : vm_scope.
Notation "m ;;; k" := (bind m (fun _ => k))
  (at level 61, right associativity) : vm_scope.
Local Open Scope vm_scope.

Definition of_res {A} (r : res A) : M A :=
  match r with
  | Ok a => ret a
  | Thrown e => throw e
  | UB => undef
  | Abort => abrt
  | Fuel => div
  end.

(** Dereference a pointer to an object: undefined if it has been destroyed. *)
Definition deref (i : oid) : M obj := fun s =>
  match lookup s i with Some o => Ret o s | None => Undef end.

(** Elementary state changes.  Each of them that stores a shared_ptr checks that the object is
    alive and has the static type of the pointer: a shared_ptr<Class> to a destroyed object or to
    a Method cannot exist, so a violation is reported as undefined behaviour instead of silently
    continuing. *)
Definition guard (b : bool) : M unit := if b then ret tt else undef.
Definition check (f : st -> bool) : M unit := fun s => if f s then Ret tt s else Undef.
Definition live_all (l : list oid) : M unit := check (fun s => forallb (live s) l).

Definition is_cls (s : st) (i : oid) : bool :=
  match lookup s i with Some o => match o_pay o with PClass _ => true | _ => false end | None => false end.
Definition is_mth (s : st) (i : oid) : bool :=
  match lookup s i with Some o => match o_pay o with PMethod _ => true | _ => false end | None => false end.
Definition is_fld (s : st) (i : oid) : bool :=
  match lookup s i with Some o => match o_pay o with PField _ => true | _ => false end | None => false end.
Definition is_throw (s : st) (i : oid) : bool :=
  match lookup s i with Some o => match o_pay o with PThrow _ => true | _ => false end | None => false end.

(** The pointers inside an object are valid; [clazz] is a weak_ptr<Class>, so it may be expired. *)
Definition pay_ok (s : st) (p : pay) : bool :=
  match p with
  | PClass c => forallb (is_cls s) (c_inner c) && forallb (is_fld s) (c_fields c)
                && forallb (is_mth s) (c_methods c)
  | PWeak t => t <? length (s_heap s)
  | _ => forallb (live s) (refs p)
  end.
Definition clazz_ok (s : st) (c : option oid) : bool :=
  match c with
  | Some i => (i <? length (s_heap s)) && (if live s i then is_cls s i else true)
  | None => true
  end.
Definition obj_ok (s : st) (o : obj) : bool := pay_ok s (o_pay o) && clazz_ok s (o_clazz o).
Definition env_ok (s : st) (e : env) : bool :=
  forallb (live s) (env_roots e) && forallb (is_throw s) (opt_list (e_exc e)).

(** std::make_shared<T>(...) *)
Definition alloc (o : obj) : M oid :=
  check (fun s => obj_ok s o) ;;;
  fun s => Ret (length (s_heap s)) (with_heap s (s_heap s ++ [Some o])).

Definition put_obj (i : oid) (o : obj) : M unit :=
  check (fun s => obj_ok s o) ;;;
  fun s => Ret tt (with_heap s (list_set (s_heap s) i (Some o))).

(** Member updates.  The dynamic type of an object never changes, so every update checks it. *)
Definition set_clazz (i : oid) (c : option oid) : M unit :=
  o <- deref i ;; put_obj i (mkObj c (o_mon o) (o_pay o)).
Definition set_mon (i : oid) (m : option (tid * nat)) : M unit :=
  o <- deref i ;; put_obj i (mkObj (o_clazz o) m (o_pay o)).
Definition set_pay (o : obj) (p : pay) : obj := mkObj (o_clazz o) (o_mon o) p.
Definition get_cls (i : oid) : M cls :=
  o <- deref i ;; match o_pay o with PClass c => ret c | _ => undef end.
Definition upd_cls (i : oid) (f : cls -> cls) : M unit :=
  o <- deref i ;;
  match o_pay o with PClass c => put_obj i (set_pay o (PClass (f c))) | _ => undef end.
Definition get_mth (i : oid) : M mth :=
  o <- deref i ;; match o_pay o with PMethod c => ret c | _ => undef end.
Definition upd_mth (i : oid) (f : mth -> mth) : M unit :=
  o <- deref i ;;
  match o_pay o with PMethod c => put_obj i (set_pay o (PMethod (f c))) | _ => undef end.
Definition get_fld (i : oid) : M fld :=
  o <- deref i ;; match o_pay o with PField c => ret c | _ => undef end.
Definition upd_fld (i : oid) (f : fld -> fld) : M unit :=
  o <- deref i ;;
  match o_pay o with PField c => put_obj i (set_pay o (PField (f c))) | _ => undef end.
Definition upd_prim (i : oid) (f : list Z -> list Z) : M unit :=
  o <- deref i ;;
  match o_pay o with PPrim p l => put_obj i (set_pay o (PPrim p (f l))) | _ => undef end.
Definition upd_arr (i : oid) (f : list (option oid) -> list (option oid)) : M unit :=
  o <- deref i ;;
  match o_pay o with PArr t l => put_obj i (set_pay o (PArr t (f l))) | _ => undef end.
Definition upd_user (i : oid) (f : list (option oid) -> list (option oid)) : M unit :=
  o <- deref i ;;
  match o_pay o with PUser n l => put_obj i (set_pay o (PUser n (f l))) | _ => undef end.

Definition add_global (i : oid) : M unit :=
  live_all [i] ;;; fun s => Ret tt (with_globals s (s_globals s ++ [i])).
(** [std::find] and [erase] of the first equal element; the flag tells whether it was found. *)
Fixpoint remove_first (i : oid) (l : list oid) : list oid :=
  match l with [] => [] | x :: r => if Nat.eqb x i then r else x :: remove_first i r end.
Definition del_global (i : oid) : M bool :=
  fun s => Ret (memb i (s_globals s)) (with_globals s (remove_first i (s_globals s))).
Definition set_class (n : str) (i : oid) : M unit :=
  check (fun s => is_cls s i) ;;; fun s => Ret tt (with_classes s (aset str_eqb (s_classes s) n i)).
Definition set_type (t : ty) (o : option oid) : M unit :=
  check (fun s => forallb (is_cls s) (opt_list o)) ;;; fun s => Ret tt (with_types s (aset ty_eqb (s_types s) t o)).
Definition new_ns (parent : nat) (n : str) : M nat := fun s =>
  match nth_error (s_ns s) parent with
  | Some p =>
      let k := length (s_ns s) in
      Ret k (with_ns s (list_set (s_ns s) parent (mkNs (n_name p) (n_subs p ++ [k]) (n_classes p))
                        ++ [mkNs n [] []]))
  | None => Undef
  end.
Definition ns_add_class (k : nat) (i : oid) : M unit :=
  check (fun s => is_cls s i) ;;;
  fun s => match nth_error (s_ns s) k with
  | Some p => Ret tt (with_ns s (list_set (s_ns s) k (mkNs (n_name p) (n_subs p) (n_classes p ++ [i]))))
  | None => Undef
  end.

(** The environment of the calling thread.  Using a JNIEnv of a thread that is not attached
    (or not any more) is a dangling pointer dereference. *)
Definition the_env (t : tid) : M env := fun s =>
  match get_env s t with Some e => Ret e s | None => Undef end.
Definition put_env (t : tid) (e : env) : M unit :=
  check (fun s => env_ok s e) ;;; fun s => Ret tt (with_envs s (aset Nat.eqb (s_envs s) t e)).
Definition upd_env (t : tid) (f : env -> env) : M unit :=
  e <- the_env t ;; put_env t (f e).

Definition env_frames e x := mkEnv (e_id e) x (e_free e) (e_exc e) (e_calls e).
Definition env_free e x := mkEnv (e_id e) (e_frames e) x (e_exc e) (e_calls e).
Definition env_exc e x := mkEnv (e_id e) (e_frames e) (e_free e) x (e_calls e).
Definition env_calls e x := mkEnv (e_id e) (e_frames e) (e_free e) (e_exc e) x.

Definition add_ext (i : oid) : M unit :=
  live_all [i] ;;; fun s => Ret tt (with_ext s (i :: s_ext s)).
Definition del_ext (i : oid) : M bool :=
  fun s => Ret (memb i (s_ext s)) (with_ext s (remove_first i (s_ext s))).
Definition set_tmp (l : list oid) : M unit :=
  live_all l ;;; fun s => Ret tt (with_tmp s l).
Definition gc : M unit := fun s => Ret tt (collect s).

Fixpoint mapM_ {A} (f : A -> M unit) (l : list A) : M unit :=
  match l with [] => ret tt | x :: r => f x ;;; mapM_ f r end.
Fixpoint mapM {A B} (f : A -> M B) (l : list A) : M (list B) :=
  match l with [] => ret [] | x :: r => y <- f x ;; ys <- mapM f r ;; ret (y :: ys) end.
