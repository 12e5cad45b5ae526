(** Operations, steps and histories of the VM.  Model definitions only. *)
From Verif Require Import Base VmState VmModel.
Set Implicit Arguments.
Local Open Scope vm_scope.

(** What a thread can do next.  The first group are the functions of JNINativeInterface (vm.cpp
    355-452), then the invocation interface, then C++ code using the library's classes directly, and
    finally the two ways in which a running hook can end. *)
Inductive op :=
| FindClass_ (name : str)
| FromReflectedMethod_ (h : option oid)
| FromReflectedField_ (h : option oid)
| ToReflectedMethod_ (c m : option oid) (isStatic : bool)
| ToReflectedField_ (c f : option oid) (isStatic : bool)
| GetSuperclass_ (c : option oid)
| IsAssignableFrom_ (a b : option oid)
| Throw_ (h : option oid)
| ThrowNew_ (c : option oid) (msg : option str)
| ExceptionOccurred_ | ExceptionDescribe_ | ExceptionClear_ | ExceptionCheck_
| FatalError_
| PushLocalFrame_ (cap : Z)
| PopLocalFrame_ (h : option oid)
| NewGlobalRef_ (h : option oid)
| DeleteGlobalRef_ (h : option oid)
| DeleteLocalRef_ (h : option oid)
| IsSameObject_ (a b : option oid)
| NewLocalRef_ (h : option oid)
| EnsureLocalCapacity_ (cap : Z)
| AllocObject_ (c : option oid)
| GetObjectClass_ (h : option oid)
| IsInstanceOf_ (h c : option oid)
| GetMethodID_ (isStatic : bool) (c : option oid) (name sig : str)
| CallMethodA_ (T : rty) (obj id : option oid) (args : list arg)
| CallNonvirtualMethodA_ (T : rty) (obj c id : option oid) (args : list arg)
| CallStaticMethodA_ (T : rty) (c id : option oid) (args : list arg)
| GetFieldID_ (isStatic : bool) (c : option oid) (name sig : str)
| GetField_ (isStatic : bool) (T : rty) (obj id : option oid)
| SetField_ (isStatic : bool) (T : rty) (obj id : option oid) (v : arg)
| NewString_ (cs : list Z) (size : Z)
| GetStringLength_ (h : option oid)
| GetStringChars_ (h : option oid)
| NewStringUTF_ (s : option str)
| GetStringUTFLength_ (h : option oid)
| GetStringUTFChars_ (h : option oid)
| GetStringRegion_ (h : option oid) (start len : Z) (cap : nat)
| GetStringUTFRegion_ (h : option oid) (start len : Z) (cap : nat)
| GetArrayLength_ (h : option oid)
| NewObjectArray_ (n : Z) (c init : option oid)
| GetObjectArrayElement_ (h : option oid) (k : Z)
| SetObjectArrayElement_ (h : option oid) (k : Z) (v : option oid)
| NewArray_ (p : pty) (n : Z)
| GetArrayElements_ (p : option pty) (h : option oid)
| GetArrayRegion_ (p : pty) (h : option oid) (start len : Z)
| SetArrayRegion_ (p : pty) (h : option oid) (start len : Z) (buf : list Z)
| RegisterNatives_ (c : option oid) (l : list (str * str * option nat)) (n : Z)
| UnregisterNatives_ (c : option oid)
| MonitorEnter_ (h : option oid)
| MonitorExit_ (h : option oid)
| NewWeakGlobalRef_ (h : option oid)
| DeleteWeakGlobalRef_ (h : option oid)
| NewDirectByteBuffer_ (addr cap : Z)
| GetDirectBufferAddress_ (h : option oid)
| GetDirectBufferCapacity_ (h : option oid)
| GetObjectRefType_ (h : option oid)
(* invocation interface *)
| Attach_ | Detach_
(* C++ side *)
| ElementsRead_ (a : oid) (k : nat)
| ElementsWrite_ (a : oid) (k : nat) (z : Z)
| UNew_ (n vars : nat)
| UPlain_ (cl : option oid)
| UInstantiate_ (cl : oid) (vars : nat)
| UDrop_ (i : oid)
| UHold_ (Y : ty) (h : option oid)
| UToJNI_ (Y : ty) (i : oid)
| USetVar_ (i : oid) (k : nat) (v : option oid)
| UFindClass_ (zero : bool) (name : str)
| UBind_ (n : nat) (inst : bool) (name : str)
| UDeclareArray_ (n : nat)
| UHookMethod_ (cl : oid) (isStatic : bool) (name sig : str) (hd : handle)
| UHookField_ (cl : oid) (isStatic getter : bool) (name ty : str) (hd : handle)
| UGetMethod_ (cl : oid) (sig name : str)
(* the innermost running hook of the thread ends *)
| HookReturn_ (v : hval)
| HookThrow_ (n : exn).

(** Observable results *)
Inductive val :=
| RUnit | RBool (b : bool) | RInt (z : Z) | RRef (h : option oid) | RCall (c : callres)
| RVal (v : rval) | RInts (l : list Z) | RBytes (l : str) | RRefType (r : reftype)
| RTriple (a b c : option oid) | REnv (k : nat) | RPair (a c : Z).

Section Cfg.
Variable G : cfg.

Definition as_unit (m : M unit) : M val := m ;;; ret RUnit.
Definition as_bool (m : M bool) : M val := x <- m ;; ret (RBool x).
Definition as_int (m : M Z) : M val := x <- m ;; ret (RInt x).
Definition as_ref (m : M (option oid)) : M val := x <- m ;; ret (RRef x).
Definition as_oid (m : M oid) : M val := x <- m ;; ret (RRef (Some x)).
Definition as_call (m : M callres) : M val := x <- m ;; ret (RCall x).
Definition as_val (m : M rval) : M val := x <- m ;; ret (RVal x).
Definition as_ints (m : M (list Z)) : M val := x <- m ;; ret (RInts x).
Definition as_bytes (m : M str) : M val := x <- m ;; ret (RBytes x).

Definition body (t : tid) (o : op) : M val :=
  match o with
  | FindClass_ n => as_ref (FindClass G t n)
  | FromReflectedMethod_ h => as_ref (FromReflectedMethod G t h)
  | FromReflectedField_ h => as_ref (FromReflectedField G t h)
  | ToReflectedMethod_ c m s => as_ref (ToReflectedMethod G t c m s)
  | ToReflectedField_ c f s => as_ref (ToReflectedField G t c f s)
  | GetSuperclass_ c => as_ref (GetSuperclass G c)
  | IsAssignableFrom_ a b => as_bool (IsAssignableFrom G a b)
  | Throw_ h => as_int (Throw G t h)
  | ThrowNew_ c m => as_int (ThrowNew t c m)
  | ExceptionOccurred_ => as_ref (ExceptionOccurred t)
  | ExceptionDescribe_ => as_unit (ExceptionDescribe t)
  | ExceptionClear_ => as_unit (ExceptionClear t)
  | ExceptionCheck_ => as_bool (ExceptionCheck t)
  | FatalError_ => abrt (* vm.cpp 115-118 *)
  | PushLocalFrame_ c => as_int (PushLocalFrame t c)
  | PopLocalFrame_ h => as_ref (PopLocalFrame G t h)
  | NewGlobalRef_ h => as_ref (NewGlobalRef G h)
  | DeleteGlobalRef_ h => as_unit (DeleteGlobalRef h)
  | DeleteLocalRef_ h => as_unit (DeleteLocalRef G t h)
  | IsSameObject_ a b => as_bool (IsSameObject G a b)
  | NewLocalRef_ h => as_ref (NewLocalRef G t h)
  | EnsureLocalCapacity_ c => as_int (EnsureLocalCapacity t c)
  | AllocObject_ c => ret (RRef None) (* vm.cpp 236-239 *)
  | GetObjectClass_ h => as_ref (GetObjectClass G t h)
  | IsInstanceOf_ h c => as_bool (IsInstanceOf G t h c)
  | GetMethodID_ s c n g => as_ref (GetMethodID G t s c n g)
  | CallMethodA_ T o i a => as_call (CallMethodA G t T o i a)
  | CallNonvirtualMethodA_ T o c i a => as_call (CallNonvirtualMethodA G t T o c i a)
  | CallStaticMethodA_ T c i a => as_call (CallStaticMethodA G t T c i a)
  | GetFieldID_ s c n g => as_ref (GetFieldID G t s c n g)
  | GetField_ s T o i => as_call (GetField G t s T o i)
  | SetField_ s T o i v => as_call (SetField G t s T o i v)
  | NewString_ cs n => as_ref (JNewString G t cs n)
  | GetStringLength_ h => as_int (JGetStringLength G h)
  | GetStringChars_ h => as_ints (JGetStringChars G h)
  | NewStringUTF_ s => as_ref (JNewStringUTF t s)
  | GetStringUTFLength_ h => as_int (JGetStringUTFLength G h)
  | GetStringUTFChars_ h => as_bytes (JGetStringUTFChars G h)
  | GetStringRegion_ h s l c => as_ints (JGetStringRegion G h s l c)
  | GetStringUTFRegion_ h s l c => as_bytes (JGetStringUTFRegion G h s l c)
  | GetArrayLength_ h => as_int (GetArrayLength G h)
  | NewObjectArray_ n c i => as_ref (NewObjectArray G t n c i)
  | GetObjectArrayElement_ h k => as_ref (GetObjectArrayElement G t h k)
  | SetObjectArrayElement_ h k v => as_unit (SetObjectArrayElement G h k v)
  | NewArray_ p n => as_ref (NewArray G t p n)
  | GetArrayElements_ p h => as_ref (GetArrayElements G p h)
  | GetArrayRegion_ p h s l => as_ints (GetArrayRegion G p h s l)
  | SetArrayRegion_ p h s l b => as_unit (SetArrayRegion G p h s l b)
  | RegisterNatives_ c l n => as_int (RegisterNatives G c l n)
  | UnregisterNatives_ c => as_int (UnregisterNatives G c)
  | MonitorEnter_ h => as_int (MonitorEnter G t h)
  | MonitorExit_ h => as_int (MonitorExit G t h)
  | NewWeakGlobalRef_ h => as_ref (NewWeakGlobalRef G h)
  | DeleteWeakGlobalRef_ h => as_unit (DeleteWeakGlobalRef h)
  | NewDirectByteBuffer_ a c => as_ref (NewDirectByteBuffer t a c)
  | GetDirectBufferAddress_ h => as_int (GetDirectBufferAddress G h)
  | GetDirectBufferCapacity_ h => as_int (GetDirectBufferCapacity G h)
  | GetObjectRefType_ h => x <- GetObjectRefType h ;; ret (RRefType x)
  | Attach_ => x <- Attach t ;; ret (REnv x)
  | Detach_ => as_int (Detach t)
  | ElementsRead_ a k => as_int (ElementsRead a k)
  | ElementsWrite_ a k z => as_unit (ElementsWrite a k z)
  | UNew_ n v => as_oid (UNew n v)
  | UPlain_ c => as_oid (UPlain c)
  | UInstantiate_ c v => as_oid (UInstantiate c v)
  | UDrop_ i => as_unit (UDrop i)
  | UHold_ Y h => as_ref (UHold G Y h)
  | UToJNI_ Y i => as_ref (UToJNI G t Y i)
  | USetVar_ i k v => as_unit (USetVar i k v)
  (* env.cpp 17-19 [ENV::GetClass(name)] with [zero] false, fake-jni.cpp 49-51 [Jvm::findClass] with [zero] true *)
  | UFindClass_ z n => as_ref (find_class G z n)
  | UBind_ n i nm => as_oid (GetClassT G (TUser n) i nm)
  | UDeclareArray_ n => as_unit (declare_array G n)
  | UHookMethod_ c s n g h => as_oid (hook_method c s n g h)
  | UHookField_ c s g n y h => as_oid (hook_field c s g n y h)
  | UGetMethod_ c g n => x <- getMethod G t c g n ;;
                         match x with (a, b, c) => ret (RTriple a b c) end
  | HookReturn_ v => as_val (HookReturn G t v)
  | HookThrow_ n => as_val (HookThrow t n)
  end.

(** Everything but attaching and detaching goes through the JNIEnv of the calling thread; variables of
    C++ code may be destroyed and array memory accessed by any thread. *)
Definition needs_env (o : op) : bool :=
  match o with
  | Attach_ | Detach_ | UDrop_ _ | ElementsRead_ _ _ | ElementsWrite_ _ _ _ => false
  | _ => true
  end.

Definition run (t : tid) (o : op) : M val :=
  (if needs_env o then the_env t ;;; ret tt else ret tt) ;;; body t o.

(** End of a library function: its local variables are gone, unreferenced objects are destroyed. *)
Definition finish (s : st) : st := collect (with_tmp s []).

(** What the caller of an operation sees: a result or a C++ exception. *)
Inductive obs := OVal (v : val) | OExn (e : exn).

(** One operation; [None]: the program has undefined behaviour, was aborted or does not proceed. *)
Definition step (t : tid) (o : op) (s : st) : option (obs * st) :=
  match run t o s with
  | Ret v s' => Some (OVal v, finish s')
  | Thr e s' => Some (OExn e, finish s')
  | _ => None
  end.

(** A history: any interleaving of the operations of any threads. *)
Definition event := (tid * op)%type.
Fixpoint exec (l : list event) (s : st) : option (list obs * st) :=
  match l with
  | [] => Some ([], s)
  | (t, o) :: r =>
      match step t o s with
      | None => None
      | Some (v, s') =>
          match exec r s' with Some (vs, s'') => Some (v :: vs, s'') | None => None end
      end
  end.

(** The state after the constructor of VM ran on thread [t0] (vm.cpp 460-536). *)
Definition init_vm (t0 : tid) : st :=
  match initialize G t0 empty_vm with Ret _ s => finish s | _ => empty_vm end.

(** States that some program can reach. *)
Definition reachable (t0 : tid) (s : st) : Prop :=
  exists l vs, exec l (init_vm t0) = Some (vs, s).

End Cfg.
