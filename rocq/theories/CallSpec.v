(** Specification of method calls and pending exceptions; only reads the state.  (VmModel and VmStep are imported for the
    types of results.) *)
From Verif Require Import Base VmState VmModel VmStep VmSpec MemSpec.
Set Implicit Arguments.
Unset Strict Implicit.

(** Nothing that existed has changed, except the objects in [X] and the environment of thread [t]. *)
Record spares (X : oid -> Prop) (t : tid) (s s' : st) : Prop := {
  sp_obj : forall i, live s i = true -> ~ X i -> intact s s' i;
  sp_globals : s_globals s' = s_globals s;
  sp_ext : s_ext s' = s_ext s;
  sp_types : forall T, registered s' T = registered s T;
  sp_others : forall u, u <> t -> get_env s' u = get_env s u;
  sp_envid : option_map e_id (get_env s' t) = option_map e_id (get_env s t)
}.

(** Method [j] is an implementation (a hooked function) of the instance method [nm] with signature [sg]. *)
Definition implements (s : st) (nm sg : str) (j : oid) : Prop :=
  exists m h, method_at s j = Some m /\ m_name m = nm /\ m_sig m = sg /\ m_static m = false /\ m_handle m = Some h.
Definition handle_at (s : st) (j : oid) : option handle :=
  match method_at s j with Some m => m_handle m | None => None end.

(** The implementation a virtual call has to run for an object of class [cl]: the first one in the class and its
    base classes. *)
Definition most_derived (G : cfg) (s : st) (cl : oid) (nm sg : str) (j : oid) : Prop :=
  exists L, dfs G s cl L /\ first_in (implements s nm sg) (flat_map (methods_of s) L) j.

(** What the library does for method ID [i]: the implementation of the class itself, else that of the ID. *)
Inductive dispatched (s : st) (cl : option oid) (i : oid) : oid -> Prop :=
| dp_own c m j : cl = Some c -> method_at s i = Some m ->
    first_in (implements s (m_name m) (m_sig m)) (methods_of s c) j -> dispatched s cl i j
| dp_id c m : cl = Some c -> method_at s i = Some m ->
    (forall j, In j (methods_of s c) -> ~ implements s (m_name m) (m_sig m) j) -> dispatched s cl i i
| dp_none : cl = None -> dispatched s cl i i.

(** Thread [t] has a new pending exception [x]; the one it had before is released. *)
Definition now_pending (t : tid) (x : exn) (s s' : st) : Prop :=
  exists j, live s j = false /\ pending s' t = Some j /\ contents s' j = Some (PThrow x) /\
    (forall i, live s' i = true -> live s i = true \/ i = j) /\
    spares (fun i => pending s t = Some i) t s s'.
(** Thread [t] runs hook [k] now, and nothing else has changed. *)
Definition now_running (t : tid) (k : call) (s s' : st) : Prop :=
  running s' t = k :: running s t /\ pending s' t = pending s t /\ (forall i, live s' i = live s i) /\
  spares (fun _ => False) t s s'.

(** What happens when handle [hd] is run as a function of kind [kind] with result type [T].  [nonvirt]: through
    NonVirtualInvoke, which pointers to member functions do not support.  [catch]: errors become pending
    exceptions (method calls), otherwise they are C++ exceptions (field access). *)
Definition fits (hd : handle) (kind : hkind) (T : rty) : Prop := h_kind hd = kind /\ h_ret hd = T.
Definition is_setter (kind : hkind) : bool := match kind with KInstSet | KStaticSet => true | _ => false end.
Inductive fails (hd : handle) (kind : hkind) (nonvirt : bool) (T : rty) : str -> Prop :=
| fl_mismatch : ~ fits hd kind T -> fails hd kind nonvirt T (S_ "Mismatched MethodHandle!")
| fl_nonvirt : fits hd kind T -> nonvirt = true -> h_memfn hd = true ->
    fails hd kind nonvirt T (S_ "Calling member function pointer non virtual is not supported in c++").
Inductive entered (t : tid) (catch : bool) (hd : handle) (kind : hkind) (nonvirt : bool) (T : rty) (recv : option oid)
  (held : list oid) (args : list arg) (s s' : st) : obs -> Prop :=
| en_run : fits hd kind T -> (nonvirt = true -> h_memfn hd = false) ->
    now_running t (mkCall (if is_setter kind then RVoid else T) catch (h_id hd) held) s s' -> frames s' t = frames s t ->
    entered t catch hd kind nonvirt T recv held args s s' (OVal (RCall (Entered (h_id hd) recv args)))
| en_pending m : fails hd kind nonvirt T m -> catch = true -> now_pending t (Err m) s s' -> frames s' t = frames s t ->
    running s' t = running s t -> entered t catch hd kind nonvirt T recv held args s s' (OVal (RCall Default))
| en_throw m : fails hd kind nonvirt T m -> catch = false -> s' = s ->
    entered t catch hd kind nonvirt T recv held args s s' (OExn (Err m)).

(** The innermost hook [k] of thread [t] has ended; [r] are the calls still running. *)
Definition hook_done (t : tid) (r : list call) (s s' : st) : Prop :=
  running s' t = r /\ spares (fun _ => False) t s s' /\ (forall i, live s' i = live s i) /\ pending s' t = pending s t.
(** ... normally: the result of the call.  An object is passed as a new local reference, and gets the class of the
    static type [Y] if it had none. *)
Inductive hook_result (t : tid) (k : call) (s s' : st) : hval -> rval -> Prop :=
| hr_void : k_ret k = RVoid -> frames s' t = frames s t -> hook_result t k s s' HUnit VUnit
| hr_prim p z : k_ret k = RPrim p -> frames s' t = frames s t -> hook_result t k s s' (HPrim z) (VPrim z)
| hr_null Y : k_ret k = RObj -> frames s' t = frames s t -> hook_result t k s s' (HObj Y None) (VRef None)
| hr_obj Y i : k_ret k = RObj -> frames s' t = add_local (frames s t) i ->
    class_ptr s' i = match class_ptr s i with Some c => Some c | None => registered s Y end ->
    hook_result t k s s' (HObj Y (Some i)) (VRef (Some i)).
(** the zero value of the type *)
Definition zero_of (T : rty) (v : rval) : Prop :=
  match T with RObj => v = VRef None | RPrim _ => v = VPrim 0%Z | RVoid => v = VUnit end.
(** The pending exception of the thread is gone. *)
Definition now_clear (t : tid) (s s' : st) : Prop :=
  pending s' t = None /\ frames s' t = frames s t /\ running s' t = running s t /\
  (forall i, live s' i = true -> live s i = true) /\ spares (fun i => pending s t = Some i) t s s'.
(** The pending exception of the thread is the existing object [j] now. *)
Definition now_raised (t : tid) (j : oid) (s s' : st) : Prop :=
  pending s' t = Some j /\ frames s' t = frames s t /\ running s' t = running s t /\
  (forall i, live s' i = true -> live s i = true) /\ spares (fun i => pending s t = Some i /\ i <> j) t s s'.

(** What operation [o] of thread [t], with the observed result [v], says about the pending exception of the thread:
    there is one now ([true]) or there is none ([false]).  Operations that say nothing leave it alone. *)
Inductive says (t : tid) (s : st) : op -> obs -> bool -> Prop :=
| sy_throw h j z : denotes_opt s h (Some j) -> says t s (Throw_ h) (OVal z) true
| sy_throw_null h z : denotes_opt s h None -> says t s (Throw_ h) (OVal z) false
| sy_new c m v : says t s (ThrowNew_ c m) v true
| sy_clear v : says t s ExceptionClear_ v false
| sy_call T obj i a h : handle_at s i = Some h -> says t s (CallMethodA_ T obj (Some i) a) (OVal (RCall Default)) true
| sy_nonvirtual T obj c i a h : handle_at s i = Some h -> says t s (CallNonvirtualMethodA_ T obj c (Some i) a) (OVal (RCall Default)) true
| sy_static T c i a h : handle_at s i = Some h -> says t s (CallStaticMethodA_ T c (Some i) a) (OVal (RCall Default)) true
| sy_hook n k r v : running s t = k :: r -> k_catch k = true -> says t s (HookThrow_ n) v true
| sy_detach v : says t s Detach_ v false.

(** [last_word t l s b b']: when history [l] starts in [s] and thread [t] has a pending exception iff [b], the last event of [t]
    that says something about it says [b'] ([b' = b] if there is no such event). *)
Inductive last_word (G : cfg) (t : tid) : list event -> st -> bool -> bool -> Prop :=
| lw_nil s b : last_word G t [] s b b
| lw_says o v b1 l s s1 b b' : says t s o v b1 -> step G t o s = Some (v, s1) -> last_word G t l s1 b1 b' ->
    last_word G t ((t, o) :: l) s b b'
| lw_silent o v l s s1 b b' : (forall b1, ~ says t s o v b1) -> step G t o s = Some (v, s1) -> last_word G t l s1 b b' ->
    last_word G t ((t, o) :: l) s b b'
| lw_other u o v l s s1 b b' : u <> t -> step G u o s = Some (v, s1) -> last_word G t l s1 b b' ->
    last_word G t ((u, o) :: l) s b b'.
(** ... and no event of [t] says anything *)
Inductive no_word (G : cfg) (t : tid) : list event -> st -> Prop :=
| nw_nil s : no_word G t [] s
| nw_silent o v l s s1 : (forall b1, ~ says t s o v b1) -> step G t o s = Some (v, s1) -> no_word G t l s1 -> no_word G t ((t, o) :: l) s
| nw_other u o v l s s1 : u <> t -> step G u o s = Some (v, s1) -> no_word G t l s1 -> no_word G t ((u, o) :: l) s.
