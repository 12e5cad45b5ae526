(** Specification of replacing hooks while they run; the state is only read. *)
From Verif Require Import Base VmState VmModel VmStep VmSpec MemSpec HookSpec ReplModel.
Set Implicit Arguments.
Unset Strict Implicit.

(** The function that member [i] has in a slot *)
Definition function_of (s : st) (i : oid) (sl : slot) : option handle :=
  match sl with
  | OnCall => match method_at s i with Some m => m_handle m | None => None end
  | OnGet => match field_at s i with Some f => f_get f | None => None end
  | OnSet => match field_at s i with Some f => f_set f | None => None end
  end.
(** [calls o i sl]: the operation calls slot [sl] of the member with ID [i]. *)
Inductive calls : op -> oid -> slot -> Prop :=
| cl_virtual T obj i a : calls (CallMethodA_ T obj (Some i) a) i OnCall
| cl_nonvirtual T obj c i a : calls (CallNonvirtualMethodA_ T obj c (Some i) a) i OnCall
| cl_static T c i a : calls (CallStaticMethodA_ T c (Some i) a) i OnCall
| cl_get st T obj i : calls (GetField_ st T obj (Some i)) i OnGet
| cl_set st T obj i v : calls (SetField_ st T obj (Some i) v) i OnSet.
(** The member that runs for a call with ID [i]: that one, or for instance methods another one of the same name
    and signature. *)
Definition stands_for (s : st) (i j : oid) : Prop :=
  j = i \/ exists m m', method_at s i = Some m /\ method_at s j = Some m' /\ m_name m' = m_name m /\ m_sig m' = m_sig m /\ m_static m' = false.

(** Calls begin and end. *)
Definition begins (x : rop) (v : option obs) : Prop :=
  exists o h r a, x = ROp o /\ (forall n, o <> HookReturn_ n) /\ (forall n, o <> HookThrow_ n) /\ v = Some (OVal (RCall (Entered h r a))).
Definition leaves (x : rop) : Prop := (exists n, x = ROp (HookReturn_ n)) \/ (exists n, x = ROp (HookThrow_ n)).
(** [meanwhile t l vs]: in history [l] with results [vs], thread [t] ends every call that it begins, and no other one: what can
    happen while a call of [t] runs.  Other threads do anything. *)
Inductive meanwhile (t : tid) : list revent -> list (option obs) -> Prop :=
| mw_nil : meanwhile t [] []
| mw_other u x v l vs : u <> t -> meanwhile t l vs -> meanwhile t ((u, x) :: l) (v :: vs)
| mw_plain x v l vs : ~ begins x v -> ~ leaves x -> meanwhile t l vs -> meanwhile t ((t, x) :: l) (v :: vs)
| mw_call x v l vs y w l' vs' : begins x v -> meanwhile t l vs -> length l = length vs -> leaves y -> meanwhile t l' vs' ->
    meanwhile t ((t, x) :: l ++ (t, y) :: l') (v :: vs ++ w :: vs').

(** Operation [x] with result [v] hooks slot [sl] of member [i]. *)
Inductive hooks (i : oid) : slot -> rop -> option obs -> Prop :=
| hk_method cl st nm sg hd : hooks i OnCall (ROp (UHookMethod_ cl st nm sg hd)) (Some (OVal (RRef (Some i))))
| hk_getter cl st nm sg hd : hooks i OnGet (ROp (UHookField_ cl st true nm sg hd)) (Some (OVal (RRef (Some i))))
| hk_setter cl st nm sg hd : hooks i OnSet (ROp (UHookField_ cl st false nm sg hd)) (Some (OVal (RRef (Some i)))).
(** ... somewhere in a history *)
Definition replaced (i : oid) (sl : slot) (l : list revent) (vs : list (option obs)) : Prop :=
  exists n t x v, nth_error l n = Some (t, x) /\ nth_error vs n = Some v /\ hooks i sl x v.

(** Member [i] is listed by a class and stays there: fields, and methods not bound by RegisterNatives. *)
Definition lasting (s : st) (i : oid) (sl : slot) : Prop :=
  exists cl, is_cls s cl = true /\
    match sl with
    | OnCall => In i (methods_of s cl) /\ exists m, method_at s i = Some m /\ m_native m = None
    | _ => In i (fields_of s cl)
    end.

(** Thread [t] has just begun a call that runs slot [sl] of member [i]. *)
Definition just_began (G : cfg) (t : tid) (o : op) (i : oid) (sl : slot) (p p' : rst) : Prop :=
  exists h r a g, rstep G t (ROp o) p = Some (Some (OVal (RCall (Entered h r a))), p') /\ p_run p' = mkRc t i sl g :: p_run p.
(** The receiver of a virtual call is an object. *)
Definition receiver_ok (s : st) (o : op) : Prop :=
  match o with CallMethodA_ _ obj _ _ => exists h r, obj = Some h /\ denotes s h (Some r) | _ => True end.
