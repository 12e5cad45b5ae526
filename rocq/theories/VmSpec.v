(** Small specification vocabulary: what the observable notions of the JNI documentation mean on a VM
    state.  Independent of the functions of the model: only reads the state. *)
From Verif Require Import Base VmState.
Set Implicit Arguments.
Unset Strict Implicit.

(** The object a reference denotes: [denotes s h (Some j)]: object [j]; [denotes s h None]: null, because
    it is a weak reference to an object that is gone. *)
Inductive denotes (s : st) : oid -> option oid -> Prop :=
| den_obj i o : lookup s i = Some o -> (forall j, o_pay o <> PWeak j) -> (forall j, o_pay o <> PGlobal j) ->
    denotes s i (Some i)
| den_global i o j r : lookup s i = Some o -> o_pay o = PGlobal j -> denotes s j r -> denotes s i r
| den_weak i o j r : lookup s i = Some o -> o_pay o = PWeak j -> live s j = true -> denotes s j r -> denotes s i r
| den_dead i o j : lookup s i = Some o -> o_pay o = PWeak j -> live s j = false -> denotes s i None.

(** ... including the null reference *)
Definition denotes_opt (s : st) (h r : option oid) : Prop :=
  match h with None => r = None | Some i => denotes s i r end.

(** Object [i] is a class with binary name [n]. *)
Definition class_named (s : st) (n : str) (i : oid) : Prop :=
  exists o c, lookup s i = Some o /\ o_pay o = PClass c /\ c_prefix c = n.
Definition class_exists (s : st) (n : str) : Prop := exists i, class_named s n i.

(** Thread [t] is attached with environment [e]. *)
Definition attached (s : st) (t : tid) : Prop := exists e, get_env s t = Some e.
Definition frames (s : st) (t : tid) : list (list oid) :=
  match get_env s t with Some e => e_frames e | None => [] end.
Definition pending (s : st) (t : tid) : option oid :=
  match get_env s t with Some e => e_exc e | None => None end.
Definition running (s : st) (t : tid) : list call :=
  match get_env s t with Some e => e_calls e | None => [] end.

(** Thread [t] owns a local reference to [i]. *)
Definition local_ref (s : st) (t : tid) (i : oid) : Prop := exists f, In f (frames s t) /\ In i f.

(** Contents of an object, without its class pointer and monitor. *)
Definition contents (s : st) (i : oid) : option pay := option_map o_pay (lookup s i).
Definition monitor (s : st) (i : oid) : option (tid * nat) :=
  match lookup s i with Some o => o_mon o | None => None end.
Definition class_ptr (s : st) (i : oid) : option oid :=
  match lookup s i with
  | Some o => match o_clazz o with Some c => if live s c then Some c else None | None => None end
  | None => None
  end.

(** A new reference in the innermost frame. *)
Definition add_local (fs : list (list oid)) (i : oid) : list (list oid) :=
  match fs with f :: r => (f ++ [i]) :: r | [] => [] end.

(** Contents without the list of inner classes, which only the registry uses. *)
Definition view (p : pay) : pay :=
  match p with
  | PClass c => PClass (mkCls (c_name c) (c_prefix c) [] (c_fields c) (c_methods c) (c_natives c) (c_inst c)
                          (c_instarr c) (c_bases c))
  | _ => p
  end.
(** [i] exists and has not changed. *)
Definition intact (s s' : st) (i : oid) : Prop :=
  exists o o', lookup s i = Some o /\ lookup s' i = Some o' /\ view (o_pay o') = view (o_pay o) /\
    o_mon o' = o_mon o /\ (forall c, class_ptr s i = Some c -> class_ptr s' i = Some c).

(** The class to which the C++ type [T] is bound. *)
Definition registered (s : st) (T : ty) : option oid :=
  match get_type s T with Some r => r | None => None end.

(** Nothing that existed has changed, except the local references of thread [t]. *)
Record undisturbed (t : tid) (s s' : st) : Prop := {
  u_obj : forall i, live s i = true -> intact s s' i;
  u_globals : s_globals s' = s_globals s;
  u_ext : s_ext s' = s_ext s;
  u_types : forall T, registered s' T = registered s T;
  u_others : forall u, u <> t -> get_env s' u = get_env s u;
  u_pending : pending s' t = pending s t;
  u_running : running s' t = running s t;
  u_envid : option_map e_id (get_env s' t) = option_map e_id (get_env s t)
}.

(** As [undisturbed], but the objects in [X] may have changed. *)
Record disturbs (X : oid -> Prop) (t : tid) (s s' : st) : Prop := {
  d_obj : forall i, live s i = true -> ~ X i -> intact s s' i;
  d_globals : s_globals s' = s_globals s;
  d_ext : s_ext s' = s_ext s;
  d_types : forall T, registered s' T = registered s T;
  d_others : forall u, u <> t -> get_env s' u = get_env s u;
  d_pending : pending s' t = pending s t;
  d_running : running s' t = running s t;
  d_envid : option_map e_id (get_env s' t) = option_map e_id (get_env s t)
}.

(** Nothing has changed, except that the table from C++ types to classes may have new null entries. *)
Definition same_but_types (s s' : st) : Prop :=
  s' = with_types s (s_types s') /\ forall T, registered s' T = registered s T.
