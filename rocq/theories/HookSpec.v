(** Specification of hooking and of native registration; only reads the state. *)
From Verif Require Import Base VmState VmSpec MemSpec.
Set Implicit Arguments.
Unset Strict Implicit.

(** Method [i] has this name, signature and static flag (bound by RegisterNatives or not). *)
Definition same_key (s : st) (isStatic : bool) (name sig : str) (i : oid) : Prop :=
  exists m, method_at s i = Some m /\ m_name m = name /\ m_sig m = sig /\ m_static m = isStatic.
Definition is_native_method (s : st) (i : oid) : Prop := exists m, method_at s i = Some m /\ m_native m <> None.

(** Hooking an implementation [hd] in class [cl] has bound it to method [i]: the first one of the class with
    that name, signature and static flag, else a new one. *)
Inductive hooked_method (t : tid) (cl : oid) (isStatic : bool) (nm sg : str) (hd : handle) (s s' : st) : oid -> Prop :=
| hk_old i m : first_in (same_key s isStatic nm sg) (methods_of s cl) i ->
    method_at s i = Some m -> method_at s' i = Some (mkMth nm sg isStatic (m_native m) (Some hd)) ->
    monitor s' i = monitor s i -> disturbs (eq i) t s s' -> frames s' t = frames s t ->
    (forall j, live s' j = live s j) ->
    hooked_method t cl isStatic nm sg hd s s' i
| hk_new i : (forall j, In j (methods_of s cl) -> ~ same_key s isStatic nm sg j) ->
    i = length (s_heap s) -> method_at s' i = Some (mkMth nm sg isStatic None (Some hd)) ->
    grown s s' cl [i] [] -> disturbs (eq cl) t s s' -> frames s' t = frames s t ->
    (forall j, live s' j = true <-> live s j = true \/ j = i) ->
    hooked_method t cl isStatic nm sg hd s s' i.
Definition with_hook (f : fld) (getter : bool) (hd : handle) : fld :=
  if getter then mkFld (f_name f) (f_type f) (f_static f) (Some hd) (f_set f)
  else mkFld (f_name f) (f_type f) (f_static f) (f_get f) (Some hd).
Inductive hooked_field (t : tid) (cl : oid) (isStatic getter : bool) (nm ty : str) (hd : handle) (s s' : st) : oid -> Prop :=
| hf_old i f : first_in (is_field s isStatic nm ty) (fields_of s cl) i ->
    field_at s i = Some f -> field_at s' i = Some (with_hook f getter hd) ->
    monitor s' i = monitor s i -> disturbs (eq i) t s s' -> frames s' t = frames s t ->
    (forall j, live s' j = live s j) ->
    hooked_field t cl isStatic getter nm ty hd s s' i
| hf_new i : (forall j, In j (fields_of s cl) -> ~ is_field s isStatic nm ty j) ->
    i = length (s_heap s) -> field_at s' i = Some (with_hook (mkFld nm ty isStatic None None) getter hd) ->
    grown s s' cl [] [i] -> disturbs (eq cl) t s s' -> frames s' t = frames s t ->
    (forall j, live s' j = true <-> live s j = true \/ j = i) ->
    hooked_field t cl isStatic getter nm ty hd s s' i.

(** The function last given for [nm] in a list of registrations, starting with [old]. *)
Definition last_given (l : list (str * str * option nat)) (nm : str) (old : option nat) : option nat :=
  fold_left (fun a x => match x with (n, _, f) => if str_eqb n nm then f else a end) l old.
(** the function that the class has for native methods called [nm] *)
Definition native_fn (c : cls) (nm : str) : option nat :=
  match find (fun x => str_eqb (fst x) nm) (c_natives c) with Some x => Some (snd x) | None => None end.

(** The registrations [l] have been added to class [cl]. *)
Definition natives_added (t : tid) (cl : oid) (l : list (str * str * option nat)) (s s' : st) : Prop :=
  exists c c', class_at s cl = Some c /\ class_at s' cl = Some c' /\
    c_methods c' = c_methods c ++ seq (length (s_heap s)) (length l) /\
    (forall k nm sg fn, nth_error l k = Some (nm, sg, fn) ->
      method_at s' (length (s_heap s) + k) = Some (mkMth nm sg false fn None)) /\
    (forall nm, native_fn c' nm = last_given l nm (native_fn c nm)) /\
    c_fields c' = c_fields c /\ c_name c' = c_name c /\ c_prefix c' = c_prefix c /\
    c_inst c' = c_inst c /\ c_instarr c' = c_instarr c /\ c_bases c' = c_bases c /\ monitor s' cl = monitor s cl /\
    disturbs (eq cl) t s s' /\ frames s' t = frames s t /\
    (forall j, live s' j = true <-> live s j = true \/ length (s_heap s) <= j < length (s_heap s) + length l).

(** All registrations of class [cl] are gone, and only they. *)
Definition natives_removed (t : tid) (cl : oid) (s s' : st) : Prop :=
  exists c c' p, class_at s cl = Some c /\ class_at s' cl = Some c' /\
    c_methods c' = filter p (c_methods c) /\ (forall i, In i (c_methods c) -> (p i = false <-> is_native_method s i)) /\
    c_natives c' = [] /\
    c_fields c' = c_fields c /\ c_name c' = c_name c /\ c_prefix c' = c_prefix c /\
    c_inst c' = c_inst c /\ c_instarr c' = c_instarr c /\ c_bases c' = c_bases c /\ monitor s' cl = monitor s cl /\
    disturbs (fun i => i = cl \/ (In i (c_methods c) /\ is_native_method s i)) t s s' /\ frames s' t = frames s t /\
    (forall j, live s' j = true -> live s j = true).
