(** Calls from C++ code: what a caller of Method::invoke, of the result of Class::getMethod and of Jvm::start relies on.  Specification only:
    reads the state (InvokeModel is imported for the types of arguments and results). *)
From Verif Require Import Base VmState VmModel VmStep VmSpec RefSpec CastSpec CallSpec MemSpec ArrSpec InvokeModel.
Set Implicit Arguments.
Unset Strict Implicit.
Local Open Scope char_scope.

(** Types of results, by the letter of the descriptor (JNI specification, "Type Signatures") *)
Inductive letter : ascii -> rty -> Prop :=
| le_void : letter "V" RVoid
| le_boolean : letter "Z" (RPrim PtZ) | le_byte : letter "B" (RPrim PtB) | le_char : letter "C" (RPrim PtC) | le_short : letter "S" (RPrim PtS)
| le_int : letter "I" (RPrim PtI) | le_long : letter "J" (RPrim PtJ) | le_float : letter "F" (RPrim PtF) | le_double : letter "D" (RPrim PtD)
| le_class : letter "L" RObj | le_array : letter "[" RObj.
(** [rest] is what follows the last ")" of [sig], all of [sig] if there is none. *)
Definition behind_params (sig rest : str) : Prop := ~ In ")" rest /\ (sig = rest \/ exists ps, sig = ps ++ ")" :: rest).
(** There follows a descriptor of a result of type [T]. *)
Definition returns (sig : str) (T : rty) : Prop := exists c rest, behind_params sig (c :: rest) /\ letter c T.
(** ... of no type that exists *)
Definition returns_nothing_known (sig : str) : Prop :=
  sig <> [] /\ exists rest, behind_params sig rest /\ forall c r T, rest = c :: r -> ~ letter c T.

(** The argument [p] can be passed: an existing object of its type. *)
Definition passable (G : cfg) (s : st) (p : cparam) : Prop :=
  match p with CObj Y (Some i) => denotes s i (Some i) /\ has_type G s i Y | _ => True end.
(** The JNI argument that stands for it *)
Definition as_arg (p : cparam) : arg := match p with CNum z => ArgZ z | CObj _ o => ArgL o end.
Definition objects (ps : list cparam) : list oid := flat_map (fun p => match p with CObj _ (Some i) => [i] | _ => [] end) ps.

(** The temporaries in [l] are gone, one after the other; objects that nothing else refers to are destroyed with them. *)
Inductive let_go (t : tid) : list oid -> st -> st -> Prop :=
| lg_nil s : let_go t [] s s
| lg_cons i l s s1 s2 ex : removed i (s_ext s) ex -> released t (frames s t) (s_globals s) ex s s1 -> let_go t l s1 s2 -> let_go t (i :: l) s s2.
(** What the caller gets when the method ended in state [s] with result [w]: the pending exception, else the result. *)
Inductive outcome (t : tid) (w : rval) (s : st) : rval + exn -> Prop :=
| oc_result : pending s t = None -> outcome t w s (inl w)
| oc_thrown j x : pending s t = Some j -> contents s j = Some (PThrow x) -> outcome t w s (inr x).
(** How often C++ code holds [i]; how often it lets go of it in a history *)
Definition count (i : oid) (l : list oid) : nat := count_occ Nat.eq_dec l i.
Definition drops (i : oid) (l : list event) : nat := count i (flat_map (fun e : event => match snd e with UDrop_ j => [j] | _ => [] end) l).

(** ** Which method of a class a call uses *)
(** The method found by getMethod: instance, static and, if there are none of these, native methods *)
Definition looked_up (G : cfg) (s : st) (cl : oid) (nm sg : str) (x : proxy) : Prop :=
  finds_method G s false false nm sg cl (x_member x) /\ finds_method G s true false nm sg cl (x_static x) /\
  match x_member x, x_static x with None, None => finds_method G s false true nm sg cl (x_native x) | _, _ => x_native x = None end.
(** A call for a class uses the static method, a call for an object the instance method; a native method serves both. *)
Definition chosen (isClass : bool) (x : proxy) : option oid :=
  match isClass, x_static x, x_member x, x_native x with
  | true, Some m, _, _ => Some m
  | false, _, Some m, _ => Some m
  | _, _, _, n => n
  end.
(** Some call through it finds a method. *)
Definition callable (x : proxy) : Prop := exists isClass m, chosen isClass x = Some m.

(** The VM looks the same to every thread: all references, objects, running calls and pending exceptions are unchanged. *)
Definition same_view (t : tid) (s s' : st) : Prop :=
  gained t (frames s t) (s_globals s) (s_ext s) s s' /\ (forall i, contents s' i = contents s i) /\ (forall i, live s' i = live s i).
(** ** Jvm::start: the method main([Ljava/lang/String;)V of class [c] *)
Definition mains (G : cfg) (s : st) (c : oid) (x : proxy) : Prop := looked_up G s c (S_ "main") (S_ "([Ljava/lang/String;)V") x.
Definition no_main_in (G : cfg) (s : st) (c : oid) : Prop := mains G s c (mkProxy None None None).
