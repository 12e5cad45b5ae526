(** Specification of the signatures of hooks: the Java type that a C++ type stands for. *)
From Verif Require Import Base SigSpec VmState WrapModel.
Set Implicit Arguments.
Unset Strict Implicit.

Definition prim_ty (p : pty) : jty :=
  match p with PtZ => JBool | PtB => JByte | PtC => JChar | PtS => JShort | PtI => JInt | PtJ => JLong | PtF => JFloat | PtD => JDouble end.
Definition is_array (c : ccls) : bool := match c with ClPrims _ | ClBools | ClArr _ => true | _ => false end.
(** The name of a class is that of the class registered for it, else its own. *)
Definition class_name (N : names) (c : ccls) (n : str) : Prop := n_reg N c = Some n \/ n_reg N c = None /\ n_own N c = Some n.
Inductive class_type (N : names) : ccls -> jty -> Prop :=
| ct_class c n : is_array c = false -> class_name N c n -> class_type N c (JObj n)
| ct_prims p : class_type N (ClPrims p) (JArr (prim_ty p))
| ct_bools : class_type N ClBools (JArr JBool)
| ct_arr c j : class_type N c j -> class_type N (ClArr c) (JArr j).
(** Pointers, references and shared pointers stand for the object. *)
Inductive java (N : names) : cty -> jty -> Prop :=
| jv_prim p : java N (Cprim p) (prim_ty p)
| jv_bool : java N Cbool JBool
| jv_jobject j : class_type N ClObject j -> java N Cjobject j
| jv_jstring j : class_type N ClString j -> java N Cjstring j
| jv_jclass j : class_type N ClClass j -> java N Cjclass j
| jv_jthrowable j : class_type N ClThrowable j -> java N Cjthrowable j
| jv_val c j : class_type N c j -> java N (Cval c) j
| jv_ptr c j : class_type N c j -> java N (Cptr c) j
| jv_ref c j : class_type N c j -> java N (Cref c) j
| jv_cref c j : class_type N c j -> java N (Ccref c) j
| jv_shared c j : class_type N c j -> java N (Cshared c) j
| jv_cshared c j : class_type N c j -> java N (Ccshared c) j.
(** Results: [None] is void. *)
Inductive java_ret (N : names) : cty -> option jty -> Prop :=
| jr_void : java_ret N Cvoid None
| jr_some T j : java N T j -> java_ret N T (Some j).
(** Arrays are passed by value or by std::shared_ptr. *)
Definition direct (T : cty) : bool := match T with Cptr c | Cref c | Ccref c | Ccshared c => negb (is_array c) | _ => true end.
(** The classes of arrays of objects in a type, innermost first *)
Fixpoint array_classes (j : jty) : list str :=
  match j with
  | JArr e => array_classes e ++ match e with JObj _ | JArr _ => [descr j] | _ => [] end
  | _ => []
  end.
(** The member of jvalue for a type *)
Definition member_of (j : jty) : member :=
  match j with JBool => Mz | JByte => Mb | JChar => Mc | JShort => Ms | JInt => Mi | JLong => Mj | JFloat => Mf | JDouble => Md | JObj _ | JArr _ => Ml end.
(** The result type under which calls find a handle *)
Definition result_tag (r : option jty) : rty :=
  match r with
  | None => RVoid
  | Some j => match j with JBool => RPrim PtZ | JByte => RPrim PtB | JChar => RPrim PtC | JShort => RPrim PtS | JInt => RPrim PtI | JLong => RPrim PtJ
                         | JFloat => RPrim PtF | JDouble => RPrim PtD | JObj _ | JArr _ => RObj end
  end.
Definition names_ok (N : names) : Prop := forall c n, class_name N c n -> ty_ok (JObj n).

(** [T] is taken for the receiver of a hook of class [cl], where [mine c]: [cl] is registered for [c]. *)
Inductive receives (mine : ccls -> bool) : bool -> cty -> Prop :=
| rc_jobject : receives mine true Cjobject
| rc_object : receives mine true (Cptr ClObject)
| rc_val c : mine c = true -> receives mine true (Cval c)
| rc_ptr c : mine c = true -> receives mine true (Cptr c)
| rc_class : receives mine false (Cptr ClClass)
| rc_jclass : receives mine false Cjclass.
(** [h] is a correct hook of [f] with its first [k_implicit h] parameters implicit. *)
Inductive hook_of (N : names) (id : nat) (f : callable) : hook -> Prop :=
| ho_method inst k js r : Forall2 (java N) (skipn k (params f)) js -> java_ret N (Return f) r ->
    hook_of N id f (mkHook WMethod (negb inst) (msig js r) (mkHandle id (if inst then KInst else KStatic) (result_tag r) (isMemFn f)) k)
| ho_get inst k j : java N (Return f) j -> length (params f) = k \/ params f = [] ->
    hook_of N id f (mkHook WGet (negb inst) (descr j) (mkHandle id (if inst then KInstGet else KStaticGet) (result_tag (Some j)) false) k)
| ho_set inst k T j : java N T j -> skipn k (params f) = [T] ->
    hook_of N id f (mkHook WSet (negb inst) (descr j) (mkHandle id (if inst then KInstSet else KStaticSet) (result_tag (Some j)) (isMemFn f)) k)
| ho_assign inst k j : java N (Return f) j -> b_set (type f) = true ->
    hook_of N id f (mkHook WSet (negb inst) (descr j) (mkHandle id (if inst then KInstSet else KStaticSet) (result_tag (Some j)) false) k).

(** *** Which functions can be hooked at all *)
(** Types of parameters that a call can supply: not by value if the object cannot be copied, no jstring, no void, no environment *)
Inductive passable : cty -> Prop :=
| pa_prim p : passable (Cprim p) | pa_bool : passable Cbool
| pa_jobject : passable Cjobject | pa_jclass : passable Cjclass | pa_jthrowable : passable Cjthrowable
| pa_object : passable (Cval ClObject) | pa_string : passable (Cval ClString) | pa_throwable : passable (Cval ClThrowable) | pa_user n : passable (Cval (ClUser n))
| pa_ptr c : passable (Cptr c) | pa_ref c : passable (Cref c) | pa_cref c : passable (Ccref c) | pa_shared c : passable (Cshared c).
(** Types of values that a hook can return *)
Inductive returnable : cty -> Prop :=
| ra_prim p : returnable (Cprim p) | ra_bool : returnable Cbool | ra_jobject : returnable Cjobject | ra_val c : returnable (Cval c) | ra_shared c : returnable (Cshared c).
(** A parameter of this type is also tried as the receiver; *)
Inductive tried : bool -> cty -> Prop :=
| tr_jobject : tried true Cjobject | tr_val c : tried true (Cval c) | tr_ptr c : tried true (Cptr c)
| tr_class : tried false (Cptr ClClass) | tr_jclass : tried false Cjclass.
(** which works for these. *)
Inductive receiver_ok : bool -> cty -> Prop :=
| ro_val c : passable (Cval c) -> receiver_ok true (Cval c)
| ro_ptr c : c <> ClClass -> receiver_ok true (Cptr c)
| ro_class : receiver_ok false (Cptr ClClass) | ro_jclass : receiver_ok false Cjclass.
