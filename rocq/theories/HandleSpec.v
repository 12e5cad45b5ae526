(** Which reference arguments the functions of the interface look at, in which order, and what they should do with a reference that is null,
    cleared, dangling or of another kind.  Specification only. *)
From Verif Require Import Base VmState VmModel VmStep VmSpec RefSpec ArrSpec WrapModel CastModel CastSpec.
Set Implicit Arguments.
Unset Strict Implicit.

(** The references that a function resolves before anything else, with the type it needs.  Functions that test a reference for null first do not
    look at the others. *)
Definition expects (o : op) : list (ty * option oid) :=
  match o with
  | GetSuperclass_ c | GetMethodID_ _ c _ _ | GetFieldID_ _ c _ _ | CallStaticMethodA_ _ c _ _ | NewObjectArray_ _ c _ | RegisterNatives_ c _ _
  | UnregisterNatives_ c => [(TClass, c)]
  | IsAssignableFrom_ a b => [(TClass, a); (TClass, b)]
  | Throw_ h => [(TThrowable, h)]
  | FromReflectedMethod_ h | FromReflectedField_ h | PopLocalFrame_ h | NewGlobalRef_ h | NewWeakGlobalRef_ h | DeleteLocalRef_ h | NewLocalRef_ h
  | GetObjectClass_ h | IsInstanceOf_ h _ | MonitorEnter_ h | MonitorExit_ h => [(TObject, h)]
  | GetStringLength_ h | GetStringChars_ h | GetStringUTFLength_ h | GetStringUTFChars_ h | GetStringRegion_ h _ _ _ | GetStringUTFRegion_ h _ _ _ => [(TString, h)]
  | GetArrayLength_ h | GetArrayElements_ None h => [(TVArr, h)]
  | GetArrayElements_ (Some p) h | GetArrayRegion_ p h _ _ | SetArrayRegion_ p h _ _ _ => [(TPArr p, h)]
  | GetObjectArrayElement_ h _ => [(TArr None, h)]
  | IsSameObject_ (Some i) (Some j) => if Nat.eqb i j then [] else [(TObject, Some i); (TObject, Some j)]
  | IsSameObject_ a b => [(TObject, a); (TObject, b)]
  | SetObjectArrayElement_ h _ v => [(TObject, v); (TArr None, h)]
  | GetDirectBufferAddress_ h | GetDirectBufferCapacity_ h => [(TBuffer, h)]
  | _ => []
  end.
Inductive acceptable (G : cfg) (s : st) : ty * option oid -> Prop :=
| ac_gone T h : denotes_opt s h None -> acceptable G s (T, h)
| ac_fits T h j : denotes_opt s h (Some j) -> has_type G s j T -> acceptable G s (T, h).
Definition misfit (G : cfg) (s : st) (p : ty * option oid) : Prop := exists j, denotes_opt s (snd p) (Some j) /\ ~ has_type G s j (fst p).
Definition dangling (s : st) (h : option oid) : Prop := exists i, h = Some i /\ live s i = false.

(** Null, or a weak reference whose object is gone *)
Definition gone (s : st) (h : option oid) : Prop := denotes_opt s h None.
(** The functions for which that is allowed, with their result.  Nothing else may happen.  Those in the first group accept only the null
    reference itself, those in the second cleared weak references too. *)
Inductive harmless (G : cfg) (s : st) : op -> val -> Prop :=
| hm_from_method : harmless G s (FromReflectedMethod_ None) (RRef None)
| hm_from_field : harmless G s (FromReflectedField_ None) (RRef None)
| hm_to_method c m b : c = None \/ m = None -> harmless G s (ToReflectedMethod_ c m b) (RRef None)
| hm_to_field c f b : c = None \/ f = None -> harmless G s (ToReflectedField_ c f b) (RRef None)
| hm_instance c : harmless G s (IsInstanceOf_ None c) (RBool false)
| hm_reftype : harmless G s (GetObjectRefType_ None) (RRefType RefInvalid)
| hm_delete_global : harmless G s (DeleteGlobalRef_ None) RUnit
| hm_delete_weak : harmless G s (DeleteWeakGlobalRef_ None) RUnit
| hm_call T o a : harmless G s (CallMethodA_ T o None a) (RCall Default)
| hm_nonvirtual T o c a : harmless G s (CallNonvirtualMethodA_ T o c None a) (RCall Default)
| hm_get b T o : harmless G s (GetField_ b T o None) (RCall Default)
| hm_set b T o f v : o = None \/ f = None -> harmless G s (SetField_ b T o f v) (RCall Default)
| hm_length : harmless G s (GetStringLength_ None) (RInt 0)
| hm_utf_length : harmless G s (GetStringUTFLength_ None) (RInt 0)
| hm_chars : harmless G s (GetStringChars_ None) (RInts [0%Z])
| hm_utf_chars : harmless G s (GetStringUTFChars_ None) (RBytes [])
| hm_array_length : harmless G s (GetArrayLength_ None) (RInt 0)
| hm_elements p : harmless G s (GetArrayElements_ p None) (RRef None)
| hm_weak_or_global Y : harmless G s (UHold_ Y None) (RRef None)
| hm_alloc c : harmless G s (AllocObject_ c) (RRef None)
| hm_new_global h : gone s h -> harmless G s (NewGlobalRef_ h) (RRef None)
| hm_new_weak h : gone s h -> harmless G s (NewWeakGlobalRef_ h) (RRef None)
| hm_new_local h : gone s h -> harmless G s (NewLocalRef_ h) (RRef None)
| hm_delete_local h : gone s h -> harmless G s (DeleteLocalRef_ h) RUnit
| hm_same a b : gone s a -> gone s b -> harmless G s (IsSameObject_ a b) (RBool true)
| hm_assignable a b : gone s a -> gone s b -> harmless G s (IsAssignableFrom_ a b) (RBool true)
| hm_static T c a : gone s c -> harmless G s (CallStaticMethodA_ T c None a) (RCall Default)
| hm_register c l n : gone s c -> harmless G s (RegisterNatives_ c l n) (RInt 0)
| hm_unregister c : gone s c -> harmless G s (UnregisterNatives_ c) (RInt 0)
| hm_method b c n g : retnull G = true -> gone s c -> harmless G s (GetMethodID_ b c n g) (RRef None)
| hm_hold Y h : Y <> TWeak -> Y <> TGlobal -> gone s h -> harmless G s (UHold_ Y h) (RRef None).
(** The functions that use a null reference without looking, some of them only after the test for null was passed by a weak reference. *)
Definition cleared (s : st) (h : option oid) : Prop := h <> None /\ gone s h.
Inductive forbidden (G : cfg) (s : st) : op -> Prop :=
| fb_superclass c : gone s c -> forbidden G s (GetSuperclass_ c)
| fb_assignable a b j : gone s a -> denotes_opt s b (Some j) -> has_type G s j TClass -> forbidden G s (IsAssignableFrom_ a b)
| fb_throw_new c : forbidden G s (ThrowNew_ c None)
| fb_field b c n g : gone s c -> forbidden G s (GetFieldID_ b c n g)
| fb_new_array n c i : gone s c -> forbidden G s (NewObjectArray_ n c i)
| fb_get_element h k : gone s h -> forbidden G s (GetObjectArrayElement_ h k)
| fb_set_element h k v : gone s h -> acceptable G s (TObject, v) -> forbidden G s (SetObjectArrayElement_ h k v)
| fb_get_region p h a n : gone s h -> forbidden G s (GetArrayRegion_ p h a n)
| fb_set_region p h a n b : gone s h -> forbidden G s (SetArrayRegion_ p h a n b)
| fb_string_region h a n c : gone s h -> forbidden G s (GetStringRegion_ h a n c)
| fb_utf_region h a n c : gone s h -> forbidden G s (GetStringUTFRegion_ h a n c)
| fb_enter h : gone s h -> forbidden G s (MonitorEnter_ h)
| fb_exit h : gone s h -> forbidden G s (MonitorExit_ h)
| fb_address h : gone s h -> forbidden G s (GetDirectBufferAddress_ h)
| fb_capacity h : gone s h -> forbidden G s (GetDirectBufferCapacity_ h)
| fb_class h : cleared s h -> forbidden G s (GetObjectClass_ h)
| fb_instance h c : cleared s h -> forbidden G s (IsInstanceOf_ h c)
| fb_from_method h : cleared s h -> forbidden G s (FromReflectedMethod_ h)
| fb_from_field h : cleared s h -> forbidden G s (FromReflectedField_ h)
| fb_length h : cleared s h -> forbidden G s (GetStringLength_ h)
| fb_chars h : cleared s h -> forbidden G s (GetStringChars_ h)
| fb_utf_length h : cleared s h -> forbidden G s (GetStringUTFLength_ h)
| fb_utf_chars h : cleared s h -> forbidden G s (GetStringUTFChars_ h)
| fb_array_length h : cleared s h -> forbidden G s (GetArrayLength_ h)
| fb_elements p h : cleared s h -> forbidden G s (GetArrayElements_ p h).

(** Method and field identifiers are used as pointers: nothing checks what they point to. *)
Definition no_method (s : st) (i : oid) : Prop := forall m, contents s i <> Some (PMethod m).
Definition no_field (s : st) (i : oid) : Prop := forall f, contents s i <> Some (PField f).
Inductive wrong_id (G : cfg) (s : st) : op -> Prop :=
| wi_call T o i a : no_method s i -> wrong_id G s (CallMethodA_ T o (Some i) a)
| wi_nonvirtual T o c i a : no_method s i -> wrong_id G s (CallNonvirtualMethodA_ T o c (Some i) a)
| wi_static T c i a : acceptable G s (TClass, c) -> no_method s i -> wrong_id G s (CallStaticMethodA_ T c (Some i) a)
| wi_to_method c i b : no_method s i -> wrong_id G s (ToReflectedMethod_ (Some c) (Some i) b)
| wi_get b T o i : no_field s i -> wrong_id G s (GetField_ b T o (Some i))
| wi_set b T o i v : no_field s i -> wrong_id G s (SetField_ b T (Some o) (Some i) v)
| wi_to_field c i b : no_field s i -> wrong_id G s (ToReflectedField_ (Some c) (Some i) b).
