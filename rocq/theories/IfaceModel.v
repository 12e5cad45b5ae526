(** The function tables of JNIEnv and JavaVM: which function of the library is in which slot (vm.cpp 346-523, jni.h 130-428). *)
From Coq Require Import String List.
From Verif Require Import Base VmState.
Import ListNotations.
Set Implicit Arguments.
Unset Strict Implicit.
Local Open Scope string_scope.

(** The types of the template arguments: jobject, a primitive type, void *)
Inductive jt := JtObj | JtPrim (p : pty) | JtVoid.
(** MDispatch<T, jclass>, MDispatch<T, jobject>, MDispatch<T, jobject, jclass> *)
Inductive recv := YClass | YObj | YObjClass.
(** An initializer of a slot: a null pointer, a function, or an instance of a function template *)
Inductive fn :=
| FNull
| FPlain (name : string)
| FFindClass (rn : bool)
| FMethodID (static rn : bool)
| FFieldID (static rn : bool)
| FDispatch (T : jt) (Y : recv)          (* the overloaded MDispatch<T, Y...>::CallMethod, method.h 17-36 *)
| FGetField (rn : bool) (T : jt) (static : bool)
| FSetField (T : jt) (static : bool)
| FNewArray (T : jt) | FElements (T : jt) | FRelease (T : jt) | FGetRegion (T : jt) | FSetRegion (T : jt).

(** vm.cpp 346-353 JNINativeInterfaceCompose: every type three times *)
Fixpoint compose (ts : list jt) : list jt := match ts with [] => [] | X :: r => [X; X; X] ++ compose r end.
(** vm.cpp 356-358: make_index_sequence *)
Definition Seq (ts : list jt) : list nat := seq 0 (length ts * 3).
Definition SeqM1 (ts : list jt) : list nat := seq 0 (length ts - 1).
Definition SeqM2 (ts : list jt) : list nat := seq 0 (length ts - 2).
(** std::tuple_element_t *)
Definition elem (ts : list jt) (i : nat) : jt := nth i ts JtVoid.
(** vm.cpp 367-451 InterfaceFactory<ReturnNull, jnitypes...>::Get *)
Definition Get (rn : bool) (ts : list jt) : list fn :=
  [FNull; FNull; FNull; FNull; FPlain "GetVersion"; FPlain "DefineClass"; FFindClass rn; FPlain "FromReflectedMethod"; FPlain "FromReflectedField"; FPlain "ToReflectedMethod"; FPlain "GetSuperclass";
   FPlain "IsAssignableFrom"; FPlain "ToReflectedField"; FPlain "Throw"; FPlain "ThrowNew"; FPlain "ExceptionOccurred"; FPlain "ExceptionDescribe"; FPlain "ExceptionClear"; FPlain "FatalError";
   FPlain "PushLocalFrame"; FPlain "PopLocalFrame"; FPlain "NewGlobalRef"; FPlain "DeleteGlobalRef"; FPlain "DeleteLocalRef"; FPlain "IsSameObject"; FPlain "NewLocalRef"; FPlain "EnsureLocalCapacity";
   FPlain "AllocObject"; FDispatch JtObj YClass; FDispatch JtObj YClass; FDispatch JtObj YClass; FPlain "GetObjectClass"; FPlain "IsInstanceOf"; FMethodID false rn] ++
  map (fun i => FDispatch (elem (compose ts) i) YObj) (Seq ts) ++
  map (fun i => FDispatch (elem (compose ts) i) YObjClass) (Seq ts) ++
  [FFieldID false rn] ++
  map (fun i => FGetField rn (elem ts i) false) (SeqM1 ts) ++
  map (fun i => FSetField (elem ts i) false) (SeqM1 ts) ++
  [FMethodID true rn] ++
  map (fun i => FDispatch (elem (compose ts) i) YClass) (Seq ts) ++
  [FFieldID true rn] ++
  map (fun i => FGetField rn (elem ts i) true) (SeqM1 ts) ++
  map (fun i => FSetField (elem ts i) true) (SeqM1 ts) ++
  [FPlain "NewString"; FPlain "GetStringLength"; FPlain "GetStringChars"; FPlain "ReleaseStringChars"; FPlain "NewStringUTF"; FPlain "GetStringUTFLength"; FPlain "GetStringUTFChars"; FPlain "ReleaseStringUTFChars";
   FPlain "GetArrayLength"; FPlain "NewObjectArray"; FPlain "GetObjectArrayElement"; FPlain "SetObjectArrayElement"] ++
  map (fun i => FNewArray (elem ts (i + 1))) (SeqM2 ts) ++
  map (fun i => FElements (elem ts (i + 1))) (SeqM2 ts) ++
  map (fun i => FRelease (elem ts (i + 1))) (SeqM2 ts) ++
  map (fun i => FGetRegion (elem ts (i + 1))) (SeqM2 ts) ++
  map (fun i => FSetRegion (elem ts (i + 1))) (SeqM2 ts) ++
  [FPlain "RegisterNatives"; FPlain "UnregisterNatives"; FPlain "MonitorEnter"; FPlain "MonitorExit"; FPlain "GetJavaVM"; FPlain "GetStringRegion"; FPlain "GetStringUTFRegion"; FElements JtVoid; FRelease JtVoid;
   FPlain "GetStringChars"; FPlain "ReleaseStringChars"; FPlain "NewWeakGlobalRef"; FPlain "DeleteWeakGlobalRef"; FPlain "ExceptionCheck"; FPlain "NewDirectByteBuffer"; FPlain "GetDirectBufferAddress";
   FPlain "GetDirectBufferCapacity"; FPlain "GetObjectRefType"].
(** vm.cpp 456-458 *)
Definition jnitypes : list jt := [JtObj; JtPrim PtZ; JtPrim PtB; JtPrim PtC; JtPrim PtS; JtPrim PtI; JtPrim PtJ; JtPrim PtF; JtPrim PtD; JtVoid].
Definition GetNativeInterfaceTemplate (rn : bool) : list fn := Get rn jnitypes.

(** How the arguments of a call are passed: the last parameter of the type of a field is "...", va_list or jvalue*, else [KNone].  The overload of CallMethod that
    initializes the field is the one with this parameter. *)
Inductive passing := KNone | KDots | KVa | KJv.
(** jni.h 130-428: the names of the fields of JNINativeInterface in order, with the last parameter *)
Definition JNINativeInterface : list (string * passing) := [
  ("reserved0", KNone); ("reserved1", KNone); ("reserved2", KNone); ("reserved3", KNone); ("GetVersion", KNone); ("DefineClass", KNone);
  ("FindClass", KNone); ("FromReflectedMethod", KNone); ("FromReflectedField", KNone); ("ToReflectedMethod", KNone); ("GetSuperclass", KNone);
  ("IsAssignableFrom", KNone); ("ToReflectedField", KNone); ("Throw", KNone); ("ThrowNew", KNone); ("ExceptionOccurred", KNone);
  ("ExceptionDescribe", KNone); ("ExceptionClear", KNone); ("FatalError", KNone); ("PushLocalFrame", KNone); ("PopLocalFrame", KNone);
  ("NewGlobalRef", KNone); ("DeleteGlobalRef", KNone); ("DeleteLocalRef", KNone); ("IsSameObject", KNone); ("NewLocalRef", KNone);
  ("EnsureLocalCapacity", KNone); ("AllocObject", KNone); ("NewObject", KDots); ("NewObjectV", KVa); ("NewObjectA", KJv); ("GetObjectClass", KNone);
  ("IsInstanceOf", KNone); ("GetMethodID", KNone); ("CallObjectMethod", KDots); ("CallObjectMethodV", KVa); ("CallObjectMethodA", KJv);
  ("CallBooleanMethod", KDots); ("CallBooleanMethodV", KVa); ("CallBooleanMethodA", KJv); ("CallByteMethod", KDots); ("CallByteMethodV", KVa);
  ("CallByteMethodA", KJv); ("CallCharMethod", KDots); ("CallCharMethodV", KVa); ("CallCharMethodA", KJv); ("CallShortMethod", KDots);
  ("CallShortMethodV", KVa); ("CallShortMethodA", KJv); ("CallIntMethod", KDots); ("CallIntMethodV", KVa); ("CallIntMethodA", KJv);
  ("CallLongMethod", KDots); ("CallLongMethodV", KVa); ("CallLongMethodA", KJv); ("CallFloatMethod", KDots); ("CallFloatMethodV", KVa);
  ("CallFloatMethodA", KJv); ("CallDoubleMethod", KDots); ("CallDoubleMethodV", KVa); ("CallDoubleMethodA", KJv); ("CallVoidMethod", KDots);
  ("CallVoidMethodV", KVa); ("CallVoidMethodA", KJv); ("CallNonvirtualObjectMethod", KDots); ("CallNonvirtualObjectMethodV", KVa);
  ("CallNonvirtualObjectMethodA", KJv); ("CallNonvirtualBooleanMethod", KDots); ("CallNonvirtualBooleanMethodV", KVa);
  ("CallNonvirtualBooleanMethodA", KJv); ("CallNonvirtualByteMethod", KDots); ("CallNonvirtualByteMethodV", KVa); ("CallNonvirtualByteMethodA", KJv);
  ("CallNonvirtualCharMethod", KDots); ("CallNonvirtualCharMethodV", KVa); ("CallNonvirtualCharMethodA", KJv); ("CallNonvirtualShortMethod", KDots);
  ("CallNonvirtualShortMethodV", KVa); ("CallNonvirtualShortMethodA", KJv); ("CallNonvirtualIntMethod", KDots); ("CallNonvirtualIntMethodV", KVa);
  ("CallNonvirtualIntMethodA", KJv); ("CallNonvirtualLongMethod", KDots); ("CallNonvirtualLongMethodV", KVa); ("CallNonvirtualLongMethodA", KJv);
  ("CallNonvirtualFloatMethod", KDots); ("CallNonvirtualFloatMethodV", KVa); ("CallNonvirtualFloatMethodA", KJv);
  ("CallNonvirtualDoubleMethod", KDots); ("CallNonvirtualDoubleMethodV", KVa); ("CallNonvirtualDoubleMethodA", KJv);
  ("CallNonvirtualVoidMethod", KDots); ("CallNonvirtualVoidMethodV", KVa); ("CallNonvirtualVoidMethodA", KJv); ("GetFieldID", KNone);
  ("GetObjectField", KNone); ("GetBooleanField", KNone); ("GetByteField", KNone); ("GetCharField", KNone); ("GetShortField", KNone);
  ("GetIntField", KNone); ("GetLongField", KNone); ("GetFloatField", KNone); ("GetDoubleField", KNone); ("SetObjectField", KNone);
  ("SetBooleanField", KNone); ("SetByteField", KNone); ("SetCharField", KNone); ("SetShortField", KNone); ("SetIntField", KNone);
  ("SetLongField", KNone); ("SetFloatField", KNone); ("SetDoubleField", KNone); ("GetStaticMethodID", KNone); ("CallStaticObjectMethod", KDots);
  ("CallStaticObjectMethodV", KVa); ("CallStaticObjectMethodA", KJv); ("CallStaticBooleanMethod", KDots); ("CallStaticBooleanMethodV", KVa);
  ("CallStaticBooleanMethodA", KJv); ("CallStaticByteMethod", KDots); ("CallStaticByteMethodV", KVa); ("CallStaticByteMethodA", KJv);
  ("CallStaticCharMethod", KDots); ("CallStaticCharMethodV", KVa); ("CallStaticCharMethodA", KJv); ("CallStaticShortMethod", KDots);
  ("CallStaticShortMethodV", KVa); ("CallStaticShortMethodA", KJv); ("CallStaticIntMethod", KDots); ("CallStaticIntMethodV", KVa);
  ("CallStaticIntMethodA", KJv); ("CallStaticLongMethod", KDots); ("CallStaticLongMethodV", KVa); ("CallStaticLongMethodA", KJv);
  ("CallStaticFloatMethod", KDots); ("CallStaticFloatMethodV", KVa); ("CallStaticFloatMethodA", KJv); ("CallStaticDoubleMethod", KDots);
  ("CallStaticDoubleMethodV", KVa); ("CallStaticDoubleMethodA", KJv); ("CallStaticVoidMethod", KDots); ("CallStaticVoidMethodV", KVa);
  ("CallStaticVoidMethodA", KJv); ("GetStaticFieldID", KNone); ("GetStaticObjectField", KNone); ("GetStaticBooleanField", KNone);
  ("GetStaticByteField", KNone); ("GetStaticCharField", KNone); ("GetStaticShortField", KNone); ("GetStaticIntField", KNone);
  ("GetStaticLongField", KNone); ("GetStaticFloatField", KNone); ("GetStaticDoubleField", KNone); ("SetStaticObjectField", KNone);
  ("SetStaticBooleanField", KNone); ("SetStaticByteField", KNone); ("SetStaticCharField", KNone); ("SetStaticShortField", KNone);
  ("SetStaticIntField", KNone); ("SetStaticLongField", KNone); ("SetStaticFloatField", KNone); ("SetStaticDoubleField", KNone); ("NewString", KNone);
  ("GetStringLength", KNone); ("GetStringChars", KNone); ("ReleaseStringChars", KNone); ("NewStringUTF", KNone); ("GetStringUTFLength", KNone);
  ("GetStringUTFChars", KNone); ("ReleaseStringUTFChars", KNone); ("GetArrayLength", KNone); ("NewObjectArray", KNone);
  ("GetObjectArrayElement", KNone); ("SetObjectArrayElement", KNone); ("NewBooleanArray", KNone); ("NewByteArray", KNone); ("NewCharArray", KNone);
  ("NewShortArray", KNone); ("NewIntArray", KNone); ("NewLongArray", KNone); ("NewFloatArray", KNone); ("NewDoubleArray", KNone);
  ("GetBooleanArrayElements", KNone); ("GetByteArrayElements", KNone); ("GetCharArrayElements", KNone); ("GetShortArrayElements", KNone);
  ("GetIntArrayElements", KNone); ("GetLongArrayElements", KNone); ("GetFloatArrayElements", KNone); ("GetDoubleArrayElements", KNone);
  ("ReleaseBooleanArrayElements", KNone); ("ReleaseByteArrayElements", KNone); ("ReleaseCharArrayElements", KNone);
  ("ReleaseShortArrayElements", KNone); ("ReleaseIntArrayElements", KNone); ("ReleaseLongArrayElements", KNone); ("ReleaseFloatArrayElements", KNone);
  ("ReleaseDoubleArrayElements", KNone); ("GetBooleanArrayRegion", KNone); ("GetByteArrayRegion", KNone); ("GetCharArrayRegion", KNone);
  ("GetShortArrayRegion", KNone); ("GetIntArrayRegion", KNone); ("GetLongArrayRegion", KNone); ("GetFloatArrayRegion", KNone);
  ("GetDoubleArrayRegion", KNone); ("SetBooleanArrayRegion", KNone); ("SetByteArrayRegion", KNone); ("SetCharArrayRegion", KNone);
  ("SetShortArrayRegion", KNone); ("SetIntArrayRegion", KNone); ("SetLongArrayRegion", KNone); ("SetFloatArrayRegion", KNone);
  ("SetDoubleArrayRegion", KNone); ("RegisterNatives", KNone); ("UnregisterNatives", KNone); ("MonitorEnter", KNone); ("MonitorExit", KNone);
  ("GetJavaVM", KNone); ("GetStringRegion", KNone); ("GetStringUTFRegion", KNone); ("GetPrimitiveArrayCritical", KNone);
  ("ReleasePrimitiveArrayCritical", KNone); ("GetStringCritical", KNone); ("ReleaseStringCritical", KNone); ("NewWeakGlobalRef", KNone);
  ("DeleteWeakGlobalRef", KNone); ("ExceptionCheck", KNone); ("NewDirectByteBuffer", KNone); ("GetDirectBufferAddress", KNone);
  ("GetDirectBufferCapacity", KNone); ("GetObjectRefType", KNone)].
(** jni.h: JNIInvokeInterface *)
Definition JNIInvokeInterface : list string := ["reserved0"; "reserved1"; "reserved2"; "DestroyJavaVM"; "AttachCurrentThread"; "DetachCurrentThread"; "GetEnv"; "AttachCurrentThreadAsDaemon"].
(** A positional initializer gives the fields their values in order; fields behind it are null. *)
Definition slot (rn : bool) (k : nat) : option (fn * passing) :=
  match nth_error JNINativeInterface k with
  | Some f => Some (nth k (GetNativeInterfaceTemplate rn) FNull, snd f)
  | None => None
  end.
(** The position of a field *)
Fixpoint offset_in (l : list (string * passing)) (n : string) : option nat :=
  match l with [] => None | (m, _) :: r => if String.eqb m n then Some 0 else match offset_in r n with Some k => Some (S k) | None => None end end.
(** env->functions->name *)
Definition function (rn : bool) (name : string) : option (fn * passing) := match offset_in JNINativeInterface name with Some k => slot rn k | None => None end.
