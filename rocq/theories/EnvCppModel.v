(** The methods of JNIEnv and JavaVM in C++: inline functions of jni.h that call the functions of the tables (jni.h 130-428, 435-921). *)
From Coq Require Import String List.
From Verif Require Import Base VmState IfaceModel.
Import ListNotations.
Set Implicit Arguments.
Unset Strict Implicit.
Local Open Scope string_scope.

(** An inline method: result type, name, parameters (type and name), whether "..." follows; its body: the parameter given to va_start (then a va_list [args] is declared; va_end follows the
    call), whether the result of the call is returned, the field of [functions] that is called, and the arguments behind [this]. *)
Record method := mkMethod { w_ret : string; w_name : string; w_params : list (string * string); w_dots : bool;
                            w_start : option string; w_return : bool; w_field : string; w_args : list string }.
(** ret name(params) { [return] functions->field(this, args); } *)
Definition inl_ (ret name : string) (params : list (string * string)) (return_ : bool) (field : string) (args : list string) : method := mkMethod ret name params false None return_ field args.
(** ret name(params, ...) { va_list args; va_start(args, start); [ret result =] functions->field(this, args); va_end(args); [return result;] } *)
Definition var_ (ret name : string) (params : list (string * string)) (start : string) (return_ : bool) (field : string) (args : list string) : method :=
  mkMethod ret name params true (Some start) return_ field args.

(** jni.h 506-516 *)
Definition CALL_TYPE_METHOD (jtype jname : string) : method :=
  var_ jtype ("Call" ++ jname ++ "Method") [("jobject", "obj"); ("jmethodID", "methodID")] "methodID" true ("Call" ++ jname ++ "MethodV") ["obj"; "methodID"; "args"].
(** jni.h 517-520 *)
Definition CALL_TYPE_METHODV (jtype jname : string) : method :=
  inl_ jtype ("Call" ++ jname ++ "MethodV") [("jobject", "obj"); ("jmethodID", "methodID"); ("va_list", "args")] true ("Call" ++ jname ++ "MethodV") ["obj"; "methodID"; "args"].
(** jni.h 521-524 *)
Definition CALL_TYPE_METHODA (jtype jname : string) : method :=
  inl_ jtype ("Call" ++ jname ++ "MethodA") [("jobject", "obj"); ("jmethodID", "methodID"); ("jvalue*", "args")] true ("Call" ++ jname ++ "MethodA") ["obj"; "methodID"; "args"].
(** jni.h 525-528 *)
Definition CALL_TYPE (t : string * string) : list method := [CALL_TYPE_METHOD (fst t) (snd t); CALL_TYPE_METHODV (fst t) (snd t); CALL_TYPE_METHODA (fst t) (snd t)].
(** jni.h 549-560 *)
Definition CALL_NONVIRT_TYPE_METHOD (jtype jname : string) : method :=
  var_ jtype ("CallNonvirtual" ++ jname ++ "Method") [("jobject", "obj"); ("jclass", "clazz"); ("jmethodID", "methodID")] "methodID" true ("CallNonvirtual" ++ jname ++ "MethodV") ["obj"; "clazz"; "methodID"; "args"].
(** jni.h 561-565 *)
Definition CALL_NONVIRT_TYPE_METHODV (jtype jname : string) : method :=
  inl_ jtype ("CallNonvirtual" ++ jname ++ "MethodV") [("jobject", "obj"); ("jclass", "clazz"); ("jmethodID", "methodID"); ("va_list", "args")] true ("CallNonvirtual" ++ jname ++ "MethodV")
    ["obj"; "clazz"; "methodID"; "args"].
(** jni.h 566-570 *)
Definition CALL_NONVIRT_TYPE_METHODA (jtype jname : string) : method :=
  inl_ jtype ("CallNonvirtual" ++ jname ++ "MethodA") [("jobject", "obj"); ("jclass", "clazz"); ("jmethodID", "methodID"); ("jvalue*", "args")] true ("CallNonvirtual" ++ jname ++ "MethodA")
    ["obj"; "clazz"; "methodID"; "args"].
(** jni.h 571-574 *)
Definition CALL_NONVIRT_TYPE (t : string * string) : list method :=
  [CALL_NONVIRT_TYPE_METHOD (fst t) (snd t); CALL_NONVIRT_TYPE_METHODV (fst t) (snd t); CALL_NONVIRT_TYPE_METHODA (fst t) (snd t)].
(** jni.h 638-649 *)
Definition CALL_STATIC_TYPE_METHOD (jtype jname : string) : method :=
  var_ jtype ("CallStatic" ++ jname ++ "Method") [("jclass", "clazz"); ("jmethodID", "methodID")] "methodID" true ("CallStatic" ++ jname ++ "MethodV") ["clazz"; "methodID"; "args"].
(** jni.h 650-654 *)
Definition CALL_STATIC_TYPE_METHODV (jtype jname : string) : method :=
  inl_ jtype ("CallStatic" ++ jname ++ "MethodV") [("jclass", "clazz"); ("jmethodID", "methodID"); ("va_list", "args")] true ("CallStatic" ++ jname ++ "MethodV") ["clazz"; "methodID"; "args"].
(** jni.h 655-659 *)
Definition CALL_STATIC_TYPE_METHODA (jtype jname : string) : method :=
  inl_ jtype ("CallStatic" ++ jname ++ "MethodA") [("jclass", "clazz"); ("jmethodID", "methodID"); ("jvalue*", "args")] true ("CallStatic" ++ jname ++ "MethodA") ["clazz"; "methodID"; "args"].
(** jni.h 660-663 *)
Definition CALL_STATIC_TYPE (t : string * string) : list method := [CALL_STATIC_TYPE_METHOD (fst t) (snd t); CALL_STATIC_TYPE_METHODV (fst t) (snd t); CALL_STATIC_TYPE_METHODA (fst t) (snd t)].
(** jni.h 529-537, 575-583, 664-672: the types that the macros are used with, each time the same *)
Definition call_types : list (string * string) :=
  [("jobject", "Object"); ("jboolean", "Boolean"); ("jbyte", "Byte"); ("jchar", "Char"); ("jshort", "Short"); ("jint", "Int"); ("jlong", "Long"); ("jfloat", "Float"); ("jdouble", "Double")].

(** jni.h 439-487: GetVersion to AllocObject *)
Definition methods_1 : list method := [
  inl_ "jint" "GetVersion" [] true "GetVersion" [];
  inl_ "jclass" "DefineClass" [("const char*", "name"); ("jobject", "loader"); ("const jbyte*", "buf"); ("jsize", "bufLen")] true "DefineClass" ["name"; "loader"; "buf"; "bufLen"];
  inl_ "jclass" "FindClass" [("const char*", "name")] true "FindClass" ["name"];
  inl_ "jmethodID" "FromReflectedMethod" [("jobject", "method")] true "FromReflectedMethod" ["method"];
  inl_ "jfieldID" "FromReflectedField" [("jobject", "field")] true "FromReflectedField" ["field"];
  inl_ "jobject" "ToReflectedMethod" [("jclass", "cls"); ("jmethodID", "methodID"); ("jboolean", "isStatic")] true "ToReflectedMethod" ["cls"; "methodID"; "isStatic"];
  inl_ "jclass" "GetSuperclass" [("jclass", "clazz")] true "GetSuperclass" ["clazz"];
  inl_ "jboolean" "IsAssignableFrom" [("jclass", "clazz1"); ("jclass", "clazz2")] true "IsAssignableFrom" ["clazz1"; "clazz2"];
  inl_ "jobject" "ToReflectedField" [("jclass", "cls"); ("jfieldID", "fieldID"); ("jboolean", "isStatic")] true "ToReflectedField" ["cls"; "fieldID"; "isStatic"];
  inl_ "jint" "Throw" [("jthrowable", "obj")] true "Throw" ["obj"];
  inl_ "jint" "ThrowNew" [("jclass", "clazz"); ("const char*", "message")] true "ThrowNew" ["clazz"; "message"];
  inl_ "jthrowable" "ExceptionOccurred" [] true "ExceptionOccurred" [];
  inl_ "void" "ExceptionDescribe" [] false "ExceptionDescribe" [];
  inl_ "void" "ExceptionClear" [] false "ExceptionClear" [];
  inl_ "void" "FatalError" [("const char*", "msg")] false "FatalError" ["msg"];
  inl_ "jint" "PushLocalFrame" [("jint", "capacity")] true "PushLocalFrame" ["capacity"];
  inl_ "jobject" "PopLocalFrame" [("jobject", "result")] true "PopLocalFrame" ["result"];
  inl_ "jobject" "NewGlobalRef" [("jobject", "obj")] true "NewGlobalRef" ["obj"];
  inl_ "void" "DeleteGlobalRef" [("jobject", "globalRef")] false "DeleteGlobalRef" ["globalRef"];
  inl_ "void" "DeleteLocalRef" [("jobject", "localRef")] false "DeleteLocalRef" ["localRef"];
  inl_ "jboolean" "IsSameObject" [("jobject", "ref1"); ("jobject", "ref2")] true "IsSameObject" ["ref1"; "ref2"];
  inl_ "jobject" "NewLocalRef" [("jobject", "ref")] true "NewLocalRef" ["ref"];
  inl_ "jint" "EnsureLocalCapacity" [("jint", "capacity")] true "EnsureLocalCapacity" ["capacity"];
  inl_ "jobject" "AllocObject" [("jclass", "clazz")] true "AllocObject" ["clazz"]].
(** jni.h 488-499 *)
Definition methods_new : list method := [
  var_ "jobject" "NewObject" [("jclass", "clazz"); ("jmethodID", "methodID")] "methodID" true "NewObjectV" ["clazz"; "methodID"; "args"];
  inl_ "jobject" "NewObjectV" [("jclass", "clazz"); ("jmethodID", "methodID"); ("va_list", "args")] true "NewObjectV" ["clazz"; "methodID"; "args"];
  inl_ "jobject" "NewObjectA" [("jclass", "clazz"); ("jmethodID", "methodID"); ("jvalue*", "args")] true "NewObjectA" ["clazz"; "methodID"; "args"]].
(** jni.h 500-505 *)
Definition methods_2 : list method := [
  inl_ "jclass" "GetObjectClass" [("jobject", "obj")] true "GetObjectClass" ["obj"];
  inl_ "jboolean" "IsInstanceOf" [("jobject", "obj"); ("jclass", "clazz")] true "IsInstanceOf" ["obj"; "clazz"];
  inl_ "jmethodID" "GetMethodID" [("jclass", "clazz"); ("const char*", "name"); ("const char*", "sig")] true "GetMethodID" ["clazz"; "name"; "sig"]].
(** jni.h 538-548 *)
Definition methods_void : list method := [
  var_ "void" "CallVoidMethod" [("jobject", "obj"); ("jmethodID", "methodID")] "methodID" false "CallVoidMethodV" ["obj"; "methodID"; "args"];
  inl_ "void" "CallVoidMethodV" [("jobject", "obj"); ("jmethodID", "methodID"); ("va_list", "args")] false "CallVoidMethodV" ["obj"; "methodID"; "args"];
  inl_ "void" "CallVoidMethodA" [("jobject", "obj"); ("jmethodID", "methodID"); ("jvalue*", "args")] false "CallVoidMethodA" ["obj"; "methodID"; "args"]].
(** jni.h 584-597 *)
Definition methods_nonvirtual_void : list method := [
  var_ "void" "CallNonvirtualVoidMethod" [("jobject", "obj"); ("jclass", "clazz"); ("jmethodID", "methodID")] "methodID" false "CallNonvirtualVoidMethodV" ["obj"; "clazz"; "methodID"; "args"];
  inl_ "void" "CallNonvirtualVoidMethodV" [("jobject", "obj"); ("jclass", "clazz"); ("jmethodID", "methodID"); ("va_list", "args")] false "CallNonvirtualVoidMethodV" ["obj"; "clazz"; "methodID"; "args"];
  inl_ "void" "CallNonvirtualVoidMethodA" [("jobject", "obj"); ("jclass", "clazz"); ("jmethodID", "methodID"); ("jvalue*", "args")] false "CallNonvirtualVoidMethodA" ["obj"; "clazz"; "methodID"; "args"]].
(** jni.h 598-637: fields of objects, GetStaticMethodID *)
Definition methods_3 : list method := [
  inl_ "jfieldID" "GetFieldID" [("jclass", "clazz"); ("const char*", "name"); ("const char*", "sig")] true "GetFieldID" ["clazz"; "name"; "sig"];
  inl_ "jobject" "GetObjectField" [("jobject", "obj"); ("jfieldID", "fieldID")] true "GetObjectField" ["obj"; "fieldID"];
  inl_ "jboolean" "GetBooleanField" [("jobject", "obj"); ("jfieldID", "fieldID")] true "GetBooleanField" ["obj"; "fieldID"];
  inl_ "jbyte" "GetByteField" [("jobject", "obj"); ("jfieldID", "fieldID")] true "GetByteField" ["obj"; "fieldID"];
  inl_ "jchar" "GetCharField" [("jobject", "obj"); ("jfieldID", "fieldID")] true "GetCharField" ["obj"; "fieldID"];
  inl_ "jshort" "GetShortField" [("jobject", "obj"); ("jfieldID", "fieldID")] true "GetShortField" ["obj"; "fieldID"];
  inl_ "jint" "GetIntField" [("jobject", "obj"); ("jfieldID", "fieldID")] true "GetIntField" ["obj"; "fieldID"];
  inl_ "jlong" "GetLongField" [("jobject", "obj"); ("jfieldID", "fieldID")] true "GetLongField" ["obj"; "fieldID"];
  inl_ "jfloat" "GetFloatField" [("jobject", "obj"); ("jfieldID", "fieldID")] true "GetFloatField" ["obj"; "fieldID"];
  inl_ "jdouble" "GetDoubleField" [("jobject", "obj"); ("jfieldID", "fieldID")] true "GetDoubleField" ["obj"; "fieldID"];
  inl_ "void" "SetObjectField" [("jobject", "obj"); ("jfieldID", "fieldID"); ("jobject", "value")] false "SetObjectField" ["obj"; "fieldID"; "value"];
  inl_ "void" "SetBooleanField" [("jobject", "obj"); ("jfieldID", "fieldID"); ("jboolean", "value")] false "SetBooleanField" ["obj"; "fieldID"; "value"];
  inl_ "void" "SetByteField" [("jobject", "obj"); ("jfieldID", "fieldID"); ("jbyte", "value")] false "SetByteField" ["obj"; "fieldID"; "value"];
  inl_ "void" "SetCharField" [("jobject", "obj"); ("jfieldID", "fieldID"); ("jchar", "value")] false "SetCharField" ["obj"; "fieldID"; "value"];
  inl_ "void" "SetShortField" [("jobject", "obj"); ("jfieldID", "fieldID"); ("jshort", "value")] false "SetShortField" ["obj"; "fieldID"; "value"];
  inl_ "void" "SetIntField" [("jobject", "obj"); ("jfieldID", "fieldID"); ("jint", "value")] false "SetIntField" ["obj"; "fieldID"; "value"];
  inl_ "void" "SetLongField" [("jobject", "obj"); ("jfieldID", "fieldID"); ("jlong", "value")] false "SetLongField" ["obj"; "fieldID"; "value"];
  inl_ "void" "SetFloatField" [("jobject", "obj"); ("jfieldID", "fieldID"); ("jfloat", "value")] false "SetFloatField" ["obj"; "fieldID"; "value"];
  inl_ "void" "SetDoubleField" [("jobject", "obj"); ("jfieldID", "fieldID"); ("jdouble", "value")] false "SetDoubleField" ["obj"; "fieldID"; "value"];
  inl_ "jmethodID" "GetStaticMethodID" [("jclass", "clazz"); ("const char*", "name"); ("const char*", "sig")] true "GetStaticMethodID" ["clazz"; "name"; "sig"]].
(** jni.h 673-683 *)
Definition methods_static_void : list method := [
  var_ "void" "CallStaticVoidMethod" [("jclass", "clazz"); ("jmethodID", "methodID")] "methodID" false "CallStaticVoidMethodV" ["clazz"; "methodID"; "args"];
  inl_ "void" "CallStaticVoidMethodV" [("jclass", "clazz"); ("jmethodID", "methodID"); ("va_list", "args")] false "CallStaticVoidMethodV" ["clazz"; "methodID"; "args"];
  inl_ "void" "CallStaticVoidMethodA" [("jclass", "clazz"); ("jmethodID", "methodID"); ("jvalue*", "args")] false "CallStaticVoidMethodA" ["clazz"; "methodID"; "args"]].
(** jni.h 684-889: static fields, strings, arrays and the rest *)
Definition methods_4 : list method := [
  inl_ "jfieldID" "GetStaticFieldID" [("jclass", "clazz"); ("const char*", "name"); ("const char*", "sig")] true "GetStaticFieldID" ["clazz"; "name"; "sig"];
  inl_ "jobject" "GetStaticObjectField" [("jclass", "clazz"); ("jfieldID", "fieldID")] true "GetStaticObjectField" ["clazz"; "fieldID"];
  inl_ "jboolean" "GetStaticBooleanField" [("jclass", "clazz"); ("jfieldID", "fieldID")] true "GetStaticBooleanField" ["clazz"; "fieldID"];
  inl_ "jbyte" "GetStaticByteField" [("jclass", "clazz"); ("jfieldID", "fieldID")] true "GetStaticByteField" ["clazz"; "fieldID"];
  inl_ "jchar" "GetStaticCharField" [("jclass", "clazz"); ("jfieldID", "fieldID")] true "GetStaticCharField" ["clazz"; "fieldID"];
  inl_ "jshort" "GetStaticShortField" [("jclass", "clazz"); ("jfieldID", "fieldID")] true "GetStaticShortField" ["clazz"; "fieldID"];
  inl_ "jint" "GetStaticIntField" [("jclass", "clazz"); ("jfieldID", "fieldID")] true "GetStaticIntField" ["clazz"; "fieldID"];
  inl_ "jlong" "GetStaticLongField" [("jclass", "clazz"); ("jfieldID", "fieldID")] true "GetStaticLongField" ["clazz"; "fieldID"];
  inl_ "jfloat" "GetStaticFloatField" [("jclass", "clazz"); ("jfieldID", "fieldID")] true "GetStaticFloatField" ["clazz"; "fieldID"];
  inl_ "jdouble" "GetStaticDoubleField" [("jclass", "clazz"); ("jfieldID", "fieldID")] true "GetStaticDoubleField" ["clazz"; "fieldID"];
  inl_ "void" "SetStaticObjectField" [("jclass", "clazz"); ("jfieldID", "fieldID"); ("jobject", "value")] false "SetStaticObjectField" ["clazz"; "fieldID"; "value"];
  inl_ "void" "SetStaticBooleanField" [("jclass", "clazz"); ("jfieldID", "fieldID"); ("jboolean", "value")] false "SetStaticBooleanField" ["clazz"; "fieldID"; "value"];
  inl_ "void" "SetStaticByteField" [("jclass", "clazz"); ("jfieldID", "fieldID"); ("jbyte", "value")] false "SetStaticByteField" ["clazz"; "fieldID"; "value"];
  inl_ "void" "SetStaticCharField" [("jclass", "clazz"); ("jfieldID", "fieldID"); ("jchar", "value")] false "SetStaticCharField" ["clazz"; "fieldID"; "value"];
  inl_ "void" "SetStaticShortField" [("jclass", "clazz"); ("jfieldID", "fieldID"); ("jshort", "value")] false "SetStaticShortField" ["clazz"; "fieldID"; "value"];
  inl_ "void" "SetStaticIntField" [("jclass", "clazz"); ("jfieldID", "fieldID"); ("jint", "value")] false "SetStaticIntField" ["clazz"; "fieldID"; "value"];
  inl_ "void" "SetStaticLongField" [("jclass", "clazz"); ("jfieldID", "fieldID"); ("jlong", "value")] false "SetStaticLongField" ["clazz"; "fieldID"; "value"];
  inl_ "void" "SetStaticFloatField" [("jclass", "clazz"); ("jfieldID", "fieldID"); ("jfloat", "value")] false "SetStaticFloatField" ["clazz"; "fieldID"; "value"];
  inl_ "void" "SetStaticDoubleField" [("jclass", "clazz"); ("jfieldID", "fieldID"); ("jdouble", "value")] false "SetStaticDoubleField" ["clazz"; "fieldID"; "value"];
  inl_ "jstring" "NewString" [("const jchar*", "unicodeChars"); ("jsize", "len")] true "NewString" ["unicodeChars"; "len"];
  inl_ "jsize" "GetStringLength" [("jstring", "string")] true "GetStringLength" ["string"];
  inl_ "const jchar*" "GetStringChars" [("jstring", "string"); ("jboolean*", "isCopy")] true "GetStringChars" ["string"; "isCopy"];
  inl_ "void" "ReleaseStringChars" [("jstring", "string"); ("const jchar*", "chars")] false "ReleaseStringChars" ["string"; "chars"];
  inl_ "jstring" "NewStringUTF" [("const char*", "bytes")] true "NewStringUTF" ["bytes"];
  inl_ "jsize" "GetStringUTFLength" [("jstring", "string")] true "GetStringUTFLength" ["string"];
  inl_ "const char*" "GetStringUTFChars" [("jstring", "string"); ("jboolean*", "isCopy")] true "GetStringUTFChars" ["string"; "isCopy"];
  inl_ "void" "ReleaseStringUTFChars" [("jstring", "string"); ("const char*", "utf")] false "ReleaseStringUTFChars" ["string"; "utf"];
  inl_ "jsize" "GetArrayLength" [("jarray", "array")] true "GetArrayLength" ["array"];
  inl_ "jobjectArray" "NewObjectArray" [("jsize", "length"); ("jclass", "elementClass"); ("jobject", "initialElement")] true "NewObjectArray" ["length"; "elementClass"; "initialElement"];
  inl_ "jobject" "GetObjectArrayElement" [("jobjectArray", "array"); ("jsize", "index")] true "GetObjectArrayElement" ["array"; "index"];
  inl_ "void" "SetObjectArrayElement" [("jobjectArray", "array"); ("jsize", "index"); ("jobject", "value")] false "SetObjectArrayElement" ["array"; "index"; "value"];
  inl_ "jbooleanArray" "NewBooleanArray" [("jsize", "length")] true "NewBooleanArray" ["length"];
  inl_ "jbyteArray" "NewByteArray" [("jsize", "length")] true "NewByteArray" ["length"];
  inl_ "jcharArray" "NewCharArray" [("jsize", "length")] true "NewCharArray" ["length"];
  inl_ "jshortArray" "NewShortArray" [("jsize", "length")] true "NewShortArray" ["length"];
  inl_ "jintArray" "NewIntArray" [("jsize", "length")] true "NewIntArray" ["length"];
  inl_ "jlongArray" "NewLongArray" [("jsize", "length")] true "NewLongArray" ["length"];
  inl_ "jfloatArray" "NewFloatArray" [("jsize", "length")] true "NewFloatArray" ["length"];
  inl_ "jdoubleArray" "NewDoubleArray" [("jsize", "length")] true "NewDoubleArray" ["length"];
  inl_ "jboolean*" "GetBooleanArrayElements" [("jbooleanArray", "array"); ("jboolean*", "isCopy")] true "GetBooleanArrayElements" ["array"; "isCopy"];
  inl_ "jbyte*" "GetByteArrayElements" [("jbyteArray", "array"); ("jboolean*", "isCopy")] true "GetByteArrayElements" ["array"; "isCopy"];
  inl_ "jchar*" "GetCharArrayElements" [("jcharArray", "array"); ("jboolean*", "isCopy")] true "GetCharArrayElements" ["array"; "isCopy"];
  inl_ "jshort*" "GetShortArrayElements" [("jshortArray", "array"); ("jboolean*", "isCopy")] true "GetShortArrayElements" ["array"; "isCopy"];
  inl_ "jint*" "GetIntArrayElements" [("jintArray", "array"); ("jboolean*", "isCopy")] true "GetIntArrayElements" ["array"; "isCopy"];
  inl_ "jlong*" "GetLongArrayElements" [("jlongArray", "array"); ("jboolean*", "isCopy")] true "GetLongArrayElements" ["array"; "isCopy"];
  inl_ "jfloat*" "GetFloatArrayElements" [("jfloatArray", "array"); ("jboolean*", "isCopy")] true "GetFloatArrayElements" ["array"; "isCopy"];
  inl_ "jdouble*" "GetDoubleArrayElements" [("jdoubleArray", "array"); ("jboolean*", "isCopy")] true "GetDoubleArrayElements" ["array"; "isCopy"];
  inl_ "void" "ReleaseBooleanArrayElements" [("jbooleanArray", "array"); ("jboolean*", "elems"); ("jint", "mode")] false "ReleaseBooleanArrayElements" ["array"; "elems"; "mode"];
  inl_ "void" "ReleaseByteArrayElements" [("jbyteArray", "array"); ("jbyte*", "elems"); ("jint", "mode")] false "ReleaseByteArrayElements" ["array"; "elems"; "mode"];
  inl_ "void" "ReleaseCharArrayElements" [("jcharArray", "array"); ("jchar*", "elems"); ("jint", "mode")] false "ReleaseCharArrayElements" ["array"; "elems"; "mode"];
  inl_ "void" "ReleaseShortArrayElements" [("jshortArray", "array"); ("jshort*", "elems"); ("jint", "mode")] false "ReleaseShortArrayElements" ["array"; "elems"; "mode"];
  inl_ "void" "ReleaseIntArrayElements" [("jintArray", "array"); ("jint*", "elems"); ("jint", "mode")] false "ReleaseIntArrayElements" ["array"; "elems"; "mode"];
  inl_ "void" "ReleaseLongArrayElements" [("jlongArray", "array"); ("jlong*", "elems"); ("jint", "mode")] false "ReleaseLongArrayElements" ["array"; "elems"; "mode"];
  inl_ "void" "ReleaseFloatArrayElements" [("jfloatArray", "array"); ("jfloat*", "elems"); ("jint", "mode")] false "ReleaseFloatArrayElements" ["array"; "elems"; "mode"];
  inl_ "void" "ReleaseDoubleArrayElements" [("jdoubleArray", "array"); ("jdouble*", "elems"); ("jint", "mode")] false "ReleaseDoubleArrayElements" ["array"; "elems"; "mode"];
  inl_ "void" "GetBooleanArrayRegion" [("jbooleanArray", "array"); ("jsize", "start"); ("jsize", "len"); ("jboolean*", "buf")] false "GetBooleanArrayRegion" ["array"; "start"; "len"; "buf"];
  inl_ "void" "GetByteArrayRegion" [("jbyteArray", "array"); ("jsize", "start"); ("jsize", "len"); ("jbyte*", "buf")] false "GetByteArrayRegion" ["array"; "start"; "len"; "buf"];
  inl_ "void" "GetCharArrayRegion" [("jcharArray", "array"); ("jsize", "start"); ("jsize", "len"); ("jchar*", "buf")] false "GetCharArrayRegion" ["array"; "start"; "len"; "buf"];
  inl_ "void" "GetShortArrayRegion" [("jshortArray", "array"); ("jsize", "start"); ("jsize", "len"); ("jshort*", "buf")] false "GetShortArrayRegion" ["array"; "start"; "len"; "buf"];
  inl_ "void" "GetIntArrayRegion" [("jintArray", "array"); ("jsize", "start"); ("jsize", "len"); ("jint*", "buf")] false "GetIntArrayRegion" ["array"; "start"; "len"; "buf"];
  inl_ "void" "GetLongArrayRegion" [("jlongArray", "array"); ("jsize", "start"); ("jsize", "len"); ("jlong*", "buf")] false "GetLongArrayRegion" ["array"; "start"; "len"; "buf"];
  inl_ "void" "GetFloatArrayRegion" [("jfloatArray", "array"); ("jsize", "start"); ("jsize", "len"); ("jfloat*", "buf")] false "GetFloatArrayRegion" ["array"; "start"; "len"; "buf"];
  inl_ "void" "GetDoubleArrayRegion" [("jdoubleArray", "array"); ("jsize", "start"); ("jsize", "len"); ("jdouble*", "buf")] false "GetDoubleArrayRegion" ["array"; "start"; "len"; "buf"];
  inl_ "void" "SetBooleanArrayRegion" [("jbooleanArray", "array"); ("jsize", "start"); ("jsize", "len"); ("const jboolean*", "buf")] false "SetBooleanArrayRegion" ["array"; "start"; "len"; "buf"];
  inl_ "void" "SetByteArrayRegion" [("jbyteArray", "array"); ("jsize", "start"); ("jsize", "len"); ("const jbyte*", "buf")] false "SetByteArrayRegion" ["array"; "start"; "len"; "buf"];
  inl_ "void" "SetCharArrayRegion" [("jcharArray", "array"); ("jsize", "start"); ("jsize", "len"); ("const jchar*", "buf")] false "SetCharArrayRegion" ["array"; "start"; "len"; "buf"];
  inl_ "void" "SetShortArrayRegion" [("jshortArray", "array"); ("jsize", "start"); ("jsize", "len"); ("const jshort*", "buf")] false "SetShortArrayRegion" ["array"; "start"; "len"; "buf"];
  inl_ "void" "SetIntArrayRegion" [("jintArray", "array"); ("jsize", "start"); ("jsize", "len"); ("const jint*", "buf")] false "SetIntArrayRegion" ["array"; "start"; "len"; "buf"];
  inl_ "void" "SetLongArrayRegion" [("jlongArray", "array"); ("jsize", "start"); ("jsize", "len"); ("const jlong*", "buf")] false "SetLongArrayRegion" ["array"; "start"; "len"; "buf"];
  inl_ "void" "SetFloatArrayRegion" [("jfloatArray", "array"); ("jsize", "start"); ("jsize", "len"); ("const jfloat*", "buf")] false "SetFloatArrayRegion" ["array"; "start"; "len"; "buf"];
  inl_ "void" "SetDoubleArrayRegion" [("jdoubleArray", "array"); ("jsize", "start"); ("jsize", "len"); ("const jdouble*", "buf")] false "SetDoubleArrayRegion" ["array"; "start"; "len"; "buf"];
  inl_ "jint" "RegisterNatives" [("jclass", "clazz"); ("const JNINativeMethod*", "methods"); ("jint", "nMethods")] true "RegisterNatives" ["clazz"; "methods"; "nMethods"];
  inl_ "jint" "UnregisterNatives" [("jclass", "clazz")] true "UnregisterNatives" ["clazz"];
  inl_ "jint" "MonitorEnter" [("jobject", "obj")] true "MonitorEnter" ["obj"];
  inl_ "jint" "MonitorExit" [("jobject", "obj")] true "MonitorExit" ["obj"];
  inl_ "jint" "GetJavaVM" [("JavaVM**", "vm")] true "GetJavaVM" ["vm"];
  inl_ "void" "GetStringRegion" [("jstring", "str"); ("jsize", "start"); ("jsize", "len"); ("jchar*", "buf")] false "GetStringRegion" ["str"; "start"; "len"; "buf"];
  inl_ "void" "GetStringUTFRegion" [("jstring", "str"); ("jsize", "start"); ("jsize", "len"); ("char*", "buf")] true "GetStringUTFRegion" ["str"; "start"; "len"; "buf"];
  inl_ "void*" "GetPrimitiveArrayCritical" [("jarray", "array"); ("jboolean*", "isCopy")] true "GetPrimitiveArrayCritical" ["array"; "isCopy"];
  inl_ "void" "ReleasePrimitiveArrayCritical" [("jarray", "array"); ("void*", "carray"); ("jint", "mode")] false "ReleasePrimitiveArrayCritical" ["array"; "carray"; "mode"];
  inl_ "const jchar*" "GetStringCritical" [("jstring", "string"); ("jboolean*", "isCopy")] true "GetStringCritical" ["string"; "isCopy"];
  inl_ "void" "ReleaseStringCritical" [("jstring", "string"); ("const jchar*", "carray")] false "ReleaseStringCritical" ["string"; "carray"];
  inl_ "jweak" "NewWeakGlobalRef" [("jobject", "obj")] true "NewWeakGlobalRef" ["obj"];
  inl_ "void" "DeleteWeakGlobalRef" [("jweak", "obj")] false "DeleteWeakGlobalRef" ["obj"];
  inl_ "jboolean" "ExceptionCheck" [] true "ExceptionCheck" [];
  inl_ "jobject" "NewDirectByteBuffer" [("void*", "address"); ("jlong", "capacity")] true "NewDirectByteBuffer" ["address"; "capacity"];
  inl_ "void*" "GetDirectBufferAddress" [("jobject", "buf")] true "GetDirectBufferAddress" ["buf"];
  inl_ "jlong" "GetDirectBufferCapacity" [("jobject", "buf")] true "GetDirectBufferCapacity" ["buf"];
  inl_ "jobjectRefType" "GetObjectRefType" [("jobject", "obj")] true "GetObjectRefType" ["obj"]].
(** struct _JNIEnv *)
Definition JNIEnv_methods : list method := (methods_1 ++ methods_new ++ methods_2 ++ flat_map CALL_TYPE call_types ++ methods_void ++ flat_map CALL_NONVIRT_TYPE call_types ++ methods_nonvirtual_void ++
  methods_3 ++ flat_map CALL_STATIC_TYPE call_types ++ methods_static_void ++ methods_4)%list.
(** struct _JavaVM (jni.h 908-921) *)
Definition JavaVM_methods : list method := [
  inl_ "jint" "DestroyJavaVM" [] true "DestroyJavaVM" [];
  inl_ "jint" "AttachCurrentThread" [("JNIEnv**", "p_env"); ("void*", "thr_args")] true "AttachCurrentThread" ["p_env"; "thr_args"];
  inl_ "jint" "DetachCurrentThread" [] true "DetachCurrentThread" [];
  inl_ "jint" "GetEnv" [("void**", "env"); ("jint", "version")] true "GetEnv" ["env"; "version"];
  inl_ "jint" "AttachCurrentThreadAsDaemon" [("JNIEnv**", "p_env"); ("void*", "thr_args")] true "AttachCurrentThreadAsDaemon" ["p_env"; "thr_args"]].

(** jni.h 130-428: the result type and the types of the parameters behind JNIEnv* of the fields of JNINativeInterface, without the four reserved ones *)
Definition field_types : list (string * (string * list string)) := [
  ("GetVersion", ("jint", [])); ("DefineClass", ("jclass", ["const char*"; "jobject"; "const jbyte*"; "jsize"])); ("FindClass", ("jclass", ["const char*"]));
  ("FromReflectedMethod", ("jmethodID", ["jobject"])); ("FromReflectedField", ("jfieldID", ["jobject"]));
  ("ToReflectedMethod", ("jobject", ["jclass"; "jmethodID"; "jboolean"])); ("GetSuperclass", ("jclass", ["jclass"]));
  ("IsAssignableFrom", ("jboolean", ["jclass"; "jclass"])); ("ToReflectedField", ("jobject", ["jclass"; "jfieldID"; "jboolean"])); ("Throw", ("jint", ["jthrowable"]));
  ("ThrowNew", ("jint", ["jclass"; "const char*"])); ("ExceptionOccurred", ("jthrowable", [])); ("ExceptionDescribe", ("void", [])); ("ExceptionClear", ("void", []));
  ("FatalError", ("void", ["const char*"])); ("PushLocalFrame", ("jint", ["jint"])); ("PopLocalFrame", ("jobject", ["jobject"]));
  ("NewGlobalRef", ("jobject", ["jobject"])); ("DeleteGlobalRef", ("void", ["jobject"])); ("DeleteLocalRef", ("void", ["jobject"]));
  ("IsSameObject", ("jboolean", ["jobject"; "jobject"])); ("NewLocalRef", ("jobject", ["jobject"])); ("EnsureLocalCapacity", ("jint", ["jint"]));
  ("AllocObject", ("jobject", ["jclass"])); ("NewObject", ("jobject", ["jclass"; "jmethodID"; "..."])); ("NewObjectV", ("jobject", ["jclass"; "jmethodID"; "va_list"]));
  ("NewObjectA", ("jobject", ["jclass"; "jmethodID"; "jvalue*"])); ("GetObjectClass", ("jclass", ["jobject"])); ("IsInstanceOf", ("jboolean", ["jobject"; "jclass"]));
  ("GetMethodID", ("jmethodID", ["jclass"; "const char*"; "const char*"])); ("CallObjectMethod", ("jobject", ["jobject"; "jmethodID"; "..."]));
  ("CallObjectMethodV", ("jobject", ["jobject"; "jmethodID"; "va_list"])); ("CallObjectMethodA", ("jobject", ["jobject"; "jmethodID"; "jvalue*"]));
  ("CallBooleanMethod", ("jboolean", ["jobject"; "jmethodID"; "..."])); ("CallBooleanMethodV", ("jboolean", ["jobject"; "jmethodID"; "va_list"]));
  ("CallBooleanMethodA", ("jboolean", ["jobject"; "jmethodID"; "jvalue*"])); ("CallByteMethod", ("jbyte", ["jobject"; "jmethodID"; "..."]));
  ("CallByteMethodV", ("jbyte", ["jobject"; "jmethodID"; "va_list"])); ("CallByteMethodA", ("jbyte", ["jobject"; "jmethodID"; "jvalue*"]));
  ("CallCharMethod", ("jchar", ["jobject"; "jmethodID"; "..."])); ("CallCharMethodV", ("jchar", ["jobject"; "jmethodID"; "va_list"]));
  ("CallCharMethodA", ("jchar", ["jobject"; "jmethodID"; "jvalue*"])); ("CallShortMethod", ("jshort", ["jobject"; "jmethodID"; "..."]));
  ("CallShortMethodV", ("jshort", ["jobject"; "jmethodID"; "va_list"])); ("CallShortMethodA", ("jshort", ["jobject"; "jmethodID"; "jvalue*"]));
  ("CallIntMethod", ("jint", ["jobject"; "jmethodID"; "..."])); ("CallIntMethodV", ("jint", ["jobject"; "jmethodID"; "va_list"]));
  ("CallIntMethodA", ("jint", ["jobject"; "jmethodID"; "jvalue*"])); ("CallLongMethod", ("jlong", ["jobject"; "jmethodID"; "..."]));
  ("CallLongMethodV", ("jlong", ["jobject"; "jmethodID"; "va_list"])); ("CallLongMethodA", ("jlong", ["jobject"; "jmethodID"; "jvalue*"]));
  ("CallFloatMethod", ("jfloat", ["jobject"; "jmethodID"; "..."])); ("CallFloatMethodV", ("jfloat", ["jobject"; "jmethodID"; "va_list"]));
  ("CallFloatMethodA", ("jfloat", ["jobject"; "jmethodID"; "jvalue*"])); ("CallDoubleMethod", ("jdouble", ["jobject"; "jmethodID"; "..."]));
  ("CallDoubleMethodV", ("jdouble", ["jobject"; "jmethodID"; "va_list"])); ("CallDoubleMethodA", ("jdouble", ["jobject"; "jmethodID"; "jvalue*"]));
  ("CallVoidMethod", ("void", ["jobject"; "jmethodID"; "..."])); ("CallVoidMethodV", ("void", ["jobject"; "jmethodID"; "va_list"]));
  ("CallVoidMethodA", ("void", ["jobject"; "jmethodID"; "jvalue*"])); ("CallNonvirtualObjectMethod", ("jobject", ["jobject"; "jclass"; "jmethodID"; "..."]));
  ("CallNonvirtualObjectMethodV", ("jobject", ["jobject"; "jclass"; "jmethodID"; "va_list"]));
  ("CallNonvirtualObjectMethodA", ("jobject", ["jobject"; "jclass"; "jmethodID"; "jvalue*"]));
  ("CallNonvirtualBooleanMethod", ("jboolean", ["jobject"; "jclass"; "jmethodID"; "..."]));
  ("CallNonvirtualBooleanMethodV", ("jboolean", ["jobject"; "jclass"; "jmethodID"; "va_list"]));
  ("CallNonvirtualBooleanMethodA", ("jboolean", ["jobject"; "jclass"; "jmethodID"; "jvalue*"]));
  ("CallNonvirtualByteMethod", ("jbyte", ["jobject"; "jclass"; "jmethodID"; "..."]));
  ("CallNonvirtualByteMethodV", ("jbyte", ["jobject"; "jclass"; "jmethodID"; "va_list"]));
  ("CallNonvirtualByteMethodA", ("jbyte", ["jobject"; "jclass"; "jmethodID"; "jvalue*"]));
  ("CallNonvirtualCharMethod", ("jchar", ["jobject"; "jclass"; "jmethodID"; "..."]));
  ("CallNonvirtualCharMethodV", ("jchar", ["jobject"; "jclass"; "jmethodID"; "va_list"]));
  ("CallNonvirtualCharMethodA", ("jchar", ["jobject"; "jclass"; "jmethodID"; "jvalue*"]));
  ("CallNonvirtualShortMethod", ("jshort", ["jobject"; "jclass"; "jmethodID"; "..."]));
  ("CallNonvirtualShortMethodV", ("jshort", ["jobject"; "jclass"; "jmethodID"; "va_list"]));
  ("CallNonvirtualShortMethodA", ("jshort", ["jobject"; "jclass"; "jmethodID"; "jvalue*"]));
  ("CallNonvirtualIntMethod", ("jint", ["jobject"; "jclass"; "jmethodID"; "..."]));
  ("CallNonvirtualIntMethodV", ("jint", ["jobject"; "jclass"; "jmethodID"; "va_list"]));
  ("CallNonvirtualIntMethodA", ("jint", ["jobject"; "jclass"; "jmethodID"; "jvalue*"]));
  ("CallNonvirtualLongMethod", ("jlong", ["jobject"; "jclass"; "jmethodID"; "..."]));
  ("CallNonvirtualLongMethodV", ("jlong", ["jobject"; "jclass"; "jmethodID"; "va_list"]));
  ("CallNonvirtualLongMethodA", ("jlong", ["jobject"; "jclass"; "jmethodID"; "jvalue*"]));
  ("CallNonvirtualFloatMethod", ("jfloat", ["jobject"; "jclass"; "jmethodID"; "..."]));
  ("CallNonvirtualFloatMethodV", ("jfloat", ["jobject"; "jclass"; "jmethodID"; "va_list"]));
  ("CallNonvirtualFloatMethodA", ("jfloat", ["jobject"; "jclass"; "jmethodID"; "jvalue*"]));
  ("CallNonvirtualDoubleMethod", ("jdouble", ["jobject"; "jclass"; "jmethodID"; "..."]));
  ("CallNonvirtualDoubleMethodV", ("jdouble", ["jobject"; "jclass"; "jmethodID"; "va_list"]));
  ("CallNonvirtualDoubleMethodA", ("jdouble", ["jobject"; "jclass"; "jmethodID"; "jvalue*"]));
  ("CallNonvirtualVoidMethod", ("void", ["jobject"; "jclass"; "jmethodID"; "..."]));
  ("CallNonvirtualVoidMethodV", ("void", ["jobject"; "jclass"; "jmethodID"; "va_list"]));
  ("CallNonvirtualVoidMethodA", ("void", ["jobject"; "jclass"; "jmethodID"; "jvalue*"])); ("GetFieldID", ("jfieldID", ["jclass"; "const char*"; "const char*"]));
  ("GetObjectField", ("jobject", ["jobject"; "jfieldID"])); ("GetBooleanField", ("jboolean", ["jobject"; "jfieldID"]));
  ("GetByteField", ("jbyte", ["jobject"; "jfieldID"])); ("GetCharField", ("jchar", ["jobject"; "jfieldID"])); ("GetShortField", ("jshort", ["jobject"; "jfieldID"]));
  ("GetIntField", ("jint", ["jobject"; "jfieldID"])); ("GetLongField", ("jlong", ["jobject"; "jfieldID"])); ("GetFloatField", ("jfloat", ["jobject"; "jfieldID"]));
  ("GetDoubleField", ("jdouble", ["jobject"; "jfieldID"])); ("SetObjectField", ("void", ["jobject"; "jfieldID"; "jobject"]));
  ("SetBooleanField", ("void", ["jobject"; "jfieldID"; "jboolean"])); ("SetByteField", ("void", ["jobject"; "jfieldID"; "jbyte"]));
  ("SetCharField", ("void", ["jobject"; "jfieldID"; "jchar"])); ("SetShortField", ("void", ["jobject"; "jfieldID"; "jshort"]));
  ("SetIntField", ("void", ["jobject"; "jfieldID"; "jint"])); ("SetLongField", ("void", ["jobject"; "jfieldID"; "jlong"]));
  ("SetFloatField", ("void", ["jobject"; "jfieldID"; "jfloat"])); ("SetDoubleField", ("void", ["jobject"; "jfieldID"; "jdouble"]));
  ("GetStaticMethodID", ("jmethodID", ["jclass"; "const char*"; "const char*"])); ("CallStaticObjectMethod", ("jobject", ["jclass"; "jmethodID"; "..."]));
  ("CallStaticObjectMethodV", ("jobject", ["jclass"; "jmethodID"; "va_list"])); ("CallStaticObjectMethodA", ("jobject", ["jclass"; "jmethodID"; "jvalue*"]));
  ("CallStaticBooleanMethod", ("jboolean", ["jclass"; "jmethodID"; "..."])); ("CallStaticBooleanMethodV", ("jboolean", ["jclass"; "jmethodID"; "va_list"]));
  ("CallStaticBooleanMethodA", ("jboolean", ["jclass"; "jmethodID"; "jvalue*"])); ("CallStaticByteMethod", ("jbyte", ["jclass"; "jmethodID"; "..."]));
  ("CallStaticByteMethodV", ("jbyte", ["jclass"; "jmethodID"; "va_list"])); ("CallStaticByteMethodA", ("jbyte", ["jclass"; "jmethodID"; "jvalue*"]));
  ("CallStaticCharMethod", ("jchar", ["jclass"; "jmethodID"; "..."])); ("CallStaticCharMethodV", ("jchar", ["jclass"; "jmethodID"; "va_list"]));
  ("CallStaticCharMethodA", ("jchar", ["jclass"; "jmethodID"; "jvalue*"])); ("CallStaticShortMethod", ("jshort", ["jclass"; "jmethodID"; "..."]));
  ("CallStaticShortMethodV", ("jshort", ["jclass"; "jmethodID"; "va_list"])); ("CallStaticShortMethodA", ("jshort", ["jclass"; "jmethodID"; "jvalue*"]));
  ("CallStaticIntMethod", ("jint", ["jclass"; "jmethodID"; "..."])); ("CallStaticIntMethodV", ("jint", ["jclass"; "jmethodID"; "va_list"]));
  ("CallStaticIntMethodA", ("jint", ["jclass"; "jmethodID"; "jvalue*"])); ("CallStaticLongMethod", ("jlong", ["jclass"; "jmethodID"; "..."]));
  ("CallStaticLongMethodV", ("jlong", ["jclass"; "jmethodID"; "va_list"])); ("CallStaticLongMethodA", ("jlong", ["jclass"; "jmethodID"; "jvalue*"]));
  ("CallStaticFloatMethod", ("jfloat", ["jclass"; "jmethodID"; "..."])); ("CallStaticFloatMethodV", ("jfloat", ["jclass"; "jmethodID"; "va_list"]));
  ("CallStaticFloatMethodA", ("jfloat", ["jclass"; "jmethodID"; "jvalue*"])); ("CallStaticDoubleMethod", ("jdouble", ["jclass"; "jmethodID"; "..."]));
  ("CallStaticDoubleMethodV", ("jdouble", ["jclass"; "jmethodID"; "va_list"])); ("CallStaticDoubleMethodA", ("jdouble", ["jclass"; "jmethodID"; "jvalue*"]));
  ("CallStaticVoidMethod", ("void", ["jclass"; "jmethodID"; "..."])); ("CallStaticVoidMethodV", ("void", ["jclass"; "jmethodID"; "va_list"]));
  ("CallStaticVoidMethodA", ("void", ["jclass"; "jmethodID"; "jvalue*"])); ("GetStaticFieldID", ("jfieldID", ["jclass"; "const char*"; "const char*"]));
  ("GetStaticObjectField", ("jobject", ["jclass"; "jfieldID"])); ("GetStaticBooleanField", ("jboolean", ["jclass"; "jfieldID"]));
  ("GetStaticByteField", ("jbyte", ["jclass"; "jfieldID"])); ("GetStaticCharField", ("jchar", ["jclass"; "jfieldID"]));
  ("GetStaticShortField", ("jshort", ["jclass"; "jfieldID"])); ("GetStaticIntField", ("jint", ["jclass"; "jfieldID"]));
  ("GetStaticLongField", ("jlong", ["jclass"; "jfieldID"])); ("GetStaticFloatField", ("jfloat", ["jclass"; "jfieldID"]));
  ("GetStaticDoubleField", ("jdouble", ["jclass"; "jfieldID"])); ("SetStaticObjectField", ("void", ["jclass"; "jfieldID"; "jobject"]));
  ("SetStaticBooleanField", ("void", ["jclass"; "jfieldID"; "jboolean"])); ("SetStaticByteField", ("void", ["jclass"; "jfieldID"; "jbyte"]));
  ("SetStaticCharField", ("void", ["jclass"; "jfieldID"; "jchar"])); ("SetStaticShortField", ("void", ["jclass"; "jfieldID"; "jshort"]));
  ("SetStaticIntField", ("void", ["jclass"; "jfieldID"; "jint"])); ("SetStaticLongField", ("void", ["jclass"; "jfieldID"; "jlong"]));
  ("SetStaticFloatField", ("void", ["jclass"; "jfieldID"; "jfloat"])); ("SetStaticDoubleField", ("void", ["jclass"; "jfieldID"; "jdouble"]));
  ("NewString", ("jstring", ["const jchar*"; "jsize"])); ("GetStringLength", ("jsize", ["jstring"])); ("GetStringChars", ("const jchar*", ["jstring"; "jboolean*"]));
  ("ReleaseStringChars", ("void", ["jstring"; "const jchar*"])); ("NewStringUTF", ("jstring", ["const char*"])); ("GetStringUTFLength", ("jsize", ["jstring"]));
  ("GetStringUTFChars", ("const char*", ["jstring"; "jboolean*"])); ("ReleaseStringUTFChars", ("void", ["jstring"; "const char*"]));
  ("GetArrayLength", ("jsize", ["jarray"])); ("NewObjectArray", ("jobjectArray", ["jsize"; "jclass"; "jobject"]));
  ("GetObjectArrayElement", ("jobject", ["jobjectArray"; "jsize"])); ("SetObjectArrayElement", ("void", ["jobjectArray"; "jsize"; "jobject"]));
  ("NewBooleanArray", ("jbooleanArray", ["jsize"])); ("NewByteArray", ("jbyteArray", ["jsize"])); ("NewCharArray", ("jcharArray", ["jsize"]));
  ("NewShortArray", ("jshortArray", ["jsize"])); ("NewIntArray", ("jintArray", ["jsize"])); ("NewLongArray", ("jlongArray", ["jsize"]));
  ("NewFloatArray", ("jfloatArray", ["jsize"])); ("NewDoubleArray", ("jdoubleArray", ["jsize"]));
  ("GetBooleanArrayElements", ("jboolean*", ["jbooleanArray"; "jboolean*"])); ("GetByteArrayElements", ("jbyte*", ["jbyteArray"; "jboolean*"]));
  ("GetCharArrayElements", ("jchar*", ["jcharArray"; "jboolean*"])); ("GetShortArrayElements", ("jshort*", ["jshortArray"; "jboolean*"]));
  ("GetIntArrayElements", ("jint*", ["jintArray"; "jboolean*"])); ("GetLongArrayElements", ("jlong*", ["jlongArray"; "jboolean*"]));
  ("GetFloatArrayElements", ("jfloat*", ["jfloatArray"; "jboolean*"])); ("GetDoubleArrayElements", ("jdouble*", ["jdoubleArray"; "jboolean*"]));
  ("ReleaseBooleanArrayElements", ("void", ["jbooleanArray"; "jboolean*"; "jint"])); ("ReleaseByteArrayElements", ("void", ["jbyteArray"; "jbyte*"; "jint"]));
  ("ReleaseCharArrayElements", ("void", ["jcharArray"; "jchar*"; "jint"])); ("ReleaseShortArrayElements", ("void", ["jshortArray"; "jshort*"; "jint"]));
  ("ReleaseIntArrayElements", ("void", ["jintArray"; "jint*"; "jint"])); ("ReleaseLongArrayElements", ("void", ["jlongArray"; "jlong*"; "jint"]));
  ("ReleaseFloatArrayElements", ("void", ["jfloatArray"; "jfloat*"; "jint"])); ("ReleaseDoubleArrayElements", ("void", ["jdoubleArray"; "jdouble*"; "jint"]));
  ("GetBooleanArrayRegion", ("void", ["jbooleanArray"; "jsize"; "jsize"; "jboolean*"])); ("GetByteArrayRegion", ("void", ["jbyteArray"; "jsize"; "jsize"; "jbyte*"]));
  ("GetCharArrayRegion", ("void", ["jcharArray"; "jsize"; "jsize"; "jchar*"])); ("GetShortArrayRegion", ("void", ["jshortArray"; "jsize"; "jsize"; "jshort*"]));
  ("GetIntArrayRegion", ("void", ["jintArray"; "jsize"; "jsize"; "jint*"])); ("GetLongArrayRegion", ("void", ["jlongArray"; "jsize"; "jsize"; "jlong*"]));
  ("GetFloatArrayRegion", ("void", ["jfloatArray"; "jsize"; "jsize"; "jfloat*"])); ("GetDoubleArrayRegion", ("void", ["jdoubleArray"; "jsize"; "jsize"; "jdouble*"]));
  ("SetBooleanArrayRegion", ("void", ["jbooleanArray"; "jsize"; "jsize"; "const jboolean*"]));
  ("SetByteArrayRegion", ("void", ["jbyteArray"; "jsize"; "jsize"; "const jbyte*"])); ("SetCharArrayRegion", ("void", ["jcharArray"; "jsize"; "jsize"; "const jchar*"]));
  ("SetShortArrayRegion", ("void", ["jshortArray"; "jsize"; "jsize"; "const jshort*"])); ("SetIntArrayRegion", ("void", ["jintArray"; "jsize"; "jsize"; "const jint*"]));
  ("SetLongArrayRegion", ("void", ["jlongArray"; "jsize"; "jsize"; "const jlong*"]));
  ("SetFloatArrayRegion", ("void", ["jfloatArray"; "jsize"; "jsize"; "const jfloat*"]));
  ("SetDoubleArrayRegion", ("void", ["jdoubleArray"; "jsize"; "jsize"; "const jdouble*"])); ("RegisterNatives", ("jint", ["jclass"; "const JNINativeMethod*"; "jint"]));
  ("UnregisterNatives", ("jint", ["jclass"])); ("MonitorEnter", ("jint", ["jobject"])); ("MonitorExit", ("jint", ["jobject"])); ("GetJavaVM", ("jint", ["JavaVM**"]));
  ("GetStringRegion", ("void", ["jstring"; "jsize"; "jsize"; "jchar*"])); ("GetStringUTFRegion", ("void", ["jstring"; "jsize"; "jsize"; "char*"]));
  ("GetPrimitiveArrayCritical", ("void*", ["jarray"; "jboolean*"])); ("ReleasePrimitiveArrayCritical", ("void", ["jarray"; "void*"; "jint"]));
  ("GetStringCritical", ("const jchar*", ["jstring"; "jboolean*"])); ("ReleaseStringCritical", ("void", ["jstring"; "const jchar*"]));
  ("NewWeakGlobalRef", ("jweak", ["jobject"])); ("DeleteWeakGlobalRef", ("void", ["jweak"])); ("ExceptionCheck", ("jboolean", []));
  ("NewDirectByteBuffer", ("jobject", ["void*"; "jlong"])); ("GetDirectBufferAddress", ("void*", ["jobject"])); ("GetDirectBufferCapacity", ("jlong", ["jobject"]));
  ("GetObjectRefType", ("jobjectRefType", ["jobject"]))].
(** jni.h 895-904, behind JavaVM* *)
Definition invoke_types : list (string * (string * list string)) := [
  ("DestroyJavaVM", ("jint", [])); ("AttachCurrentThread", ("jint", ["JNIEnv**"; "void*"])); ("DetachCurrentThread", ("jint", []));
  ("GetEnv", ("jint", ["void**"; "jint"])); ("AttachCurrentThreadAsDaemon", ("jint", ["JNIEnv**"; "void*"]))].

(** What an argument of the call is: the value of a parameter or a va_list of values *)
Inductive arg (A : Type) := One (a : A) | VaList (l : list A).
(** The values behind the parameter [p], in a call with the values [vs]: what va_start gives.  Undefined unless [p] is the last parameter. *)
Fixpoint va_start {A} (params : list (string * string)) (vs : list A) (p : string) : option (list A) :=
  match params, vs with
  | [(_, x)], _ :: r => if String.eqb x p then Some r else None
  | _ :: params, _ :: r => va_start params r p
  | _, _ => None
  end.
Fixpoint lookup {A} (n : string) (l : list (string * A)) : option A :=
  match l with [] => None | (m, a) :: r => if String.eqb m n then Some a else lookup n r end.
Fixpoint all_some {A} (l : list (option A)) : option (list A) :=
  match l with
  | [] => Some []
  | Some a :: r => match all_some r with Some m => Some (a :: m) | None => None end
  | None :: _ => None
  end.
(** The call that the method makes when it is called with the values [vs]: which field, with which arguments behind [this]; [None]: a program that does not compile or is undefined *)
Definition body {A} (w : method) (vs : list A) : option (string * list (arg A)) :=
  let named := combine (map snd (w_params w)) (map (@One A) vs) in
  if Nat.ltb (length vs) (length (w_params w)) then None else
  if negb (w_dots w) && Nat.ltb (length (w_params w)) (length vs) then None else
  match w_start w with
  | None => match all_some (map (fun a => lookup a named) (w_args w)) with Some l => Some (w_field w, l) | None => None end
  | Some p =>
      if w_dots w then
        match va_start (w_params w) vs p with
        | Some r => match all_some (map (fun a => lookup a (named ++ [("args", VaList r)])%list) (w_args w)) with Some l => Some (w_field w, l) | None => None end
        | None => None
        end
      else None
  end.
(** The result of the method, given that of the call ([tt] for void): without [return] it has one only if it is void. *)
Definition result {R} (w : method) (void : R) (r : R) : option R :=
  if w_return w then Some r else if String.eqb (w_ret w) "void" then Some void else None.
(** env->name(vs): the function of the library that is called, its form, and its arguments behind the environment *)
Definition env_call {A} (rn : bool) (w : method) (vs : list A) : option (fn * passing * list (arg A)) :=
  match body w vs with
  | Some (f, l) => match function rn f with Some (g, p) => Some (g, p, l) | None => None end
  | None => None
  end.
