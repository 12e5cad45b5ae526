{"id": "C01", "title": "NewString round trip", "statement": "A string created with NewString from n UTF-16 units and read back with GetStringRegion(0,n), or with GetStringChars, yields exactly the same n units, including U+0000 and unpaired surrogates.", "quantifier": "every finite sequence of 16-bit units, every prior VM state", "why_tests_cant": "the set of unit sequences is infinite; a test fixes a handful of literals", "anchors": ["src/jnivm/internal/string.cpp: NewString, GetStringRegion, GetStringChars", "src/jnivm/internal/stringUtil.cpp: JCharToUTF, UTFToJChar"]}
{"id": "C02", "title": "String lengths agree", "statement": "For a string created by NewString from n units, GetStringLength returns n, GetStringUTFLength returns the size of its modified-UTF-8 encoding, and the C string returned by GetStringUTFChars has no NUL before that size.", "quantifier": "every finite unit sequence whose lengths fit jsize", "why_tests_cant": "length properties must hold for every mix of 1, 2 and 3 byte units", "anchors": ["src/jnivm/internal/string.cpp: GetStringLength, GetStringUTFLength, GetStringUTFChars", "src/jnivm/internal/stringUtil.cpp"]}
{"id": "C03", "title": "Encoder is modified UTF-8", "statement": "The bytes stored for each unit are the modified UTF-8 form prescribed by the JNI specification: 1 byte for 1..0x7F, 2 bytes for 0 and 0x80..0x7FF, 3 bytes otherwise; the result does not depend on the signedness of char.", "quantifier": "every 16-bit unit, both char signednesses", "why_tests_cant": "needs all 65536 units on both kinds of platform", "anchors": ["src/jnivm/internal/stringUtil.cpp: JCharToUTF, JCharToUTFLength"]}
{"id": "C04", "title": "String regions", "statement": "For every start,len with 0 <= start, 0 <= len, start+len <= length, GetStringRegion returns units start..start+len-1, and GetStringUTFRegion writes exactly the encoding of those units followed by one NUL byte.", "quantifier": "every unit sequence and every in-range (start,len)", "why_tests_cant": "two unbounded integers and an unbounded string", "anchors": ["src/jnivm/internal/string.cpp: GetStringRegion, GetStringUTFRegion"]}
{"id": "C05", "title": "String walk never leaves the buffer", "statement": "GetStringLength on a string with arbitrary byte content (for example from NewStringUTF of untrusted bytes) either returns the number of decoded units or throws a C++ exception; it never reads beyond the terminating NUL.", "quantifier": "every byte sequence, valid modified UTF-8 or not", "why_tests_cant": "arbitrary malformed input; out-of-bounds reads are usually silent", "anchors": ["src/jnivm/internal/string.cpp: GetStringLength, NewStringUTF", "src/jnivm/internal/stringUtil.cpp: UTFToJCharLength"]}
{"id": "C06", "title": "Out-of-range string region is reported", "statement": "GetStringRegion and GetStringUTFRegion called with a region outside the string report StringIndexOutOfBounds (or any error) instead of reading out of bounds.", "quantifier": "every string and every out-of-range (start,len)", "why_tests_cant": "undefined behaviour is not observable by an assertion", "anchors": ["src/jnivm/internal/string.cpp: GetStringRegion, GetStringUTFRegion"]}
{"id": "C07", "title": "Variadic arguments are decoded by the signature", "statement": "For every well-formed method signature and every variadic argument list of matching types, the i-th jvalue handed to the hook is the i-th argument converted to the i-th parameter type, and exactly the declared number of variadic arguments is consumed.", "quantifier": "all well-formed signatures of any arity and array depth, all argument values", "why_tests_cant": "signatures form an infinite recursive language", "anchors": ["src/jnivm/internal/jValuesfromValist.cpp: JValuesfromValist", "src/jnivm/internal/skipJNIType.cpp: SkipJNIType"]}
{"id": "C08", "title": "Type descriptors are skipped exactly", "statement": "Scanning one well-formed field descriptor from the start of a buffer stops exactly behind that descriptor, whatever follows.", "quantifier": "all descriptors (any array depth, any class name), all suffixes", "why_tests_cant": "recursive grammar", "anchors": ["src/jnivm/internal/skipJNIType.cpp: SkipJNIType"]}
{"id": "C09", "title": "Malformed signatures are rejected safely", "statement": "Call<Type>MethodV, GetMethodID and GetFieldID given an arbitrary NUL-terminated signature never read outside it: they succeed or throw.", "quantifier": "every NUL-terminated string used as signature", "why_tests_cant": "memory errors on malformed input need adversarial inputs", "anchors": ["src/jnivm/internal/jValuesfromValist.cpp", "src/jnivm/internal/findclass.cpp: Declare", "src/jnivm/internal/codegen/parseJNIType.cpp", "src/jnivm/internal/codegen/method.cpp"]}
{"id": "C10", "title": "Code generator types", "statement": "For every well-formed method signature the generated C++ declaration has one parameter per descriptor, in order, with the C++ type that corresponds to the descriptor, and the corresponding return type.", "quantifier": "all well-formed signatures, both syntaxes", "why_tests_cant": "infinite language of signatures", "anchors": ["src/jnivm/internal/codegen/parseJNIType.cpp: ParseJNIType", "src/jnivm/internal/codegen/method.cpp: Method::GenerateHeader"]}
{"id": "C11", "title": "FindClass is idempotent and injective", "statement": "Two FindClass calls on one VM return references to the same class exactly when the two names are equal, whatever happened in between, and the class reports the requested name.", "quantifier": "all class names, all histories of API calls between the two lookups, both build modes", "why_tests_cant": "unbounded histories and names (slashes, dollars, empty segments)", "anchors": ["src/jnivm/internal/findclass.cpp: InternalFindClass", "src/jnivm/vm.cpp: FindClass"]}
{"id": "C12", "title": "Lookup without creation", "statement": "Looking a class up in no-create mode returns the class if and only if it has been created before and never changes the set of existing classes; creating a nested class A$B creates its outer classes (debug build) and nothing else.", "quantifier": "all names, all histories", "why_tests_cant": "set of existing classes must be known after every history", "anchors": ["src/jnivm/internal/findclass.cpp: InternalFindClass", "src/fake-jni/fake-jni.cpp: Jvm::findClass"]}
{"id": "C13", "title": "Mentioned classes exist", "statement": "After GetMethodID/GetFieldID with a well-formed signature, every class named in that signature can be found without creation (debug build).", "quantifier": "all well-formed signatures, all states", "why_tests_cant": "infinite language of signatures", "anchors": ["src/jnivm/internal/findclass.cpp: Declare", "src/jnivm/internal/method.cpp: GetMethodID"]}
{"id": "C14", "title": "Method IDs are stable", "statement": "On one thread, GetMethodID (GetStaticMethodID) for the same class, name and signature returns the same ID forever, and different (class that declares it, name, signature, static flag) give different IDs.", "quantifier": "all names, signatures, classes and all histories of API calls between the calls", "why_tests_cant": "unbounded histories with hooking, native registration and unregistration in between", "anchors": ["src/jnivm/internal/method.cpp: GetMethodID"]}
{"id": "C15", "title": "Field IDs are stable", "statement": "GetFieldID (GetStaticFieldID) for the same class, name and type returns the same ID forever; static and instance IDs never coincide.", "quantifier": "all names, types, classes and histories", "why_tests_cant": "unbounded histories", "anchors": ["src/jnivm/internal/field.cpp: GetFieldID"]}
{"id": "C16", "title": "Member lookup follows inheritance", "statement": "GetMethodID/GetFieldID return the first matching member in depth-first order of the class and its base classes (own members first), and fabricate a new member on the queried class only when no class in the hierarchy has one.", "quantifier": "all finite acyclic class hierarchies and member tables", "why_tests_cant": "arbitrary hierarchies", "anchors": ["src/jnivm/internal/method.cpp: GetMethodID", "src/jnivm/internal/field.cpp: GetFieldID"]}
{"id": "C17", "title": "Late hooking keeps IDs", "statement": "Hooking a function or property after native code already obtained its ID binds the implementation to that same ID.", "quantifier": "all histories: ID obtained, arbitrary calls, hook installed", "why_tests_cant": "unbounded history between the two", "anchors": ["include/jnivm/hookManager.h", "src/jnivm/internal/method.cpp"]}
{"id": "C18", "title": "Hooked member is found", "statement": "After hooking name/signature on a class, GetMethodID for it returns an ID whose call runs the hook.", "quantifier": "all histories before the hook, including RegisterNatives of the same name", "why_tests_cant": "depends on what was registered before", "anchors": ["include/jnivm/hookManager.h", "src/jnivm/internal/method.cpp: GetMethodID", "src/jnivm/vm.cpp: RegisterNatives"]}
{"id": "C19", "title": "Constructor lookup", "statement": "GetMethodID(cls,\"<init>\",\"(args)V\") finds exactly the constructor hook with those argument types that constructs cls; a constructor of a base class is never returned for a derived class.", "quantifier": "all classes, argument lists, hierarchies", "why_tests_cant": "arbitrary hierarchies and signatures", "anchors": ["src/jnivm/internal/method.cpp: GetMethodID"]}
{"id": "C20", "title": "UnregisterNatives", "statement": "UnregisterNatives removes exactly the natively registered methods of the class, keeps all other methods in order with their IDs, and leaves other classes untouched.", "quantifier": "all method tables", "why_tests_cant": "the in-place index loop must be right for every table layout", "anchors": ["src/jnivm/vm.cpp: UnregisterNatives"]}
{"id": "C21", "title": "Most recent native registration wins", "statement": "After RegisterNatives with a name and signature, invoking that method runs the most recently registered function.", "quantifier": "all sequences of RegisterNatives calls", "why_tests_cant": "depends on history", "anchors": ["src/jnivm/vm.cpp: RegisterNatives", "include/fake-jni: getMethod", "src/fake-jni/method.cpp"]}
{"id": "C22", "title": "Virtual dispatch", "statement": "Call<Type>Method runs the most derived override of the method in the class of the receiver.", "quantifier": "all class hierarchies and override placements", "why_tests_cant": "arbitrary hierarchies", "anchors": ["src/jnivm/internal/method.cpp: findVirtualOverload, CallMethod"]}
{"id": "C23", "title": "Nonvirtual dispatch", "statement": "CallNonvirtual<Type>Method(obj, cls, id) runs the implementation of the method that cls has (own or inherited).", "quantifier": "all hierarchies, all method ids obtained for cls", "why_tests_cant": "arbitrary hierarchies", "anchors": ["src/jnivm/internal/method.cpp: findNonVirtualOverload, CallNonvirtual"]}
{"id": "C24", "title": "Hook exceptions become pending", "statement": "If a hook throws any C++ exception during Call*Method, the exception does not escape: the call returns the zero value and ExceptionCheck on the same thread becomes true; if the hook returns normally its value is returned and the pending exception is unchanged.", "quantifier": "all hooks, results, call kinds and prior states", "why_tests_cant": "all exception types and states", "anchors": ["src/jnivm/internal/method.cpp: MDispatch, CallMethod"]}
{"id": "C25", "title": "Calls without implementation are harmless", "statement": "Calling a null or unhooked method ID or accessing a null or unhooked field returns the zero value of the type, changes nothing and raises no exception.", "quantifier": "all types, all states", "why_tests_cant": "all states", "anchors": ["src/jnivm/internal/method.cpp: defaultVal", "src/jnivm/internal/field.cpp"]}
{"id": "C26", "title": "Local frames are a stack", "statement": "Any sequence of reference operations bracketed by PushLocalFrame(n) .. PopLocalFrame(null) leaves the thread's outer frames exactly as if only the deletions of outer references had been done; the innermost frame always exists.", "quantifier": "all well-nested histories of any depth", "why_tests_cant": "unbounded nesting", "anchors": ["src/jnivm/vm.cpp: PushLocalFrame, PopLocalFrame"]}
{"id": "C27", "title": "PopLocalFrame result survives", "statement": "PopLocalFrame(result) returns a reference to the same object as result that is valid in the enclosing frame; all other references created in the popped frame are dropped.", "quantifier": "all states, all kinds of result reference", "why_tests_cant": "all heap shapes", "anchors": ["src/jnivm/vm.cpp: PopLocalFrame"]}
{"id": "C28", "title": "Local references keep objects alive", "statement": "A local reference stays valid and keeps denoting the same object until it is deleted, its frame is popped or its thread detaches, whatever other calls happen on any thread.", "quantifier": "all histories of API calls on all threads", "why_tests_cant": "unbounded histories and interleavings", "anchors": ["include/jnivm/jnitypes.h: ToJNIType", "src/jnivm/vm.cpp"]}
{"id": "C29", "title": "Global references keep objects alive", "statement": "A global reference denotes the same object until DeleteGlobalRef of that very reference, regardless of frames popped, threads detached or other global references deleted.", "quantifier": "all histories", "why_tests_cant": "unbounded histories", "anchors": ["src/jnivm/vm.cpp: NewGlobalRef, DeleteGlobalRef"]}
{"id": "C30", "title": "Weak references", "statement": "A weak global reference resolves to its object while any strong reference exists, resolves to null after the last one is gone, and never resolves to a different object; it never keeps the object alive itself.", "quantifier": "all histories", "why_tests_cant": "unbounded histories", "anchors": ["include/jnivm/jnitypes.h: UnpackJObject", "src/jnivm/vm.cpp: NewWeakGlobalRef", "include/jnivm/weak.h"]}
{"id": "C31", "title": "DeleteLocalRef removes one reference", "statement": "DeleteLocalRef removes exactly one reference to that object from the innermost frame holding one and nothing else; deleting a reference the thread does not hold changes nothing.", "quantifier": "all frame stacks", "why_tests_cant": "all frame contents with duplicates", "anchors": ["src/jnivm/vm.cpp: DeleteLocalRef"]}
{"id": "C32", "title": "IsSameObject", "statement": "IsSameObject is true exactly if both references denote the same object, for any mix of local, global and weak references, expired weak references being equal to null; it is an equivalence relation.", "quantifier": "all pairs of valid references in all states", "why_tests_cant": "all combinations and states", "anchors": ["src/jnivm/vm.cpp: IsSameObject"]}
{"id": "C33", "title": "GetObjectRefType", "statement": "Every handle returned by NewLocalRef, NewGlobalRef and NewWeakGlobalRef reports Local, Global and WeakGlobal respectively as long as it is valid, and null reports Invalid.", "quantifier": "all histories", "why_tests_cant": "all histories", "anchors": ["src/jnivm/vm.cpp: GetObjectRefType"]}
{"id": "C34", "title": "No use after free for disciplined clients", "statement": "A client that only uses handles that it still owns never triggers undefined behaviour through the reference API, and at least one frame exists at any time.", "quantifier": "all disciplined histories", "why_tests_cant": "absence of UB over unbounded histories", "anchors": ["src/jnivm/vm.cpp", "include/jnivm/jnitypes.h"]}
{"id": "C35", "title": "Everything is released", "statement": "When all threads have detached (or popped/deleted their references), all global references are deleted and no C++ code holds the object, an object outside of reference cycles is destroyed.", "quantifier": "all histories and acyclic heaps", "why_tests_cant": "leaks need whole-history reasoning", "anchors": ["src/jnivm/vm.cpp", "include/jnivm/env.h"]}
{"id": "C36", "title": "Pending exception state machine", "statement": "ExceptionCheck is true iff the last of Throw/ThrowNew/failed call/ExceptionClear on this thread set one; ExceptionOccurred returns the thrown object; ExceptionDescribe does not change it.", "quantifier": "all histories", "why_tests_cant": "unbounded histories", "anchors": ["src/jnivm/vm.cpp: Throw, ThrowNew, ExceptionOccurred, ExceptionClear, ExceptionCheck"]}
{"id": "C37", "title": "Threads are isolated", "statement": "Operations on one thread never change the pending exception or the local frames of another thread.", "quantifier": "all operations, all thread pairs, all histories", "why_tests_cant": "all interleavings", "anchors": ["src/jnivm/vm.cpp", "include/jnivm/env.h"]}
{"id": "C38", "title": "Attach and detach", "statement": "AttachCurrentThread is idempotent, gives different threads different environments, GetEnv agrees with it, and DetachCurrentThread releases all local references of the thread; reattaching gives a fresh empty environment.", "quantifier": "all histories", "why_tests_cant": "unbounded histories", "anchors": ["src/jnivm/vm.cpp: AttachCurrentThread, DetachCurrentThread, GetEnv"]}
{"id": "C39", "title": "Primitive array regions", "statement": "SetRegion then GetRegion returns the written elements, other elements are unchanged, new arrays are zero, GetArrayLength is the requested length; GetElements aliases the array.", "quantifier": "all lengths, offsets, contents", "why_tests_cant": "unbounded", "anchors": ["src/jnivm/internal/array.cpp", "include/jnivm/array.h"]}
{"id": "C40", "title": "Array bounds are enforced", "statement": "Out-of-range Get/SetArrayRegion, Get/SetObjectArrayElement or negative lengths are reported as an error and never touch foreign memory.", "quantifier": "all out-of-range requests", "why_tests_cant": "UB not observable", "anchors": ["src/jnivm/internal/array.cpp", "include/jnivm/array.h"]}
{"id": "C41", "title": "Object array elements", "statement": "SetObjectArrayElement then GetObjectArrayElement returns the same object, the array keeps its elements alive, and other elements are unchanged.", "quantifier": "all arrays, indices, reference kinds", "why_tests_cant": "all heaps", "anchors": ["src/jnivm/internal/array.cpp", "include/jnivm/array.h"]}
{"id": "C42", "title": "NewObjectArray initial element", "statement": "NewObjectArray(n, cls, init) fills the array with n strong references to the object denoted by init, for any kind of reference.", "quantifier": "all n, all reference kinds of init", "why_tests_cant": "reference kinds and later histories", "anchors": ["src/jnivm/internal/array.cpp: NewObjectArray"]}
{"id": "C43", "title": "Typed object arrays", "statement": "An object array created for a registered class only ever contains null or instances of that class.", "quantifier": "all histories of stores", "why_tests_cant": "invariant over histories", "anchors": ["include/jnivm/array.h"]}
{"id": "C44", "title": "Monitors", "statement": "Two threads never own the same object's monitor at once, through whichever references they lock it; a thread can re-enter; the monitor is free exactly after as many exits as enters.", "quantifier": "all schedules of any number of threads", "why_tests_cant": "all schedules", "anchors": ["src/jnivm/vm.cpp: MonitorEnter, MonitorExit"]}
{"id": "C45", "title": "Baron deny rules", "statement": "A method (field, class) query is denied iff some deny rule matches it with empty components acting as wildcards; deny rules only ever add denials; a denied unknown member is reported as null without creating it; an existing member is returned regardless.", "quantifier": "all rule sets and queries, all histories", "why_tests_cant": "arbitrary rule sets", "anchors": ["src/baron/jvm.cpp"]}
{"id": "C46", "title": "Denied classes are never fabricated", "statement": "With Baron, a class that was denied before it ever existed is never fabricated by JNI calls, FindClass keeps returning null.", "quantifier": "all histories after the deny", "why_tests_cant": "all histories", "anchors": ["src/baron/jvm.cpp", "src/jnivm/internal/findclass.cpp: Declare"]}
{"id": "C47", "title": "Native library lifecycle", "statement": "Over any history of attachLibrary/removeLibrary and VM destruction every successfully opened handle is closed exactly once (unless its JNI_OnLoad throws a C++ exception), JNI_OnLoad is called at most once per open and before JNI_OnUnload, and JNI_OnUnload precedes the close.", "quantifier": "all histories, all dlopen outcomes", "why_tests_cant": "unbounded histories", "anchors": ["src/fake-jni/fake-jni.cpp: libinst, attachLibrary, removeLibrary"]}
{"id": "C48", "title": "Re-attaching a library is harmless", "statement": "attachLibrary with an already attached path does not disturb the attached library (no JNI_OnUnload while it is attached).", "quantifier": "all histories", "why_tests_cant": "depends on history", "anchors": ["src/fake-jni/fake-jni.cpp: attachLibrary"]}
{"id": "C49", "title": "Scoped contexts restore the thread", "statement": "Any well-nested use of JniEnvContext/LocalFrame leaves the thread attached exactly if it was attached before, with the same environment and frames.", "quantifier": "all nestings", "why_tests_cant": "unbounded nesting", "anchors": ["src/fake-jni/fake-jni.cpp: JniEnvContext", "include/fake-jni/fake-jni.h: LocalFrame"]}
{"id": "C50", "title": "Reflection round trip", "statement": "FromReflectedMethod(ToReflectedMethod(cls,id,static)) = id (same for fields); a mismatching static flag gives null.", "quantifier": "all ids and states", "why_tests_cant": "all states", "anchors": ["src/jnivm/vm.cpp"]}
{"id": "C51", "title": "IsAssignableFrom", "statement": "IsAssignableFrom(a,b) is true iff b is reachable from a through base classes (reflexive, transitive); IsInstanceOf(o,c) iff class of o is assignable to c; terminates on every acyclic hierarchy.", "quantifier": "all finite acyclic hierarchies", "why_tests_cant": "arbitrary hierarchies", "anchors": ["src/jnivm/vm.cpp: HasBaseClass, IsAssignableFrom, IsInstanceOf"]}
{"id": "C52", "title": "Direct byte buffers", "statement": "GetDirectBufferAddress/Capacity return exactly what was passed to NewDirectByteBuffer for as long as the buffer is referenced.", "quantifier": "all addresses, capacities, histories", "why_tests_cant": "histories", "anchors": ["src/jnivm/internal/bytebuffer.cpp"]}
{"id": "C53", "title": "Concurrent FindClass/GetFieldID agree", "statement": "Any number of threads concurrently calling FindClass (GetFieldID) with the same arguments obtain the same class (ID), for every schedule.", "quantifier": "all thread counts and schedules", "why_tests_cant": "schedules", "anchors": ["src/jnivm/vm.cpp: FindClass", "src/jnivm/internal/field.cpp: GetFieldID"]}
{"id": "C54", "title": "Concurrent GetMethodID agrees", "statement": "Threads concurrently calling GetMethodID with the same arguments obtain the same ID for every schedule.", "quantifier": "all schedules", "why_tests_cant": "schedules", "anchors": ["src/jnivm/internal/method.cpp: GetMethodID"]}
{"id": "C55", "title": "Lookups and registrations do not deadlock", "statement": "On an acyclic hierarchy, threads that concurrently call GetFieldID, FindClass, the reference functions and the other calls of the concurrency model never deadlock; every schedule ends, and no mutex is held at the end.", "quantifier": "all acyclic hierarchies, thread counts, finite lists of calls per thread, schedules", "why_tests_cant": "schedules and hierarchies", "anchors": ["src/jnivm/internal/field.cpp: GetFieldID"]}
{"id": "C56", "title": "Class registry is data-race free", "statement": "Every access to the shared class registry by API calls happens while holding the VM mutex.", "quantifier": "all schedules", "why_tests_cant": "data races are schedule dependent", "anchors": ["src/jnivm/internal/findclass.cpp", "src/jnivm/vm.cpp: FindClass, NewGlobalRef"]}
{"id": "C57", "title": "Interface tables stay bound", "statement": "After any sequence of interface overrides the JNIEnv/JavaVM still resolves to its own ENV/VM object.", "quantifier": "all override sequences", "why_tests_cant": "arbitrary tables", "anchors": ["src/jnivm/vm.cpp: OverrideJNIInvokeInterface", "src/jnivm/env.cpp: OverrideJNINativeInterface"]}
{"id": "C58", "title": "Field values round trip", "statement": "Set<Type>Field followed by Get<Type>Field through a hooked data member returns the value that was set, for all primitive types and object references.", "quantifier": "all values of all types", "why_tests_cant": "all 64-bit values", "anchors": ["src/jnivm/internal/field.cpp", "include/jnivm/hookManager.h"]}
{"id": "C59", "title": "Hook signatures", "statement": "The JNI signature derived from the C++ type of a hook is a well-formed signature with the C++ parameter types in order, and implicit ENV*/Class*/this parameters never appear in it.", "quantifier": "all C++ function types built from supported types", "why_tests_cant": "unbounded arity", "anchors": ["include/jnivm/wrap.h", "include/jnivm/jnitypes.h: GetJNISignature"]}
{"id": "C60", "title": "GetObjectClass", "statement": "GetObjectClass(obj) is the registered class of the object's dynamic C++ type.", "quantifier": "all orders in which references are created", "why_tests_cant": "depends on history of static types", "anchors": ["include/jnivm/jnitypes.h: ToJNIType", "src/jnivm/vm.cpp: GetObjectClass"]}
{"id": "C61", "title": "Strings never change", "statement": "The contents of a Java string created with NewString/NewStringUTF never change: every later string call, by any thread and through any kind of reference, answers for the contents it was created with.", "quantifier": "all strings, threads and histories", "why_tests_cant": "every interleaving of other operations", "anchors": ["src/jnivm/internal/string.cpp"]}
{"id": "C62", "title": "Array length and element type are fixed", "statement": "GetArrayLength returns the same value for the whole life of an array, and the element type never changes.", "quantifier": "all arrays, threads and histories", "why_tests_cant": "every interleaving of other operations", "anchors": ["src/jnivm/internal/array.cpp"]}
{"id": "C63", "title": "Classes come only from names", "statement": "A class comes into being only because an operation mentions its name or, in the debug build, the name of a class nested in it: as the name looked up, as an array class, as a class of a member signature, when a C++ type is bound, or as one of the few classes the VM needs itself. No other operation creates classes.", "quantifier": "all operations, states and histories", "why_tests_cant": "all histories", "anchors": ["src/jnivm/internal/findclass.cpp", "src/jnivm/vm.cpp"]}
{"id": "C64", "title": "A library can be attached once it is available", "statement": "attachLibrary of a path that is not an attached library opens it, calls its JNI_OnLoad and keeps it attached until removeLibrary or the destruction of the VM.", "quantifier": "all histories, including earlier failed attempts", "why_tests_cant": "depends on history", "anchors": ["src/fake-jni/fake-jni.cpp: attachLibrary, removeLibrary"]}
{"id": "C65", "title": "A context of a VM gives its environment", "statement": "Inside the scope of JniEnvContext(vm) (LocalFrame(vm)) the JNI functions called through the context act on that vm.", "quantifier": "all threads, VMs and histories", "why_tests_cant": "depends on which VMs the thread is attached to", "anchors": ["src/fake-jni/fake-jni.cpp: JniEnvContext", "src/fake-jni/jvm.cpp: CreateEnv"]}
{"id": "C66", "title": "Hooks get the parameters their types say", "statement": "When a hooked C++ function is called, each parameter of class type is the very object that the argument denotes, through global and weak references, null staying null for pointers; an argument that is not an instance of the parameter's class (bases included), or null for a reference or value, ends the call with the exception for the first such parameter instead of running the function. Objects passed as std::shared_ptr or pointer are kept while the parameter is used, and an object without a class gets the class of the C++ type it is passed as.", "quantifier": "all functions, argument lists, object types with their bases, kinds of references and histories", "why_tests_cant": "ranges over C++ types and all states", "anchors": ["include/jnivm/jnitypes.h: JNITypes, OrgTypeConverter, JNITypesObjectBase, UnpackJObject", "include/jnivm/wrap.h: Wrap::Invoke"]}
{"id": "C67", "title": "Calls from C++ into methods", "statement": "Method::invoke from C++ runs the very code that the corresponding JNI call runs, with the same arguments in the same order, and hands the result of that code, or the exception it throws, to the C++ caller. The receiver and the arguments exist while the code runs, whatever that code and other threads do.", "quantifier": "all methods, receivers, argument lists, states, and histories during the call", "why_tests_cant": "ranges over all states and everything user code may do meanwhile", "anchors": ["include/jnivm/method.h: Method::invoke", "src/jnivm/method.cpp: jinvoke"]}
{"id": "C68", "title": "Methods found from C++", "statement": "A call through the result of Class::getMethod uses the static method for a class and the instance method for an object, searched for in the class and its ancestors, a registered native function serving both; tested as a condition the result says whether there is a method to call.", "quantifier": "all class hierarchies, names, signatures and histories", "why_tests_cant": "all states", "anchors": ["include/jnivm/method.h: MethodProxy", "src/jnivm/class.cpp: getMethod"]}
{"id": "C69", "title": "Starting the program", "statement": "Jvm::start runs the static method main([Ljava/lang/String;)V of a class that has one, with the given array, in a local frame of its own that is gone afterwards; if no class has one it throws and nothing has changed.", "quantifier": "all registries, all orders in which the registry can be iterated, all states", "why_tests_cant": "the iteration order of an unordered map is unspecified", "anchors": ["src/fake-jni/fake-jni.cpp: Jvm::start"]}
{"id": "C70", "title": "Generated class declarations", "statement": "The generated header declares every class that exists, except arrays and the classes jnivm provides itself (with what is nested in them), exactly once, enclosing classes before nested ones; each declaration contains exactly the class's fields and its methods not implemented natively, with their types, and forward declarations of the directly nested classes. Generating terminates in every state.", "quantifier": "all histories, states and both syntaxes", "why_tests_cant": "all histories; the text depends on the whole class tree", "anchors": ["src/jnivm/internal/codegen/class.cpp: GenerateHeader", "src/jnivm/internal/codegen/namespace.cpp: GenerateHeader"]}
{"id": "C71", "title": "Generated definitions", "statement": "The generated stubs define exactly the static fields and the methods that the header declares, under the same qualified names and with the same parameter types, numbered, and a result exactly when the signature has one.", "quantifier": "all histories, states and both syntaxes", "why_tests_cant": "all histories", "anchors": ["src/jnivm/internal/codegen/class.cpp: GenerateStubs", "src/jnivm/internal/codegen/method.cpp: GenerateStubs", "src/jnivm/internal/codegen/field.cpp: GenerateStubs"]}
{"id": "C72", "title": "Generated registration and binding", "statement": "The generated InitJNIBinding registers every class of the dump once under its own name and installs each of its members exactly once on that very class.", "quantifier": "all histories, states and both syntaxes", "why_tests_cant": "all histories", "anchors": ["src/jnivm/internal/codegen/class.cpp: GenerateJNIPreDeclaration, GenerateJNIBinding", "src/jnivm/internal/codegen/method.cpp: GenerateJNIBinding"]}
{"id": "C73", "title": "Generated forward declarations", "statement": "Every class of the dump that is not nested is declared in front, exactly once and inside the namespaces of its packages; namespaces are never opened without contents and always closed.", "quantifier": "all histories and package trees", "why_tests_cant": "arbitrary trees", "anchors": ["src/jnivm/internal/codegen/namespace.cpp: GeneratePreDeclaration"]}
{"id": "C74", "title": "Generated names", "statement": "Different classes get different C++ names, and the name a class is declared under is the one by which signatures and the registration refer to it.", "quantifier": "all class names", "why_tests_cant": "all names", "anchors": ["src/jnivm/internal/codegen/class.cpp", "src/jnivm/internal/codegen/parseJNIType.cpp"]}
{"id": "C75", "title": "Class dump", "statement": "GenerateClassDump writes, and Baron's printStatistics prints, the forward declarations, declarations, definitions and binding function, complete and in this order.", "quantifier": "all histories, states and both syntaxes", "why_tests_cant": "all histories", "anchors": ["src/jnivm/internal/codegen/vm.cpp: GenerateClassDump", "src/baron/jvm.cpp: printStatistics"]}
{"id": "C76", "title": "A dump can be reloaded", "statement": "Running the registrations of a dump on a new VM brings the dumped classes into existence, and no other class.", "quantifier": "all histories before the dump, all configurations of the new VM", "why_tests_cant": "all histories", "anchors": ["src/jnivm/internal/codegen/vm.cpp: GenerateClassDump", "include/jnivm/env.h: GetClass"]}
{"id": "C77", "title": "Generated code declares before use", "statement": "Every class is declared in the generated code before its name is used.", "quantifier": "all histories", "why_tests_cant": "all orders in which classes came into existence", "anchors": ["src/jnivm/internal/codegen/namespace.cpp", "src/jnivm/internal/codegen/class.cpp"]}
{"id": "C78", "title": "Buffers of GetStringChars", "statement": "GetStringChars gives the caller a buffer of its own with exactly the units of the string; it keeps its contents whatever any thread does and whatever becomes of the string, until it is passed to ReleaseStringChars, which frees it and nothing else and can be done once.", "quantifier": "all strings, threads and histories", "why_tests_cant": "every interleaving of other operations", "anchors": ["src/jnivm/internal/string.cpp: GetStringChars, ReleaseStringChars"]}
{"id": "C79", "title": "Pointers stay valid until they are released", "statement": "The pointers returned by GetStringUTFChars and Get<Type>ArrayElements read the text of the string (with its terminating zero) and the current elements of the array until they are released.", "quantifier": "all strings, arrays, threads and histories", "why_tests_cant": "depends on everything that happens before the release", "anchors": ["src/jnivm/internal/string.cpp: GetStringUTFChars", "src/jnivm/internal/array.cpp: GetArrayElements"]}
{"id": "C80", "title": "Memory is given back", "statement": "When all buffers are released and all strings and arrays are gone, no memory that the string and array functions allocated is left.", "quantifier": "all histories", "why_tests_cant": "unbounded histories", "anchors": ["src/jnivm/internal/array.cpp: NewArray", "include/jnivm/array.h", "src/jnivm/internal/string.cpp"]}
{"id": "C81", "title": "Classes of the library's own objects", "statement": "Strings, buffers, exceptions, classes, methods, fields and references belong to the Java classes of that name: FindClass of the name and GetObjectClass of such an object give the same class, from the construction of the VM on, whatever happens. Only registering a C++ type with GetClass<T>(name) changes which class that type has, and it changes nothing else.", "quantifier": "all histories, threads and states", "why_tests_cant": "every history may register types", "anchors": ["src/jnivm/vm.cpp: initialize", "include/jnivm/env.h: GetClass"]}
{"id": "C82", "title": "ThrowNew uses the class", "statement": "After ThrowNew(cls, msg) the pending exception is an instance of cls with the message msg.", "quantifier": "all classes, messages and states", "why_tests_cant": "all states", "anchors": ["src/jnivm/vm.cpp: ThrowNew"]}
{"id": "C83", "title": "AllocObject and capacities", "statement": "AllocObject creates an object of the class without running a constructor; EnsureLocalCapacity succeeds for every capacity that is not negative and changes nothing observable; FatalError does not return.", "quantifier": "all classes, capacities and states", "why_tests_cant": "all states", "anchors": ["src/jnivm/vm.cpp: AllocObject, EnsureLocalCapacity, FatalError"]}
{"id": "C84", "title": "Descriptors register exactly their members", "statement": "registerClass() of a class written with BEGIN_NATIVE_DESCRIPTOR binds each described function, variable and constructor to the class, under its name and the signature of its C++ type, static exactly if the flags say so (constructors always); of several for the same member the last one counts, JNI lookups and calls reach it, and nothing else changes. A contradictory descriptor (an instance member flagged static) throws and nothing has changed; an unknown class in a signature throws with the members before it bound; the local frame is gone in every case.", "quantifier": "all lists of descriptors, all earlier states of the class, all histories", "why_tests_cant": "unbounded lists and all earlier registrations", "anchors": ["include/fake-jni/fake-jni.h: Descriptor, BEGIN_NATIVE_DESCRIPTOR, END_NATIVE_DESCRIPTOR, Constructor", "include/jnivm/class.h: Hook, HookInstance"]}
{"id": "C85", "title": "getDescriptor registers on first use", "statement": "The first getDescriptor() of a class that has not been registered registers its members.", "quantifier": "all descriptor lists and histories", "why_tests_cant": "all histories", "anchors": ["include/fake-jni/fake-jni.h: BEGIN_NATIVE_DESCRIPTOR"]}
{"id": "C86", "title": "Function table of JNIEnv", "statement": "Every function of the JNIEnv function table is in the slot that jni.h gives it: calling env->functions->Call<Type>Method, CallNonvirtual<Type>Method, CallStatic<Type>Method (each with ..., va_list or jvalue*), Get/Set[Static]<Type>Field, New<Type>Array and the other array functions reaches the function of the library for exactly that type, receiver and kind of arguments, and every other name reaches the function of that name; no slot except the four reserved ones is empty. This holds for the tables with and without creation of missing members.", "quantifier": "all slots, types and both variants; the positions for every list of types", "why_tests_cant": "233 slots of untyped function pointers of equal types: swapped slots compile and only show for the arguments that differ", "anchors": ["src/jnivm/vm.cpp: InterfaceFactory, JNINativeInterfaceCompose, GetNativeInterfaceTemplate", "include/jni.h: JNINativeInterface"]}
{"id": "C87", "title": "Threads attach independently", "statement": "However many threads attach, detach and ask for their environment at the same time: each gets the answers it would get alone, namely the same environment until it detaches and a new one when it attaches again; no two threads ever get the same environment; an environment stays until its own thread detaches; threads never wait for each other forever; and the table of environments is never accessed by two threads at once when one changes it.", "quantifier": "any number of threads, any calls, every schedule", "why_tests_cant": "all schedules", "anchors": ["src/jnivm/vm.cpp: VM::VM (AttachCurrentThread, DetachCurrentThread, GetEnv, AttachCurrentThreadAsDaemon), VM::GetEnv"]}
{"id": "C88", "title": "createMainMethod", "statement": "createMainMethod(jvm, f) makes f the static method main([Ljava/lang/String;)V of the class fakejni/impl/createMainMethod, whose other members and everything else stay as they are; Jvm::start afterwards runs f with the given array; a second call replaces f.", "quantifier": "all histories of a FakeJni or Baron VM, all threads, deny rules and states of that class, all orders in which the registry can be iterated", "why_tests_cant": "all states and histories", "anchors": ["src/fake-jni/fake-jni.cpp: createMainMethod, Jvm::findClass", "src/baron/jvm.cpp: findClass"]}
{"id": "C89", "title": "References of the C++ interface", "statement": "createLocalReference and createGlobalReference of a C++ object give a JNI reference that resolveReference turns back into that very object, in every thread: a local one as long as the object exists, a global one until DeleteGlobalRef, which keeps the object alive by itself. Null gives null. getClasses lists every class of the VM exactly once.", "quantifier": "all objects, threads and histories between making and resolving the reference", "why_tests_cant": "ranges over every history and thread", "anchors": ["src/fake-jni/fake-jni.cpp: resolveReference, createGlobalReference", "include/fake-jni/fake-jni.h: createLocalReference", "src/fake-jni/jvm.cpp: getClasses"]}
{"id": "C90", "title": "Class of objects with descriptors", "statement": "GetObjectClass, IsInstanceOf, Object::getClass and the choice of the overload in Call<Type>Method of an object whose C++ class has a descriptor use the class registered for the C++ class of the object: always the same one, in every thread and after every history.", "quantifier": "all objects, descriptors, threads and histories", "why_tests_cant": "ranges over every history, including other registrations of the same type", "anchors": ["include/fake-jni/fake-jni.h: DEFINE_CLASS_NAME, BEGIN_NATIVE_DESCRIPTOR", "src/fake-jni/fake-jni.cpp: Object::getClass", "src/jnivm/vm.cpp: GetObjectClass, IsInstanceOf", "src/jnivm/internal/method.cpp: CallMethod"]}
{"id": "C91", "title": "Objects instead of null", "statement": "In a build with JNIVM_ENABLE_RETURN_NON_ZERO, a call of a method that has no implementation, or reading such a field, gives a new object of the type of its descriptor instead of null: an empty array for an array type, otherwise an instance of the class, which is created if needed; the new object has that class, only the caller's local reference holds it, and no other object changes. Calls of implemented members are not affected.", "quantifier": "all signatures, members, classes and their C++ types, states and histories", "why_tests_cant": "ranges over all texts of signatures and all registrations", "anchors": ["CMakeLists.txt: JNIVM_ENABLE_RETURN_NON_ZERO", "src/jnivm/internal/method.cpp: defaultVal, CallMethod", "src/jnivm/internal/field.cpp: GetField"]}
{"id": "C92", "title": "Threads that end, VMs that are destroyed", "statement": "With FakeJni, a thread that ends is detached from the VM it is attached to: its environment and its local references are gone, everything other threads have and every object still referred to stays as it is. A destroyed VM takes the environments of all its threads with it, and nothing of other VMs; the end of such a thread then does nothing. Afterwards the thread, or a new one with the same id, has no environment until it attaches, gets a fresh one when it does, and can create a VM.", "quantifier": "all threads, VMs, histories of attaching, detaching, ending and destruction", "why_tests_cant": "order of ends and destructions, reuse of thread ids", "anchors": ["src/fake-jni/fake-jni.cpp: ThreadContext::~ThreadContext", "src/fake-jni/jvm.cpp: CreateEnv", "include/jnivm/vm.h: VM"]}
{"id": "C93", "title": "Arrays of numbers in C++", "statement": "An array made from a length, a vector or by copying numbers has elements of its own: exactly the given ones, changed only by writing to the array, freed exactly once when it is destroyed. An array made from a pointer without copying reads and writes the caller's memory and never frees it. Negative lengths throw and change nothing. A copy of an array object has elements of its own.", "quantifier": "all programs that make, use and destroy arrays and memory of their own, of any length", "why_tests_cant": "aliasing, ownership and lifetimes over unbounded programs; failures are undefined behaviour", "anchors": ["include/jnivm/array.h: impl::Array"]}
{"id": "C94", "title": "Arrays of objects in C++", "statement": "array[i] gives the object that was stored there last and keeps it alive until the position is assigned or the array is destroyed, which drops the elements and nothing else. Assigning a shared pointer, a pointer or a reference stores that very object; also when the array is seen as an array of a base class, where objects of a wrong class are refused with an exception that changes nothing, so that every element is of the element class.", "quantifier": "all class hierarchies with one base each, all views, positions, objects and programs, C++ before and since C++17", "why_tests_cant": "all programs and hierarchies; which overrider runs depends on the static type of the view", "anchors": ["include/jnivm/array.h: Arrayguard, Array<Object>, Array<Y, void, false>, ArrayBaseImpl"]}
{"id": "C95", "title": "Methods of JNIEnv and JavaVM in C++", "statement": "env->X(...) and vm->X(...) call the function that the table holds under the name X with exactly the given arguments in their order and give back its result; arguments behind the dots arrive as a va_list at the function XV, which is the same function of the library. Every function of the tables has exactly one such method, with its parameter types and result type.", "quantifier": "all methods of JNIEnv and JavaVM, all argument lists of any length, both kinds of tables", "why_tests_cant": "every one of 229 methods with argument lists of any length; a wrong one compiles and misbehaves only for that combination of type and receiver", "anchors": ["include/jni.h: _JNIEnv, _JavaVM, JNINativeInterface, JNIInvokeInterface, CALL_TYPE, CALL_NONVIRT_TYPE, CALL_STATIC_TYPE"]}
{"id": "C96", "title": "Generated code is well bracketed", "statement": "For every VM whose packages, classes, members and types have names without brackets and quotation marks, the generated declarations, headers, stubs, registrations and bindings, the class dump and the printed statistics have every brace, parenthesis and square bracket closed by one of its kind in the right order, and every quotation mark closed with no bracket between. A name with a bracket in it breaks this.", "quantifier": "all states a VM can reach and all trees of packages, classes and members of any depth and width, both syntaxes", "why_tests_cant": "packages and nested classes can be nested to any depth and every member writes several brackets whose number depends on its signature; no finite set of dumps shows that they always match", "anchors": ["src/jnivm/internal/codegen/class.cpp: Class::GenerateHeader, GenerateStubs, GenerateJNIBinding; field.cpp; method.cpp; namespace.cpp; vm.cpp: GenerateClassDump; src/fake-jni"]}
{"id": "C97", "title": "Global references of concurrent threads", "statement": "However many threads make and delete global and weak references while others look up classes and members: every NewGlobalRef and NewWeakGlobalRef of an object gives a reference; references that nobody deletes differ from each other and from all earlier ones and stay registered; when all calls are done the VM holds exactly the earlier references and the returned ones, without those deleted, each once.", "quantifier": "any number of threads, any calls, every schedule", "why_tests_cant": "all schedules", "anchors": ["src/jnivm/vm.cpp: NewGlobalRef, DeleteGlobalRef, NewWeakGlobalRef, DeleteWeakGlobalRef"]}
{"id": "C98", "title": "Hooking while other threads run", "statement": "Class::Hook of a member while other threads look it up or hook it: all of them get the one member of that name and signature, and lookups afterwards reach the hooked function.", "quantifier": "any number of threads, any calls, every schedule", "why_tests_cant": "all schedules", "anchors": ["include/jnivm/hookManager.h: install", "src/jnivm/internal/method.cpp: GetMethodID", "src/jnivm/internal/field.cpp: GetFieldID"]}
{"id": "C99", "title": "Members returned to concurrent threads", "statement": "Whatever runs at the same time: GetMethodID, GetStaticMethodID, GetFieldID and GetStaticFieldID return an ID of a member with exactly the name, type and kind asked for, of the class or one of its base classes, and null only in VMs that return null; hooks give a member of the class itself, and after RegisterNatives the class has a new method for every entry of the array, in its order. As long as no thread unregisters natives of the class, members are never lost, returned IDs stay listed and the same ID never stands for different members. A class gets no member that no thread asked for.", "quantifier": "any number of threads, any calls, any class hierarchy, every schedule", "why_tests_cant": "all schedules and hierarchies", "anchors": ["src/jnivm/internal/method.cpp: GetMethodID", "src/jnivm/internal/field.cpp: GetFieldID", "include/jnivm/hookManager.h: install", "src/jnivm/vm.cpp: RegisterNatives"]}
{"id": "C100", "title": "References of the wrong kind", "statement": "A function of the interface that is given a reference to an object of another kind (a string for a class, an array of another element type, ...) throws and changes nothing. Null, and a weak reference whose object is gone, are accepted without any effect by the functions that test for null: the reference functions answer null, comparisons treat both alike, calls and field accesses with a null ID give zero, lengths are zero. The other functions have no defined behaviour for them, as for references to destroyed objects and IDs that are no method or field.", "quantifier": "all functions of the interface, all reference arguments, all states", "why_tests_cant": "all combinations of functions, references and states", "anchors": ["src/jnivm/vm.cpp", "src/jnivm/internal/method.cpp", "src/jnivm/internal/field.cpp", "src/jnivm/internal/array.cpp", "src/jnivm/internal/string.cpp", "include/jnivm/internal/jnitypes.h: JNICast"]}
{"id": "C101", "title": "Hooks replaced while they run", "statement": "While a hooked function runs (including everything it calls and whatever other threads do meanwhile), its function object and captured variables exist and it may end by an exception, even if the program hooks another function for the same method, getter or setter or unregisters the natives of the class.", "quantifier": "every call of a method, getter or setter of every reachable VM, every history that can happen while it runs, every thread", "why_tests_cant": "a destroyed function object usually keeps its memory for a while, so a test that replaces a running hook passes by luck; the claim ranges over all histories during a call", "anchors": ["src/jnivm/internal/method.cpp: CallMethod", "src/jnivm/internal/field.cpp: GetField, SetField", "include/jnivm/hookManager.h: FunctionBase::install, PropertyBase::install"]}
{"id": "C102", "title": "Invariants with objects instead of null", "statement": "A build with JNIVM_ENABLE_RETURN_NON_ZERO reaches only states that builds without it reach, so whatever holds of all states of a VM holds there too: its operations are those of the other builds, followed at most by looking up a class and making an object. When the function of a method with an object result throws, the exception is pending and the call gives the default object for the signature of the method that ran.", "quantifier": "all histories of all threads, all signatures and exceptions, whatever happens while the function runs", "why_tests_cant": "all histories; the object made by default goes through code of its own in each dispatch function", "anchors": ["src/jnivm/internal/method.cpp: defaultVal, MDispatchBase2, CallMethod", "src/jnivm/internal/field.cpp: GetField"]}
{"id": "C103", "title": "Copies of arrays of objects", "statement": "A copy of a C++ array of objects has elements of its own: stores through one are not seen through the other, both can be used and destroyed in any order, and assigning to an array drops its former elements. (Hooks that take or return arrays by value and functions that are handed a reference to a local array copy them.)", "quantifier": "all programs that make, copy, assign, use and destroy arrays of objects, all class hierarchies with one base each, C++ before and since C++17", "why_tests_cant": "a copy reads the right values until the other array is destroyed, and freed memory often still has its old content; the claim ranges over all programs", "anchors": ["include/jnivm/array.h: Array<void>, Array<Object>, Array<Y, void, false>, ~Array", "include/jnivm/jnitypes.h: JNITypesObjectBase::ToJNIType"]}
{"id": "C104", "title": "Objects that hooks return", "statement": "A hook that returns an object, as std::shared_ptr, pointer or reference, and C++ code that passes one to a native method, give JNI code a local reference to this very object, null for a null pointer; GetObjectClass of it is a class of the object. The object exists as long as the frame of the reference is not popped and the reference not deleted, whatever C++ code does with its own pointers, and no longer than something refers to it.", "quantifier": "all objects, static types, class bindings, frames and histories, C++ before and since C++17", "why_tests_cant": "which of several overloads converts the result depends on the static type; lifetimes over all histories", "anchors": ["include/jnivm/jnitypes.h: JNITypesObjectBase::ToJNIType, ToJNIReturnType", "include/jnivm/wrap.h: WrapperClasses", "include/jnivm/method.h: j2invoke", "src/jnivm/vm.cpp: PopLocalFrame, DeleteLocalRef"]}
{"id": "C105", "title": "Names of classes", "statement": "The member name of every class is the part of its full name (nativeprefix, getName) after the last slash, and in builds with JNI_DEBUG after the last dollar sign too, except for array classes; the whole full name if there is no such character. Whatever happens later, neither of the two names changes. The class FindClass returns has these names for the argument.", "quantifier": "all classes of all states a VM can reach, all builds, all histories afterwards", "why_tests_cant": "all names and histories; classes are made in three places of the lookup, depending on the build and on which enclosing classes are known", "anchors": ["src/jnivm/internal/findclass.cpp: InternalFindClass", "include/jnivm/class.h: Class"]}
{"id": "C106", "title": "UnregisterNatives while other threads run", "statement": "Once UnregisterNatives of a class has returned, the class has no method with a native function, if no thread registers some for it; all its methods without one stay with their IDs, whatever other threads look up, hook, register or unregister at the same time.", "quantifier": "any number of threads, any calls, any class hierarchy, every schedule", "why_tests_cant": "all schedules; hooks and lookups add methods without the mutex, between the steps of other calls", "anchors": ["src/jnivm/vm.cpp: UnregisterNatives, RegisterNatives", "include/jnivm/hookManager.h: install", "src/jnivm/internal/method.cpp: GetMethodID"]}
