# Formal model of libjnivm in Rocq (Coq 8.16.1)

## Approach

All definitions are executable Gallina; every C++ function that is modelled has a
counterpart whose comment cites the file and lines in `/repo`.  Undefined behaviour,
C++ exceptions that escape an API function, `abort()` and blocking on a mutex are
distinct outcomes (`UB`, `Thrown`, `Abort`, `Blocked`), so "is safe" and "throws" are
statements about outcomes and not about the absence of a model.

Layers (files in `rocq/theories`):

| layer | files | models |
|---|---|---|
| base | `Base` | outcome monad, characters, small list lemmas |
| strings | `UtfModel`, `UtfProofs`, `UtfSpec`, `UtfProps` | `stringUtil.cpp`, `string.cpp` |
| signatures | `Sig*` | `skipJNIType.cpp`, `jValuesfromValist.cpp`, `Declare`, `codegen/parseJNIType.cpp`, `codegen/method.cpp` |
| VM | `Vm*` | heap of `shared_ptr` objects with reference counting, local frames, globals, weak/global wrappers, class registry, members, hooks, natives, dispatch, exceptions, arrays, monitors, attach/detach |
| Baron / FakeJni | `Baron*`, `Lib*`, `Ctx*` | deny filters, native libraries, scoped contexts |
| concurrency | `Conc*` | small-step interleavings of lookups and of the registry lock |

Specifications (`*Spec`) are written without using the functions of the model; theorems in
`*Props` relate the two.  A property that is false of the faithful model is kept in full and
refuted by a theorem named `..._refuted` with a concrete witness, next to the part that holds
(`..._partial`).

## Plan per property

* C01-C04 codec and string API: functions on byte lists with an explicit NUL terminator; proof by induction over the unit list, with an exhaustive kernel computation over all 65536 units for the per-unit lemma.
* C05, C06 memory safety of the string walk: reads behind the terminator are `UB`; induction over byte content; out-of-range region refuted.
* C07, C08 grammar of descriptors as an inductive type with a printer; induction over descriptors and parameter lists.
* C09 arbitrary strings: refuted by a witness; positive part for strings in which every array/object descriptor is terminated.
* C10 code generator: same grammar, compared with an independent type translation.
* C11-C13 class registry: namespace tree + map; refinement of the tree to the map by an invariant over all operations.
* C14-C19 member tables: lookup functions over the state; two-state preorders (tables only grow, keep identity and order) closed under all operations.
* C20, C21 natives: index loop proved equal to a filter; re-registration refuted.
* C22, C23 dispatch: specification walks the hierarchy; refuted with a three-level hierarchy; partial theorem for direct overrides.
* C24, C25 calls: functional characterisation for every hook outcome.
* C26-C35 references: invariant over all histories; preorders for persistence of roots; reference counting `collect` characterised by reachability.
* C36-C38 exceptions, thread isolation, attach: two-state relations over all operations.
* C39-C43 arrays: list laws; OOB refuted; initial-element finding refuted.
* C44 monitors: invariant over all schedules.
* C45, C46 deny rules: equivalence with a declarative matching spec; exact outcome of every lookup; fabrication refuted, and excluded for histories that only ask for the class.
* C47, C48 libraries: trace invariant; re-attach refuted.
* C49 scoped contexts: induction over well-nested programs.
* C50 reflection: model shows the round trip fails (class of the reflected object is unset): refuted + what holds.
* C51 hierarchy: equivalence with reflexive-transitive closure, termination measure from acyclicity.
* C52 buffers: immutability over histories.
* C53-C56 concurrency: interleaving semantics, invariants over all schedules; two refutations.
* C57 interface tables: invariant over override sequences.
* C58 field values: byte-level union model and store.
* C59 hook signatures: descriptor printer equals derived signature.
* C60 GetObjectClass: refuted when the first conversion uses a base type; partial otherwise.
* C61, C62 immutability of strings and array shapes: two-state relations over all operations.
* C63 class creation: a relation kept by every operation, instantiated with the names the operation mentions.
* C64 attaching after a failure: refuted; holds for paths without an entry.
* C65 contexts and several VMs: refuted; holds for threads attached to no other VM.
* C66 parameters of hooks: conversion against a typing relation on objects, by induction over the parameters; class of an object passed as pointer, first registered type; refuted for null receivers, classes passed as jclass and objects passed by reference.
* C67 calls from C++: the invocation reduced to the JNI call in a state that only differs by kept objects and local references, then C22-C25; lifetimes by an invariant on what C++ code holds; refuted for exceptions that are already pending.
* C68 results of `getMethod`: against the depth-first search of C16; refuted as a condition when both kinds of method exist.
* C69 `Jvm::start`: induction over the order in which the registry is iterated, for every order; refuted: depends on that order.
* C70 Generated declarations: the class tree as a tree of names (invariant `shape` of all reachable states), then induction over that tree; each class text compared with an independent one (`class_decl`).
* C71 Generated definitions, C72 registration and binding: same walk; the blocks of the binding function are interpreted by `run_binding`.
* C73 Forward declarations: the text is that of a tree of non-empty namespaces; its classes are the dumped ones that are not nested.
* C74 C++ names: injectivity for plain names; refuted in general (`a/b$c`, `a/b/c`); exact condition for the declared name to be the one used.
* C75 Dump: composition of C70 - C73.
* C76 Reloading: induction over the registrations, with C63's account of which classes an operation creates.
* C77 Declaration before use: top-level classes from C73; refuted for nested classes.
* C78 Buffers of GetStringChars: a list of blocks next to the machine (`RawModel`); every step is one of four changes of that list, then induction over histories.
* C79 Pointers into objects: with C61 and C62 on the projected history, while the object lives; refuted once it is gone.
* C80 Accounts of blocks: induction over histories; refuted (New<Type>Array loses a block).
* C81 The table from C++ types to classes: computed for the initial state, an invariant of every elementary change except registering (fine rule), exact step for registering; with C60/C61/C52 for the classes of objects.
* C82 ThrowNew: exact step; refuted (the class is ignored), partial: always a Throwable with the message.
* C83 AllocObject, EnsureLocalCapacity, FatalError: exact steps; AllocObject refuted.
* C84 Descriptors (fake-jni.h): the list is run through the hooks of `WrapModel` and the operations of `VmStep`; the member tables after it are folds of single bindings over the tables before (frame conditions for everything else), by induction over the list; lookups and calls from the step theorems.
* C85 getDescriptor(): exact result (a lookup, no members); the claim refuted.
* C86 function table: the initializer as a list of functions and template instances, the struct of jni.h as a list of names; the positions of the groups are proved for every list of types, the whole table against the naming scheme of the JNI specification.
* C87 attaching threads: the critical sections of the invocation functions as places of a program, interleaved; invariant over all schedules, per-thread history specification, races defined by the next accesses.
* C88 `createMainMethod`: composition of `findClass`, the hook of the callback's type and the array class of its signature; result stated with the lookups of C68 and a frame condition; composed with C69.
* C89 references of the C++ interface: compositions of operations of the VM model, so that the theorems on references (C29) apply; registry keys unique by a frame relation over all operations.
* C90 classes of described objects: `getClassInternal` of a descriptor as an override of the class lookup of the VM model; result stated by class name and binding, with frame conditions; refuted for undescribed derived classes.
* C91 objects instead of null: `defaultVal<jobject>` as a composition of operations of the VM model, one theorem for each form of signature and one that the forms are exhaustive; refuted for arrays of booleans and arrays of arrays.
* C92 ends of threads and destruction of VMs: two more steps of the world of VMs and threads of C49; the invariant that ties the thread local pointer to the tables of environments covers them.
* C93 arrays of numbers in C++: memory, storage with the pointer and the owner flag of `impl::Array`; refinement of a machine where an array is a list of its own or a view. Copies of array objects are steps of the model outside of the refinement.
* C94 arrays of objects in C++: classes as paths to Object, views of an array as array of a base class, lifetimes as who refers to what; invariants over all programs.
* C95 C++ methods of JNIEnv and JavaVM: the inline methods of jni.h as records of signature and call, the macros as functions; forwarding of argument lists by induction, the table compared with that of C86 entry by entry.
* C96 generated code is well bracketed: an inductive language of matched brackets over the marks of a text, shown for each generator by induction on the tree of classes and packages; the tree of a reachable state by the relation between state and tree of C70.
* C97 global references of concurrent threads: the calls of the concurrency model; the number of times a handle is in the table equals its earlier number plus the calls that returned it or are about to, an invariant of every step.
* C98 hooking while other threads run: hooks are added to the concurrency model without a mutex, as in the code; proved for members that are there (rely-guarantee), refuted by schedules for new ones. New members that only one thread may add: the entry of the class follows the calls of that thread, other threads' writes leave it alone.
* C99 members returned to concurrent threads: rely-guarantee with the guarantee that tables of members only grow, except by UnregisterNatives in given classes; IDs are unique as an invariant of every write. RegisterNatives is a loop under one mutex: a loop invariant relates its array to the increasing IDs listed so far.
* C100 references of the wrong kind: tables of the arguments each function resolves first and of the functions that accept null (HandleSpec), proved against every function body.
* C101 Function objects of hooks are numbered per member and slot in ReplModel, on top of the unchanged VM model; a running call remembers which one it
  uses. Exact lifetime by induction over what can happen while the call runs (balanced nesting for the calling thread, anything for other threads);
  two refutations of the full claim.
* C102 NzHistModel runs whole histories with JNIVM_ENABLE_RETURN_NON_ZERO on top of ReplModel.  Simulation: each history is one without the option to which
  operations that find classes and make objects are added; induction over histories carries all invariants of reachable states over.  The object after an
  exception is the one C91 describes.
* C103 CCopyModel adds array objects, which refer to the storages of CObjModel, with the implicit copy constructor and assignment.  The claim is
  refuted; what holds instead is proved for all histories, by an invariant of the pointers and by simulation in CObjModel.
* C104 ResModel: objects with their C++ class, Java class, shared pointers and local frames; the conversions of jnitypes.h for results of hooks and
  arguments of native methods.  Invariant over all histories for the frames; the claim is false for references (always a copy), so exact theorems and refutations.
* C105 names of classes: invariant of VmModel, by the rule for relations that every elementary change respects (VmFine); the walk of `InternalFindClass` is followed component by component.
* C106 UnregisterNatives among concurrent threads: methods with native functions are marked in the shared state; rely-guarantee with the guarantee that a class without natives gets none, unless some thread registers them. Methods without native functions stay: invariant of every write. Refuted for IDs returned by earlier lookups.

## Trusted base

1. The kernel of Coq 8.16.1 (and `vm_compute`, which the kernel uses for the finite computations in the
   proofs) and the OCaml runtime under it.
2. No axioms.  `Print Assumptions` prints "Closed under the global context" for every theorem that
   `MANIFEST.json` names; each `*Props.v` file ends with such commands for its main theorems.  The seven
   `Coq.ssr.ssrunder` axioms that a scan of the loaded libraries lists belong to the standard library's
   `ssreflect` and are used by none of the theorems.
3. That the definitions of the model say what the C++ code does.  They were written by reading the code, one
   definition per function, with file and lines in the comment; nothing was extracted or executed.
4. That the specifications (`*Spec.v`, and the statements in `*Props.v`) say what the English properties say.

### Modelled, by file of /repo

| code | where | remarks |
|---|---|---|
| `src/jnivm/internal/stringUtil.cpp`, `string.cpp` | `UtfModel` | complete, bytes and 16-bit units; copies limited by the terminator |
| `skipJNIType.cpp`, `jValuesfromValist.cpp`, `Declare` (findclass.cpp), `codegen/parseJNIType.cpp`, parameter scanning of `codegen/method.cpp` | `SigModel` | va_list as a list of tagged values |
| `codegen/class.cpp`, `namespace.cpp`, `vm.cpp`, `field.cpp`, `method.cpp`, `Jvm::printStatistics` (baron/jvm.cpp) | `GenModel`, `SigModel` | streams are texts; the order of members and classes is that of the vectors |
| `findclass.cpp`, `vm.cpp` (FindClass … weak references, RegisterNatives, monitors, attach/detach, environments), `env.h`, `env.cpp`, `object.cpp`, `weak.h` | `VmState`, `VmModel`, `VmStep` | one operation is one step |
| `internal/method.cpp`, `internal/field.cpp`, `class.h`, `hookManager.h`, `extends.h`, `method.cpp` (invocation of hooks), `methodhandlebase.h` | `VmModel`, `WrapModel`, `ReplModel` (function objects replaced or released while they run) | user code in hooks is arbitrary: between a call and its return any operations may run |
| `internal/method.cpp` 92-165 (`defaultVal<jobject>` with JNIVM_ENABLE_RETURN_NON_ZERO) | `NonZeroModel` | `NzHistModel`: whole histories of such builds, with the default after an exception of a hook, made after the references of the call have ended; all other models are of builds without the option; C++ types other than user classes, `Object` and `String` are not instantiated |
| `include/jnivm/array.h` (C++ interface of arrays) | `CArrModel` (numbers), `CObjModel` (objects), `CCopyModel` (copies of arrays of objects) | one base class per class; copies through a view of another class (slicing) and `Array<Y, Z, false>` with explicit `Z` (not used by the library) are not modelled; independent of `VmModel`, which has the arrays as JNI functions see them |
| `include/jnivm/jnitypes.h` 44-85, 286-314, `wrap.h` 294-328, `method.h` 100-137 (objects to references) | `ResModel` | one thread, one base class per class, classes that can be copied; which overload is chosen is part of the operation (the kind of the result); independent of `VmModel`, where hooks return references to objects of the VM |
| `internal/array.cpp`, `array.h`, `bytebuffer.cpp`, `string.h`, `throwable.h` | `VmModel`, `RawModel` (raw pointers, `new[]`/`delete[]`) | addresses of freed blocks are not used again |
| `jnitypes.h`, `wrap.h`, `function.h` | `WrapModel` (signatures, shapes of parameters), `CastModel` (conversion of parameters, receiver, errors), `VmModel` (`ToJNIType`, `JNICast`), `FieldModel` (bytes of `jvalue`) | C++ types as an inductive type |
| `fake-jni.h` 37-57, 141-281: `Descriptor`, `Constructor`, `BEGIN_NATIVE_DESCRIPTOR` ... `END_NATIVE_DESCRIPTOR` | `DescModel` | thread attached; function objects do not compile as descriptors; arrays of objects other than of a user class in a signature: undefined in the model; array classes created for a signature that then throws are left out |
| `vm.h`, `fake-jni.h`, `env.h`: function tables and their overriding | `TableModel` | a table is `reserved0` and a list of slots |
| `vm.cpp` 468-512, 546-552 (attach, detach, GetEnv), step by step | `EnvModel` | sequentially consistent interleavings; CreateEnv is one step |
| `InterfaceFactory` in `vm.cpp`, `jni.h` (layout of JNINativeInterface) | `IfaceModel` | slots hold names of functions; overload resolution as in C++ |
| `jni.h` 435-921 (methods of `_JNIEnv` and `_JavaVM`) | `EnvCppModel` | one call per method; va_list as the list of its values |
| `src/baron/jvm.cpp`, `baron.h` | `BaronModel` | |
| `method.h`, `src/jnivm/method.cpp` (`Method::invoke`, `jinvoke`, `MethodProxy`), `Jvm::start` | `InvokeModel` | arguments are numbers and shared pointers, left to right; the registry is iterated in any order |
| `fake-jni.cpp` 184-194 `createMainMethod` | `MainModel` | `InstantiateArray` of the array class is not recorded; the two overloads are one |
| `src/fake-jni/jvm.cpp`, `fake-jni.cpp`, `fake-jni.h` 100-115, 254-281 | `LibModel`, `CtxModel`, `FakeModel` (references, classes of described objects; `VmModel` has `getClassInternal` of classes without a descriptor) | dlopen and friends answer arbitrarily |
| mutexes in `vm.cpp`, `findclass.cpp`, `field.cpp`, `method.cpp`, `env.h`, `jnitypes.h`, their absence in `hookManager.h` and `VM::GetEnv` | `ConcModel` | sequentially consistent interleavings of searches and insertions; the erasing loop of `UnregisterNatives` is one step |

### Comparison with the tests of the repository

`RepoTests.v` transcribes the unit tests of src/tests (Tests.cpp, fake-jni.cpp, CodeGen.cpp) and the programs of src/examples as programs and runs them on the model by computation. They are tests
and support no claim in MANIFEST.json; they are the check, available without running the code, that the model agrees with the behaviour its authors recorded. What
hooks do is written down in the transcription (the model decides which hook runs, with which receiver and arguments, and what the caller gets). Some tests hold only
in the build that the repository's CI uses (JNIVM_ENABLE_RETURN_NON_ZERO) and run there with `step_nz`. Large loops are shortened. The header of the file lists the tests
left out, comments at the tests the assertions left out. No assertion that was transcribed disagrees with the model.

### Not modelled

* The meaning of the generated C++ code beyond its text (and the blocks of the binding function); `std::regex` is a function on lines; writing files.
* `JNI_TRACE` and all logging.
* Memory exhaustion, the C++ memory model below sequential consistency (a data race is reported as such in
  `ConcModel`, its consequences beyond interleavings are not followed), iterator invalidation by unlocked insertions.
* Which C++ programs the compiler accepts; the preconditions on types are stated in `WrapModel`.
* Reuse of addresses: objects, references and IDs are identified by numbers that are never used again, in all models. In the code the allocator may give the
  address of a destroyed object to a new one, so statements about references and IDs that are gone (`C97_deleted`, `C106`, dangling references) speak of the objects, not of bit patterns.
