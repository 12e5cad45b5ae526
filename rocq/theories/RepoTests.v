(** The unit tests of the repository (src/tests/Tests.cpp, fake-jni.cpp, CodeGen.cpp) and the example programs (src/examples) run on the model.  They are no proofs of properties: they compare the model with the
    behaviour that the authors of the code have recorded.  Each [Example] is one test, with the assertions that concern run-time behaviour; assertions about C++ types
    (static_assert) are left out, and with them DONOTReturnSpecializedStubs (295-304).  Left out as well: the disabled test (1080), FakeJni_0_0_5_COMPAT (1265-1279) and 1313-1321,
    which pass strings of the C++ stack by value, and what a comment at a test names.  What a hook does is part of the transcription, not computed by the model: a test shows which
    hook runs, with which receiver and arguments, and what the caller gets.  Hooks run between a call and the [HookReturn_] or [HookThrow_] that ends them. *)
From Verif Require Import Base UtfModel SigModel VmState VmModel VmStep VmDemo WrapModel DescModel NonZeroModel BaronModel InvokeModel GenModel.
From Verif Require LibModel CtxModel FakeModel MainModel.
Set Implicit Arguments.
Unset Strict Implicit.
Local Open Scope char_scope.
Local Open Scope Z_scope.

(** The classes of the tests: 0 Class1, 1 Class2, 2 TestInterface, 3 TestClass, 4 TestClass2, 5 TestInterface2, 6 TestClass3, 7 TestInterface3, 8 TestClass4, 9 FakeJniTest,
    10 Test2::TestClass, 11 TestClass of VirtualFunction, 12 its TestClass2, 13 Y, 14 X, 15 Testclass, 16 ClassWithNatives, 17 ClassWithSuperClassNatives,
    18 FakeJni_0_0_5_COMPAT_TEST, 19 createMainMethod, 20 HelloWorld, 21 Functional::Test5, 22 SampleClass, 23 DerivedClass of the examples *)
Definition test_bases (n : nat) : option (list (option nat)) :=
  match n with
  | 2 | 5 | 10 | 11 | 13 | 15 | 9 | 16 | 18 | 19 | 20 | 21 => Some [None]
  | 3 => Some [None; Some 2]
  | 4 => Some [Some 3]
  | 6 => Some [Some 4; Some 5]
  | 7 => Some [Some 2; Some 5]
  | 8 => Some [Some 6; Some 7]
  | 12 => Some [Some 11]
  | 14 => Some [Some 13]
  | 22 => Some [None]
  | 23 => Some [Some 22]
  | 17 => Some [Some 16]
  | _ => None
  end%nat.
Definition Gt : cfg := mkCfg true false false true test_bases.
(** VM vm(false, true) *)
Definition Gtn : cfg := mkCfg true false true true test_bases.
Definition own_name (c : ccls) : option str := match c with ClUser 20%nat => Some (S_ "test/Gamma/Functional$Test5$HelloWorld") | ClUser 21%nat => Some (S_ "test/Gamma/Functional$Test5") | _ => None end.

(** ** Programs *)
Definition test := st -> bool.
Definition pass : test := fun _ => true.
Definition fails : test := fun _ => false.
Definition oref_eqb (a b : option oid) : bool := match a, b with Some x, Some y => Nat.eqb x y | None, None => true | _, _ => false end.
Definition check (b : bool) (k : test) : test := if b then k else fails.
(** a thread calls a function; [k] gets the result *)
Definition stepper := tid -> op -> st -> option (obs * st).
Section On.
Variable S : stepper.
Definition do_ (t : tid) (o : op) (k : val -> test) : test := fun s => match S t o s with Some (OVal v, s') => k v s' | _ => false end.
Definition ref_ (o : op) (k : option oid -> test) : test := do_ main o (fun v => match v with RRef h => k h | _ => fails end).
Definition oid_ (o : op) (k : oid -> test) : test := ref_ o (fun h => match h with Some i => k i | None => fails end).
Definition run_ (o : op) (k : test) : test := do_ main o (fun _ => k).
Definition is_ (o : op) (b : bool) (k : test) : test := do_ main o (fun v => match v with RBool c => check (Bool.eqb b c) k | _ => fails end).
Definition eq_ (o : op) (h : option oid) (k : test) : test := ref_ o (fun x => check (oref_eqb h x) k).
Definition int_ (o : op) (z : Z) (k : test) : test := do_ main o (fun v => match v with RInt c => check (Z.eqb z c) k | _ => fails end).
Definition ints_ (o : op) (l : list Z) (k : test) : test := do_ main o (fun v => match v with RInts c => check (if list_eq_dec Z.eq_dec l c then true else false) k | _ => fails end).
Definition bytes_ (o : op) (l : str) (k : test) : test := do_ main o (fun v => match v with RBytes c => check (str_eqb l c) k | _ => fails end).
(** a call that runs the hook [id] with receiver [r]; a call that finds nothing to run *)
Definition arg_eqb (a b : arg) : bool := match a, b with ArgZ x, ArgZ y => Z.eqb x y | ArgL x, ArgL y => oref_eqb x y | _, _ => false end.
Fixpoint args_eqb (a b : list arg) : bool := match a, b with [], [] => true | x :: a, y :: b => arg_eqb x y && args_eqb a b | _, _ => false end.
Definition enters (o : op) (id : nat) (r : option oid) (l : list arg) (k : test) : test :=
  do_ main o (fun v => match v with RCall (Entered i x y) => check (Nat.eqb i id && oref_eqb r x && args_eqb l y) k | _ => fails end).
Definition default_ (o : op) (k : test) : test := do_ main o (fun v => match v with RCall Default => k | _ => fails end).
Definition gives_ (v : hval) (r : rval) (k : test) : test :=
  do_ main (HookReturn_ v) (fun w => match w, r with RVal VUnit, VUnit => k | RVal (VPrim x), VPrim y => check (Z.eqb x y) k | RVal (VRef x), VRef y => check (oref_eqb x y) k | _, _ => fails end).
Definition reftype_ (o : op) (r : reftype) (k : test) : test :=
  do_ main o (fun v => match v, r with RRefType RefInvalid, RefInvalid | RRefType RefLocal, RefLocal | RRefType RefGlobal, RefGlobal | RRefType RefWeak, RefWeak => k | _, _ => fails end).
End On.
Definition nonnull_ (h : option oid) (k : test) : test := match h with Some _ => k | None => fails end.
Definition distinct_ (a b : option oid) (k : test) : test := check (negb (oref_eqb a b)) k.
(** Class::Hook, Class::HookInstance (also under the names HookInstanceFunction) *)
Definition hook_ (G : cfg) (a : act) (cl : oid) (name : str) (f : callable) (id : nat) (k : test) : test :=
  fun s => match registre G own_name main cl (mkReg a f id name) s with Some (Ok _, s') => k s' | _ => false end.
Fixpoint times (n : nat) (f : Z -> test -> test) (k : test) : test := match n with O => k | Datatypes.S m => times m f (f (Z.of_nat m) k) end.
(** std::shared_ptr::use_count *)
Definition uses (i : oid) (s : st) : nat := length (filter (Nat.eqb i) (roots s ++ heap_refs (s_heap s))).
Definition counted (i : oid) (k : nat -> test) : test := fun s => k (uses i s) s.
Definition runs_on (G : cfg) (p : test) : bool := p (init_vm G main).

Notation "x <~ o ; k" := (ref_ (step Gt) o (fun x => k)) (at level 90, o at level 89, k at level 90, right associativity, only parsing).
Notation "x <! o ; k" := (oid_ (step Gt) o (fun x => k)) (at level 90, o at level 89, k at level 90, right associativity, only parsing).
Notation "'perform' o ; k" := (run_ (step Gt) o k) (at level 90, o at level 89, k at level 90, right associativity, only parsing).
Notation "'yes' o ; k" := (is_ (step Gt) o true k) (at level 90, o at level 89, k at level 90, right associativity, only parsing).
Notation "'no' o ; k" := (is_ (step Gt) o false k) (at level 90, o at level 89, k at level 90, right associativity, only parsing).
Notation "o === h ; k" := (eq_ (step Gt) o h k) (at level 90, h at level 89, k at level 90, right associativity, only parsing).
Notation "o =# z ; k" := (int_ (step Gt) o z k) (at level 90, z at level 89, k at level 90, right associativity, only parsing).
Notation "o =* z ; k" := (ints_ (step Gt) o z k) (at level 90, z at level 89, k at level 90, right associativity, only parsing).
Notation "o =$ z ; k" := (bytes_ (step Gt) o z k) (at level 90, z at level 89, k at level 90, right associativity, only parsing).
Notation "'calls' o , id , r , l ; k" := (enters (step Gt) o id r l k) (at level 90, o at level 89, id at level 89, r at level 89, l at level 89, k at level 90, right associativity, only parsing).
Notation "'gives' v , r ; k" := (gives_ (step Gt) v r k) (at level 90, v at level 89, r at level 89, k at level 90, right associativity, only parsing).
Notation "'default' o ; k" := (default_ (step Gt) o k) (at level 90, o at level 89, k at level 90, right associativity, only parsing).
Notation "'hook' cl , n , f , id ; k" := (hook_ Gt AHook cl n f id k) (at level 90, cl at level 89, n at level 89, f at level 89, id at level 89, k at level 90, right associativity, only parsing).
Notation "'hookinst' cl , n , f , id ; k" := (hook_ Gt AHookInstance cl n f id k) (at level 90, cl at level 89, n at level 89, f at level 89, id at level 89, k at level 90, right associativity, only parsing).
Notation "'kind' h , r ; k" := (reftype_ (step Gt) (GetObjectRefType_ h) r k) (at level 90, h at level 89, r at level 89, k at level 90, right associativity, only parsing).
Notation "'assert' b ; k" := (check b k) (at level 90, b at level 89, k at level 90, right associativity, only parsing).
Definition V : str := S_ "()V".
Definition some (h : option oid) : bool := match h with Some _ => true | None => false end.
Definition PZ := RPrim PtZ.
Definition jstr : str := S_ "Ljava/lang/String;".

(** Tests.cpp 16-40 *)
Example BooleanFields : runs_on Gt (
  cl <! UBind_ 0 true (S_ "Class1"); hook cl, S_ "b", MemVar (ClUser 0) (Cprim PtZ), 1%nat; hook cl, S_ "b2", Var (Cprim PtZ), 2%nat;
  obj <! UNew_ 0 0; ncl <~ FindClass_ (S_ "Class1"); field <~ GetFieldID_ false ncl (S_ "b") (S_ "Z"); nobj <~ UToJNI_ (TUser 0) obj;
  calls SetField_ false PZ nobj field (ArgZ 1), 1%nat, nobj, [ArgZ 1]; gives HUnit, VUnit; calls GetField_ false PZ nobj field, 1%nat, nobj, []; gives HPrim 1, VPrim 1;
  calls SetField_ false PZ nobj field (ArgZ 0), 1%nat, nobj, [ArgZ 0]; gives HUnit, VUnit; calls GetField_ false PZ nobj field, 1%nat, nobj, []; gives HPrim 0, VPrim 0;
  field2 <~ GetFieldID_ true ncl (S_ "b2") (S_ "Z");
  calls SetField_ true PZ ncl field2 (ArgZ 1), 2%nat, ncl, [ArgZ 1]; gives HUnit, VUnit; calls GetField_ true PZ ncl field2, 2%nat, ncl, []; gives HPrim 1, VPrim 1;
  calls SetField_ true PZ ncl field2 (ArgZ 0), 2%nat, ncl, [ArgZ 0]; gives HUnit, VUnit; calls GetField_ true PZ ncl field2, 2%nat, ncl, []; gives HPrim 0, VPrim 0; pass) = true.
Proof. vm_compute. reflexivity. Qed.
(** 42-69; the setters keep the strings *)
Definition hello : list Z := map (fun c => Z.of_nat (nat_of_ascii c)) (S_ "Hello World").
Example StringFields : runs_on Gt (
  cl <! UBind_ 0 true (S_ "Class1"); hook cl, S_ "s", MemVar (ClUser 0) (Cshared ClString), 3%nat; hook cl, S_ "s2", Var (Cshared ClString), 4%nat;
  obj <! UNew_ 0 0; ncl <~ FindClass_ (S_ "Class1"); field <~ GetFieldID_ false ncl (S_ "s") jstr;
  str1 <~ NewString_ hello 11; str2 <~ NewStringUTF_ (Some (S_ "Hello World")); nobj <~ UToJNI_ (TUser 0) obj;
  calls SetField_ false RObj nobj field (ArgL str1), 3%nat, nobj, [ArgL str1]; perform UHold_ TString str1; gives HUnit, VUnit;
  calls GetField_ false RObj nobj field, 3%nat, nobj, []; gives HObj TString str1, VRef str1;
  calls SetField_ false RObj nobj field (ArgL str2), 3%nat, nobj, [ArgL str2]; perform UHold_ TString str2; gives HUnit, VUnit;
  calls GetField_ false RObj nobj field, 3%nat, nobj, []; gives HObj TString str2, VRef str2;
  field2 <~ GetFieldID_ true ncl (S_ "s2") jstr;
  calls SetField_ true RObj ncl field2 (ArgL str1), 4%nat, ncl, [ArgL str1]; gives HUnit, VUnit; calls GetField_ true RObj ncl field2, 4%nat, ncl, []; gives HObj TString str1, VRef str1;
  calls SetField_ true RObj ncl field2 (ArgL str2), 4%nat, ncl, [ArgL str2]; gives HUnit, VUnit; calls GetField_ true RObj ncl field2, 4%nat, ncl, []; gives HObj TString str2, VRef str2;
  pass) = true.
Proof. vm_compute. reflexivity. Qed.
(** 71-97 *)
Example Strings : runs_on Gt (
  js <~ NewStringUTF_ (Some (S_ "Hello World")); GetStringUTFLength_ js =# 11; GetStringUTFChars_ js =$ S_ "Hello World"; GetStringLength_ js =# 11;
  GetStringChars_ js =* hello; GetStringRegion_ js 1 9 9 =* firstn 9 (skipn 1 hello); pass) = true.
Proof. vm_compute. reflexivity. Qed.
(** 99-110 *)
Example Strings2 : runs_on Gt (js <~ NewString_ hello 11; GetStringLength_ js =# 11; GetStringRegion_ js 1 9 9 =* firstn 9 (skipn 1 hello); pass) = true.
Proof. vm_compute. reflexivity. Qed.
(** 112-122: "String with \0 Nullbyte" with its terminator *)
Definition with_null : list Z := map (fun c => Z.of_nat (nat_of_ascii c)) (S_ "String with ") ++ [0] ++ map (fun c => Z.of_nat (nat_of_ascii c)) (S_ " Nullbyte") ++ [0].
Example ModifiedUtf8Null : runs_on Gt (js <~ NewString_ with_null 23; GetStringUTFRegion_ js 12 1 3 =$ [ascii_of_nat 192; ascii_of_nat 128; ascii_of_nat 0]; pass) = true.
Proof. vm_compute. reflexivity. Qed.
(** 124-138, with 5 elements *)
Example ObjectArray : runs_on Gt (
  js <~ FindClass_ (S_ "java/lang/String"); hi <~ NewStringUTF_ (Some (S_ "Hi")); arr <~ NewObjectArray_ 5 js hi;
  c1 <~ GetObjectClass_ arr; FindClass_ (S_ "[Ljava/lang/String;") === c1; GetArrayLength_ arr =# 5;
  times 5 (fun i k => el <~ GetObjectArrayElement_ arr i; assert (some el); GetObjectClass_ el === js; GetStringLength_ el =# 2; GetStringUTFLength_ el =# 2; k) pass) = true.
Proof. vm_compute. reflexivity. Qed.
(** 140-161, with 5 elements *)
Example jbooleanArray : runs_on Gt (
  arr <~ NewArray_ PtZ 5; c1 <~ GetObjectClass_ arr; FindClass_ (S_ "[Z") === c1; GetArrayLength_ arr =# 5;
  times 5 (fun i k => GetArrayRegion_ PtZ arr i 1 =* [0]; k) (
  times 5 (fun i k => perform SetArrayRegion_ PtZ arr i 1 [1]; k) (
  times 5 (fun i k => GetArrayRegion_ PtZ arr i 1 =* [1]; k) pass))) = true.
Proof. vm_compute. reflexivity. Qed.
(** 174-185; a jint is 4 of the 8 bytes of the jvalue *)
Example jValuesfromValistPrimitives : JValuesfromValist (fun z => z)
  [AInt 1; AInt 2147483647; ALong 4611686018427387903; AInt (-2147483648); AInt 0; AInt 12; AInt 34; APtr 608523364] (S_ "(ZIJIZBSLjava/lang/String;)Z")
  = Ok ([1; 2147483647; 4611686018427387903; 2147483648; 0; 12; 34; 608523364], []).
Proof. vm_compute. reflexivity. Qed.
(** 189-203 *)
Example skipJNITypeTest : let s := S_ "[[[[[Ljava/lang/string;Ljava/lang/object;ZI[CJ" in
  map (SkipJNIType (skip_fuel s) s) [0; 23; 41; 42; 43; 45]%nat = [Ok 23; Ok 41; Ok 42; Ok 43; Ok 45; Ok 46]%nat.
Proof. vm_compute. reflexivity. Qed.
(** 220-242 *)
Example returnedrefs : runs_on Gt (
  cl <! UBind_ 1 true (S_ "Class2"); hook cl, S_ "test", Fn (Cshared (ClUser 1)) [], 5%nat;
  perform PushLocalFrame_ 32; perform EnsureLocalCapacity_ 64; c <~ FindClass_ (S_ "Class2"); m <~ GetMethodID_ true c (S_ "test") (S_ "()LClass2;");
  perform PushLocalFrame_ 32; calls CallStaticMethodA_ RObj c m [], 5%nat, c, []; o <! UNew_ 1 0; gives HObj (TUser 1) (Some o), VRef (Some o); perform UDrop_ o;
  perform DeleteLocalRef_ (Some o); PopLocalFrame_ None === None; PopLocalFrame_ None === None; perform DeleteLocalRef_ None; perform DeleteGlobalRef_ None; perform DeleteWeakGlobalRef_ None;
  PopLocalFrame_ None === None; PopLocalFrame_ None === None; PopLocalFrame_ None === None; fun s => negb (live s o)) = true.
Proof. vm_compute. reflexivity. Qed.
(** 247-264; the hook makes its array with NewObjectArray *)
Example returnedarrayrefs : runs_on Gt (
  cl <! UBind_ 1 true (S_ "Class2"); hook cl, S_ "test2", Fn (Cshared (ClArr (ClUser 1))) [], 6%nat;
  perform PushLocalFrame_ 32; c <~ FindClass_ (S_ "Class2"); m <~ GetMethodID_ true c (S_ "test2") (S_ "()[LClass2;");
  perform PushLocalFrame_ 32; calls CallStaticMethodA_ RObj c m [], 6%nat, c, []; o <! UNew_ 1 0; e <~ UToJNI_ (TUser 1) o; a <~ NewObjectArray_ 1 c e; gives HObj (TArr (Some 1%nat)) a, VRef a;
  perform UDrop_ o; perform PushLocalFrame_ 32; GetObjectArrayElement_ a 0 === Some o; perform DeleteLocalRef_ (Some o); PopLocalFrame_ None === None; perform DeleteLocalRef_ a;
  PopLocalFrame_ None === None; PopLocalFrame_ None === None; fun s => negb (live s o)) = true.
Proof. vm_compute. reflexivity. Qed.
(** 266-293 *)
Example classofclassobject : runs_on Gt (c <~ FindClass_ (S_ "Class2"); k <~ GetObjectClass_ c; FindClass_ (S_ "java/lang/Class") === k; pass) = true.
Proof. vm_compute. reflexivity. Qed.
(** 306-326 *)
Example Excepts : runs_on Gt (
  cl <! UBind_ 1 true (S_ "Class2"); hookinst cl, S_ "test", Fn Cvoid [CENV; Cptr ClObject], 7%nat;
  o <! UNew_ 1 0; obj <~ UToJNI_ (TUser 1) o; _c <~ UHold_ TClass (Some cl); c <~ UToJNI_ TClass cl; mid <~ GetMethodID_ false c (S_ "test") V;
  calls CallMethodA_ RVoid obj mid [], 7%nat, obj, []; do_ (step Gt) main (HookThrow_ (Err (S_ "Test"))) (fun _ =>
  th <~ ExceptionOccurred_; assert (some th); perform ExceptionDescribe_; perform ExceptionClear_; ExceptionOccurred_ === None; perform ExceptionDescribe_; pass)) = true.
Proof. vm_compute. reflexivity. Qed.
(** 328-344 *)
Example Monitor : runs_on Gt (
  cl <! UBind_ 1 true (S_ "Class2"); _c <~ UHold_ TClass (Some cl); c <~ UToJNI_ TClass cl; perform MonitorEnter_ c; perform MonitorEnter_ c; perform MonitorExit_ c; perform MonitorExit_ c;
  fun s => match lookup s cl with Some o => match o_mon o with None => true | Some _ => false end | None => false end) = true.
Proof. vm_compute. reflexivity. Qed.
(** 357-374. The test BaseClass of the repository only makes the two calls;
    what they return is asserted here in addition. *)
Definition bases (T : ty) (k : list (option str) -> test) : test :=
  fun s => match base_classes Gt T s with
           | Ret l s' => k (map (fun o => match o with Some i => match lookup s' i with Some x => match o_pay x with PClass c => Some (c_name c) | _ => None end | None => None end | None => None end) l) s'
           | _ => false
           end.
Example BaseClass : runs_on Gt (bases TWeak (fun a => bases TObject (fun b => assert (match a, b with [Some x], [None] => str_eqb x (S_ "Object") | _, _ => false end); pass))) = true.
Proof. vm_compute. reflexivity. Qed.
Example Interfaces : runs_on Gt (_c <! UBind_ 3 true (S_ "TestClass"); _d <! UBind_ 2 false (S_ "TestInterface");
  bases (TUser 3) (fun l => assert (match l with [Some x; Some y] => str_eqb x (S_ "Object") && str_eqb y (S_ "TestInterface") | _ => false end); pass)) = true.
Proof. vm_compute. reflexivity. Qed.
(** 484-542 *)
Example Inherience : runs_on Gt (
  i <! UBind_ 2 false (S_ "TestInterface"); hook i, S_ "Test", MemFn (ClUser 2) Cvoid [], 8%nat; i2 <! UBind_ 5 false (S_ "TestInterface2"); hook i2, S_ "Test2", MemFn (ClUser 5) Cvoid [], 9%nat;
  _a <! UBind_ 3 true (S_ "TestClass"); _b <! UBind_ 4 true (S_ "TestClass2"); _c <! UBind_ 6 true (S_ "TestClass3");
  testClass <~ FindClass_ (S_ "TestClass"); testClass2 <~ FindClass_ (S_ "TestClass2"); testClass3 <~ FindClass_ (S_ "TestClass3");
  testInterface <~ FindClass_ (S_ "TestInterface"); testInterface2 <~ FindClass_ (S_ "TestInterface2"); c <~ FindClass_ (S_ "java/lang/Class");
  yes IsInstanceOf_ testClass c; no IsAssignableFrom_ testClass c; yes IsAssignableFrom_ testClass testClass; yes IsAssignableFrom_ testClass2 testClass;
  yes IsAssignableFrom_ testClass testInterface; no IsAssignableFrom_ testClass testInterface2; yes IsAssignableFrom_ testClass2 testInterface; no IsAssignableFrom_ testClass2 testInterface2;
  yes IsAssignableFrom_ testClass3 testInterface; yes IsAssignableFrom_ testClass3 testInterface2; no IsAssignableFrom_ testInterface2 testClass3;
  m <~ GetMethodID_ false testInterface (S_ "Test") V; m2 <~ GetMethodID_ false testClass3 (S_ "Test2") V;
  obje <! UNew_ 6 0; _v1 <~ UToJNI_ (TUser 6) obje; v2 <~ UToJNI_ (TUser 2) obje; UHold_ (TUser 6) v2 === Some obje; UHold_ (TUser 2) v2 === Some obje;
  no ExceptionCheck_; calls CallMethodA_ RVoid (Some obje) m [], 8%nat, Some obje, []; perform HookThrow_ (UserExn 3); yes ExceptionCheck_; perform ExceptionClear_; no ExceptionCheck_;
  calls CallMethodA_ RVoid (Some obje) m2 [], 9%nat, Some obje, []; gives HUnit, VUnit; no ExceptionCheck_;
  GetSuperclass_ testClass2 === testClass; GetSuperclass_ testClass3 === testClass2; pass) = true.
Proof. vm_compute. reflexivity. Qed.
(** 558-601 *)
Example Inherience2 : runs_on Gt (
  i <! UBind_ 2 false (S_ "TestInterface"); hook i, S_ "Test", MemFn (ClUser 2) Cvoid [], 8%nat; i2 <! UBind_ 5 false (S_ "TestInterface2"); hook i2, S_ "Test2", MemFn (ClUser 5) Cvoid [], 9%nat;
  _i3 <! UBind_ 7 false (S_ "TestInterface3"); _a <! UBind_ 3 true (S_ "TestClass"); _b <! UBind_ 4 true (S_ "TestClass2"); _c <! UBind_ 6 true (S_ "TestClass3"); _d <! UBind_ 8 true (S_ "TestClass4");
  testClass <~ FindClass_ (S_ "TestClass"); _testClass2 <~ FindClass_ (S_ "TestClass2"); _testClass3 <~ FindClass_ (S_ "TestClass3"); testClass4 <~ FindClass_ (S_ "TestClass4");
  testInterface <~ FindClass_ (S_ "TestInterface"); testInterface2 <~ FindClass_ (S_ "TestInterface2"); testInterface3 <~ FindClass_ (S_ "TestInterface3"); c <~ FindClass_ (S_ "java/lang/Class");
  yes IsInstanceOf_ testClass c; no IsAssignableFrom_ testClass c; yes IsAssignableFrom_ testClass4 testInterface3; yes IsAssignableFrom_ testClass4 testInterface2; yes IsAssignableFrom_ testClass4 testInterface;
  _m <~ GetMethodID_ false testInterface (S_ "Test") V; m2 <~ GetMethodID_ false testClass4 (S_ "Test2") V;
  x <! UNew_ 8 0; v1 <~ UToJNI_ (TUser 8) x; v2 <~ UToJNI_ (TUser 2) x; _v3 <~ UHold_ (TUser 5) v2; v4 <~ UHold_ (TUser 8) v2;
  assert (oref_eqb v1 (Some x)); assert (oref_eqb v4 (Some x));
  calls CallMethodA_ RVoid v1 m2 [], 9%nat, v1, []; perform HookThrow_ (Err (S_ "Hi")); calls CallMethodA_ RVoid v2 m2 [], 9%nat, v2, []; perform HookThrow_ (Err (S_ "Hi"));
  counted x (fun olduse => weak <~ NewWeakGlobalRef_ v2; counted x (fun u => assert (Nat.eqb olduse u);
  v5 <~ UHold_ (TUser 8) weak; assert (some v5); counted x (fun u => assert (Nat.eqb (olduse + 1) u);
  perform DeleteWeakGlobalRef_ weak; counted x (fun u => assert (Nat.eqb (olduse + 1) u); pass))))) = true.
Proof. vm_compute. reflexivity. Qed.
(** 603-718: builds with JNIVM_ENABLE_RETURN_NON_ZERO, where the factory makes an object *)
Definition nz : stepper := fun t o s => step_nz Gt t 0 o s.
Definition factory (frame : bool) (k : oid -> option oid -> oid -> test) : test :=
  _i <! UBind_ 2 false (S_ "TestInterface"); c <! UBind_ 3 true (S_ "TestClass"); x <~ FindClass_ (S_ "TestClass"); m <~ GetMethodID_ true x (S_ "factory") (S_ "()LTestClass;");
  let go := oid_ nz (CallStaticMethodA_ RObj x m []) (k c x) in
  if frame then (perform PushLocalFrame_ 100; go) else go.
Example ExternalFuncs : runs_on Gt (factory false (fun c x o =>
  _src <~ UHold_ TObject (Some o); hookinst c, S_ "test", Fn Cvoid [CENV; Cptr ClObject], 10%nat; m2 <~ GetMethodID_ false x (S_ "test") V; calls CallMethodA_ RVoid (Some o) m2 [], 10%nat, Some o, []; gives HUnit, VUnit;
  _src <~ UHold_ TObject (Some o); hookinst c, S_ "test", Fn Cvoid [Cptr ClObject], 11%nat; calls CallMethodA_ RVoid (Some o) m2 [], 11%nat, Some o, []; gives HUnit, VUnit;
  _src <~ UHold_ TObject (Some o); hookinst c, S_ "test", Fn Cvoid [], 12%nat; calls CallMethodA_ RVoid (Some o) m2 [], 12%nat, Some o, []; gives HUnit, VUnit;
  hook c, S_ "test", Fn Cvoid [CENV; Cptr ClClass], 13%nat; m3 <~ GetMethodID_ true x (S_ "test") V; calls CallStaticMethodA_ RVoid x m3 [], 13%nat, Some c, []; gives HUnit, VUnit;
  hook c, S_ "test", Fn Cvoid [Cptr ClClass], 14%nat; calls CallStaticMethodA_ RVoid x m3 [], 14%nat, Some c, []; gives HUnit, VUnit;
  hook c, S_ "test", Fn Cvoid [], 15%nat; calls CallStaticMethodA_ RVoid x m3 [], 15%nat, Some c, []; gives HUnit, VUnit; pass)) = true.
Proof. vm_compute. reflexivity. Qed.
Example WeakAndIsSame : runs_on Gt (factory true (fun _ _ o => w <~ NewWeakGlobalRef_ (Some o); yes IsSameObject_ (Some o) w; perform PopLocalFrame_ None; yes IsSameObject_ None w; pass)) = true.
Proof. vm_compute. reflexivity. Qed.
Example WeakToGlobalReference : runs_on Gt (factory true (fun _ _ o =>
  w <~ NewWeakGlobalRef_ (Some o); yes IsSameObject_ (Some o) w; kind w, RefWeak; g <~ NewGlobalRef_ w; yes IsSameObject_ g w; yes IsSameObject_ g (Some o); kind g, RefGlobal;
  perform PopLocalFrame_ None; no IsSameObject_ None w; perform DeleteGlobalRef_ g; yes IsSameObject_ None w; NewGlobalRef_ w === None; pass)) = true.
Proof. vm_compute. reflexivity. Qed.
Example WeakToLocalReference : runs_on Gt (kind None, RefInvalid; factory true (fun _ _ o =>
  w <~ NewWeakGlobalRef_ (Some o); yes IsSameObject_ (Some o) w; kind w, RefWeak; g <~ NewLocalRef_ w; yes IsSameObject_ g w; yes IsSameObject_ g (Some o); kind g, RefLocal;
  perform DeleteLocalRef_ (Some o); no IsSameObject_ None w; perform PopLocalFrame_ None; yes IsSameObject_ None w; NewLocalRef_ w === None; NewWeakGlobalRef_ w === None; NewGlobalRef_ w === None; pass)) = true.
Proof. vm_compute. reflexivity. Qed.
(** 844-899.  What is compared is which of the hooked functions runs: 20 and 21 are the member functions Test of TestClass and TestClass2, 22 and 23 the functions hooked as
    Test2. *)
Definition SI : str := S_ "()I".
Definition PI := RPrim PtI.
Example VirtualFunction : runs_on Gt (
  c <! UBind_ 11 true (S_ "TestClass"); c2 <! UBind_ 12 true (S_ "TestClass2"); hook c, S_ "Test", MemFn (ClUser 11) (Cprim PtI) [], 20%nat; hook c2, S_ "Test", MemFn (ClUser 12) (Cprim PtI) [], 21%nat;
  hookinst c, S_ "Test2", Fn (Cprim PtI) [CENV; Cptr (ClUser 11)], 22%nat; hookinst c2, S_ "Test2", Fn (Cprim PtI) [CENV; Cptr (ClUser 12)], 23%nat;
  v <! UNew_ 12 0; p <~ UToJNI_ (TUser 12) v; _k2 <~ UHold_ TClass (Some c2); _c2 <~ UToJNI_ TClass c2; _k <~ UHold_ TClass (Some c); _c <~ UToJNI_ TClass c;
  m <~ GetMethodID_ false _c (S_ "Test") SI; calls CallMethodA_ PI p m [], 21%nat, p, []; gives HPrim 1, VPrim 1; m' <~ GetMethodID_ false _c2 (S_ "Test") SI; calls CallMethodA_ PI p m' [], 21%nat, p, []; gives HPrim 1, VPrim 1;
  n <~ GetMethodID_ false _c (S_ "Test2") SI; n2 <~ GetMethodID_ false _c2 (S_ "Test2") SI;
  calls CallMethodA_ PI p n [], 23%nat, p, []; gives HPrim 1, VPrim 1; calls CallMethodA_ PI p n2 [], 23%nat, p, []; gives HPrim 1, VPrim 1;
  calls CallNonvirtualMethodA_ PI p _c2 n [], 23%nat, p, []; gives HPrim 1, VPrim 1; calls CallNonvirtualMethodA_ PI p _c2 n2 [], 23%nat, p, []; gives HPrim 1, VPrim 1;
  calls CallNonvirtualMethodA_ PI p _c n [], 22%nat, p, []; gives HPrim 0, VPrim 0; calls CallNonvirtualMethodA_ PI p _c n2 [], 22%nat, p, []; gives HPrim 0, VPrim 0; pass) = true.
Proof. vm_compute. reflexivity. Qed.
(** 903-926 without the assertions on GetEnv and GetJavaVM (one JavaVM, not a value of the model) *)
Definition on (t : tid) (o : op) (k : val -> test) : test := do_ (step Gt) t o k.
Example VM_threads : runs_on Gt (on 2%nat Attach_ (fun e => on 2%nat Attach_ (fun e2 => assert (match e, e2 with REnv x, REnv y => Nat.eqb x y | _, _ => false end);
  on 2%nat (NewArray_ PtC 10) (fun a => match a with RRef a => on 2%nat (NewWeakGlobalRef_ a) (fun g => match g with RRef g => on 2%nat (NewLocalRef_ g) (fun l => match l with RRef l => assert (some l);
  on 2%nat Detach_ (fun _ => NewLocalRef_ g === None; fun s => match step Gt main FatalError_ s with None => true | _ => false end) | _ => fails end) | _ => fails end) | _ => fails end)))) = true.
Proof. vm_compute. reflexivity. Qed.
(** 1105-1135 *)
Example Reflection : runs_on Gt (c <~ FindClass_ (S_ "Test2"); assert (some c); a <~ GetMethodID_ false c (S_ "Test") V; assert (some a); b <~ GetFieldID_ false c (S_ "Test") (S_ "I"); assert (some b);
  d <~ GetMethodID_ true c (S_ "Test") V; assert (some d); e <~ GetFieldID_ true c (S_ "Test") (S_ "I"); assert (some e); ToReflectedMethod_ c a true === None; r <~ ToReflectedMethod_ c a false; assert (some r); pass) = true.
Proof. vm_compute. reflexivity. Qed.
(** 1139-1173 for both kinds of char; the second argument of JCharToUTF is the size of the buffer *)
Definition chars (l : list Z) : str := map i2c l ++ [zero].
Definition string_util (sgn : bool) : Prop :=
  let two := chars [195; 164] in let three := chars [224; 182; 166] in let four := chars [240; 159; 167; 178] in
  UTFToJCharLength sgn two 0 = Ok 2%nat /\ JCharToUTFLength 228 = 2 /\ UTFToJChar sgn two 0 = Ok (228, 2%nat) /\ JCharToUTF sgn 228 5 = Ok (map i2c [195; 164]) /\
  UTFToJCharLength sgn three 0 = Ok 3%nat /\ JCharToUTFLength 3494 = 3 /\ UTFToJChar sgn three 0 = Ok (3494, 3%nat) /\ JCharToUTF sgn 3494 5 = Ok (map i2c [224; 182; 166]) /\
  (exists e, UTFToJCharLength sgn four 0 = Thrown e) /\ (exists e, UTFToJChar sgn four 0 = Thrown e) /\
  Forall (fun u => JCharToUTFLength u = 3 /\ exists b, JCharToUTF sgn u 5 = Ok b /\ length b = 3%nat /\ UTFToJCharLength sgn b 0 = Ok 3%nat /\ UTFToJChar sgn b 0 = Ok (u, 3%nat)) [55358; 56818].
Example StringUtil sgn : string_util sgn.
Proof.
  destruct sgn; cbv zeta delta [string_util]; do 8 (split; [vm_compute; reflexivity|]); (split; [eexists; vm_compute; reflexivity|]); (split; [eexists; vm_compute; reflexivity|]);
    repeat constructor; eexists; (split; [vm_compute; reflexivity|]); vm_compute; repeat split.
Qed.
(** 1175-1191 *)
Example ContructArray : runs_on Gt (c <~ FindClass_ (S_ "Test"); m <~ GetMethodID_ true c (S_ "Test") (S_ "()[LTest;"); oid_ nz (CallStaticMethodA_ RObj c m []) (fun a => perform GetArrayLength_ (Some a);
  m2 <~ GetMethodID_ true c (S_ "Test") (S_ "()[I"); oid_ nz (CallStaticMethodA_ RObj c m2 []) (fun a2 => GetArrayLength_ (Some a2) =# 0; x <~ UHold_ (TPArr PtI) (Some a2); assert (some x); GetArrayLength_ x =# 0; pass))) = true.
Proof. vm_compute. reflexivity. Qed.
(** 1390-1421 *)
Definition init : str := S_ "<init>".
Example Wrapper : runs_on Gt (
  cl <! UBind_ 15 true (S_ "Testclass"); hookinst cl, S_ "A", Fn Cvoid [CENV], 24%nat; hookinst cl, S_ "B", Fn Cvoid [CENV; Cptr ClObject], 25%nat; hookinst cl, S_ "C", Fn Cvoid [CENV; Cptr (ClUser 15)], 26%nat;
  nc <~ FindClass_ (S_ "Testclass"); m <~ GetMethodID_ false nc init V; oid_ nz (CallStaticMethodA_ RObj nc m []) (fun ob =>
  a <~ GetMethodID_ false nc (S_ "A") V; calls CallMethodA_ RVoid (Some ob) a [], 24%nat, Some ob, []; gives HUnit, VUnit; b <~ GetMethodID_ false nc (S_ "B") V; calls CallMethodA_ RVoid (Some ob) b [], 25%nat, Some ob, []; gives HUnit, VUnit;
  c <~ GetMethodID_ false nc (S_ "C") V; calls CallMethodA_ RVoid (Some ob) c [], 26%nat, Some ob, []; gives HUnit, VUnit;
  d <~ GetMethodID_ false nc (S_ "D") (S_ "(Ljava/lang/String;)V"); x <~ NewStringUTF_ (Some (S_ "Test")); default CallMethodA_ RVoid (Some ob) d [ArgL x]; pass)) = true.
Proof. vm_compute. reflexivity. Qed.
(** 1423-1441 *)
Example FilterFalsePositives : runs_on Gtn (let S := step Gtn in oid_ S (UBind_ 2 false (S_ "TestInterface")) (fun _ => oid_ S (UBind_ 3 true (S_ "TestClass")) (fun cl =>
  hook_ Gtn AHookInstance cl (S_ "Test") (Fn Cvoid [Cptr (ClUser 2)]) 27 (ref_ S (FindClass_ (S_ "TestClass")) (fun c => eq_ S (GetMethodID_ false c (S_ "Test") V) None (
  ref_ S (GetMethodID_ false c (S_ "Test") (S_ "(LTestInterface;)V")) (fun id => assert (some id); oid_ S (UNew_ 3 0) (fun tc => ref_ S (UToJNI_ (TUser 3) tc) (fun n =>
  enters S (CallMethodA_ RVoid n id [ArgL None]) 27 n [ArgL None] (gives_ S HUnit VUnit pass)))))))))) = true.
Proof. vm_compute. reflexivity. Qed.
(** 1443-1521: the hooks of fields; the class is not bound to a C++ type *)
Definition accessor (G : cfg) (how : names -> (ccls -> bool) -> nat -> callable -> option (out (list WrapModel.hook))) (cl : oid) (name : str) (f : callable) (id : nat) (k : test) : test :=
  fun s => match how (names_in own_name s) (mine_in s cl) id f with
           | Some (_, Ok hs) => match all_ops cl name f hs with Some l => match run_ops G main l s with Some s' => k s' | None => false end | None => false end
           | _ => false
           end.
Definition optional_parameters : test :=
  let S := step Gtn in let I := Cprim PtI in
  oid_ S (UFindClass_ false (S_ "JustATest")) (fun cl =>
  let h n P id k := hook_ Gtn AHook cl (S_ n) (Fn Cvoid P) id k in
  h "member"%string [CENV] 30%nat (h "member2"%string [CENV; Cptr ClObject] 31%nat (h "member3"%string [CENV; Cjobject] 32%nat (h "member4"%string [CENV; Cjclass] 33%nat (h "member5"%string [CENV; Cptr ClClass] 34%nat (
  h "member6"%string [CJNIEnv; Cjclass] 35%nat (h "member7"%string [Cjclass] 36%nat (h "member8"%string [Cptr ClClass] 37%nat (h "member9"%string [CJNIEnv] 38%nat (
  let g P id k := accessor Gtn HookGetterFunction cl (S_ "field0") (Fn I P) id k in let p P id k := accessor Gtn HookSetterFunction cl (S_ "field0") (Fn Cvoid (P ++ [I])) id k in
  g [CJNIEnv] 39%nat (g [Cptr ClClass] 40%nat (g [CJNIEnv; Cptr ClClass] 41%nat (p [CJNIEnv] 42%nat (p [Cptr ClClass] 43%nat (p [CJNIEnv; Cptr ClClass] 44%nat (
  let g P id k := accessor Gtn HookInstanceGetterFunction cl (S_ "field2") (Fn I P) id k in let p P id k := accessor Gtn HookInstanceSetterFunction cl (S_ "field2") (Fn Cvoid (P ++ [I])) id k in
  g [CJNIEnv] 45%nat (g [Cptr ClObject] 46%nat (g [CJNIEnv; Cptr ClObject] 47%nat (p [CJNIEnv] 48%nat (p [Cptr ClObject] 49%nat (p [CJNIEnv; Cptr ClObject] 50%nat (
  ref_ S (FindClass_ (S_ "JustATest")) (fun c => ref_ S (GetMethodID_ true c (S_ "member6") V) (fun m => assert (some m); enters S (CallStaticMethodA_ RVoid c m []) 35 c [] (
  ref_ S (GetMethodID_ true c (S_ "member") V) (fun m => enters S (CallStaticMethodA_ RVoid c m []) 30 c [] (gives_ S HUnit VUnit (gives_ S HUnit VUnit pass)))))))))))))))))))))))))))).
Example OptionalParameter : runs_on Gtn optional_parameters = true.
Proof. vm_compute. reflexivity. Qed.

(** ** Libraries.  dlsym is no event of [LibModel]; its calls are not counted here. *)
Import LibModel.
Definition events (p : ev -> bool) (s : lst) : nat := length (filter p (l_trace s)).
Definition is_open e := match e with EOpen _ _ => true | _ => false end.
Definition is_load e := match e with ELoad _ _ => true | _ => false end.
Definition is_unload e := match e with EUnload _ _ => true | _ => false end.
Definition is_close e := match e with EClose _ => true | _ => false end.
Definition seen (s : lst) : nat * nat * nat * nat := (events is_open s, events is_load s, events is_unload s, events is_close s).
Definition testpath (n : str) : lop := LAttach n true true true [] false true.
(** 940-979, 981-1026, 1028-1077; the order of destruction is any *)
Example attachLibrary order : let s := lrun (testpath (S_ "testpath")) lstart in seen s = (1, 1, 0, 0)%nat /\ (order = [] \/ order = [S_ "testpath"] -> seen (shutdown order s) = (1, 1, 1, 1)%nat).
Proof. split; [reflexivity|]. intros [->| ->]; reflexivity. Qed.
Example attachLibrary2 : let s := lrun (testpath (S_ "testpath")) lstart in let s' := lrun (testpath (S_ "testpath2")) s in
  seen s = (1, 1, 0, 0)%nat /\ seen s' = (2, 2, 0, 0)%nat /\ seen (shutdown [] s') = (2, 2, 2, 2)%nat /\ seen (shutdown [S_ "testpath2"; S_ "testpath"] s') = (2, 2, 2, 2)%nat.
Proof. vm_compute. repeat split. Qed.
Example attachLibrary3 : let s := lrun (testpath (S_ "testpath")) lstart in let s1 := lrun (LRemove (S_ "testpath")) s in let s2 := lrun (testpath (S_ "testpath2")) s1 in
  seen s = (1, 1, 0, 0)%nat /\ seen s1 = (1, 1, 1, 1)%nat /\ seen s2 = (2, 2, 1, 1)%nat /\ seen (shutdown [] s2) = (2, 2, 2, 2)%nat.
Proof. vm_compute. repeat split. Qed.
(** fake-jni.cpp 107-116: no file of that name, functions linked into the program *)
Example LoadStaticLibrary : let s := lrun (LAttach (S_ "jnistatic") false true true [] false true) lstart in
  l_trace s = [EFail (Some (S_ "jnistatic")); EOpen 0 None; ELoad 0 (S_ "JNI_OnLoad_jnistatic")] /\ l_trace (shutdown [] s) = l_trace s ++ [EUnload 0 (S_ "JNI_OnUnload_jnistatic"); EClose 0].
Proof. vm_compute. split; reflexivity. Qed.

(** ** Baron.  1324-1362 *)
Section Baron.
Definition btest := (rules * st -> bool)%type.
Definition b_ (o : bop) (k : val -> btest) : btest := fun x => match bstep Gt main o x with Some (OVal v, y) => k v y | _ => false end.
Definition bnull (want : bool) (o : op) (k : btest) : btest := b_ (BVm o) (fun v => match v with RRef h => if Bool.eqb want (negb (some h)) then k else fun _ => false | _ => fun _ => false end).
Definition bref (o : op) (k : option oid -> btest) : btest := b_ (BVm o) (fun v => match v with RRef h => k h | _ => fun _ => false end).
Definition denied := bnull true.
Definition given := bnull false.
Definition jobj : str := S_ "Ljava/lang/Object;".
Definition denied_fabrication : btest :=
  b_ (BDenyClass (S_ "Test")) (fun _ => b_ (BVm (PushLocalFrame_ 0)) (fun _ => denied (FindClass_ (S_ "Test")) (given (FindClass_ (S_ "Test2")) (b_ (BDenyClass (S_ "Test2")) (fun _ => given (FindClass_ (S_ "Test2")) (
  b_ (BDenyMethod init V []) (fun _ => bref (FindClass_ (S_ "Test2")) (fun t2 => let m n g := GetMethodID_ false t2 (S_ n) (S_ g) in let f n g := GetFieldID_ false t2 (S_ n) g in
  denied (m "<init>" "()V")%string (given (m "test" "()V")%string (given (m "<init>" "(Ljava/lang/String;)V")%string (b_ (BDenyMethod [] (S_ "()Ljava/lang/String;") []) (fun _ =>
  denied (m "test2" "()Ljava/lang/String;")%string (given (m "test3" "()Ljava/lang/Object;")%string (given (m "somethingelse" "()Ljava/lang/Object;")%string (denied (m "somethingelse" "()Ljava/lang/String;")%string (
  b_ (BDenyField [] jstr []) (fun _ => denied (f "test2"%string jstr) (given (f "test3"%string jobj) (given (f "somethingelse"%string jobj) (denied (f "somethingelse"%string jstr) (
  b_ (BDenyField (S_ "somethingelseAgain") jobj []) (fun _ => denied (f "somethingelseAgain"%string jobj) (b_ (BDenyField (S_ "somethingelseAgain2") jobj (S_ "java/lang/String")) (fun _ =>
  given (f "somethingelseAgain2"%string jobj) (bref (FindClass_ (S_ "java/lang/String")) (fun c => denied (GetFieldID_ false c (S_ "somethingelseAgain2") jobj) (fun _ => true))))))))))))))))))))))))))).
Example DeniedFabrication : denied_fabrication (binit Gt main no_rules) = true.
Proof. vm_compute. reflexivity. Qed.
End Baron.
(** 1364-1387.  The test asserts nothing about the last call: pointers to member functions cannot be called non virtually (wrap.h 69-71), so that an exception is pending. *)
Example DeniedFabrication2 : runs_on Gt (
  y <! UBind_ 13 true (S_ "Y"); hook y, S_ "Gamma", MemFn (ClUser 13) Cvoid [], 51%nat; x <! UBind_ 14 true (S_ "X"); hook x, S_ "Gamma", MemFn (ClUser 14) Cvoid [], 52%nat;
  c <~ FindClass_ (S_ "X"); m <~ GetMethodID_ false c init V; oid_ nz (CallStaticMethodA_ RObj c m []) (fun o => m2 <~ GetMethodID_ false c (S_ "Gamma") V;
  default CallNonvirtualMethodA_ RVoid (Some o) c m2 []; yes ExceptionCheck_; pass)) = true.
Proof. vm_compute. reflexivity. Qed.

(** ** Fake-jni and Baron with descriptors.  [Gtn] is also the VM of FakeJni::Jvm (jvm.cpp 6-13 returns null for unknown members), [Gt] that of Baron::Jvm (src/baron/jvm.cpp 7). *)
Definition register_ (G : cfg) (n : nat) (inst : bool) (name : str) (ds : list desc) (k : oid -> test) : test :=
  fun s => match registerClass G false own_name main n inst name ds s with Some (Ok c, s') => k c s' | _ => false end.
(** Jvm::findClass of a fake-jni VM (fake-jni.cpp 49-51) and of Baron *)
Definition found_ (G : cfg) (name : str) (k : oid -> test) : test := oid_ (step G) (UFindClass_ true name) k.
Definition bfound_ (name : str) (k : oid -> test) : test := fun s => match findClass Gt no_rules main name s with Ret (Some c) s' => k c (finish s') | _ => false end.
Definition fake_jni_test : list desc :=
  [DCtor (ClUser 9) [] 60; DMember (MemVar (ClUser 9) (Cprim PtI)) 61 (S_ "f") None; DMember (MemFn (ClUser 9) Cvoid []) 62 (S_ "test") None].
Definition FJT := S_ "FakeJniTest".
Definition class_name (c : oid) (k : str -> test) : test := fun s => match lookup s c with Some x => match o_pay x with PClass y => k (c_prefix y) s | _ => false end | None => false end.
(** Tests.cpp 448-473, the part about the VM; [nz]: builds that make objects *)
Definition baron_test (nonzero : bool) : test :=
  register_ Gt 9 true FJT fake_jni_test (fun _ => perform PushLocalFrame_ 0; c <~ FindClass_ FJT; ctor <~ GetMethodID_ false c init V;
  calls CallStaticMethodA_ RObj c ctor [], 60%nat, c, []; o <! UNew_ 9 0; gives HObj (TUser 9) (Some o), VRef (Some o); perform UDrop_ o; _ret <! UNew_ 9 0;
  id2 <~ GetMethodID_ true c (S_ "test") (S_ "()LFakeJniTest;");
  (if nonzero then oid_ nz (CallStaticMethodA_ RObj c id2 []) (fun _ => pass) else (default CallStaticMethodA_ RObj c id2 []; bfound_ FJT (fun x s =>
     match FakeModel.getClass Gt (fun _ => None) main x s with Some (inl k, s') => class_name k (fun n => assert (str_eqb n (S_ "java/lang/Class")); pass) s' | _ => false end)))).
Example Baron_Test : runs_on Gt (baron_test false) = true /\ runs_on Gt (baron_test true) = true.
Proof. split; vm_compute; reflexivity. Qed.
(** Class::getMethod and MethodProxy::invoke without arguments; [k] gets what runs *)
Definition invoked (G : cfg) (isClass : bool) (cl : oid) (sig name : str) (r : oid) (k : progress -> test) : test :=
  do_ (step G) main (UGetMethod_ cl sig name) (fun v => match v with RTriple a b n => fun s => match proxy_invoke G main isClass (mkProxy a b n) r [] s with Some (p, s') => k p s' | None => false end | _ => fails end).
(** 722-731: the exception leaves invoke *)
Example Master : runs_on Gt (register_ Gt 9 true FJT fake_jni_test (fun _ => perform PushLocalFrame_ 0; bfound_ FJT (fun c => x <! UNew_ 9 0;
  invoked Gt false c V (S_ "test") x (fun p => match p with IHook RVoid 62%nat (Some r) [] => assert (Nat.eqb r x); perform HookThrow_ (UserExn 3);
     (fun s => match invoke_end Gt main (held_by x []) VUnit s with Some (inr (UserExn 3%nat), _) => true | _ => false end) | _ => fails end)))) = true.
Proof. vm_compute. reflexivity. Qed.
(** 793-842.  The arrays have 2 and 3 elements instead of 12 and 20.  Test4 takes arrays of arrays, which [DescModel] does not cover: its hook is installed with the signature
    that the test asks for.  Instatiate returns null or an object, depending on the build; here null. *)
Definition natives_of (c : oid) (n : nat) (k : test) : test := fun s => match lookup s c with Some x => match o_pay x with PClass y => Nat.eqb (length (c_natives y)) n && k s | _ => false end | None => false end.
Definition sig4 := S_ "([Ljava/lang/Class;[[LTestClass;)V".
Example Hooking : runs_on Gt (
  c <! UBind_ 10 true (S_ "TestClass"); hook c, S_ "Test", MemFn (ClUser 10) Cbool [Cbool], 63%nat; hook c, S_ "Test2", MemFn (ClUser 10) (Cprim PtZ) [], 64%nat;
  hook c, S_ "Test2", Fn Cvoid [Cshared ClClass; Cshared (ClUser 10)], 65%nat; perform UHookMethod_ c true (S_ "Test4") sig4 (mkHandle 66 KStatic RVoid false);
  mid <~ GetMethodID_ true (Some c) (S_ "Instatiate") (S_ "()LTestClass;"); default CallStaticMethodA_ RObj (Some c) mid [];
  perform RegisterNatives_ (Some c) [(S_ "NativeTest3", S_ "(LTestClass;)V", Some 1%nat); (S_ "NativeTest4", S_ "(Ljava/lang/Class;)V", Some 2%nat); (S_ "NativeTest5", S_ "(Ljava/lang/Class;)Ljava/lang/Class;", Some 3%nat)] 3;
  natives_of c 3 (inner <~ NewObjectArray_ 2 (Some c) None; ic <~ GetObjectClass_ inner; outer <~ NewObjectArray_ 3 ic inner; m <~ GetMethodID_ true (Some c) (S_ "Test4") sig4;
  calls CallStaticMethodA_ RVoid (Some c) m [ArgL None; ArgL outer], 66%nat, Some c, [ArgL None; ArgL outer]; gives HUnit, VUnit;
  perform UnregisterNatives_ (Some c); natives_of c 0 pass)) = true.
Proof. vm_compute. reflexivity. Qed.
(** 928-937 *)
Definition raised (r : CtxModel.result) : option bool := match r with Some (b, _) => Some b | None => None end.
Definition context : list CtxModel.prog := [CtxModel.PScope None None [CtxModel.PDo ExceptionCheck_]].
Definition then_run (r : CtxModel.result) (t : tid) (l : list CtxModel.prog) : CtxModel.result := match r with Some (_, w) => CtxModel.pexecs Gtn t l w | None => None end.
Example FakeJni_VM : match CtxModel.create Gtn main (CtxModel.mkW [] []) with
  | None => False
  | Some w =>
      let r1 := CtxModel.pexecs Gtn main context w in let r2 := then_run r1 2%nat context in let r3 := then_run r2 2%nat [CtxModel.PScope (Some 0%nat) (Some 0) [CtxModel.PDo ExceptionCheck_]] in
      let r4 := match r3 with Some (b, w) => match CtxModel.thread_exit Gtn 2%nat w with Some w' => Some (b, w') | None => None end | None => None end in
      raised r1 = Some false /\ raised r2 = Some true /\ raised r3 = Some false /\ raised (then_run r4 main context) = Some false
  end.
Proof. vm_compute. repeat split. Qed.
(** 1250-1263, up to the start: the class of the test's own [main] is left out, because its signature has an array of strings ([DescModel] has none); [main_class] is tried last *)
Definition inner_class := S_ "test/Gamma/Functional$Test5$HelloWorld".
Definition hooked (m : option oid) (id : nat) (k : test) : test :=
  fun s => match m with
           | Some i => match lookup s i with Some y => match o_pay y with PMethod z => match m_handle z with Some hd => Nat.eqb (h_id hd) id && k s | None => false end | _ => false end | None => false end
           | None => false
           end.
Definition test23 : test :=
  fun s => match MainModel.createMainMethod Gt own_name (Some no_rules) main 70 s with
  | Some (Ok _, s1) =>
      (oid_ (step Gt) (UBind_ 21 true (S_ "test/Gamma/Functional$Test5")) (fun _ =>
       register_ Gt 20 true inner_class [DCtor (ClUser 20) [Cshared (ClUser 21)] 71] (fun h => bfound_ MainModel.main_class (fun c s2 =>
       match InvokeModel.start Gt main (TArr None) None [h; c] s2 with
       | Some (IHook RVoid 70%nat _ [ArgL None], s3) =>
           (perform PushLocalFrame_ 0; x <~ FindClass_ inner_class; assert (oref_eqb x (Some h)); m <~ GetMethodID_ false x init (S_ "(Ltest/Gamma/Functional$Test5;)V");
            hooked m 71 (perform PopLocalFrame_ None; perform HookReturn_ HUnit; fun s => match start_end Gt main c (TArr None) None s with Some (inl VUnit, _) => true | _ => false end)) s3
       | _ => false
       end)))) s1
  | _ => false
  end.
Example Baron_Test23 : runs_on Gt test23 = true.
Proof. vm_compute. reflexivity. Qed.
(** 1294-1312.  The getter returns a copy of the member, here a string that the hook makes. *)
Definition compat_name := S_ "FakeJni_0_0_5_COMPAT_TEST".
Definition compat_test : test :=
  let S := step Gtn in
  register_ Gtn 18 true compat_name [DCtor (ClUser 18) [] 72; DMember (MemVar (ClUser 18) (Cval ClString)) 73 (S_ "testmember") None] (fun _ => run_ S (PushLocalFrame_ 0) (
  ref_ S (FindClass_ compat_name) (fun cl => ref_ S (GetMethodID_ false cl init V) (fun mid => enters S (CallStaticMethodA_ RObj cl mid []) 72 cl [] (oid_ S (UNew_ 18 0) (fun o => gives_ S (HObj (TUser 18) (Some o)) (VRef (Some o)) (
  ref_ S (GetFieldID_ false cl (S_ "testmember") jstr) (fun fid => enters S (GetField_ false RObj (Some o) fid) 73 (Some o) [] (oid_ S (NewStringUTF_ (Some [])) (fun e => gives_ S (HObj TString (Some e)) (VRef (Some e)) (
  bytes_ S (GetStringUTFChars_ (Some e)) [] (ref_ S (NewStringUTF_ (Some (S_ "Hello World"))) (fun w => enters S (SetField_ false RObj (Some o) fid (ArgL w)) 73 (Some o) [ArgL w] (gives_ S HUnit VUnit (
  enters S (GetField_ false RObj (Some o) fid) 73 (Some o) [] (gives_ S (HObj TString w) (VRef w) (bytes_ S (GetStringUTFChars_ w) (S_ "Hello World") pass))))))))))))))))).
Example FakeJni_0_0_5_COMPAT_TEST : runs_on Gtn compat_test = true.
Proof. vm_compute. reflexivity. Qed.

(** ** src/tests/fake-jni.cpp *)
Definition CWN := S_ "com/sample/ClassWithNatives".
Definition CWS := S_ "com/sample/ClassWithSuperClassNatives".
Definition with_natives (k : test) : test := register_ Gtn 16 true CWN [DMember (Var (Cprim PtI)) 74 (S_ "intField") (Some (Z.lor PUBLIC STATIC))] (fun _ => k).
Definition with_super (k : test) : test := with_natives (register_ Gtn 17 true CWS [DCtor (ClUser 17) [] 75; DMember (MemVar (ClUser 17) (Cprim PtI)) 76 (S_ "intField") None] (fun _ => k)).
Definition call_native (name : str) : test :=
  let S := step Gtn in run_ S (PushLocalFrame_ 0) (ref_ S (FindClass_ CWN) (fun c => run_ S (RegisterNatives_ c [(S_ "NativeMethod", V, Some 77%nat)] 1) (found_ Gtn name (fun x =>
  invoked Gtn true x V (S_ "NativeMethod") x (fun p => match p with INative 77%nat RVoid (Some r) [] => assert (Nat.eqb r x); pass | _ => fails end))))).
(** 25-38, 52-67 *)
Example GetAndCallNativeMethod : runs_on Gtn (with_natives (call_native CWN)) = true.
Proof. vm_compute. reflexivity. Qed.
Example GetAndCallSuperClassNativeMethod : runs_on Gtn (with_super (call_native CWS)) = true.
Proof. vm_compute. reflexivity. Qed.
(** 69-88 *)
Definition inherit_static : test :=
  let S := step Gtn in let n := S_ "intField" in let I := S_ "I" in
  with_super (run_ S (PushLocalFrame_ 0) (ref_ S (FindClass_ CWS) (fun c => assert (some c); ref_ S (GetFieldID_ false c n I) (fun f => assert (some f); ref_ S (GetFieldID_ true c n I) (fun sf => assert (some sf); distinct_ f sf (
  enters S (SetField_ true PI c sf (ArgZ 42)) 74 c [ArgZ 42] (gives_ S HUnit VUnit (ref_ S (GetMethodID_ false c init V) (fun m => enters S (CallStaticMethodA_ RObj c m []) 75 c [] (oid_ S (UNew_ 17 0) (fun o =>
  gives_ S (HObj (TUser 17) (Some o)) (VRef (Some o)) (enters S (SetField_ false PI (Some o) f (ArgZ 43)) 76 (Some o) [ArgZ 43] (gives_ S HUnit VUnit (
  enters S (GetField_ true PI c sf) 74 c [] (gives_ S (HPrim 42) (VPrim 42) (enters S (GetField_ false PI (Some o) f) 76 (Some o) [] (gives_ S (HPrim 43) (VPrim 43) pass))))))))))))))))).
Example InheritStaticField : runs_on Gtn inherit_static = true.
Proof. vm_compute. reflexivity. Qed.
(** 90-96 *)
Example GetNameReturnsFakeJniOldPrototypeLikeValue : runs_on Gtn (with_super (found_ Gtn CWS (fun c => class_name c (fun n => assert (str_eqb n CWS); pass)))) = true.
Proof. vm_compute. reflexivity. Qed.

(** ** src/tests/CodeGen.cpp 6-21, 41-52 *)
Definition bad := S_ "_unsigned/java/is/bad".
Definition bad_inner := S_ "_unsigned/java/is/bad$inner".
Definition sig_bad := S_ "([[[[Ljava/lang/String;)Ljava/lang/Class;".
Example CodeGen : runs_on Gt (
  cl <~ FindClass_ bad; m <~ GetMethodID_ true cl (S_ "AnotherBadMethod") sig_bad; default CallStaticMethodA_ RObj cl m [ArgL None]; _m <~ GetMethodID_ false cl (S_ "AnotherMethod") sig_bad;
  _f <~ GetFieldID_ true cl (S_ "AnotherBadField") (S_ "[[[[[Ljava/lang/String;"); _g <~ GetFieldID_ false cl (S_ "AnotherField") (S_ "[[[[Ljava/lang/String;");
  cl2 <~ FindClass_ bad_inner; g <~ NewGlobalRef_ cl2; mid0 <~ GetMethodID_ false g init (S_ "(L_unsigned/java/is/bad;)V"); default CallStaticMethodA_ RObj cl2 mid0 [ArgL None];
  w <~ NewWeakGlobalRef_ cl2; mid1 <~ GetMethodID_ false w init V; w1 <~ NewWeakGlobalRef_ cl2; default CallStaticMethodA_ RObj w1 mid1 []; w2 <~ NewWeakGlobalRef_ cl2;
  hb <~ GetMethodID_ false w2 (S_ "Hboken") (S_ "()L_unsigned/java/is/bad;"); default CallMethodA_ RObj None hb [];
  fun s => match read_np s with Some np => match VM_GenerateClassDump false np, VM_GenerateClassDump true np with Ok (_ :: _), Ok (_ :: _) => true | _, _ => false end | None => false end) = true.
Proof. vm_compute. reflexivity. Qed.

(** ** The programs of src/examples *)
(** jnivm/main.cpp 35-45 *)
Example jnivm_example : runs_on Gt (
  c <! UFindClass_ false (S_ "SampleClass"); hook c, S_ "Test", Fn Cvoid [CENV; Cptr ClClass], 80%nat; sc <~ FindClass_ (S_ "SampleClass"); id <~ GetMethodID_ true sc (S_ "Test") V;
  calls CallStaticMethodA_ RVoid sc id [], 80%nat, sc, []; gives HUnit, VUnit; pass) = true.
Proof. vm_compute. reflexivity. Qed.
(** fake-jni/main.cpp 52-82; fake-jni-cxx14/main.cpp 54-84 is the same with pointers, [Descriptor] *)
Definition sample := ClUser 22.
Definition sample_class : list desc :=
  [DMember (MemVar sample (Cprim PtZ)) 81 (S_ "booleanfield") None; DMember (MemVar sample (Cprim PtB)) 82 (S_ "bytefield") None; DMember (MemVar sample (Cprim PtS)) 83 (S_ "shortfield") None;
   DMember (MemVar sample (Cprim PtI)) 84 (S_ "intfield") None; DMember (MemVar sample (Cprim PtJ)) 85 (S_ "longfield") None; DMember (MemVar sample (Cprim PtF)) 86 (S_ "floatfield") None;
   DMember (MemVar sample (Cprim PtD)) 87 (S_ "doublefield") None; DMember (MemVar sample (Cshared (ClPrims PtB))) 88 (S_ "bytearrayfield") None;
   DMember (MemVar sample (Cshared (ClPrims PtS))) 89 (S_ "shortarrayfield") None; DMember (MemVar sample (Cshared (ClPrims PtI))) 90 (S_ "intarrayfield") None;
   DMember (MemVar sample (Cshared (ClPrims PtJ))) 91 (S_ "longarrayfield") None; DMember (Var (Cprim PtZ)) 92 (S_ "staticbooleanfield") (Some (Z.lor PUBLIC STATIC));
   DMember (Var (Cprim PtZ)) 92 (S_ "staticbooleanfield2") None; DMember (Var (Cprim PtZ)) 92 (S_ "booleanfield2") (Some PUBLIC);
   DMember (MemFn sample (Cprim PtD) [Cshared (ClPrims PtI)]) 93 (S_ "JustAMemberFunction") None; DMember (Fn Cvoid [Cprim PtD]) 94 (S_ "exampleStaticMemberFunction") None;
   DMember (Fn Cvoid [Cprim PtD]) 94 (S_ "exampleStaticMemberFunction2") (Some PUBLIC); DMember (Fn Cvoid [Cprim PtD]) 94 (S_ "exampleStaticFunction") (Some (Z.lor PUBLIC STATIC))].
(** 89-151 without the library, which has no effect on the VM, and the array of strings, which is not used.  3.6, 7.9, 3.8 and 3.4 are the numbers 36, 79, 38 and 34 here. *)
Definition sample_example : test :=
  let S := step Gtn in let D := RPrim PtD in let Z_ := S_ "Z" in
  let cls (r : oid) (k : option oid -> test) := ref_ S (GetObjectClass_ (Some r)) k in
  let field (st : bool) (r : oid) (n sg : str) (k : option oid -> test) := cls r (fun c => ref_ S (GetFieldID_ st c n sg) k) in
  let meth (r : oid) (n sg : str) (k : option oid -> test) := cls r (fun c => ref_ S (GetMethodID_ false c n sg) k) in
  let reads (st : bool) (o f : option oid) (id : nat) (v : Z) (k : test) := enters S (GetField_ st PZ o f) id o [] (gives_ S (HPrim v) (VPrim v) k) in
  register_ Gtn 22 true (S_ "com/example/SampleClass") sample_class (fun _ => register_ Gtn 23 true (S_ "com/example/DerivedClass") [] (fun _ =>
  run_ S (PushLocalFrame_ 0) (oid_ S (UNew_ 22 0) (fun r => eq_ S (UToJNI_ (TUser 22) r) (Some r) (field false r (S_ "booleanfield") Z_ (fun f => reads false (Some r) f 81%nat 1 (reads false (Some r) f 81%nat 0 (
  meth r (S_ "JustAMemberFunction") (S_ "([I)D") (fun m => oid_ S (NewArray_ PtI 23) (fun a => int_ S (GetArrayLength_ (Some a)) 23 (
  times 23 (fun k t => run_ S (ElementsWrite_ a (Z.to_nat k) (2 ^ k)) t) (
  enters S (CallMethodA_ D (Some r) m [ArgL (Some a)]) 93%nat (Some r) [ArgL (Some a)] (int_ S (ElementsRead_ a 10%nat) 1024 (gives_ S (HPrim 36) (VPrim 36) (
  meth r (S_ "exampleStaticMemberFunction") (S_ "(D)V") (fun m1 => enters S (CallMethodA_ RVoid (Some r) m1 [ArgZ 79]) 94%nat (Some r) [ArgZ 79] (gives_ S HUnit VUnit (
  meth r (S_ "exampleStaticMemberFunction") (S_ "(D)V") (fun m2 => assert (oref_eqb m1 m2); cls r (fun c => enters S (CallMethodA_ RVoid c m2 [ArgZ 38]) 94%nat c [ArgZ 38] (gives_ S HUnit VUnit (
  field false r (S_ "booleanfield2") Z_ (fun f2 => reads false (Some r) f2 92%nat 0 (reads false (Some r) f2 92%nat 1 (
  field true r (S_ "staticbooleanfield") Z_ (fun sf => reads true c sf 92%nat 1 (reads true c sf 92%nat 0 (
  found_ Gtn (S_ "com/example/DerivedClass") (fun d => do_ S main (UGetMethod_ d (S_ "(D)V") (S_ "exampleStaticFunction")) (fun v => match v with RTriple x y n => fun s =>
    match proxy_invoke Gtn main true (mkProxy x y n) d [CNum 34] s with
    | Some (IHook RVoid 94%nat (Some d') [ArgZ 34], s') =>
        (assert (Nat.eqb d d'); run_ S (HookReturn_ HUnit) (fun s => match invoke_end Gtn main (held_by d [CNum 34]) VUnit s with Some (inl VUnit, s2) =>
        (cls r (fun c => eq_ S (GetFieldID_ true c (S_ "staticstringfield") jstr) None (
         field false r (S_ "longarrayfield") (S_ "[J") (fun lf => enters S (GetField_ false RObj (Some r) lf) 91%nat (Some r) [] (gives_ S (HObj (TPArr PtJ) None) (VRef None) (
         oid_ S (NewArray_ PtJ 100) (fun l => enters S (SetField_ false RObj (Some r) lf (ArgL (Some l))) 91%nat (Some r) [ArgL (Some l)] (gives_ S HUnit VUnit (
         enters S (GetField_ false RObj (Some r) lf) 91%nat (Some r) [] (gives_ S (HObj (TPArr PtJ) (Some l)) (VRef (Some l)) (int_ S (GetArrayLength_ (Some l)) 100 pass))))))))))) s2
        | _ => false end)) s'
    | _ => false
    end | _ => fails end)))))))))))))))))))))))))))))).
Example fake_jni_example : runs_on Gtn sample_example = true.
Proof. vm_compute. reflexivity. Qed.
