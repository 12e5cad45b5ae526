(** C86: the slots of the function table of JNIEnv. *)
From Coq Require Import String List.
From Verif Require Import Base VmState IfaceModel.
Import ListNotations.
Set Implicit Arguments.
Unset Strict Implicit.
Local Open Scope string_scope.

(** ** The names of the JNI specification *)
Definition word (T : jt) : string :=
  match T with
  | JtObj => "Object" | JtVoid => "Void"
  | JtPrim p => match p with PtZ => "Boolean" | PtB => "Byte" | PtC => "Char" | PtS => "Short" | PtI => "Int" | PtJ => "Long" | PtF => "Float" | PtD => "Double" end
  end.
Definition suffix (p : passing) : string := match p with KVa => "V" | KJv => "A" | _ => "" end.
Definition caller (Y : recv) : string := match Y with YObj => "Call" | YObjClass => "CallNonvirtual" | YClass => "CallStatic" end.
Definition stat (b : bool) : string := if b then "Static" else "".
Definition call_name (T : jt) (Y : recv) (p : passing) : string := caller Y ++ word T ++ "Method" ++ suffix p.
(** [f] (in the form with arguments passed as [p]) is the function that the specification calls [n]; [rn]: lookups return null instead of creating members *)
Inductive serves (rn : bool) : fn -> passing -> string -> Prop :=
| sv_plain n : serves rn (FPlain n) KNone n
| sv_class : serves rn (FFindClass rn) KNone "FindClass"
| sv_mid b : serves rn (FMethodID b rn) KNone ("Get" ++ stat b ++ "MethodID")
| sv_fid b : serves rn (FFieldID b rn) KNone ("Get" ++ stat b ++ "FieldID")
| sv_call T Y p : p <> KNone -> serves rn (FDispatch T Y) p (call_name T Y p)
| sv_new p : p <> KNone -> serves rn (FDispatch JtObj YClass) p ("NewObject" ++ suffix p)
| sv_get T b : T <> JtVoid -> serves rn (FGetField rn T b) KNone ("Get" ++ stat b ++ word T ++ "Field")
| sv_set T b : T <> JtVoid -> serves rn (FSetField T b) KNone ("Set" ++ stat b ++ word T ++ "Field")
| sv_array q : serves rn (FNewArray (JtPrim q)) KNone ("New" ++ word (JtPrim q) ++ "Array")
| sv_elements q : serves rn (FElements (JtPrim q)) KNone ("Get" ++ word (JtPrim q) ++ "ArrayElements")
| sv_release q : serves rn (FRelease (JtPrim q)) KNone ("Release" ++ word (JtPrim q) ++ "ArrayElements")
| sv_get_region q : serves rn (FGetRegion (JtPrim q)) KNone ("Get" ++ word (JtPrim q) ++ "ArrayRegion")
| sv_set_region q : serves rn (FSetRegion (JtPrim q)) KNone ("Set" ++ word (JtPrim q) ++ "ArrayRegion")
| sv_critical : serves rn (FElements JtVoid) KNone "GetPrimitiveArrayCritical"
| sv_release_critical : serves rn (FRelease JtVoid) KNone "ReleasePrimitiveArrayCritical"
| sv_string_critical : serves rn (FPlain "GetStringChars") KNone "GetStringCritical"
| sv_release_string_critical : serves rn (FPlain "ReleaseStringChars") KNone "ReleaseStringCritical".
Definition reserved (n : string) : Prop := In n ["reserved0"; "reserved1"; "reserved2"; "reserved3"].

(** ** The positions of the groups, for any list of types *)
Lemma nth_compose ts i j T : nth_error ts i = Some T -> j < 3 -> elem (compose ts) (i * 3 + j) = T.
Proof.
  unfold elem. revert i. induction ts as [|X r IH]; intros [|i] H J; try discriminate; cbn [compose].
  - injection H as ->. destruct j as [|[|[|j]]]; try reflexivity. lia.
  - change ((S i) * 3 + j) with (S (S (S (i * 3 + j)))). apply IH; auto.
Qed.
Lemma nth_seq_map A (f : nat -> A) n i : i < n -> nth_error (map f (seq 0 n)) i = Some (f i).
Proof. intros H. rewrite nth_error_map. rewrite (nth_error_nth' (seq 0 n) 0) by (rewrite seq_length; exact H). rewrite seq_nth by exact H. reflexivity. Qed.
Lemma skip_block A (l m : list A) k n : length l = k -> nth_error (l ++ m) (k + n) = nth_error m n.
Proof. intros <-. rewrite nth_error_app2 by lia. f_equal. lia. Qed.
Lemma in_block A (l m : list A) n x : nth_error l n = Some x -> nth_error (l ++ m) n = Some x.
Proof. intros H. rewrite nth_error_app1; [exact H|]. apply nth_error_Some. congruence. Qed.
Lemma len_map A n (f : nat -> A) : length (map f (seq 0 n)) = n.
Proof. rewrite map_length. apply seq_length. Qed.
(** Calls for type number [i]: in groups of three, virtual, nonvirtual and static; fields: all types but the last; arrays: all but the first and the last. *)
Theorem C86_blocks rn ts i T : let n := length ts in nth_error ts i = Some T ->
  (forall j, j < 3 -> nth_error (Get rn ts) (34 + (i * 3 + j)) = Some (FDispatch T YObj) /\
    nth_error (Get rn ts) (34 + (n * 3 + (i * 3 + j))) = Some (FDispatch T YObjClass) /\
    nth_error (Get rn ts) (34 + (n * 3 + (n * 3 + (1 + ((n - 1) + ((n - 1) + (1 + (i * 3 + j)))))))) = Some (FDispatch T YClass)) /\
  (i < n - 1 -> nth_error (Get rn ts) (34 + (n * 3 + (n * 3 + (1 + i)))) = Some (FGetField rn T false) /\
    nth_error (Get rn ts) (34 + (n * 3 + (n * 3 + (1 + ((n - 1) + i))))) = Some (FSetField T false) /\
    nth_error (Get rn ts) (34 + (n * 3 + (n * 3 + (1 + ((n - 1) + ((n - 1) + (1 + (n * 3 + (1 + i))))))))) = Some (FGetField rn T true) /\
    nth_error (Get rn ts) (34 + (n * 3 + (n * 3 + (1 + ((n - 1) + ((n - 1) + (1 + (n * 3 + (1 + ((n - 1) + i)))))))))) = Some (FSetField T true)) /\
  (forall k a, i = k + 1 -> k < n - 2 -> a = 34 + (n * 3 + (n * 3 + (1 + ((n - 1) + ((n - 1) + (1 + (n * 3 + (1 + ((n - 1) + ((n - 1) + 12)))))))))) ->
    nth_error (Get rn ts) (a + k) = Some (FNewArray T) /\ nth_error (Get rn ts) (a + (n - 2) + k) = Some (FElements T) /\ nth_error (Get rn ts) (a + 2 * (n - 2) + k) = Some (FRelease T) /\
    nth_error (Get rn ts) (a + 3 * (n - 2) + k) = Some (FGetRegion T) /\ nth_error (Get rn ts) (a + 4 * (n - 2) + k) = Some (FSetRegion T)).
Proof.
  intros n H. assert (i < n) as Hi by (apply nth_error_Some; congruence). assert (elem ts i = T) as He by (unfold elem; apply nth_error_nth; exact H).
  unfold Get, Seq, SeqM1, SeqM2. fold n. split; [|split].
  - intros j J. pose proof (nth_compose H J) as Hc. assert (i * 3 + j < n * 3) as Hb by lia. split; [|split].
    + rewrite skip_block by reflexivity. apply in_block. rewrite nth_seq_map by exact Hb. rewrite Hc. reflexivity.
    + rewrite skip_block by reflexivity. rewrite skip_block by apply len_map. apply in_block. rewrite nth_seq_map by exact Hb. rewrite Hc. reflexivity.
    + rewrite skip_block by reflexivity. do 2 (rewrite skip_block by apply len_map). rewrite skip_block by reflexivity. do 2 (rewrite skip_block by apply len_map). rewrite skip_block by reflexivity.
      apply in_block. rewrite nth_seq_map by exact Hb. rewrite Hc. reflexivity.
  - intros Hn. split; [|split; [|split]]; (rewrite skip_block by reflexivity); do 2 (rewrite skip_block by apply len_map); (rewrite skip_block by reflexivity).
    + apply in_block. rewrite nth_seq_map by exact Hn. rewrite He. reflexivity.
    + rewrite skip_block by apply len_map. apply in_block. rewrite nth_seq_map by exact Hn. rewrite He. reflexivity.
    + do 2 (rewrite skip_block by apply len_map). rewrite skip_block by reflexivity. rewrite skip_block by apply len_map. rewrite skip_block by reflexivity. apply in_block. rewrite nth_seq_map by exact Hn. rewrite He. reflexivity.
    + do 2 (rewrite skip_block by apply len_map). rewrite skip_block by reflexivity. rewrite skip_block by apply len_map. rewrite skip_block by reflexivity. rewrite skip_block by apply len_map. apply in_block. rewrite nth_seq_map by exact Hn. rewrite He. reflexivity.
  - intros k a -> Hk Ea. assert (forall q, a + q = 34 + (n * 3 + (n * 3 + (1 + ((n - 1) + ((n - 1) + (1 + (n * 3 + (1 + ((n - 1) + ((n - 1) + (12 + q)))))))))))) as Ha by (intros q; lia).
    assert (forall c, a + c * (n - 2) + k = a + (c * (n - 2) + k)) as Hs by (intros c; lia). replace (a + (n - 2) + k) with (a + ((n - 2) + k)) by lia.
    replace (a + 2 * (n - 2) + k) with (a + ((n - 2) + ((n - 2) + k))) by lia. replace (a + 3 * (n - 2) + k) with (a + ((n - 2) + ((n - 2) + ((n - 2) + k)))) by lia. replace (a + 4 * (n - 2) + k) with (a + ((n - 2) + ((n - 2) + ((n - 2) + ((n - 2) + k))))) by lia.
    rewrite !Ha. clear Ha Hs Ea.
    split; [|split; [|split; [|split]]]; (rewrite skip_block by reflexivity); do 2 (rewrite skip_block by apply len_map); (rewrite skip_block by reflexivity);
      do 2 (rewrite skip_block by apply len_map); (rewrite skip_block by reflexivity); (rewrite skip_block by apply len_map); (rewrite skip_block by reflexivity); do 2 (rewrite skip_block by apply len_map); (rewrite skip_block by reflexivity).
    + apply in_block. rewrite nth_seq_map by exact Hk. rewrite He. reflexivity.
    + rewrite skip_block by apply len_map. apply in_block. rewrite nth_seq_map by exact Hk. rewrite He. reflexivity.
    + do 2 (rewrite skip_block by apply len_map). apply in_block. rewrite nth_seq_map by exact Hk. rewrite He. reflexivity.
    + do 3 (rewrite skip_block by apply len_map). apply in_block. rewrite nth_seq_map by exact Hk. rewrite He. reflexivity.
    + do 4 (rewrite skip_block by apply len_map). apply in_block. rewrite nth_seq_map by exact Hk. rewrite He. reflexivity.
Qed.

(** ** The table against jni.h *)
Theorem C86_length rn : length (GetNativeInterfaceTemplate rn) = length JNINativeInterface.
Proof. reflexivity. Qed.
Theorem C86_calls rn T Y p : p <> KNone -> function rn (call_name T Y p) = Some (FDispatch T Y, p).
Proof. intros N. destruct p; [congruence| | |]; destruct Y; destruct T as [|q|]; try destruct q; vm_compute; reflexivity. Qed.
Theorem C86_new rn p : p <> KNone -> function rn ("NewObject" ++ suffix p) = Some (FDispatch JtObj YClass, p).
Proof. intros N. destruct p; [congruence| | |]; vm_compute; reflexivity. Qed.
Theorem C86_fields rn T b : T <> JtVoid -> function rn ("Get" ++ stat b ++ word T ++ "Field") = Some (FGetField rn T b, KNone) /\ function rn ("Set" ++ stat b ++ word T ++ "Field") = Some (FSetField T b, KNone).
Proof. intros N. destruct T as [|q|]; [| |congruence]; destruct b; try destruct q; vm_compute; auto. Qed.
Theorem C86_ids rn b : function rn ("Get" ++ stat b ++ "MethodID") = Some (FMethodID b rn, KNone) /\ function rn ("Get" ++ stat b ++ "FieldID") = Some (FFieldID b rn, KNone) /\ function rn "FindClass" = Some (FFindClass rn, KNone).
Proof. destruct b; vm_compute; auto. Qed.
Theorem C86_arrays rn q : let w := word (JtPrim q) in
  function rn ("New" ++ w ++ "Array") = Some (FNewArray (JtPrim q), KNone) /\ function rn ("Get" ++ w ++ "ArrayElements") = Some (FElements (JtPrim q), KNone) /\
  function rn ("Release" ++ w ++ "ArrayElements") = Some (FRelease (JtPrim q), KNone) /\ function rn ("Get" ++ w ++ "ArrayRegion") = Some (FGetRegion (JtPrim q), KNone) /\
  function rn ("Set" ++ w ++ "ArrayRegion") = Some (FSetRegion (JtPrim q), KNone).
Proof. destruct q; vm_compute; auto 10. Qed.
(** Every function of jni.h is in its slot. *)
Definition servesb (rn : bool) (f : fn) (p : passing) (n : string) : bool :=
  let none := match p with KNone => true | _ => false end in
  match f with
  | FNull => false
  | FPlain m => none && (String.eqb m n || (String.eqb m "GetStringChars" && String.eqb n "GetStringCritical") || (String.eqb m "ReleaseStringChars" && String.eqb n "ReleaseStringCritical"))
  | FFindClass r => none && Bool.eqb r rn && String.eqb n "FindClass"
  | FMethodID b r => none && Bool.eqb r rn && String.eqb n ("Get" ++ stat b ++ "MethodID")
  | FFieldID b r => none && Bool.eqb r rn && String.eqb n ("Get" ++ stat b ++ "FieldID")
  | FDispatch T Y => negb none && (String.eqb n (call_name T Y p) || match T, Y with JtObj, YClass => String.eqb n ("NewObject" ++ suffix p) | _, _ => false end)
  | FGetField r T b => none && Bool.eqb r rn && match T with JtVoid => false | _ => String.eqb n ("Get" ++ stat b ++ word T ++ "Field") end
  | FSetField T b => none && match T with JtVoid => false | _ => String.eqb n ("Set" ++ stat b ++ word T ++ "Field") end
  | FNewArray T => none && match T with JtPrim _ => String.eqb n ("New" ++ word T ++ "Array") | _ => false end
  | FElements T => none && match T with JtPrim _ => String.eqb n ("Get" ++ word T ++ "ArrayElements") | JtVoid => String.eqb n "GetPrimitiveArrayCritical" | _ => false end
  | FRelease T => none && match T with JtPrim _ => String.eqb n ("Release" ++ word T ++ "ArrayElements") | JtVoid => String.eqb n "ReleasePrimitiveArrayCritical" | _ => false end
  | FGetRegion T => none && match T with JtPrim _ => String.eqb n ("Get" ++ word T ++ "ArrayRegion") | _ => false end
  | FSetRegion T => none && match T with JtPrim _ => String.eqb n ("Set" ++ word T ++ "ArrayRegion") | _ => false end
  end.
Lemma servesb_sound rn f p n : servesb rn f p n = true -> serves rn f p n.
Proof.
  destruct f as [|m|r|b r|b r|T Y|r T b|T b|T|T|T|T|T]; cbn [servesb]; intros H; [discriminate|..]; repeat (apply andb_true_iff in H; destruct H as [H ?]);
    try (match goal with X : Bool.eqb _ _ = true |- _ => apply Bool.eqb_prop in X; subst end).
  - destruct p; try discriminate. apply orb_true_iff in H0. destruct H0 as [H0|H0]; [apply orb_true_iff in H0; destruct H0 as [H0|H0]|].
    + apply String.eqb_eq in H0. subst. constructor.
    + apply andb_true_iff in H0. destruct H0 as [A B]. apply String.eqb_eq in A. apply String.eqb_eq in B. subst. constructor.
    + apply andb_true_iff in H0. destruct H0 as [A B]. apply String.eqb_eq in A. apply String.eqb_eq in B. subst. constructor.
  - destruct p; try discriminate. apply String.eqb_eq in H0. subst. constructor.
  - destruct p; try discriminate. apply String.eqb_eq in H0. subst. constructor.
  - destruct p; try discriminate. apply String.eqb_eq in H0. subst. constructor.
  - assert (p <> KNone) as N by (intros ->; discriminate). apply orb_true_iff in H0. destruct H0 as [H0|H0].
    + apply String.eqb_eq in H0. subst. constructor; exact N.
    + destruct T, Y; try discriminate. apply String.eqb_eq in H0. subst. constructor; exact N.
  - destruct p; try discriminate. destruct T; try discriminate; apply String.eqb_eq in H0; subst; constructor; discriminate.
  - destruct p; try discriminate. destruct T; try discriminate; apply String.eqb_eq in H0; subst; constructor; discriminate.
  - destruct p; try discriminate. destruct T; try discriminate; apply String.eqb_eq in H0; subst; constructor.
  - destruct p; try discriminate. destruct T; try discriminate; apply String.eqb_eq in H0; subst; constructor.
  - destruct p; try discriminate. destruct T; try discriminate; apply String.eqb_eq in H0; subst; constructor.
  - destruct p; try discriminate. destruct T; try discriminate; apply String.eqb_eq in H0; subst; constructor.
  - destruct p; try discriminate. destruct T; try discriminate; apply String.eqb_eq in H0; subst; constructor.
Qed.
Definition all_in (rn : bool) : bool :=
  forallb (fun f => match function rn (fst f) with
                    | Some (g, q) => (if in_dec string_dec (fst f) ["reserved0"; "reserved1"; "reserved2"; "reserved3"] then match g with FNull => true | _ => false end else servesb rn g q (fst f)) && match q, snd f with KNone, KNone | KDots, KDots | KVa, KVa | KJv, KJv => true | _, _ => false end
                    | None => false
                    end) JNINativeInterface.
Lemma all_in_true rn : all_in rn = true. Proof. destruct rn; vm_compute; reflexivity. Qed.
Theorem C86_table rn n p : In (n, p) JNINativeInterface -> exists f, function rn n = Some (f, p) /\ (reserved n -> f = FNull) /\ (~ reserved n -> serves rn f p n).
Proof.
  intros H. pose proof (proj1 (forallb_forall _ _) (all_in_true rn) (n, p) H) as E. cbn [fst snd] in E. destruct (function rn n) as [[g q]|]; [|discriminate]. apply andb_true_iff in E. destruct E as [E1 E2].
  assert (q = p) as -> by (destruct q, p; congruence). exists g. split; [reflexivity|]. unfold reserved. destruct (in_dec string_dec n _) as [I|I].
  - split; [|tauto]. intros _. destruct g; congruence.
  - split; [tauto|]. intros _. apply servesb_sound. exact E1.
Qed.
(** The order of the fields is that of the JNI specification (chapter 4, "Interface Function Table"), numbered from 0 to 232. *)
Definition jni_types : list jt := [JtObj; JtPrim PtZ; JtPrim PtB; JtPrim PtC; JtPrim PtS; JtPrim PtI; JtPrim PtJ; JtPrim PtF; JtPrim PtD; JtVoid].
Definition value_types : list jt := removelast jni_types.
Definition array_types : list jt := tl value_types.
Definition forms : list passing := [KDots; KVa; KJv].
Definition plain (l : list string) : list (string * passing) := map (fun n => (n, KNone)) l.
Definition calls_of (Y : recv) : list (string * passing) := flat_map (fun T => map (fun p => (call_name T Y p, p)) forms) jni_types.
Definition of_types (a : string) (ts : list jt) (b : string) : list (string * passing) := map (fun T => (a ++ word T ++ b, KNone)) ts.
Definition interface_function_table : list (string * passing) := (
  plain ["reserved0"; "reserved1"; "reserved2"; "reserved3"; "GetVersion"; "DefineClass"; "FindClass"; "FromReflectedMethod"; "FromReflectedField"; "ToReflectedMethod"; "GetSuperclass"; "IsAssignableFrom"; "ToReflectedField";
    "Throw"; "ThrowNew"; "ExceptionOccurred"; "ExceptionDescribe"; "ExceptionClear"; "FatalError"; "PushLocalFrame"; "PopLocalFrame"; "NewGlobalRef"; "DeleteGlobalRef"; "DeleteLocalRef"; "IsSameObject"; "NewLocalRef";
    "EnsureLocalCapacity"; "AllocObject"] ++ map (fun p => ("NewObject" ++ suffix p, p)%string) forms ++ plain ["GetObjectClass"; "IsInstanceOf"; "GetMethodID"] ++ calls_of YObj ++ calls_of YObjClass ++
  plain ["GetFieldID"] ++ of_types "Get" value_types "Field" ++ of_types "Set" value_types "Field" ++ plain ["GetStaticMethodID"] ++ calls_of YClass ++
  plain ["GetStaticFieldID"] ++ of_types "GetStatic" value_types "Field" ++ of_types "SetStatic" value_types "Field" ++
  plain ["NewString"; "GetStringLength"; "GetStringChars"; "ReleaseStringChars"; "NewStringUTF"; "GetStringUTFLength"; "GetStringUTFChars"; "ReleaseStringUTFChars"; "GetArrayLength"; "NewObjectArray"; "GetObjectArrayElement";
    "SetObjectArrayElement"] ++ of_types "New" array_types "Array" ++ of_types "Get" array_types "ArrayElements" ++ of_types "Release" array_types "ArrayElements" ++ of_types "Get" array_types "ArrayRegion" ++
  of_types "Set" array_types "ArrayRegion" ++
  plain ["RegisterNatives"; "UnregisterNatives"; "MonitorEnter"; "MonitorExit"; "GetJavaVM"; "GetStringRegion"; "GetStringUTFRegion"; "GetPrimitiveArrayCritical"; "ReleasePrimitiveArrayCritical"; "GetStringCritical";
    "ReleaseStringCritical"; "NewWeakGlobalRef"; "DeleteWeakGlobalRef"; "ExceptionCheck"; "NewDirectByteBuffer"; "GetDirectBufferAddress"; "GetDirectBufferCapacity"; "GetObjectRefType"])%list.
Theorem C86_layout : JNINativeInterface = interface_function_table /\ length interface_function_table = 233.
Proof. vm_compute. auto. Qed.
(** Slot number k holds the function that the specification gives number k. *)
Theorem C86_slots rn k n p : nth_error interface_function_table k = Some (n, p) -> 4 <= k -> exists f, slot rn k = Some (f, p) /\ serves rn f p n.
Proof.
  intros H K. rewrite <- (proj1 C86_layout) in H.
  assert (forallb (fun k => match nth_error JNINativeInterface k, slot rn k with Some (n, p), Some (f, q) => servesb rn f q n && match q, p with KNone, KNone | KDots, KDots | KVa, KVa | KJv, KJv => true | _, _ => false end | _, _ => false end) (seq 4 229) = true) as A by (destruct rn; vm_compute; reflexivity).
  rewrite forallb_forall in A. assert (k < 233) as L by (change 233 with (length JNINativeInterface); apply nth_error_Some; congruence).
  specialize (A k (proj2 (in_seq 229 4 k) (conj K L))). rewrite H in A. destruct (slot rn k) as [[f q]|]; [|discriminate]. apply andb_true_iff in A. destruct A as (A & B). assert (q = p) as -> by (destruct q, p; congruence).
  exists f. split; [reflexivity|]. apply servesb_sound. exact A.
Qed.
(** Example: the slot before NewString is SetStaticDoubleField; in the order of the table. *)
Example C86_ex : function false "SetStaticDoubleField" = Some (FSetField (JtPrim PtD) true, KNone) /\ nth_error JNINativeInterface 162 = Some ("SetStaticDoubleField", KNone) /\
  function true "CallNonvirtualShortMethodA" = Some (FDispatch (JtPrim PtS) YObjClass, KJv) /\ function true "NoSuchFunction" = None.
Proof. vm_compute. auto. Qed.
Example C86_ex_blocks : nth_error jnitypes 4 = Some (JtPrim PtS) /\ nth_error (Get false jnitypes) (34 + (10 * 3 + (4 * 3 + 2))) = Some (FDispatch (JtPrim PtS) YObjClass).
Proof. vm_compute. auto. Qed.
Print Assumptions C86_blocks. Print Assumptions C86_length. Print Assumptions C86_calls. Print Assumptions C86_new. Print Assumptions C86_fields. Print Assumptions C86_ids. Print Assumptions C86_arrays. Print Assumptions C86_table. Print Assumptions C86_layout. Print Assumptions C86_slots.
