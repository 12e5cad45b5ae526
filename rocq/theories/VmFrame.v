(** A relation between states that every elementary change of an operation respects is respected by
    the operation.  This is how invariants and frame conditions over all histories are proved. *)
From Verif Require Import Base VmState VmModel VmStep.
Set Implicit Arguments.
Local Open Scope vm_scope.

(** All outcomes of [m] that let the program go on are related to the state before. *)
Definition keeps {A} (P : st -> st -> Prop) (m : M A) : Prop :=
  forall s, match m s with Ret _ s' | Thr _ s' => P s s' | _ => True end.

(** Kinds of elementary changes. *)
Inductive prim :=
| PrClass | PrType | PrAlloc | PrEnsure | PrLocal | PrMethods | PrFields | PrNatives | PrDrop | PrBind
| PrInstarr | PrMHandle | PrFHandle | PrFramePush | PrFramePop | PrFrameDel | PrTmp | PrGlobalAdd
| PrGlobalDel | PrExc | PrCallPush | PrCallPop | PrArr | PrPrim | PrMon | PrUser | PrExtAdd | PrExtDel
| PrAttach | PrDetach.

Definition u_to_jni := [PrEnsure; PrLocal].
Definition u_find := [PrClass; PrEnsure; PrLocal].
Definition u_method := [PrClass; PrType; PrEnsure; PrLocal; PrAlloc; PrMethods].
Definition u_field := [PrClass; PrType; PrEnsure; PrLocal; PrAlloc; PrFields].
Definition u_throw := [PrAlloc; PrExc].

(** The elementary changes that an operation can consist of. *)
Definition uses (o : op) : list prim :=
  match o with
  | FindClass_ _ => u_find
  | FromReflectedMethod_ _ | FromReflectedField_ _ => u_find
  | ToReflectedMethod_ _ _ _ | ToReflectedField_ _ _ _ => [PrLocal]
  | GetSuperclass_ _ | IsAssignableFrom_ _ _ => [PrType]
  | Throw_ _ => [PrExc]
  | ThrowNew_ _ _ => u_throw
  | ExceptionOccurred_ => u_to_jni
  | ExceptionDescribe_ => []
  | ExceptionClear_ => [PrExc]
  | ExceptionCheck_ => []
  | FatalError_ => []
  | PushLocalFrame_ _ => [PrFramePush]
  | PopLocalFrame_ _ => [PrTmp; PrFramePop; PrEnsure; PrLocal]
  | NewGlobalRef_ _ => [PrClass; PrAlloc; PrGlobalAdd]
  | DeleteGlobalRef_ _ => [PrGlobalDel]
  | DeleteLocalRef_ _ => [PrFrameDel]
  | IsSameObject_ _ _ => []
  | NewLocalRef_ _ => [PrLocal]
  | EnsureLocalCapacity_ _ => []
  | AllocObject_ _ => []
  | GetObjectClass_ _ => u_find
  | IsInstanceOf_ _ _ => PrType :: u_find
  | GetMethodID_ _ _ _ _ => u_method
  | CallMethodA_ _ _ _ _ => PrCallPush :: u_find ++ u_throw
  | CallNonvirtualMethodA_ _ _ _ _ _ => PrCallPush :: u_throw
  | CallStaticMethodA_ _ _ _ _ => PrCallPush :: u_throw
  | GetFieldID_ _ _ _ _ => u_field
  | GetField_ _ _ _ _ => [PrCallPush]
  | SetField_ _ _ _ _ _ => [PrCallPush]
  | NewString_ _ _ | NewStringUTF_ _ => PrAlloc :: u_to_jni
  | GetStringLength_ _ | GetStringChars_ _ | GetStringUTFLength_ _ | GetStringUTFChars_ _
  | GetStringRegion_ _ _ _ _ | GetStringUTFRegion_ _ _ _ _ => []
  | GetArrayLength_ _ => []
  | NewObjectArray_ _ _ _ => PrAlloc :: PrArr :: u_find
  | GetObjectArrayElement_ _ _ => u_to_jni
  | SetObjectArrayElement_ _ _ _ => [PrArr]
  | NewArray_ _ _ => PrAlloc :: u_find
  | GetArrayElements_ _ _ => []
  | GetArrayRegion_ _ _ _ _ => []
  | SetArrayRegion_ _ _ _ _ _ => [PrPrim]
  | RegisterNatives_ _ _ _ => [PrNatives; PrAlloc; PrMethods]
  | UnregisterNatives_ _ => [PrDrop]
  | MonitorEnter_ _ | MonitorExit_ _ => [PrMon]
  | NewWeakGlobalRef_ _ => [PrClass; PrAlloc; PrGlobalAdd]
  | DeleteWeakGlobalRef_ _ => [PrGlobalDel]
  | NewDirectByteBuffer_ _ _ => PrAlloc :: u_to_jni
  | GetDirectBufferAddress_ _ | GetDirectBufferCapacity_ _ => []
  | GetObjectRefType_ _ => []
  | Attach_ => [PrAttach]
  | Detach_ => [PrDetach]
  | ElementsRead_ _ _ => []
  | ElementsWrite_ _ _ _ => [PrPrim]
  | UNew_ _ _ => [PrAlloc; PrExtAdd]
  | UPlain_ _ => [PrAlloc; PrExtAdd]
  | UInstantiate_ _ _ => [PrAlloc; PrExtAdd]
  | UDrop_ _ => [PrExtDel]
  | UHold_ _ _ => [PrExtAdd]
  | UToJNI_ _ _ => u_to_jni
  | USetVar_ _ _ _ => [PrUser]
  | UFindClass_ _ _ => u_find
  | UBind_ _ _ _ => [PrClass; PrBind]
  | UDeclareArray_ _ => [PrClass; PrInstarr]
  | UHookMethod_ _ _ _ _ _ => [PrAlloc; PrMethods; PrMHandle]
  | UHookField_ _ _ _ _ _ _ => [PrAlloc; PrFields; PrFHandle]
  | UGetMethod_ _ _ _ => u_method
  | HookReturn_ _ => PrCallPop :: u_to_jni
  | HookThrow_ _ => PrCallPop :: u_throw
  end.

(** [find_class] in terms of the elementary changes it makes *)
Lemma keeps_find_class G (P : st -> st -> Prop) (Prefl : forall s, P s s)
    (Ptrans : forall a b c, P a b -> P b c -> P a c)
    (Hns : forall k n, keeps P (new_ns k n))
    (Halloc : forall n p, keeps P (alloc (new_obj None (PClass (new_cls n p)))))
    (Hset : forall n i, keeps P (set_class n i))
    (Hnsc : forall k i, keeps P (ns_add_class k i))
    (Hin : forall c k, keeps P (add_inner c k)) z n :
  keeps P (find_class G z n).
Proof.
  assert (B : forall A B (m : M A) (f : A -> M B), keeps P m -> (forall a, keeps P (f a)) -> keeps P (bind m f)).
  { intros A B m f H1 H2 s. specialize (H1 s). unfold bind. destruct (m s); auto.
    specialize (H2 a s0). destruct (f a s0); eauto. }
  assert (R : forall A (a : A), keeps P (ret a)) by (intros A a s; apply Prefl).
  assert (Gt : forall A (f : st -> A), keeps P (gets f)) by (intros A f s; apply Prefl).
  assert (U : forall A, keeps P (@undef A)) by (intros A s; exact I).
  assert (C : forall i, keeps P (get_cls i)).
  { intros i s. unfold get_cls, bind, deref. destruct (lookup s i) as [o|]; auto.
    destruct (o_pay o); simpl; auto. }
  assert (CR : forall n p, keeps P (create_cls n p)) by (intros; unfold create_cls; auto).
  assert (WN : forall z segs k, keeps P (walk_ns z k segs)).
  { intros zz. induction segs; intros k; simpl; auto. apply B; auto. intros s.
    destruct (nth_error (s_ns s) k); auto. destruct (find_sub s (n_subs n0) a); auto.
    destruct zz; auto. }
  assert (WI : forall z segs c p, keeps P (walk_inner z c p segs)).
  { intros zz. induction segs; intros c p; simpl; auto. apply B; auto. intros s. apply B; auto.
    intros cl. destruct (find_cls s (c_inner cl) a); auto. destruct zz; auto. }
  unfold find_class, walk_cls. apply (fun x y => match debug G && _ as b return keeps P (if b then _ else _) with true => x | false => y end).
  - apply B; auto. intros [k|]; auto. destruct (split_on _ _); auto. apply B; auto. intros s.
    destruct (nth_error (s_ns s) k); auto. destruct (find_cls s (n_classes n0) l); auto.
    destruct z; auto.
  - apply B; auto. intros s. destruct (get_class s n); auto. destruct z; auto.
Qed.

Definition not_class (p : pay) : Prop := forall c, p <> PClass c.
(** New arrays of objects have no elements yet. *)
Definition blank (p : pay) : Prop := forall x l v, p = PArr x l -> In (Some v) l -> False.

(** New methods have no implementation; static ones are never native. *)
Definition fresh_mth (m : mth) : Prop := m_handle m = None /\ (m_native m <> None -> m_static m = false).
(** A new member of a class: make_shared<Method> followed by [methods.push_back] (method.cpp 64-77,
    hookManager.h 58-63, vm.cpp 268-273), likewise for fields.  The model never adds other objects. *)
Definition new_method (c : oid) (m : mth) : M oid :=
  i <- alloc (new_obj None (PMethod m)) ;; add_method c i ;;; ret i.
Definition new_field (c : oid) (f : fld) : M oid :=
  i <- alloc (new_obj None (PField f)) ;; add_field c i ;;; ret i.

Section Frame.
Variable G : cfg.
Variable P : st -> st -> Prop.
Hypothesis Prefl : forall s, P s s.
Hypothesis Ptrans : forall a b c, P a b -> P b c -> P a c.

Lemma keeps_ret A (a : A) : keeps P (ret a).
Proof. intros s. apply Prefl. Qed.
Lemma keeps_throw A e : keeps P (@throw A e).
Proof. intros s. apply Prefl. Qed.
Lemma keeps_err A e : keeps P (@err A e).
Proof. intros s. apply Prefl. Qed.
Lemma keeps_undef A : keeps P (@undef A).
Proof. intros s. exact I. Qed.
Lemma keeps_abrt A : keeps P (@abrt A).
Proof. intros s. exact I. Qed.
Lemma keeps_block A : keeps P (@block A).
Proof. intros s. exact I. Qed.
Lemma keeps_div A : keeps P (@div A).
Proof. intros s. exact I. Qed.
Lemma keeps_gets A (f : st -> A) : keeps P (gets f).
Proof. intros s. apply Prefl. Qed.
Lemma keeps_bind A B (m : M A) (f : A -> M B) :
  keeps P m -> (forall a, keeps P (f a)) -> keeps P (bind m f).
Proof.
  intros H1 H2 s. specialize (H1 s). unfold bind. destruct (m s); auto.
  specialize (H2 a s0). destruct (f a s0); eauto.
Qed.
Lemma keeps_of_res A (r : res A) : keeps P (of_res r).
Proof. destruct r; intros s; simpl; auto. Qed.
Lemma keeps_read A (f : st -> res A) : keeps P (fun s => of_res (f s) s).
Proof. intros s. apply keeps_of_res. Qed.
Lemma keeps_deref i : keeps P (deref i).
Proof. intros s. unfold deref. destruct (lookup s i); auto. Qed.
Lemma keeps_check f : keeps P (check f).
Proof. intros s. unfold check. destruct (f s); auto. Qed.
Lemma keeps_live_all l : keeps P (live_all l).
Proof. apply keeps_check. Qed.
Lemma keeps_guard b : keeps P (guard b).
Proof. destruct b; [apply keeps_ret|apply keeps_undef]. Qed.
Lemma keeps_the_env t : keeps P (the_env t).
Proof. intros s. unfold the_env. destruct (get_env s t); auto. Qed.
Lemma keeps_get_cls i : keeps P (get_cls i).
Proof.
  apply keeps_bind; [apply keeps_deref|]. intros o. destruct (o_pay o); auto using keeps_ret, keeps_undef.
Qed.
Lemma keeps_get_mth i : keeps P (get_mth i).
Proof.
  apply keeps_bind; [apply keeps_deref|]. intros o. destruct (o_pay o); auto using keeps_ret, keeps_undef.
Qed.
Lemma keeps_get_fld i : keeps P (get_fld i).
Proof.
  apply keeps_bind; [apply keeps_deref|]. intros o. destruct (o_pay o); auto using keeps_ret, keeps_undef.
Qed.
Lemma keeps_mapM_ A (f : A -> M unit) l : (forall x, keeps P (f x)) -> keeps P (mapM_ f l).
Proof. intros H. induction l; simpl; [apply keeps_ret|]. apply keeps_bind; auto. Qed.
Lemma keeps_mapM A B (f : A -> M B) l : (forall x, keeps P (f x)) -> keeps P (mapM f l).
Proof.
  intros H. induction l; simpl; [apply keeps_ret|]. apply keeps_bind; auto. intros b.
  apply keeps_bind; auto using keeps_ret.
Qed.
Lemma keeps_first_some A (f : A -> M (option oid)) l : (forall x, keeps P (f x)) -> keeps P (first_some f l).
Proof.
  intros H. induction l; simpl; [apply keeps_ret|]. apply keeps_bind; auto.
  intros [i|]; auto using keeps_ret.
Qed.
Lemma keeps_anyM A (f : A -> M bool) l : (forall x, keeps P (f x)) -> keeps P (anyM f l).
Proof.
  intros H. induction l; simpl; [apply keeps_ret|]. apply keeps_bind; auto.
  intros [|]; auto using keeps_ret.
Qed.
Lemma keeps_nonnull o : keeps P (nonnull o).
Proof. destruct o; simpl; auto using keeps_ret, keeps_undef. Qed.
Lemma keeps_jnicast T h : keeps P (jnicast G T h).
Proof.
  destruct h; simpl; auto using keeps_ret. apply keeps_bind; [apply keeps_read|].
  intros [j|]; auto using keeps_ret. apply keeps_bind; [apply keeps_deref|].
  intros x. destruct (isa G (o_pay x) T); auto using keeps_ret, keeps_err.
Qed.
Lemma keeps_jnicast_weak h : keeps P (jnicast_weak h).
Proof.
  destruct h; simpl; auto using keeps_ret. apply keeps_bind; [apply keeps_deref|].
  intros x. destruct (o_pay x); auto using keeps_ret, keeps_err.
Qed.
Lemma keeps_jnicast_global h : keeps P (jnicast_global h).
Proof.
  destruct h; simpl; auto using keeps_ret. apply keeps_bind; [apply keeps_deref|].
  intros x. destruct (o_pay x); auto using keeps_ret, keeps_err.
Qed.
Lemma keeps_if A (b : bool) (m n : M A) : keeps P m -> keeps P n -> keeps P (if b then m else n).
Proof. destruct b; auto. Qed.
Lemma keeps_clazz_lock i : keeps P (clazz_lock i).
Proof.
  apply keeps_bind; [apply keeps_deref|]. intros o. apply keeps_bind; [apply keeps_gets|].
  intros. apply keeps_ret.
Qed.
Lemma keeps_findNonVirtualOverload c m : keeps P (findNonVirtualOverload c m).
Proof.
  destruct c; simpl; auto using keeps_ret. apply keeps_bind; [apply keeps_get_cls|]. intros.
  apply keeps_bind; [apply keeps_get_mth|]. intros. apply keeps_bind; [apply keeps_gets|]. intros.
  apply keeps_ret.
Qed.

Hint Resolve keeps_ret keeps_throw keeps_err keeps_undef keeps_abrt keeps_block keeps_div keeps_gets
  keeps_of_res keeps_read keeps_deref keeps_check keeps_live_all keeps_guard keeps_the_env keeps_get_cls
  keeps_get_mth keeps_get_fld keeps_nonnull keeps_jnicast keeps_jnicast_weak keeps_jnicast_global
  keeps_clazz_lock keeps_findNonVirtualOverload : keeps.

(** Elementary changes on behalf of thread [t] *)
Variable t : tid.
Variable ok : prim -> Prop.
Hypothesis Hclass : ok PrClass -> forall z n, keeps P (find_class G z n).
Hypothesis Htype : ok PrType -> forall B, keeps P (type_entry B).
Hypothesis Halloc : ok PrAlloc -> forall c p, not_class p -> blank p -> keeps P (alloc (new_obj c p)).
Hypothesis Hensure : ok PrEnsure -> forall Y i, keeps P (ensure_class Y i).
Hypothesis Hlocal : ok PrLocal -> forall i, keeps P (push_local t i).
Hypothesis Hmethods : ok PrMethods -> forall c m, fresh_mth m -> keeps P (new_method c m).
Hypothesis Hfields : ok PrFields -> forall c f, f_get f = None -> f_set f = None -> keeps P (new_field c f).
Hypothesis Hnatives : ok PrNatives -> forall c n f, keeps P (set_native c n f).
Hypothesis Hdrop : ok PrDrop -> forall c, keeps P (drop_natives c).
Hypothesis Hsettype : ok PrBind -> forall T i, keeps P (set_type T (Some i)).
Hypothesis Hbind : ok PrBind -> forall i T n, keeps P (bind_cls i T n).
Hypothesis Hinstarr : ok PrInstarr -> forall i n, keeps P (set_instarr i n).
Hypothesis Hmhandle : ok PrMHandle -> forall i h, keeps P (set_mhandle i h).
Hypothesis Hfhandle : ok PrFHandle -> forall i g h, keeps P (set_fhandle i g h).
Hypothesis Hframe_push : ok PrFramePush -> keeps P (frame_push t).
Hypothesis Hframe_pop : ok PrFramePop -> keeps P (frame_pop t).
Hypothesis Hframe_del : ok PrFrameDel -> forall i, keeps P (frame_del t i).
Hypothesis Htmp : ok PrTmp -> forall l, keeps P (set_tmp l).
Hypothesis Hadd_global : ok PrGlobalAdd -> forall i, keeps P (add_global i).
Hypothesis Hdel_global : ok PrGlobalDel -> forall i, keeps P (del_global i).
Hypothesis Hexc : ok PrExc -> forall o, keeps P (set_exc t o).
Hypothesis Hcall_push : ok PrCallPush -> forall k, keeps P (call_push t k).
Hypothesis Hcall_pop : ok PrCallPop -> keeps P (call_pop t).
Hypothesis Harr : ok PrArr -> forall a k v, keeps P (array_set G a k v).
Hypothesis Hsplice : ok PrPrim -> forall a k v, keeps P (upd_prim a (fun l => splice l k v)).
Hypothesis Hprim : ok PrPrim -> forall a k v, keeps P (upd_prim a (fun l => list_set l k v)).
Hypothesis Hmon : ok PrMon -> forall i m, keeps P (set_mon i m).
Hypothesis Huser : ok PrUser -> forall a k v, keeps P (upd_user a (fun l => list_set l k v)).
Hypothesis Hadd_ext : ok PrExtAdd -> forall i, keeps P (add_ext i).
Hypothesis Hdel_ext : ok PrExtDel -> forall i, keeps P (del_ext i).
Hypothesis Hattach : ok PrAttach -> keeps P (Attach t).
Hypothesis Hdetach : ok PrDetach -> keeps P (Detach t).

Lemma keeps_newm A c m (k : oid -> M A) : ok PrMethods -> fresh_mth m -> (forall i, keeps P (k i)) ->
  keeps P (i <- alloc (new_obj None (PMethod m)) ;; add_method c i ;;; k i).
Proof.
  intros O E K s. pose proof (@Hmethods O c m E s) as H. unfold new_method in H. unfold bind in *.
  destruct (alloc (new_obj None (PMethod m)) s) as [i s1|e s1| | | |]; auto.
  destruct (add_method c i s1) as [u s2|e s2| | | |]; auto. simpl in H. specialize (K i s2). destruct (k i s2); eauto.
Qed.
Lemma keeps_newm_end c m : ok PrMethods -> fresh_mth m ->
  keeps P (i <- alloc (new_obj None (PMethod m)) ;; add_method c i).
Proof.
  intros O E s. pose proof (@Hmethods O c m E s) as H. unfold new_method in H. unfold bind in *.
  destruct (alloc (new_obj None (PMethod m)) s) as [i s1|e s1| | | |]; auto.
  destruct (add_method c i s1) as [u s2|e s2| | | |]; auto.
Qed.
Lemma keeps_newf A c f (k : oid -> M A) : ok PrFields -> f_get f = None -> f_set f = None -> (forall i, keeps P (k i)) ->
  keeps P (i <- alloc (new_obj None (PField f)) ;; add_field c i ;;; k i).
Proof.
  intros O E E' K s. pose proof (@Hfields O c f E E' s) as H. unfold new_field in H. unfold bind in *.
  destruct (alloc (new_obj None (PField f)) s) as [i s1|e s1| | | |]; auto.
  destruct (add_field c i s1) as [u s2|e s2| | | |]; auto. simpl in H. specialize (K i s2). destruct (k i s2); eauto.
Qed.

Ltac nc := let c := fresh in intros c; discriminate.
Ltac bl := let E := fresh in let Hv := fresh in intros ? ? ? E Hv; first [discriminate E|injection E as <- <-; apply repeat_spec in Hv; discriminate Hv].
Ltac prim_step :=
  match goal with
  | |- keeps P (find_class _ _ _) => apply Hclass; auto
  | |- keeps P (type_entry _) => apply Htype; auto
  | |- keeps P (alloc (new_obj _ _)) => apply Halloc; [auto|nc|bl]
  | |- keeps P (ensure_class _ _) => apply Hensure; auto
  | |- keeps P (push_local _ _) => apply Hlocal; auto
  | |- keeps P (set_native _ _ _) => apply Hnatives; auto
  | |- keeps P (drop_natives _) => apply Hdrop; auto
  | |- keeps P (set_type _ (Some _)) => apply Hsettype; auto
  | |- keeps P (bind_cls _ _ _) => apply Hbind; auto
  | |- keeps P (set_instarr _ _) => apply Hinstarr; auto
  | |- keeps P (set_mhandle _ _) => apply Hmhandle; auto
  | |- keeps P (set_fhandle _ _ _) => apply Hfhandle; auto
  | |- keeps P (frame_push _) => apply Hframe_push; auto
  | |- keeps P (frame_pop _) => apply Hframe_pop; auto
  | |- keeps P (frame_del _ _) => apply Hframe_del; auto
  | |- keeps P (set_tmp _) => apply Htmp; auto
  | |- keeps P (add_global _) => apply Hadd_global; auto
  | |- keeps P (del_global _) => apply Hdel_global; auto
  | |- keeps P (set_exc _ _) => apply Hexc; auto
  | |- keeps P (call_push _ _) => apply Hcall_push; auto
  | |- keeps P (call_pop _) => apply Hcall_pop; auto
  | |- keeps P (array_set _ _ _ _) => apply Harr; auto
  | |- keeps P (upd_prim _ (fun _ => splice _ _ _)) => apply Hsplice; auto
  | |- keeps P (upd_prim _ _) => apply Hprim; auto
  | |- keeps P (set_mon _ _) => apply Hmon; auto
  | |- keeps P (upd_user _ _) => apply Huser; auto
  | |- keeps P (add_ext _) => apply Hadd_ext; auto
  | |- keeps P (del_ext _) => apply Hdel_ext; auto
  | |- keeps P (Attach _) => apply Hattach; auto
  | |- keeps P (Detach _) => apply Hdetach; auto
  end.
Ltac kp :=
  repeat first
  [ solve [auto with keeps]
  | prim_step
  | match goal with
    | |- keeps P (mapM_ _ _) => apply keeps_mapM_; intros
    | |- keeps P (mapM _ _) => apply keeps_mapM; intros
    | |- keeps P (first_some _ _) => apply keeps_first_some; intros
    | |- keeps P (anyM _ _) => apply keeps_anyM; intros
    | |- keeps P (bind (alloc (new_obj None (PMethod _))) (fun i => bind (add_method _ i) _)) => apply keeps_newm; [assumption|split; [reflexivity|simpl; intros; first [reflexivity|congruence]]|intros]
    | |- keeps P (bind (alloc (new_obj None (PMethod _))) (fun i => add_method _ i)) => apply keeps_newm_end; [assumption|split; [reflexivity|simpl; intros; first [reflexivity|congruence]]]
    | |- keeps P (bind (alloc (new_obj None (PField _))) (fun i => bind (add_field _ i) _)) => apply keeps_newf; [assumption|reflexivity|reflexivity|intros]
    | |- keeps P (bind _ _) => apply keeps_bind; [|intros]
    | |- keeps P (match ?x with _ => _ end) => destruct x
    end ].

Definition oks (l : list prim) : Prop := forall p, In p l -> ok p.
Ltac oks U := repeat (match goal with |- ok ?p => apply U; cbn; tauto end).

Lemma K_to_jni Y i : ok PrEnsure -> ok PrLocal -> keeps P (to_jni t Y i).
Proof. intros. unfold to_jni. kp. Qed.
Lemma K_to_jni_opt Y o : ok PrEnsure -> ok PrLocal -> keeps P (to_jni_opt t Y o).
Proof. intros. destruct o; simpl; auto using K_to_jni with keeps. Qed.
Lemma K_find z n : ok PrClass -> ok PrEnsure -> ok PrLocal -> keeps P (FindClass_z G t z n).
Proof. intros. unfold FindClass_z. kp. apply K_to_jni_opt; auto. Qed.
Lemma K_declare s : ok PrClass -> ok PrEnsure -> ok PrLocal -> keeps P (declare G t s).
Proof. intros. unfold declare. kp. apply K_find; auto. Qed.
Lemma K_bases T : ok PrType -> keeps P (base_classes G T).
Proof. intros. unfold base_classes. kp. Qed.
Lemma K_bases_of c : ok PrType -> keeps P (bases_of G c).
Proof. intros. unfold bases_of. destruct (c_bases c); kp. apply K_bases; auto. Qed.
Lemma K_getMethodID fuel st rn nat h n g : oks u_method -> keeps P (getMethodID G fuel t st rn nat h n g).
Proof.
  intros U. assert (ok PrClass /\ ok PrType /\ ok PrEnsure /\ ok PrLocal /\ ok PrAlloc /\ ok PrMethods)
    as (? & ? & ? & ? & ? & ?) by (repeat split; oks U).
  revert st rn h g. induction fuel; intros st rn h g; cbn [getMethodID]; auto with keeps.
  kp; auto using K_to_jni, K_declare, K_bases_of with keeps.
Qed.
Lemma K_getFieldID fuel st rn h n g : oks u_field -> keeps P (getFieldID G fuel t st rn h n g).
Proof.
  intros U. assert (ok PrClass /\ ok PrType /\ ok PrEnsure /\ ok PrLocal /\ ok PrAlloc /\ ok PrFields)
    as (? & ? & ? & ? & ? & ?) by (repeat split; oks U).
  revert rn h. induction fuel; intros rn h; cbn [getFieldID]; auto with keeps.
  kp; auto using K_to_jni, K_declare, K_bases_of with keeps.
Qed.
Lemma K_GetObjectClass h : oks u_find -> keeps P (GetObjectClass G t h).
Proof.
  intros U. assert (ok PrClass /\ ok PrEnsure /\ ok PrLocal) as (? & ? & ?) by (repeat split; oks U).
  unfold GetObjectClass. destruct h; [|apply K_find; auto]. kp. apply K_to_jni_opt; auto.
Qed.
Lemma K_has_base fuel a b : ok PrType -> keeps P (has_base G fuel a b).
Proof.
  intros. revert a. induction fuel; intros a; cbn [has_base]; auto with keeps.
  kp; auto using K_bases_of.
Qed.
Lemma K_assignable a b : ok PrType -> keeps P (IsAssignableFrom G a b).
Proof. intros. unfold IsAssignableFrom. kp; auto using K_has_base. Qed.
Lemma K_same a b : keeps P (IsSameObject G a b).
Proof. unfold IsSameObject. kp. Qed.
Lemma K_from_reflected n h : oks u_find -> keeps P (FromReflected G t n h).
Proof.
  intros U. assert (ok PrClass /\ ok PrEnsure /\ ok PrLocal) as (? & ? & ?) by (repeat split; oks U).
  unfold FromReflected. kp; auto using K_GetObjectClass, K_find, K_same.
Qed.
Lemma K_new_local h : ok PrLocal -> keeps P (NewLocalRef G t h).
Proof. intros. unfold NewLocalRef. kp. Qed.
Lemma K_pending e : ok PrAlloc -> ok PrExc -> keeps P (set_pending t e).
Proof. intros. unfold set_pending. kp. Qed.
Lemma K_enter c hd w n T r h a : ok PrCallPush -> (c = true -> oks u_throw) -> keeps P (enter t c hd w n T r h a).
Proof.
  intros. unfold enter.
  assert (c = true -> keeps P (set_pending t (Err nonvirt_msg)) /\ keeps P (set_pending t (Err mismatched))) as H1.
  { intros E. assert (U := H0 E). split; apply K_pending; apply U; cbn; tauto. }
  destruct c; [destruct (H1 eq_refl)|]; kp.
Qed.
Lemma K_array_set a k v : ok PrArr -> keeps P (array_set G a k v).
Proof. intros. apply Harr. auto. Qed.
Lemma K_string_bytes h : keeps P (string_bytes G h).
Proof. unfold string_bytes. kp. Qed.
Lemma K_string_nonnull h : keeps P (string_nonnull G h).
Proof. unfold string_nonnull. kp. apply K_string_bytes. Qed.
Lemma K_buffer h : keeps P (buffer_of G h).
Proof. unfold buffer_of. kp. Qed.
Lemma K_virtual c m : keeps P (findVirtualOverload c m).
Proof. unfold findVirtualOverload. kp. Qed.
Lemma K_string b : ok PrAlloc -> oks u_to_jni -> keeps P (NewStringObj t b).
Proof. intros ? U. unfold NewStringObj. kp. apply K_to_jni; oks U. Qed.

Theorem keeps_body o : oks (uses o) -> keeps P (body G t o).
Proof.
  intros U.
  destruct o; cbn [uses] in U; cbn [body];
    unfold as_unit, as_bool, as_int, as_ref, as_oid, as_call, as_val, as_ints, as_bytes;
    repeat match goal with
      | U : oks (?p :: ?l) |- _ =>
          assert (ok p) by (apply U; cbn; tauto);
          assert (oks l) by (intros ? ?; apply U; cbn; auto); clear U
      | U : oks u_find |- _ => pose proof (U PrClass ltac:(cbn; tauto)); pose proof (U PrEnsure ltac:(cbn; tauto));
          pose proof (U PrLocal ltac:(cbn; tauto)); revert U
      | U : oks u_to_jni |- _ => pose proof (U PrEnsure ltac:(cbn; tauto));
          pose proof (U PrLocal ltac:(cbn; tauto)); revert U
      | U : oks u_throw |- _ => pose proof (U PrAlloc ltac:(cbn; tauto));
          pose proof (U PrExc ltac:(cbn; tauto)); revert U
      | U : oks (u_find ++ u_throw) |- _ =>
          assert (oks u_find) by (intros ? ?; apply U; apply in_or_app; auto);
          assert (oks u_throw) by (intros ? ?; apply U; apply in_or_app; auto); clear U
      end; intros;
    try (unfold FindClass, FromReflectedMethod, FromReflectedField, ToReflectedMethod, ToReflectedField,
           GetSuperclass, Throw, ThrowNew, ExceptionOccurred, ExceptionDescribe, ExceptionClear,
           ExceptionCheck, PushLocalFrame, PopLocalFrame, NewGlobalRef, DeleteGlobalRef, DeleteLocalRef,
           EnsureLocalCapacity, IsInstanceOf, GetMethodID, CallMethodA, CallNonvirtualMethodA,
           CallStaticMethodA, GetFieldID, GetField, SetField, JNewString, JNewStringUTF,
           JGetStringLength, JGetStringChars, JGetStringUTFLength, JGetStringUTFChars, JGetStringRegion,
           JGetStringUTFRegion, GetArrayLength, NewObjectArray, GetObjectArrayElement,
           SetObjectArrayElement, NewArray, GetArrayElements, GetArrayRegion, SetArrayRegion,
           RegisterNatives, UnregisterNatives, MonitorEnter, MonitorExit, NewWeakGlobalRef,
           DeleteWeakGlobalRef, NewDirectByteBuffer, GetDirectBufferAddress, GetDirectBufferCapacity,
           GetObjectRefType, ElementsRead, ElementsWrite, UNew, UPlain, UInstantiate, make_shared, UDrop, UHold, UToJNI,
           USetVar, GetClassT, declare_array, hook_method, hook_field, getMethod, HookReturn, HookThrow);
    kp; auto using K_to_jni, K_to_jni_opt, K_find, K_from_reflected, K_new_local, K_bases, K_assignable,
      K_pending, K_same, K_GetObjectClass, K_getMethodID, K_virtual, K_getFieldID, K_string,
      K_string_bytes, K_string_nonnull, K_array_set, K_buffer with keeps.
  all: try solve [apply K_enter; auto; discriminate].
Qed.

Theorem keeps_run o : oks (uses o) -> keeps P (run G t o).
Proof.
  intros U. unfold run. apply keeps_bind; [|intros; apply keeps_body; auto].
  destruct (needs_env o); kp.
Qed.

End Frame.
