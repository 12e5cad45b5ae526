(** Which classes an operation can create: only those around the names it mentions. *)
From Verif Require Import Base BaseProofs SigModel VmState VmModel VmStep VmSpec MemSpec VmBase VmFrame VmWf VmPrim VmInv VmReg VmFine VmRegInv VmExact VmQuiet VmClass ClassProps.
Set Implicit Arguments.
Unset Strict Implicit.
Local Open Scope vm_scope.
Local Open Scope char_scope.

(** The class names an operation looks up so that they are created if missing *)
Definition sig_mentions (G : cfg) (sg : str) (n : str) : Prop := debug G = true /\ exists l, Declare_names sg = Ok l /\ In n l.
Definition array_of (p : str) : str := match p with "[" :: _ => "[" :: p | _ => "[" :: "L" :: p ++ [";"] end.
Inductive mentions (G : cfg) (s : st) : op -> str -> Prop :=
| mn_find n : retnull G = false -> mentions G s (FindClass_ n) n
| mn_invalid : retnull G = false -> mentions G s (GetObjectClass_ None) (S_ "Invalid")
| mn_call T id args : retnull G = false -> mentions G s (CallMethodA_ T None id args) (S_ "Invalid")
| mn_from_method h : mentions G s (FromReflectedMethod_ (Some h)) (S_ "java/lang/reflect/Method")
| mn_from_field h : mentions G s (FromReflectedField_ (Some h)) (S_ "java/lang/reflect/Field")
| mn_global h : mentions G s (NewGlobalRef_ h) (S_ "internal/lang/Global")
| mn_weak h : mentions G s (NewWeakGlobalRef_ h) (S_ "java/lang/ref/WeakReference")
| mn_array p n : mentions G s (NewArray_ p n) ["["; pty_char p]
| mn_objects n h x c k : denotes_opt s h (Some c) -> contents s c = Some (PClass k) -> mentions G s (NewObjectArray_ n h x) (array_of (c_prefix k))
| mn_method st h nm sg n : retnull G = false -> sig_mentions G sg n -> mentions G s (GetMethodID_ st h nm sg) n
| mn_ctor h sg c k n : retnull G = false -> denotes_opt s h (Some c) -> contents s c = Some (PClass k) -> sig_mentions G (init_sig sg (c_prefix k)) n ->
    mentions G s (GetMethodID_ false h (S_ "<init>") sg) n
| mn_field st h nm sg n : retnull G = false -> sig_mentions G sg n -> mentions G s (GetFieldID_ st h nm sg) n
| mn_get n : mentions G s (UFindClass_ false n) n
| mn_bind m i n : mentions G s (UBind_ m i n) n
| mn_declare m c k : registered s (TUser m) = Some c -> contents s c = Some (PClass k) -> mentions G s (UDeclareArray_ m) ("[" :: "L" :: c_prefix k ++ [";"]).

Section Cfg.
Variable G : cfg.
Variable N : str -> Prop.
Definition only (s s' : st) : Prop := forall m, get_class s' m <> None -> get_class s m <> None \/ N m.
Lemma only_refl s : only s s.
Proof. intros m H. auto. Qed.
Lemma only_trans a b c : only a b -> only b c -> only a c.
Proof. intros A B m H. destruct (B m H) as [H1|]; auto. Qed.
Lemma only_same s s' : s_classes s' = s_classes s -> only s s'.
Proof. intros E m. unfold get_class. rewrite E. auto. Qed.
Hint Resolve only_refl : core.
Let B A C (m : M A) (f : A -> M C) : keeps only m -> (forall a, keeps only (f a)) -> keeps only (bind m f).
Proof. apply keeps_bind. apply only_trans. Qed.
Let R A (a : A) : keeps only (ret a).
Proof. apply keeps_ret. auto. Qed.
Let Gt A (f : st -> A) : keeps only (gets f).
Proof. apply keeps_gets. auto. Qed.
Let U A : keeps only (@undef A).
Proof. apply keeps_undef. Qed.
Let C i : keeps only (get_cls i).
Proof. apply keeps_get_cls; auto. apply only_trans. Qed.

Lemma only_set n i : N n -> keeps only (set_class n i).
Proof.
  intros Hn. apply I_set_class. intros s _ m. unfold get_class. simpl. rewrite (aget_aset str_eqb str_eqb_spec). destruct (str_eqb_spec n m); [subst; auto|auto].
Qed.
Lemma only_create n p : N p -> keeps only (create_cls n p).
Proof.
  intros Hp. unfold create_cls. apply B; [apply I_alloc; intros; apply only_same; reflexivity|]. intros i. apply B; [apply only_set; auto|auto].
Qed.
Lemma only_add_inner c k : keeps only (add_inner c k).
Proof. apply I_upd_cls. intros. apply only_same. reflexivity. Qed.
Lemma nm_next a d n : nm a (d ++ [n]) = joined "/" a ++ joined "$" d ++ n.
Proof. unfold nm. rewrite (joined_join "$"). reflexivity. Qed.
Lemma joined_next c d n : joined c (d ++ [n]) = joined c d ++ n ++ [c].
Proof. unfold joined. rewrite flat_map_app. simpl. rewrite app_nil_r. reflexivity. Qed.
Lemma only_inner a segs : forall c d, (forall q, q <> [] -> (exists r, segs = q ++ r) -> N (nm a (d ++ q))) -> keeps only (walk_inner false c (joined "/" a ++ joined "$" d) segs).
Proof.
  induction segs as [|n r IH]; intros c d H; cbn [walk_inner]; auto. apply B; auto. intros s. apply B; auto. intros k.
  replace ((joined "/" a ++ joined "$" d) ++ n ++ ["$"]) with (joined "/" a ++ joined "$" (d ++ [n])) by (rewrite joined_next, !app_assoc; reflexivity).
  assert (forall c', keeps only (walk_inner false c' (joined "/" a ++ joined "$" (d ++ [n])) r)) as K.
  { intros c'. apply IH. intros q Nq (r' & ->). rewrite <- app_assoc. apply H; [discriminate|]. exists r'. reflexivity. }
  destruct (find_cls s (c_inner k) n); auto. apply B; [|intros; apply B; [apply only_add_inner|auto]]. apply only_create.
  rewrite <- app_assoc, <- nm_next. apply H; [discriminate|]. exists r. reflexivity.
Qed.
Lemma only_ns segs : forall z k, keeps only (walk_ns z k segs).
Proof.
  induction segs as [|n r IH]; intros z k; cbn [walk_ns]; auto. apply B; auto. intros s. destruct (nth_error (s_ns s) k); auto. destruct (find_sub s (n_subs n0) n); auto. destruct z; auto.
  apply B; auto. apply I_new_ns. intros. apply only_same. reflexivity.
Qed.
Lemma only_inner_zero segs : forall c p, keeps only (walk_inner true c p segs).
Proof. induction segs as [|n r IH]; intros c p; cbn [walk_inner]; auto. apply B; auto. intros s. apply B; auto. intros k. destruct (find_cls s (c_inner k) n); auto. Qed.
Lemma only_find z n : (z = false -> forall m, brings G n m -> N m) -> keeps only (find_class G z n).
Proof.
  intros H0. assert (z = false -> forall m, In m (outer_names G n) -> N m) as H by (intros Hz m Hm; apply H0; auto; apply brings_spec; auto).
  unfold outer_names, bracket in H. unfold find_class. destruct (debug G && negb match n with "[" :: _ => true | _ => false end).
  - apply B; [apply only_ns|]. intros [k|]; auto. unfold walk_cls. change (split_on "$" (last (split_on "/" n) [])) with (cls_part n). change (removelast (split_on "/" n)) with (ns_part n).
    destruct (cls_part n) as [|x r] eqn:E; auto. apply B; auto. intros s. destruct (nth_error (s_ns s) k) as [y|]; auto.
    assert (forall c', keeps only (walk_inner z c' (joined "/" (ns_part n) ++ x ++ ["$"]) r)) as K.
    { intros c'. destruct z; [apply only_inner_zero|]. replace (x ++ ["$"]) with (joined "$" [x]) by (unfold joined; simpl; rewrite app_nil_r; reflexivity).
      apply only_inner. intros q Nq (r' & ->). apply (H eq_refl). apply in_map_iff. exists ([x] ++ q). split; auto. apply In_prefixes. split; [discriminate|]. exists r'. reflexivity. }
    destruct (find_cls s (n_classes y) x); auto. destruct z; auto. apply B.
    + apply only_create. apply (H eq_refl). apply in_map_iff. exists [x]. split; [reflexivity|]. apply In_prefixes. split; [discriminate|]. exists r. reflexivity.
    + intros i. apply B; [apply I_ns_add_class; intros; apply only_same; reflexivity|auto].
  - apply B; auto. intros s. destruct (get_class s n); auto. destruct z; auto. apply B; auto. apply only_create. apply (H eq_refl). left. reflexivity.
Qed.

(** The other elementary changes *)
Variable t : tid.
Let ok (p : prim) : Prop := p <> PrClass.

Ltac same := first [apply I_type_entry|apply I_alloc|apply I_ensure_class|apply I_push_local|apply I_upd_cls|apply I_set_type|apply I_upd_mth|apply I_upd_fld|apply I_upd_env|apply I_del_global|apply I_call_push|apply I_call_pop
     |apply I_array_set|apply I_upd_prim|apply I_upd_user|apply I_set_mon|apply I_set_tmp|apply I_add_global|apply I_add_ext|apply I_del_ext|apply I_Attach|apply I_Detach]; auto; intros; apply only_same; reflexivity.
Lemma only_alloc o : keeps only (alloc o).
Proof. same. Qed.
Lemma only_ensure Y i : keeps only (ensure_class Y i).
Proof. same. Qed.
Lemma only_push i : keeps only (push_local t i).
Proof. same. Qed.
Lemma only_type T : keeps only (type_entry T).
Proof. same. Qed.
Lemma only_addm c i : keeps only (add_method c i).
Proof. same. Qed.
Lemma only_addf c i : keeps only (add_field c i).
Proof. same. Qed.
Lemma only_body_other o : ~ In PrClass (uses o) -> keeps only (body G t o).
Proof.
  intros Hu. apply keeps_body with (ok := ok); auto; try exact only_trans; try (intros X; exfalso; apply X; reflexivity); unfold ok; intros; try same.
  - unfold new_method. apply B; [apply only_alloc|]. intros. apply B; [apply only_addm|auto].
  - unfold new_field. apply B; [apply only_alloc|]. intros. apply B; [apply only_addf|auto].
  - unfold drop_natives. apply B; auto. intros. same.
  - apply I_frame_pop. intros. apply only_same. match goal with |- context [collect ?x] => pose proof (collect_same x) as E end. unfold same_but_heap in E. intuition.
  - intros p Hp E. subst. auto.
Qed.

Hint Resolve only_alloc only_ensure only_push only_type only_addm only_addf : kp.
Let J T h : keeps only (jnicast G T h).
Proof. apply keeps_jnicast; auto; apply only_trans. Qed.
Lemma only_to_jni Y i : keeps only (to_jni t Y i).
Proof. unfold to_jni. repeat (apply B; [auto with kp|intros]). auto with kp. Qed.
Lemma only_to_jni_opt Y i : keeps only (to_jni_opt t Y i).
Proof. destruct i; simpl; auto. apply only_to_jni. Qed.
Lemma only_findz z n : (z = false -> forall m, brings G n m -> N m) -> keeps only (FindClass_z G t z n).
Proof. intros H. unfold FindClass_z. apply B; [apply only_find; auto|]. intros. apply only_to_jni_opt. Qed.
Definition covers (sg : str) : Prop := forall n, sig_mentions G sg n -> forall m, brings G n m -> N m.
Lemma only_declare sg : debug G = true -> covers sg -> keeps only (declare G t sg).
Proof.
  intros D H. unfold declare. destruct (Declare_names sg) as [l|?| | |] eqn:E; try (intros s; simpl; auto; fail).
  intros s. simpl. assert (forall k, (forall x, In x k -> In x l) -> keeps only (mapM_ (fun n => FindClass_z G t false n;;; ret tt) k)) as K.
  { induction k as [|x k IH]; intros Hk; cbn [mapM_]; auto. apply B; [|intros; apply IH; intros; apply Hk; right; auto]. apply B; auto. apply only_findz. intros _. apply H. split; auto. exists l. split; [exact E|apply Hk; left; auto]. }
  apply (K l). auto.
Qed.
Lemma only_bases c : keeps only (bases_of G c).
Proof. apply (@K_bases_of G only (only_refl) only_trans (fun _ => True)); auto. intros. apply only_type. Qed.
Let Fs A (f : A -> M (option oid)) l : (forall x, keeps only (f x)) -> keeps only (first_some f l).
Proof. apply keeps_first_some; auto; apply only_trans. Qed.
Let Dc sg : covers sg -> keeps only (if debug G then declare G t sg else ret tt).
Proof. intros H. destruct (debug G) eqn:D; auto. apply only_declare; auto. Qed.
Lemma only_getM_true fuel : forall st nat h nm sg, keeps only (getMethodID G fuel t st true nat h nm sg).
Proof.
  induction fuel as [|fuel IH]; intros; cbn [getMethodID]; [apply keeps_div|]. apply B; auto. intros [cl|]; auto. apply B; auto. intros c. destruct (negb st && str_eqb nm (S_ "<init>")); auto. apply B; auto. intros s.
  destruct (find_mth s (mth_match st nat nm sg) (c_methods c)); auto. apply B; [apply only_bases|]. intros bs. apply B; [apply Fs; auto|]. intros [i|]; auto.
Qed.
Lemma only_getM fuel st rn nat h nm sg : st = true \/ nm <> S_ "<init>" -> (rn = false -> covers sg) -> keeps only (getMethodID G fuel t st rn nat h nm sg).
Proof.
  intros Hs Hc. destruct rn; [apply only_getM_true|]. specialize (Hc eq_refl). destruct fuel as [|fuel]; cbn [getMethodID]; [apply keeps_div|]. apply B; auto. intros [cl|].
  - apply B; auto. intros c. assert (negb st && str_eqb nm (S_ "<init>") = false) as ->.
    { destruct Hs as [->|Hs]; auto. destruct (str_eqb_spec nm (S_ "<init>")); [congruence|]. apply andb_false_r. }
    apply B; auto. intros s. destruct (find_mth s (mth_match st nat nm sg) (c_methods c)); auto. apply B; [apply only_bases|]. intros bs. apply B; [apply Fs; intros; apply only_getM_true|]. intros [i|]; auto.
    repeat (apply B; [auto with kp|intros]); auto.
  - apply B; [auto with kp|intros]. apply B; [apply only_to_jni|intros]. apply B; auto.
Qed.
Lemma only_getF fuel : forall st rn h nm ty, (rn = false -> covers ty) -> keeps only (getFieldID G fuel t st rn h nm ty).
Proof.
  induction fuel as [|fuel IH]; intros st rn h nm ty Hc; cbn [getFieldID]; [apply keeps_div|]. apply B; auto. intros o. apply B; [apply keeps_nonnull; auto|]. intros cl. apply B; auto. intros c. apply B; auto. intros s.
  destruct (find_fld s (fld_match st nm ty) (c_fields c)); auto. apply B; [apply only_bases|]. intros bs. apply B; [apply Fs; intros; apply IH; discriminate|]. intros [i|]; auto. destruct rn; auto.
  repeat (apply B; [auto with kp|intros]); auto.
Qed.
Lemma only_GetObjectClass h : (h = None -> retnull G = false -> forall m, brings G (S_ "Invalid") m -> N m) -> keeps only (GetObjectClass G t h).
Proof.
  intros H. destruct h; cbn [GetObjectClass]; [|apply only_findz; auto]. apply B; auto. intros x. apply B; [apply keeps_nonnull; auto|]. intros y. apply B; [apply keeps_clazz_lock; auto; apply only_trans|]. intros. apply only_to_jni_opt.
Qed.
Lemma only_enter b hd k w T h cs args : keeps only (enter t b hd k w T h cs args).
Proof.
  apply (@K_enter only (only_refl) only_trans t (fun _ => True)); auto; intros; try same. intros ? ?. exact I.
Qed.
End Cfg.

(** The statement about the body of one operation in state [s] *)
Definition at_ {A} (P : st -> st -> Prop) (m : M A) (s : st) : Prop := match m s with Ret _ s' | Thr _ s' => P s s' | _ => True end.
Section Body.
Variable G : cfg.
Variable s : st.
Variable o : op.
Hypothesis W : wf s.
Let N m := exists n, mentions G s o n /\ brings G n m.
Let P := only N.
Variable t : tid.
Let B A C (m : M A) (f : A -> M C) : keeps P m -> (forall a, keeps P (f a)) -> keeps P (bind m f).
Proof. apply keeps_bind. apply only_trans. Qed.
Let R A (a : A) : keeps P (ret a).
Proof. apply keeps_ret. apply only_refl. Qed.
Let J T h : keeps P (jnicast G T h).
Proof. apply keeps_jnicast; [apply only_refl|apply only_trans]. Qed.
Let F n : mentions G s o n -> keeps P (find_class G false n).
Proof. intros H. apply only_find. intros _ m Hm. exists n. auto. Qed.
Let Nn x : keeps P (nonnull x).
Proof. apply keeps_nonnull. apply only_refl. Qed.
Let Cl i : keeps P (get_cls i).
Proof. apply keeps_get_cls; [apply only_refl|apply only_trans]. Qed.
Let Mt i : keeps P (get_mth i).
Proof. apply keeps_get_mth; [apply only_refl|apply only_trans]. Qed.
Let at_read A C (m : M A) (f : A -> M C) : (forall r s', m s = Ret r s' -> s' = s /\ at_ P (f r) s) -> (forall e s', m s = Thr e s' -> s' = s) -> at_ P (bind m f) s.
Proof.
  intros H H'. unfold at_, bind. destruct (m s) as [r s1|e s1| | | |] eqn:E; auto.
  - destruct (H _ _ eq_refl) as (-> & K). exact K.
  - rewrite (H' _ _ eq_refl). apply only_refl.
Qed.
Let at_cls A (f : cls -> M A) i : (forall k, contents s i = Some (PClass k) -> at_ P (f k) s) -> at_ P (bind (get_cls i) f) s.
Proof.
  intros H. unfold contents in H. apply at_read; unfold get_cls, bind, deref.
  - intros k s' E. destruct (lookup s i) as [x|]; [|discriminate]. destruct (o_pay x) eqn:Ep; inversion E; subst. split; auto. apply H. simpl. congruence.
  - intros e s' E. destruct (lookup s i) as [x|]; [|discriminate]. destruct (o_pay x) eqn:Ep; inversion E; subst.
Qed.
Let at_cast A (f : option oid -> M A) T h : (forall r, denotes_opt s h r -> at_ P (f r) s) -> at_ P (bind (jnicast G T h) f) s.
Proof.
  intros H. apply at_read.
  - intros r s' E. destruct (jnicast_inv W E) as (-> & D & _). auto.
  - intros e s' E. apply (jnicast_thr W E).
Qed.
Let at_keeps A (m : M A) : keeps P m -> at_ P m s.
Proof. intros H. apply H. Qed.
Let bnd A C (m : M A) (f : A -> C) : at_ P m s -> at_ P (x <- m ;; ret (f x)) s.
Proof. unfold at_, bind. destruct (m s); auto. Qed.
Let cov sg : (forall n, sig_mentions G sg n -> mentions G s o n) -> covers G N sg.
Proof. intros H n Hn m Hm. exists n. auto. Qed.
Let from n h : (h <> None -> mentions G s o n) -> keeps P (FromReflected G t n h).
Proof.
  intros H. unfold FromReflected. destruct h as [i|]; auto. apply B; [apply only_GetObjectClass; discriminate|]. intros. apply B; [apply only_findz; intros _ m Hm; exists n; split; auto; apply H; discriminate|]. intros. apply B; auto. apply (@K_same G P (@only_refl N) (@only_trans N)).
Qed.
Let keeps_findVirtual cl i : keeps P (findVirtualOverload cl i).
Proof. apply (@K_virtual P (@only_refl N) (@only_trans N)). Qed.
Lemma names_body : at_ P (body G t o) s.
Proof.
  destruct (in_dec (fun a b : prim => ltac:(decide equality)) PrClass (uses o)) as [Hu|Hu]; [|apply at_keeps, only_body_other; auto].
  destruct o; simpl in Hu; try (exfalso; intuition discriminate); clear Hu; cbn [body]; try (apply bnd).

  - apply at_keeps. apply only_findz. intros Hr m Hm. exists name. split; auto. constructor. auto.
  - apply at_keeps. apply from. intros Hh. destruct h; [constructor|congruence].
  - apply at_keeps. apply from. intros Hh. destruct h; [constructor|congruence].
  - apply at_keeps. unfold NewGlobalRef. apply B; auto. intros [i|]; auto. apply B; [apply F; constructor|]. intros. apply B; [apply only_alloc|]. intros. apply B; auto. apply I_add_global. intros. apply only_same. reflexivity.
  - apply at_keeps. apply only_GetObjectClass. intros -> Hr m Hm. exists (S_ "Invalid"). split; auto. constructor; auto.
  - apply at_keeps. unfold IsInstanceOf. destruct h; auto. apply B; [apply only_GetObjectClass; discriminate|]. intros. apply (@K_assignable G P (@only_refl N) (@only_trans N) (fun _ => True)); auto. intros. apply only_type.
  - unfold GetMethodID. change (at_ P (getMethodID G (depth s) t isStatic (retnull G) false c name sig) s).
    destruct isStatic; [apply at_keeps, only_getM; auto; intros Hr; apply cov; intros n Hn; constructor; auto|].
    destruct (str_eqb_spec name (S_ "<init>")) as [->|Hn]; [|apply at_keeps, only_getM; auto; intros Hr; apply cov; intros n Hs; constructor; auto].
    unfold depth. rewrite Nat.add_comm. cbn [Nat.add]. generalize (S (length (s_heap s))). intros fl. cbn [getMethodID]. apply at_cast. intros [cl|] Dr.
    + apply at_cls. intros k Ck. cbn [negb andb]. change (str_eqb (S_ "<init>") (S_ "<init>")) with true. cbv beta iota. apply at_keeps, only_getM; auto. intros Hr. apply cov. intros n Hs. eapply mn_ctor; eauto.
    + destruct (retnull G) eqn:Er; [apply at_keeps; auto|]. apply at_keeps. apply B; [apply only_alloc|]. intros. apply B; [apply only_to_jni|]. intros. apply B; auto. destruct (debug G) eqn:Ed; auto. apply only_declare; auto. apply cov. intros n Hs. constructor; auto.
  - apply at_keeps. unfold CallMethodA. destruct id as [i|]; auto. apply B; auto. intros m. destruct (m_handle m); auto. apply B; [apply only_GetObjectClass; intros -> Hr x Hx; exists (S_ "Invalid"); split; auto; constructor; auto|].
    intros. apply B; auto. intros. apply B; [apply keeps_findVirtual|]. intros. apply B; auto. intros x. destruct (m_handle x); [apply only_enter|apply keeps_undef].
  - apply at_keeps. unfold GetFieldID. apply B; [apply keeps_gets; apply only_refl|]. intros. apply only_getF. intros Hr. apply cov. intros n Hs. constructor; auto.
  - unfold NewObjectArray. apply at_cast. intros [cl|] Dr; [|exact I]. change (at_ P (bind (get_cls cl) (fun k => (if (0 <? n)%Z then live_all (opt_list init) else ret tt);;;
  cl0 <- find_class G false (array_of (c_prefix k)) ;;
  ci <- nonnull cl0 ;;
  ck <- get_cls ci ;;
  if (n <? 0)%Z then err (S_ "std::bad_array_new_length")
  else
    a <- alloc (new_obj (Some ci) (PArr (c_instarr ck) (repeat None (Z.to_nat n)))) ;;
    match init with
    | None => ret tt
    | Some v => mapM_ (fun j => live_all [v] ;;; array_set G a (Z.of_nat j) init) (seq 0 (Z.to_nat n))
    end ;;; to_jni t (TArr None) a)) s). apply at_cls. intros k Ck. apply at_keeps. apply B; [destruct (0 <? n)%Z; auto; apply keeps_live_all; apply only_refl|]. intros _. apply B; [apply F; econstructor; eauto|]. intros. apply B; auto. intros. apply B; auto. intros. destruct (n <? 0)%Z; [apply keeps_err; apply only_refl|]. apply B; [apply only_alloc|]. intros. apply B; [|intros; apply only_to_jni].
    destruct init; auto. apply keeps_mapM_; [apply only_refl|apply only_trans|]. intros. apply B; [apply keeps_live_all; apply only_refl|]. intros. apply (@K_array_set G P (fun _ => True)); auto. intros. apply I_array_set; intros; apply only_same; reflexivity.
  - apply at_keeps. unfold NewArray. destruct (n <? 0)%Z; [apply keeps_err; apply only_refl|]. apply B; [apply F; constructor|]. intros. apply B; [apply only_alloc|]. intros. apply only_to_jni.
  - apply at_keeps. unfold NewWeakGlobalRef. apply B; auto. intros [i|]; auto. apply B; [apply F; constructor|]. intros. apply B; [apply only_alloc|]. intros. apply B; auto. apply I_add_global. intros. apply only_same. reflexivity.
  - apply at_keeps. apply only_find. intros -> m Hm. exists name. split; auto. constructor.
  - apply at_keeps. unfold GetClassT. apply B; [apply F; constructor|]. intros. apply B; auto. intros. apply B; [apply I_set_type; intros; apply only_same; reflexivity|]. intros. apply B; auto. apply I_upd_cls. intros. apply only_same. reflexivity.
  - unfold declare_array. apply at_read; [|intros e s' E; inversion E]. intros r s' E. inversion E; subst. split; auto. destruct (type_class s' (TUser n)) as [c|] eqn:Et; [|exact I]. apply at_cls. intros k Ck. apply at_keeps. apply B; [apply F; eapply mn_declare; eauto|]. intros. apply B; auto. intros. apply I_upd_cls. intros. apply only_same. reflexivity.
  - apply at_keeps. apply B; [|intros ((? & ?) & ?); auto]. unfold getMethod. repeat (apply B; [first [apply keeps_gets; apply only_refl|apply only_getM_true]|intros]). destruct a0; auto. destruct a1; auto. apply B; [apply only_getM_true|]. auto.
Qed.
End Body.

(** ** The step *)
Theorem step_creates G t o s v s' n : good G s -> step G t o s = Some (v, s') -> class_exists s' n ->
  class_exists s n \/ exists m, mentions G s o m /\ brings G m n.
Proof.
  intros I E. pose proof (step_good I E) as I'. rewrite (class_exists_iff n (g_inv I)), (class_exists_iff n (g_inv I')).
  assert (only (fun n => exists m, mentions G s o m /\ brings G m n) s s') as H; [|apply H].
  pose proof (@names_body G s o (good_wf I) t) as H. unfold at_ in H. unfold step, run in E.
  assert (forall x, only (fun n => exists m, mentions G s o m /\ brings G m n) s x -> only (fun n => exists m, mentions G s o m /\ brings G m n) s (finish x)) as F.
  { intros x Hx m Hm. apply Hx. revert Hm. unfold finish, get_class. pose proof (collect_same (with_tmp x [])) as C. unfold same_but_heap in C. destruct C as (_ & C & _). rewrite <- C. auto. }
  unfold bind at 1 in E. destruct (needs_env o).
  - unfold bind at 1 in E. unfold the_env in E. destruct (get_env s t); [|discriminate]. cbn [ret] in E.
    destruct (body G t o s); inversion E; subst; auto.
  - unfold ret in E. destruct (body G t o s); inversion E; subst; auto.
Qed.
Theorem exec_creates G l : forall s vs s' n, good G s -> exec G l s = Some (vs, s') -> class_exists s' n ->
  class_exists s n \/ exists l1 t o l2 vs1 s1 m, l = l1 ++ (t, o) :: l2 /\ exec G l1 s = Some (vs1, s1) /\ mentions G s1 o m /\ brings G m n.
Proof.
  induction l as [|[t o] l IH]; intros s vs s' n I E C; simpl in E.
  - inversion E; subst. auto.
  - destruct (step G t o s) as [[v s1]|] eqn:Es; [|discriminate]. destruct (exec G l s1) as [[ws s2]|] eqn:El; [|discriminate]. inversion E; subst.
    destruct (IH _ _ _ _ (step_good I Es) El C) as [C1|(l1 & t1 & o1 & l2 & vs1 & sx & m & -> & E1 & M & Br)].
    + destruct (step_creates I Es C1) as [|(m & M & Br)]; auto. right. exists [], t, o, l, [], s, m. auto.
    + right. exists ((t, o) :: l1), t1, o1, l2, (v :: vs1), sx, m. simpl. rewrite Es, E1. auto.
Qed.
