(** C95: the methods of JNIEnv and JavaVM in C++ reach the functions of the same name. *)
From Coq Require Import String List Lia Bool PeanoNat.
From Verif Require Import Base VmState IfaceModel IfaceProps EnvCppModel.
Import ListNotations.
Set Implicit Arguments.
Unset Strict Implicit.
Local Open Scope string_scope.

(** ** Specification *)
(** Arguments behind "..." arrive as a va_list, in the form of the function that takes one. *)
Definition arrives (p : passing) : passing := match p with KDots => KVa | _ => p end.
(** A method with [n] named parameters, called with [vs] *)
Definition passed {A} (p : passing) (n : nat) (vs : list A) : list (arg A) :=
  match p with KDots => (map (@One A) (firstn n vs) ++ [VaList (skipn n vs)])%list | _ => map (@One A) vs end.
(** The number of named parameters of a function of the table: those of its type *)
Definition arity (types : list string) : nat := length (filter (fun t => negb (String.eqb t "...")) types).

(** ** Methods that pass their parameters on *)
Lemma lookup_not_in A n (l : list (string * A)) : ~ In n (map fst l) -> lookup n l = None.
Proof. induction l as [|[m a] l IH]; cbn; [easy|]. intros N. destruct (String.eqb_spec m n) as [->|]; [destruct N; auto|]. apply IH. auto. Qed.
Lemma lookup_app A n (l m : list (string * A)) : lookup n (l ++ m)%list = match lookup n l with Some a => Some a | None => lookup n m end.
Proof. induction l as [|[k a] l IH]; cbn; [reflexivity|]. destruct (String.eqb k n); [reflexivity|exact IH]. Qed.
Lemma all_some_map A (l : list A) : all_some (map Some l) = Some l.
Proof. induction l as [|a l IH]; cbn; [reflexivity|]. rewrite IH. reflexivity. Qed.
Lemma lookups A (ns : list string) (vs : list A) (r : list (string * A)) : NoDup ns -> length ns = length vs -> map (fun n => lookup n (combine ns vs ++ r)%list) ns = map Some vs.
Proof.
  revert vs. induction ns as [|n ns IH]; intros [|v vs] D L; cbn in L; try discriminate; [reflexivity|]. cbn [combine map app lookup]. rewrite String.eqb_refl. f_equal.
  inversion D as [|? ? N D']; subst. rewrite <- (IH vs D' (f_equal pred L)). apply map_ext_in. intros m M. destruct (String.eqb_spec n m) as [->|]; [destruct (N M)|reflexivity].
Qed.
Lemma combine_app_l A B (a : list A) (b c : list B) : length a = length b -> combine a (b ++ c)%list = combine a b.
Proof. revert b. induction a as [|x a IH]; intros [|y b] L; cbn in *; try discriminate; [reflexivity|]. f_equal. apply IH. lia. Qed.
Lemma combine_snoc A B (ns : list A) (us : list B) a b : length ns = length us -> (combine ns us ++ [(a, b)] = combine (ns ++ [a]) (us ++ [b]))%list.
Proof. revert us. induction ns as [|m ns IH]; intros [|u us] Lu; cbn in *; try discriminate; [reflexivity|]. f_equal. apply IH. lia. Qed.
Lemma va_start_last A ps t x (vs ws : list A) : length vs = S (length ps) -> va_start (ps ++ [(t, x)])%list (vs ++ ws)%list x = Some ws.
Proof.
  revert vs. induction ps as [|[t' y] ps IH]; intros [|v vs] L; cbn in L; try discriminate.
  - destruct vs; [|discriminate]. cbn. rewrite String.eqb_refl. reflexivity.
  - cbn [app va_start]. destruct (ps ++ [(t, x)])%list as [|p q] eqn:E; [destruct ps; discriminate|]. destruct p as [? ?]. apply IH. lia.
Qed.

(** What is checked of each of the methods *)
Definition namesb (w : method) : bool := if list_eq_dec string_dec (map snd (w_params w) ++ if w_dots w then ["args"] else [])%list (w_args w) then true else false.
Definition nodupb (l : list string) : bool := if list_eq_dec string_dec (nodup string_dec l) l then true else false.
Definition startb (w : method) : bool :=
  if w_dots w then match rev (w_params w), w_start w with (_, x) :: _, Some y => String.eqb x y | _, _ => false end
  else match w_start w with None => true | _ => false end.
Definition forwardsb (w : method) : bool := namesb w && nodupb (w_args w) && startb w.

Lemma body_forwards A (w : method) (vs : list A) : forwardsb w = true -> (if w_dots w then length (w_params w) <= length vs else length vs = length (w_params w)) ->
  body w vs = Some (w_field w, passed (if w_dots w then KDots else KNone) (length (w_params w)) vs).
Proof.
  unfold forwardsb, namesb, nodupb, startb. intros F L. apply andb_true_iff in F. destruct F as (F & St). apply andb_true_iff in F. destruct F as (Na & Nd).
  destruct (list_eq_dec string_dec _ (w_args w)) as [Eq|] in Na; [|discriminate]. destruct (list_eq_dec string_dec _ _) as [D|] in Nd; [|discriminate]. clear Na Nd.
  assert (NoDup (w_args w)) as D' by (rewrite <- D; apply NoDup_nodup). clear D. rename D' into D.
  unfold body. destruct (w_dots w) eqn:Dots.
  - rewrite (proj2 (Nat.ltb_ge _ _) L). cbn [negb andb]. destruct (rev (w_params w)) as [|[t x] r] eqn:R; [discriminate|]. destruct (w_start w) as [y|]; [|discriminate]. apply String.eqb_eq in St. subst y.
    assert (w_params w = rev r ++ [(t, x)])%list as P by (rewrite <- (rev_involutive (w_params w)), R; reflexivity).
    set (n := length (w_params w)) in *.
    assert (vs = firstn n vs ++ skipn n vs)%list as V by (symmetry; apply firstn_skipn).
    assert (length (firstn n vs) = n) as Ln by (apply firstn_length_le; exact L).
    assert (va_start (w_params w) vs x = Some (skipn n vs)) as ->.
    { rewrite V at 1. rewrite P. apply va_start_last. rewrite Ln. unfold n. rewrite P, app_length. cbn. lia. }
    cbn [passed]. rewrite <- Eq in D |- *.
    assert (combine (map snd (w_params w)) (map (@One A) vs) = combine (map snd (w_params w)) (map (@One A) (firstn n vs))) as ->.
    { rewrite V at 1. rewrite map_app. apply combine_app_l. rewrite !map_length, Ln. reflexivity. }
    set (ns := map snd (w_params w)) in *. set (us := map (@One A) (firstn n vs)) in *.
    assert (combine ns us ++ [("args", VaList (skipn n vs))] = combine (ns ++ ["args"]) (us ++ [VaList (skipn n vs)]))%list as ->.
    { apply combine_snoc. unfold ns, us. rewrite !map_length. auto. }
    rewrite <- (app_nil_r (combine _ _)). rewrite lookups; [rewrite all_some_map; reflexivity|exact D|]. rewrite !app_length. unfold ns, us. rewrite !map_length, Ln. reflexivity.
  - rewrite L, Nat.ltb_irrefl. cbn [negb andb]. destruct (w_start w); [discriminate|]. rewrite app_nil_r in Eq. rewrite <- Eq in D |- *.
    rewrite <- (app_nil_r (combine _ _)). rewrite lookups; [rewrite all_some_map; reflexivity|exact D|]. rewrite !map_length. symmetry. exact L.
Qed.

(** ** All methods *)
Definition pass_eqb (p q : passing) : bool := match p, q with KNone, KNone | KDots, KDots | KVa, KVa | KJv, KJv => true | _, _ => false end.
Lemma pass_eqb_eq p q : pass_eqb p q = true -> p = q. Proof. destruct p, q; easy. Qed.
Definition fn_eq_dec (f g : fn) : {f = g} + {f <> g}.
Proof. decide equality; try apply string_dec; try apply bool_dec; try (decide equality; decide equality); decide equality. Defined.
Definition strs_eqb (a b : list string) : bool := if list_eq_dec string_dec a b then true else false.
Definition dots_types (w : method) : list string := (map fst (w_params w) ++ if w_dots w then ["..."] else [])%list.
(** The method [w] belongs to the field [(n, p)], whose type is [(m, (r, ts))]: its body calls the function of the field, or the one with a va_list *)
Definition methodb (w : method) (e : (string * passing) * (string * (string * list string))) : bool :=
  let '((n, p), (m, (r, ts))) := e in
  String.eqb (w_name w) n && String.eqb m n && String.eqb (w_ret w) r && strs_eqb (dots_types w) ts && forwardsb w &&
  eqb (w_dots w) (pass_eqb p KDots) && (w_return w || String.eqb r "void") &&
  forallb (fun rn => match function rn n, function rn (w_field w) with
    | Some (f, a), Some (g, b) => pass_eqb a p && pass_eqb b (arrives p) && (if fn_eq_dec f g then true else false) && servesb rn f p n
    | _, _ => false end) [true; false].
Definition zip3 : list (method * ((string * passing) * (string * (string * list string)))) := combine JNIEnv_methods (combine (skipn 4 JNINativeInterface) field_types).
Lemma all_methods : length JNIEnv_methods = 229 /\ length field_types = 229 /\ length (skipn 4 JNINativeInterface) = 229 /\ forallb (fun x => methodb (fst x) (snd x)) zip3 = true.
Proof. vm_compute. auto. Qed.

Lemma in_combine3 A B C (l : list A) (m : list B) (k : list C) a : length l = length m -> length m = length k -> In a l -> exists b c, In (a, (b, c)) (combine l (combine m k)) /\ In b m /\ In c k.
Proof.
  revert m k. induction l as [|x l IH]; intros [|y m] [|z k] L1 L2 H; cbn in *; try easy. destruct H as [->|H]; [exists y, z; auto|].
  destruct (IH m k (f_equal pred L1) (f_equal pred L2) H) as (b & c & P & Q & R). exists b, c. auto.
Qed.
Lemma arity_types (w : method) : ~ In "..." (map fst (w_params w)) -> arity (dots_types w) = length (w_params w).
Proof.
  unfold arity, dots_types. intros N. rewrite filter_app, app_length.
  assert (forall l, ~ In "..." l -> filter (fun t => negb (String.eqb t "...")) l = l) as F.
  { induction l as [|t l IH]; cbn; [easy|]. intros M. destruct (String.eqb_spec t "...") as [->|]; [destruct M; auto|]. cbn. f_equal. apply IH. auto. }
  rewrite (F _ N), map_length. destruct (w_dots w); cbn; lia.
Qed.
Lemma no_dots : forallb (fun w => negb (existsb (String.eqb "...") (map fst (w_params w)))) JNIEnv_methods = true.
Proof. vm_compute. reflexivity. Qed.
Lemma param_types w : In w JNIEnv_methods -> ~ In "..." (map fst (w_params w)).
Proof.
  intros H I. pose proof no_dots as N. rewrite forallb_forall in N. specialize (N w H). apply negb_true_iff in N.
  assert (existsb (String.eqb "...") (map fst (w_params w)) = true) as X by (apply existsb_exists; exists "..."; split; [exact I|apply String.eqb_refl]). congruence.
Qed.
Lemma method_facts w : In w JNIEnv_methods -> exists p ts, In (w_name w, p) JNINativeInterface /\ In (w_name w, (w_ret w, ts)) field_types /\ dots_types w = ts /\ forwardsb w = true /\
  w_dots w = pass_eqb p KDots /\ (w_return w = true \/ w_ret w = "void") /\
  forall rn, exists f, function rn (w_name w) = Some (f, p) /\ function rn (w_field w) = Some (f, arrives p) /\ serves rn f p (w_name w).
Proof.
  intros H. destruct all_methods as (L1 & L2 & L3 & All). destruct (@in_combine3 _ _ _ JNIEnv_methods (skipn 4 JNINativeInterface) field_types w) as ([n p] & (m & r & ts) & I & Ib & Ic).
  { rewrite L1, L3. reflexivity. } { rewrite L2, L3. reflexivity. } { exact H. }
  rewrite forallb_forall in All. specialize (All _ I). unfold methodb in All. cbn [fst snd] in All.
  repeat (apply andb_true_iff in All; let X := fresh "X" in destruct All as (All & X)).
  apply String.eqb_eq in All. subst n. apply String.eqb_eq in X5. subst m. apply String.eqb_eq in X4. subst r. unfold strs_eqb in X3. destruct (list_eq_dec string_dec _ _) as [Ts|] in X3; [|discriminate].
  apply eqb_prop in X1. exists p, ts. split.
  { rewrite <- (firstn_skipn 4 JNINativeInterface). apply in_or_app. right. exact Ib. }
  split; [exact Ic|]. split; [exact Ts|]. split; [exact X2|]. split; [exact X1|]. split.
  { apply orb_true_iff in X0. destruct X0 as [X0|X0]; [auto|]. apply String.eqb_eq in X0. auto. }
  intros rn. rewrite forallb_forall in X. assert (In rn [true; false]) as Rn by (destruct rn; cbn; auto). specialize (X rn Rn). cbv beta in X.
  destruct (function rn (w_name w)) as [[f a]|]; [|discriminate]. destruct (function rn (w_field w)) as [[g b]|]; [|discriminate].
  repeat (apply andb_true_iff in X; let Y := fresh "Y" in destruct X as (X & Y)). apply pass_eqb_eq in X, Y1. subst a b. destruct (fn_eq_dec f g) as [<-|]; [|discriminate].
  exists f. split; [reflexivity|]. split; [reflexivity|]. apply servesb_sound. exact Y.
Qed.
(** A method calls the function of its own name (the form with a va_list if the arguments are behind "..."), with the arguments that it was given, in their order, and returns its result. *)
Theorem C95_forward rn w : In w JNIEnv_methods -> exists f p ts, function rn (w_name w) = Some (f, p) /\ serves rn f p (w_name w) /\ In (w_name w, (w_ret w, ts)) field_types /\
  (forall A (vs : list A), (if pass_eqb p KDots then arity ts <= length vs else length vs = arity ts) -> env_call rn w vs = Some (f, arrives p, passed p (arity ts) vs)) /\
  (forall R (void r : R), (w_ret w = "void" -> r = void) -> result w void r = Some r).
Proof.
  intros H. destruct (method_facts H) as (p & ts & _ & I & Ts & F & Dots & Ret & Fs). destruct (Fs rn) as (f & F1 & F2 & Sv). exists f, p, ts. split; [exact F1|]. split; [exact Sv|]. split; [exact I|].
  assert (arity ts = length (w_params w)) as Ar by (rewrite <- Ts; apply arity_types, param_types, H). split.
  - intros A vs L. rewrite Ar in *. unfold env_call. rewrite (body_forwards F); [|rewrite Dots; exact L]. rewrite F2. do 2 f_equal. rewrite Dots. destruct p; reflexivity.
  - intros R void r V. unfold result. destruct (w_return w); [reflexivity|]. destruct Ret as [|Ret]; [discriminate|]. rewrite Ret. cbn. rewrite V; auto.
Qed.
(** The field that is read is the one of the same name, also in a table whose entries were replaced. *)
Lemma fields_ok : forallb (fun w => String.eqb (w_field w) (w_name w ++ if w_dots w then "V" else "")) JNIEnv_methods = true.
Proof. vm_compute. reflexivity. Qed.
Theorem C95_field w A (vs : list A) : In w JNIEnv_methods -> (if w_dots w then length (w_params w) <= length vs else length vs = length (w_params w)) ->
  body w vs = Some (w_name w ++ (if w_dots w then "V" else ""), passed (if w_dots w then KDots else KNone) (length (w_params w)) vs).
Proof.
  intros H L. destruct (method_facts H) as (p & ts & _ & _ & _ & F & _). rewrite (body_forwards F L). pose proof fields_ok as Fo. rewrite forallb_forall in Fo. specialize (Fo w H). apply String.eqb_eq in Fo. rewrite Fo. reflexivity.
Qed.
(** Every function of the table has exactly one such method, with the parameter types and result of the function. *)
Theorem C95_methods : map w_name JNIEnv_methods = map fst (skipn 4 JNINativeInterface) /\ map (fun w => (w_name w, (w_ret w, dots_types w))) JNIEnv_methods = field_types /\ NoDup (map w_name JNIEnv_methods).
Proof.
  split; [vm_compute; reflexivity|]. split; [vm_compute; reflexivity|].
  assert (nodup string_dec (map w_name JNIEnv_methods) = map w_name JNIEnv_methods) as <- by (vm_compute; reflexivity). apply NoDup_nodup.
Qed.
(** Fewer arguments than parameters, or more without "...": no program. *)
Theorem C95_count rn w A (vs : list A) : In w JNIEnv_methods -> length vs < length (w_params w) \/ (w_dots w = false /\ length (w_params w) < length vs) -> env_call rn w vs = None.
Proof.
  intros _ [L|(D & L)]; unfold env_call, body; [rewrite (proj2 (Nat.ltb_lt _ _) L); reflexivity|]. destruct (Nat.ltb (length vs) (length (w_params w))); [reflexivity|]. rewrite D, (proj2 (Nat.ltb_lt _ _) L). reflexivity.
Qed.
(** The calls of methods of objects and classes, by type of the result: named receiver and id, then the arguments *)
Theorem C95_calls rn T Y p : p <> KNone -> exists w, In w JNIEnv_methods /\ w_name w = call_name T Y p /\
  forall A (recv more : list A), length recv = (match Y with YObjClass => 3 | _ => 2 end) -> (p = KDots \/ length more = 1) ->
    env_call rn w (recv ++ more)%list = Some (FDispatch T Y, arrives p, match p with KDots => map (@One A) recv ++ [VaList more] | _ => map (@One A) (recv ++ more) end)%list.
Proof.
  intros P. destruct C95_methods as (Nm & _ & _).
  assert (exists w, In w JNIEnv_methods /\ w_name w = call_name T Y p /\ length (w_params w) = (match Y with YObjClass => 3 | _ => 2 end) + (if pass_eqb p KDots then 0 else 1)) as (w & W & N & L).
  { assert (existsb (fun w => String.eqb (w_name w) (call_name T Y p) && Nat.eqb (length (w_params w)) ((match Y with YObjClass => 3 | _ => 2 end) + (if pass_eqb p KDots then 0 else 1))) JNIEnv_methods = true) as X.
    { destruct T as [|q|], Y, p; try congruence; try destruct q; vm_compute; reflexivity. }
    apply existsb_exists in X. destruct X as (w & W & X). apply andb_true_iff in X. destruct X as (X & Z). apply String.eqb_eq in X. apply Nat.eqb_eq in Z. eauto. }
  exists w. split; [exact W|]. split; [exact N|]. intros A recv more Lr M. destruct (C95_forward rn W) as (f & p' & ts & Fn & _ & I & C & _). destruct (method_facts W) as (p2 & ts2 & _ & I2 & Ts & _).
  rewrite N, (C86_calls rn T Y P) in Fn. injection Fn as <- <-.
  assert (ts = ts2) as ->.
  { pose proof (proj2 (proj2 C95_methods)) as Nd. rewrite Nm in Nd. assert (map fst field_types = map fst (skipn 4 JNINativeInterface)) as Mf by (vm_compute; reflexivity). rewrite <- Mf in Nd. clear - Nd I I2.
    induction field_types as [|[k v] l IH]; [destruct I|]. cbn in Nd. inversion Nd as [|? ? Nk Nd']; subst. destruct I as [I|I], I2 as [I2|I2].
    - congruence.
    - injection I as -> _. destruct Nk. change (w_name w) with (fst (w_name w, (w_ret w, ts2))). apply in_map. exact I2.
    - injection I2 as -> _. destruct Nk. change (w_name w) with (fst (w_name w, (w_ret w, ts))). apply in_map. exact I.
    - auto. }
  assert (arity ts2 = length (w_params w)) as Ar by (rewrite <- Ts; apply arity_types, param_types, W). rewrite C, Ar, L.
  - do 2 f_equal. unfold passed. destruct p; try reflexivity. cbn [pass_eqb]. rewrite Nat.add_0_r, <- Lr, firstn_app, firstn_all, skipn_app, skipn_all, Nat.sub_diag. cbn. rewrite app_nil_r. reflexivity.
  - rewrite Ar, L, app_length, Lr. destruct p; cbn [pass_eqb]; destruct M as [M|M]; try discriminate; lia.
Qed.
(** JavaVM *)
Theorem C95_vm w : In w JavaVM_methods -> In (w_name w) (skipn 3 JNIInvokeInterface) /\ In (w_name w, (w_ret w, map fst (w_params w))) invoke_types /\ w_dots w = false /\
  (forall A (vs : list A), length vs = length (w_params w) -> body w vs = Some (w_name w, map (@One A) vs)) /\ (forall R (void r : R), result w void r = Some r).
Proof.
  intros H.
  assert (forallb (fun w => forwardsb w && String.eqb (w_field w) (w_name w) && negb (w_dots w) && w_return w) JavaVM_methods = true) as F by (vm_compute; reflexivity).
  rewrite forallb_forall in F. specialize (F w H). repeat (apply andb_true_iff in F; let X := fresh "X" in destruct F as (F & X)). apply String.eqb_eq in X1. apply negb_true_iff in X0.
  assert (forwardsb w = true) as Fw by (unfold forwardsb; rewrite F, X3, X2; reflexivity).
  split; [cbn in H; repeat (destruct H as [<-|H]; [vm_compute; auto 10|]); destruct H|]. split; [cbn in H; repeat (destruct H as [<-|H]; [vm_compute; auto 10|]); destruct H|]. split; [exact X0|]. split.
  - intros A vs L. rewrite (body_forwards Fw); [|rewrite X0; exact L]. rewrite X0, X1. reflexivity.
  - intros R void r. unfold result. rewrite X. reflexivity.
Qed.
Theorem C95_vm_methods : map w_name JavaVM_methods = skipn 3 JNIInvokeInterface /\ map (fun w => (w_name w, (w_ret w, map fst (w_params w)))) JavaVM_methods = invoke_types.
Proof. split; vm_compute; reflexivity. Qed.
(** Example: env->CallNonvirtualShortMethod(obj, clazz, id, 1, 2) *)
Example C95_ex : exists w, In w JNIEnv_methods /\ w_name w = "CallNonvirtualShortMethod" /\ w_ret w = "jshort" /\
  env_call false w ["obj"; "clazz"; "id"; "1"; "2"] = Some (FDispatch (JtPrim PtS) YObjClass, KVa, [One "obj"; One "clazz"; One "id"; VaList ["1"; "2"]]) /\ env_call false w ["obj"; "clazz"] = None.
Proof. exists (CALL_NONVIRT_TYPE_METHOD "jshort" "Short"). split; [|vm_compute; auto]. unfold JNIEnv_methods. do 5 (apply in_or_app; right). apply in_or_app; left. apply in_flat_map. exists ("jshort", "Short"). split; [vm_compute; auto 10|left; reflexivity]. Qed.
Print Assumptions C95_forward. Print Assumptions C95_methods. Print Assumptions C95_count. Print Assumptions C95_calls. Print Assumptions C95_vm. Print Assumptions C95_vm_methods. Print Assumptions C95_field.
