(** The text of a class dump, piece by piece. *)
From Coq Require Import Permutation.
From Verif Require Import Base BaseProofs SigModel SigSpec SigProofs2 SigProps VmState VmModel VmStep VmBase VmFrame VmWf VmPrim VmInv VmReg VmFine VmRegInv VmTree VmSpec VmClass GenModel GenSpec GenProofs.
Import VmState GenModel GenSpec GenProofs.
Set Implicit Arguments.
Unset Strict Implicit.
Local Open Scope nat_scope.
Local Open Scope list_scope.
Local Open Scope char_scope.

(** ** Lines *)
Lemma indent_split t : forall b, indent_at b t =
  match split_on nl t with
  | [] => []
  | x :: r => join nl ((if b then match x with [] => [] | _ => S_ "    " ++ x end else x) :: map (fun l => match l with [] => [] | _ => S_ "    " ++ l end) r)
  end.
Proof.
  induction t as [|c t IH]; intros b; cbn [indent_at split_on].
  - destruct b; reflexivity.
  - fold nl. rewrite !IH. pose proof (split_ne nl t) as Ne. destruct (split_on nl t) as [|x r]; [congruence|]. destruct (Ascii.eqb_spec c nl) as [->|N].
    + cbn [map]. destruct b; reflexivity.
    + cbn [app]. destruct (map _ r) as [|y r']; [destruct b; reflexivity|]. rewrite !(join_cons nl) by discriminate. destruct b; reflexivity.
Qed.
Lemma indent_indented t : indent t = indented t.
Proof.
  unfold indent, indented. rewrite indent_split. pose proof (split_ne nl t) as Ne. destruct (split_on nl t) as [|x r]; [congruence|]. reflexivity.
Qed.
Lemma line_block t : t <> [] -> line t = block t.
Proof. unfold line, block. rewrite indent_indented. destruct t; [congruence|reflexivity]. Qed.

Lemma skipped_in p : skipped p = true <-> In p provided.
Proof.
  unfold skipped. rewrite existsb_exists. change provided with blacklisted. split.
  - intros (x & H & E). apply str_eqb_eq in E. subst. exact H.
  - intros H. exists p. split; [exact H|apply str_eqb_refl].
Qed.
Lemma skipped_false p : skipped p = false <-> ~ In p provided.
Proof. rewrite <- skipped_in. destruct (skipped p); split; congruence. Qed.
Lemma provided_flat p : In p provided -> ~ In "$" p.
Proof. intros H. unfold provided in H. simpl in H. repeat destruct H as [<-|H]; try (simpl; intuition discriminate). Qed.

(** ** Scopes *)
Definition sc (a b : list str) : str := S_ "jnivm" ++ flat_map (fun x => S_ "::" ++ x) (filter (fun x => match x with [] => false | _ => true end) a ++ b).
Lemma sc_ne a b : exists c r, sc a b = c :: r.
Proof. unfold sc. eexists _, _. reflexivity. Qed.
Lemma enter_sc a b n : enter_scope (sc a b) n = sc a (b ++ [n]).
Proof.
  unfold enter_scope. destruct (sc_ne a b) as (c & r & E). rewrite E at 2. clear. unfold sc. rewrite <- app_assoc. apply (f_equal (app _)).
  set (A := filter _ a). rewrite (app_assoc A b), (flat_map_app _ (A ++ b)). apply (f_equal (app _)). cbn [flat_map]. rewrite app_nil_r. reflexivity.
Qed.
Lemma ns_sc a n : ns_scope (sc a []) n = sc (a ++ [n]) [].
Proof.
  unfold ns_scope. destruct n as [|c n].
  - unfold sc. rewrite filter_app. simpl. rewrite !app_nil_r. reflexivity.
  - rewrite enter_sc. unfold sc. rewrite filter_app. simpl. rewrite app_nil_r. reflexivity.
Qed.
Lemma full_sc a b : comps a b -> full_name (nm a b) = sc a b.
Proof. intros C. unfold full_name, sc. destruct (nm_parts C) as [P1 P2]. unfold ns_part, cls_part. rewrite P1, P2. reflexivity. Qed.
Lemma last_sc a b n : comps a (b ++ [n]) -> last_name (nm a (b ++ [n])) = n.
Proof. intros C. unfold last_name. destruct (nm_parts C) as [P1 P2]. unfold cls_part. rewrite P2. apply last_last. Qed.

(** ** Loops *)
Lemma cat_flat {A} (f : A -> str) l : cat f l = flat_map f l.
Proof. induction l; simpl; congruence. Qed.
Lemma cat_ok {A} (f : A -> res str) (g : A -> str) l : (forall x, In x l -> f x = Ok (g x)) -> cat_res f l = Ok (flat_map g l).
Proof.
  induction l as [|x l IH]; intros H; [reflexivity|]. cbn [cat_res flat_map]. rewrite (H x (or_introl eq_refl)), IH by (intros; apply H; right; assumption). reflexivity.
Qed.
Lemma flat_flat {A B C} (f : B -> list C) (g : A -> list B) l : flat_map f (flat_map g l) = flat_map (fun x => flat_map f (g x)) l.
Proof. induction l; simpl; [reflexivity|]. rewrite flat_map_app, IHl. reflexivity. Qed.
Lemma flat_ext {A B} (f g : A -> list B) l : (forall x, In x l -> f x = g x) -> flat_map f l = flat_map g l.
Proof. induction l; simpl; intros H; [reflexivity|]. rewrite (H a), IHl; auto. Qed.

Definition g_fields (c : gcls) : list fld := match c with GClass _ _ _ l _ => l end.
Definition g_methods (c : gcls) : list mth := match c with GClass _ _ _ _ l => l end.

Section Dump.
Variable G : cfg.
Variable s : st.
Hypothesis D : debug G = true.
Hypothesis Iv : inv G s.
Hypothesis Sh : shape s.
Notation Rc := (Rc s).
Notation Rn := (Rn s).

Lemma np_ok : exists np, read_np s = Some np /\ Rn 0 [] np.
Proof.
  destruct Iv as [W [(pth & T) _ _ _]]. unfold read_np. apply (@read_ns_ok s W Sh pth T); auto.
Qed.

Lemma named_cls n i : class_named s n i <-> exists c, cls_of s i = Some c /\ c_prefix c = n.
Proof.
  unfold class_named, cls_of. split.
  - intros (o & c & L & E & P). exists c. rewrite L, E. auto.
  - intros (c & H & P). destruct (lookup s i) as [o|] eqn:L; [|discriminate]. destruct (o_pay o) eqn:E; try discriminate. injection H as ->. eauto.
Qed.
Lemma named_get n i : class_named s n i <-> get_class s n = Some i.
Proof.
  rewrite named_cls. destruct Iv as [W [_ _ R1 R2]]. split.
  - intros (c & H & <-). auto.
  - intros H. apply R1 in H. exact H.
Qed.
Lemma exists_get a b : comps a b -> bracket (nm a b) = false -> (class_exists s (nm a b) <-> exists i, tget s a b = Some i).
Proof.
  intros C B. unfold class_exists. destruct Iv as [W [_ R0 _ _]]. rewrite (R0 D a b C B). split; intros (i & H); exists i; apply named_get; exact H.
Qed.
Lemma bracket_false n : bracket n = false <-> forall r, n <> "[" :: r.
Proof.
  split.
  - intros H r ->. discriminate.
  - intros H. destruct n as [|c n]; [reflexivity|]. destruct (Ascii.eqb_spec c "[") as [->|N]; [exfalso; exact (H n eq_refl)|].
    simpl. destruct c as [[] [] [] [] [] [] [] []]; try reflexivity. exfalso; apply N; reflexivity.
Qed.

Lemma names_ok np : Rn 0 [] np -> forall n, In n (map g_prefix (pre_n np)) <-> dumped s n.
Proof.
  intros R n. rewrite in_map_iff. unfold dumped. split.
  - intros (h & <- & Hh). destruct (pre_n_in R Hh) as (j & p & q & Rq & Sk). destruct (Rc_prefix Rq) as (P & C & B & c & Hc & Pc & _). split; [|split].
    + exists j. apply named_cls. eauto.
    + apply bracket_false, B.
    + intros m Hm. apply skipped_false. change (encloses m (g_prefix h)) with (outer m (g_prefix h)) in Hm. rewrite P in Hm. apply outer_spec in Hm. apply in_map_iff in Hm. destruct Hm as (b & <- & Hb).
      unfold ns_part, cls_part in *. destruct (nm_parts C) as [P1 P2]. rewrite P1. rewrite P2 in Hb. apply In_prefixes in Hb. destruct Hb as (Nb & r & E). apply (Sk b r Nb E).
  - intros (Ex & B & En). apply bracket_false in B. pose proof (parts_comps n) as C. pose proof (parts_nm n) as P. rewrite <- P in Ex, B. apply exists_get in Ex; auto. destruct Ex as (j & Hj).
    unfold tget in Hj. destruct (wns s 0 (ns_part n)) as [k|] eqn:Ew; [|discriminate]. destruct (nth_error (s_ns s) k) as [x|] eqn:Ex; [|discriminate].
    destruct (cls_part n) as [|y q] eqn:Ec; [discriminate|]. destruct (find_cls s (n_classes x) y) as [i|] eqn:Ef; [|discriminate].
    destruct (@pre_n_all s _ 0 [] R (ns_part n) k x y i q j Ew Ex Ef Hj) as (h & Hh & Ph).
    + intros p' r Np E. apply skipped_false. apply En. apply outer_spec. apply in_map_iff. exists p'. split; [reflexivity|]. rewrite Ec. apply In_prefixes. eauto.
    + exists h. split; [|exact Hh]. rewrite Ph. exact P.
Qed.

(** ** What is known about a visible class *)
Lemma head_of {A} (x y : A) l : hd_error (l ++ [x]) = hd_error (l ++ x :: [y]).
Proof. destruct l; reflexivity. Qed.
Lemma bracket_dollar n k : bracket n = false -> bracket (n ++ "$" :: k) = false.
Proof. destruct n; simpl; auto. Qed.
Lemma nm_snoc a b k : b <> [] -> nm a (b ++ [k]) = nm a b ++ "$" :: k.
Proof. intros H. rewrite (@nm_app a b [k]) by (auto; discriminate). reflexivity. Qed.
Lemma nested_ok j a b h : Rc j a b h -> nested s (g_prefix h) (map g_name (g_inner h)).
Proof.
  destruct h as [n p ks fs ms]. intros R. pose proof (Rc_prefix R) as (P & C & B & _). cbn [g_prefix g_name g_inner] in *. destruct (Rc_inv R) as (ND & c & Hc & Nc & Pc & FI & _ & _). split; [exact ND|].
  intros k. rewrite in_map_iff. split.
  - intros (g & <- & Hg). destruct (Forall2_in_r FI Hg) as (i & Hi & Ri). pose proof (Rc_prefix Ri) as (P' & C' & _ & d & Hd & Pd & _).
    rewrite P, <- (@nm_snoc a (b ++ [n]) (g_name g)) by (try discriminate; destruct b; discriminate). split; [|].
    + exists i. apply named_cls. exists d. rewrite <- P', Pd. auto.
    + destruct C' as [_ F _]. apply Forall_app in F. destruct F as [_ F]. inversion F; subst. split; apply H1; simpl; auto.
  - intros (Ex & N1 & N2). assert (comps a ((b ++ [n]) ++ [k])) as C2.
    { destruct C as [Ca Cb Cn]. constructor; auto; [|destruct b; discriminate]. apply Forall_app. split; [exact Cb|]. constructor; [|constructor]. intros x [<-|[<-|[]]]; assumption. }
    rewrite P in Ex, B. rewrite <- (@nm_snoc a (b ++ [n]) (k)) in Ex by (try discriminate; destruct b; discriminate). apply exists_get in Ex; [|exact C2|].
    2:{ rewrite (@nm_snoc a (b ++ [n]) (k)) by (try discriminate; destruct b; discriminate). apply bracket_dollar, B. }
    destruct Ex as (i & Hi). rewrite tget_app in Hi by (destruct b; discriminate). destruct Iv as [W [_ R0 _ R2]]. rewrite (R0 D a (b ++ [n]) C B) in Hi.
    rewrite <- P, <- Pc, (R2 _ _ Hc) in Hi. cbn [winner] in Hi. rewrite Hc in Hi. destruct (find_cls s (c_inner c) k) as [i'|] eqn:F; [|discriminate].
    apply find_some in F. destruct F as (Hin & Nk). destruct (Forall2_in_l FI Hin) as (g & Hg & Rg). pose proof (Rc_prefix Rg) as (_ & _ & _ & d & Hd & _ & Nd).
    rewrite Hd in Nk. apply str_eqb_eq in Nk. exists g. split; [congruence|exact Hg].
Qed.

Lemma typed_list : well_formed s -> forall l fs, Forall2 (field_at s) l fs -> exists ts, map fst ts = fs /\ forall f t, In (f, t) ts -> well_typed f t.
Proof.
  intros [W _] l fs F. induction F as [|i f l fs H F IH].
  - exists []. split; [reflexivity|intros f t []].
  - destruct (W _ _ H) as (t & Ht). destruct IH as (ts & <- & K). exists ((f, t) :: ts). split; [reflexivity|]. intros f' t' [E|E]; [injection E as <- <-; exact Ht|auto].
Qed.
Lemma signed_list : well_formed s -> forall l ms, Forall2 (method_at s) l ms -> exists ts, map fst ts = generated ms /\ forall m x, In (m, x) ts -> well_signed m x.
Proof.
  intros [_ W] l fs F. induction F as [|i f l fs H F IH].
  - exists []. split; [reflexivity|intros f t []].
  - destruct IH as (ts & E & K). unfold generated in *. cbn [filter]. destruct (m_native f) eqn:Nf; [exists ts; auto|].
    destruct (W _ _ H Nf) as (t & Ht). exists ((f, t) :: ts). split; [simpl; congruence|]. intros f' t' [E'|E']; [injection E' as <- <-; exact Ht|auto].
Qed.
Lemma described_ok j a b h : well_formed s -> Rc j a b h ->
  exists fs ms, described s (g_prefix h) (map g_name (g_inner h)) fs ms /\ map fst fs = g_fields h /\ map fst ms = generated (g_methods h).
Proof.
  intros W R. pose proof (nested_ok R) as N. destruct h as [n p ks fs ms]. cbn [g_prefix g_name g_inner g_fields g_methods] in *. destruct (Rc_inv R) as (ND & c & Hc & Nc & Pc & FI & FF & FM).
  destruct (typed_list W FF) as (ts & E1 & K1). destruct (signed_list W FM) as (ms' & E2 & K2). exists ts, ms'. split; [|auto]. constructor; auto.
  exists ms. split; [|auto]. exists j, c. split; [apply named_cls; eauto|]. split; [|rewrite E1; auto].
  unfold cls_of in Hc. unfold contents. destruct (lookup s j) as [o|]; [|discriminate]. simpl. destruct (o_pay o); try discriminate. congruence.
Qed.
End Dump.

(** ** The text of a class without its inner classes *)
Section Own.
Variable fake : bool.
Definition hdr_own (scope : str) (c : gcls) : res str :=
  match c with
  | GClass name prefix inner fields methods =>
      let* fs := cat_res (fun f => let* t := Field_GenerateHeader fake (f_static f) (f_name f) (f_type f) in Ok (line t)) fields in
      let* ms := cat_res (fun m => let* t := Method_GenerateHeader fake (is_native m) (m_static m) (m_name m) (m_sig m) name in Ok (line t)) methods in
      Ok (S_ "class " ++ scope ++ S_ " : " ++ (if fake then S_ "public FakeJni::JObject" else S_ "public jnivm::Object")
          ++ S_ " {" ++ newline ++ S_ "public:" ++ newline
          ++ (if fake then S_ "    DEFINE_CLASS_NAME(""" ++ prefix ++ S_ """)" ++ newline else [])
          ++ cat (fun k => line (Class_GeneratePreDeclaration k)) inner
          ++ fs ++ ms ++ S_ "};" ++ newline ++ newline)
  end.
Definition stub_own (scope : str) (c : gcls) : res str :=
  match c with
  | GClass name prefix inner fields methods =>
      let* fs := cat_res (fun f => Field_GenerateStubs fake (f_static f) (f_name f) (f_type f) scope) fields in
      let* ms := cat_res (fun m => Method_GenerateStubs fake (is_native m) (m_static m) (m_name m) (m_sig m) scope name) methods in
      Ok (fs ++ ms)
  end.
Definition bind_own (scope : str) (c : gcls) : res str :=
  match c with
  | GClass name prefix inner fields methods =>
      let fs := cat (fun f => Field_GenerateJNIBinding fake (f_static f) (f_name f) scope name) fields in
      let* ms := cat_res (fun m => Method_GenerateJNIBinding fake (is_native m) (m_static m) (m_name m) (m_sig m) scope name) methods in
      Ok (fs ++ ms)
  end.

(** a loop over members, those without text left out *)
Lemma loop_typed {A B} (f : A -> res str) (g : A -> B -> str) (ok : A -> B -> Prop) (l : list (A * B)) :
  (forall x y, ok x y -> f x = Ok (g x y)) -> (forall x y, In (x, y) l -> ok x y) -> cat_res f (map fst l) = Ok (flat_map (fun z => g (fst z) (snd z)) l).
Proof.
  intros H. induction l as [|[x y] l IH]; intros K; [reflexivity|]. cbn [map fst cat_res flat_map snd]. rewrite (H x y) by (apply K; left; reflexivity).
  rewrite IH by (intros; apply K; right; assumption). reflexivity.
Qed.
Lemma loop_native (f : mth -> res str) l : (forall m, is_native m = true -> f m = Ok []) -> cat_res f l = cat_res f (generated l).
Proof.
  intros H. induction l as [|m l IH]; [reflexivity|]. unfold generated in *. cbn [cat_res filter]. destruct (m_native m) eqn:N.
  - rewrite H by (unfold is_native; rewrite N; reflexivity). rewrite <- IH. cbn [rbind]. destruct (cat_res f l); reflexivity.
  - cbn [cat_res]. rewrite IH. reflexivity.
Qed.
Lemma loop_methods (f : mth -> res str) (g : mth -> list jty * option jty -> str) l ms :
  (forall m, is_native m = true -> f m = Ok []) -> (forall m x, is_native m = false -> well_signed m x -> f m = Ok (g m x)) ->
  map fst ms = generated l -> (forall m x, In (m, x) ms -> well_signed m x) -> cat_res f l = Ok (flat_map (fun z => g (fst z) (snd z)) ms).
Proof.
  intros H1 H2 E K. rewrite loop_native by assumption. rewrite <- E. apply (loop_typed (ok := fun m x => is_native m = false /\ well_signed m x)).
  - intros m x [A B]. auto.
  - intros m x Hx. split; [|auto]. assert (In m (generated l)) as Hm by (rewrite <- E; apply in_map_iff; exists (m, x); auto).
    unfold generated in Hm. apply filter_In in Hm. unfold is_native. destruct Hm as [_ Hm]. destruct (m_native m); [discriminate|reflexivity].
Qed.

Lemma decl_ne A (x : A) a b c : a ++ b ++ x :: c <> [].
Proof. destruct a, b; discriminate. Qed.
Lemma hdr_text n p ks fs0 ms0 fs ms sco : (forall k, In k ks -> skipped (g_prefix k) = false) ->
  (forall f t, In (f, t) fs -> well_typed f t) -> (forall m x, In (m, x) ms -> well_signed m x) -> map fst fs = fs0 -> map fst ms = generated ms0 ->
  sco = full_name p -> n = last_name p ->
  hdr_own sco (GClass n p ks fs0 ms0) = Ok (class_decl fake p (map g_name ks) fs ms).
Proof.
  intros Sk F M <- Em -> ->. unfold hdr_own, class_decl.
  rewrite (loop_typed (ok := well_typed) (g := fun f t => block (field_decl fake f t))); [|clear|exact F].
  2:{ intros f t [To E]. rewrite E. rewrite (proj1 (@C10_field fake (f_static f) (f_name f) t [] To)). cbn [rbind]. f_equal. apply line_block. apply decl_ne. }
  cbn [rbind]. rewrite (loop_methods (g := fun m x => block (method_decl fake (last_name p) m x))) with (ms := ms); [| | |exact Em|exact M].
  - cbn [rbind]. replace (cat (fun k => line (Class_GeneratePreDeclaration k)) ks) with (flat_map (fun k => block (S_ "class " ++ k ++ S_ ";")) (map g_name ks)).
    + destruct fake; reflexivity.
    + rewrite cat_flat. clear -Sk. induction ks as [|k ks IH]; [reflexivity|]. cbn [flat_map map]. rewrite IH by (intros; apply Sk; right; assumption).
      f_equal. unfold Class_GeneratePreDeclaration. rewrite (Sk k (or_introl eq_refl)). symmetry. apply line_block. discriminate.
  - intros m E. rewrite E. reflexivity.
  - intros m [ps r] E (A & B & Es). rewrite E, Es. cbn [fst snd] in *. rewrite C10_header by assumption. cbn [rbind]. f_equal. apply line_block. intros X. apply app_eq_nil in X. destruct X; discriminate.
Qed.
Lemma stub_text n p ks fs0 ms0 fs ms :
  (forall f t, In (f, t) fs -> well_typed f t) -> (forall m x, In (m, x) ms -> well_signed m x) -> map fst fs = fs0 -> map fst ms = generated ms0 -> n = last_name p ->
  stub_own (full_name p) (GClass n p ks fs0 ms0) = Ok (class_def fake p fs ms).
Proof.
  intros F M <- Em ->. unfold stub_own, class_def.
  rewrite (loop_typed (ok := well_typed) (g := field_def fake (full_name p))); [|clear|exact F].
  2:{ intros f t [To E]. rewrite E. rewrite (proj2 (@C10_field fake (f_static f) (f_name f) t (full_name p) To)). reflexivity. }
  cbn [rbind]. rewrite (loop_methods (g := method_def fake (full_name p) (last_name p))) with (ms := ms); [reflexivity| | |exact Em|exact M].
  - intros m E. rewrite E. reflexivity.
  - intros m [ps r] E (A & B & Es). rewrite E, Es. cbn [fst snd] in *. rewrite C10_stub by assumption. reflexivity.
Qed.
Lemma arg_seps k ps : arg_names k ps = seps false (map (fun i => S_ "arg" ++ decimal i) (seq k (length ps))).
Proof. revert k. induction ps as [|x ps IH]; intros k; [reflexivity|]. cbn [arg_names length seq map seps]. rewrite IH, <- !app_assoc. reflexivity. Qed.
Lemma commas_two x y l : x ++ S_ ", " ++ y ++ seps false l = commas (x :: y :: l).
Proof. rewrite seps_after. reflexivity. Qed.
Lemma bind_text n p ks fs0 ms0 ms : (forall m x, In (m, x) ms -> well_signed m x) -> map fst ms = generated ms0 -> n = last_name p ->
  bind_own (full_name p) (GClass n p ks fs0 ms0) = Ok (concat (class_hooks fake p fs0 ms)).
Proof.
  intros M Em ->. unfold bind_own, class_hooks.
  rewrite (loop_methods (g := method_hook fake (full_name p) (last_name p))) with (ms := ms); [| | |exact Em|exact M].
  - cbn [rbind]. rewrite concat_app, cat_flat, <- !flat_map_concat_map. f_equal. f_equal. apply flat_ext. intros f _. unfold Field_GenerateJNIBinding, field_hook.
    destruct fake; cbn [negb]; [destruct (f_static f)|]; rewrite <- ?app_assoc; reflexivity.
  - intros m E. rewrite E. reflexivity.
  - intros m [ps r] E (A & B & Es). rewrite E, Es. cbn [fst snd] in *. unfold Method_GenerateJNIBinding, method_hook. rewrite Gen_msig by assumption. cbn [rbind fst snd]. f_equal.
    unfold init_name. destruct fake; cbn [negb].
    + destruct (str_eqb (m_name m) (S_ "<init>")).
      * rewrite <- seps_after, <- !app_assoc. reflexivity.
      * destruct (m_static m); rewrite <- ?app_assoc; reflexivity.
    + destruct (str_eqb (m_name m) (S_ "<init>")).
      * unfold args. rewrite <- !commas_two, arg_seps, <- !app_assoc. reflexivity.
      * rewrite <- ?app_assoc. reflexivity.
Qed.
End Own.

(** ** The walk through the tree *)
Section Walk.
Variable s : st.
Notation Rc := (Rc s).
Notation Rn := (Rn s).
Lemma Rc_full i a b g : Rc i a b g -> sc a (b ++ [g_name g]) = full_name (g_prefix g) /\ g_name g = last_name (g_prefix g).
Proof. intros R. destruct (Rc_prefix R) as (-> & C & _). rewrite (full_sc C), (last_sc C). auto. Qed.
Lemma Rc_inner i a b n p ks fs ms k : Rc i a b (GClass n p ks fs ms) -> In k ks -> skipped (g_prefix k) = false.
Proof.
  intros R Hk. destruct (Rc_inv R) as (_ & c & _ & _ & _ & FI & _). destruct (Forall2_in_r FI Hk) as (j & _ & Rj). destruct (Rc_prefix Rj) as (-> & _).
  apply skipped_false. intros H. apply provided_flat in H. apply H. rewrite nm_snoc by (destruct b; discriminate). rewrite in_app_iff. right. left. reflexivity.
Qed.

Section Classes.
Variables (F own : str -> gcls -> res str) (txt : gcls -> str).
Hypothesis F_skip : forall sco n p ks fs ms, skipped p = true -> F sco (GClass n p ks fs ms) = Ok [].
Lemma walk_pre :
  (forall sco n p ks fs ms t k, skipped p = false -> own (enter_scope sco n) (GClass n p ks fs ms) = Ok t -> cat_res (F (enter_scope sco n)) ks = Ok k ->
     F sco (GClass n p ks fs ms) = Ok (t ++ k)) ->
  forall g i a b, Rc i a b g -> (forall h, In h (pre_c g) -> own (full_name (g_prefix h)) h = Ok (txt h)) -> F (sc a b) g = Ok (flat_map txt (pre_c g)).
Proof.
  intros St. induction g as [n p ks fs ms IH] using gcls_ind2. intros i a b R H. cbn [pre_c] in *. destruct (skipped p) eqn:Sk; [rewrite F_skip by assumption; reflexivity|].
  destruct (Rc_full R) as (Es & _). cbn [g_name g_prefix] in Es. destruct (Rc_inv R) as (_ & c & _ & _ & _ & FI & _). cbn [flat_map]. apply St; [exact Sk| |].
  - rewrite enter_sc, Es. apply (H (GClass n p ks fs ms)). left. reflexivity.
  - rewrite flat_flat. apply cat_ok. intros k Hk. rewrite Forall_forall in IH. destruct (Forall2_in_r FI Hk) as (j & _ & Rj). rewrite enter_sc.
    apply (IH k Hk j _ _ Rj). intros h Hh. apply H. right. apply in_flat_map. eauto.
Qed.
Lemma walk_post :
  (forall sco n p ks fs ms t k, skipped p = false -> own (enter_scope sco n) (GClass n p ks fs ms) = Ok t -> cat_res (F (enter_scope sco n)) ks = Ok k ->
     F sco (GClass n p ks fs ms) = Ok (k ++ t)) ->
  forall g i a b, Rc i a b g -> (forall h, In h (post_c g) -> own (full_name (g_prefix h)) h = Ok (txt h)) -> F (sc a b) g = Ok (flat_map txt (post_c g)).
Proof.
  intros St. induction g as [n p ks fs ms IH] using gcls_ind2. intros i a b R H. cbn [post_c] in *. destruct (skipped p) eqn:Sk; [rewrite F_skip by assumption; reflexivity|].
  destruct (Rc_full R) as (Es & _). cbn [g_name g_prefix] in Es. destruct (Rc_inv R) as (_ & c & _ & _ & _ & FI & _). rewrite flat_map_app. cbn [flat_map]. rewrite app_nil_r. apply St; [exact Sk| |].
  - rewrite enter_sc, Es. apply (H (GClass n p ks fs ms)). apply in_app_iff. right. left. reflexivity.
  - rewrite flat_flat. apply cat_ok. intros k Hk. rewrite Forall_forall in IH. destruct (Forall2_in_r FI Hk) as (j & _ & Rj). rewrite enter_sc.
    apply (IH k Hk j _ _ Rj). intros h Hh. apply H. apply in_app_iff. left. apply in_flat_map. eauto.
Qed.
End Classes.

(** namespaces: [lc], [ln] list the classes of a class and of a namespace *)
Lemma walk_ns (F N : str -> _ -> res str) (lc : gcls -> list gcls) (ln : gns -> list gcls) (txt : gcls -> str) (P : gcls -> Prop) :
  (forall n cs ns, ln (GNs n cs ns) = flat_map lc cs ++ flat_map ln ns) ->
  (forall sco n cs ns t u, cat_res (F (ns_scope sco n)) cs = Ok t -> cat_res (N (ns_scope sco n)) ns = Ok u -> N sco (GNs n cs ns) = Ok (t ++ u)) ->
  (forall g i a, Rc i a [] g -> (forall h, In h (lc g) -> P h) -> F (sc a []) g = Ok (flat_map txt (lc g))) ->
  forall n k a sco, Rn k a n -> ns_scope sco (gn_name n) = sc a [] -> (forall h, In h (ln n) -> P h) -> N sco n = Ok (flat_map txt (ln n)).
Proof.
  intros L St HF. induction n as [x cs ns IH] using gns_ind2. intros k a sco R E H. destruct (Rn_inv R) as (_ & _ & _ & _ & x0 & _ & _ & FC & FN). cbn [gn_name] in E.
  rewrite L in *. rewrite flat_map_app, !flat_flat. apply St; rewrite E.
  - apply cat_ok. intros c Hc. destruct (Forall2_in_r FC Hc) as (i & _ & Ri). apply (HF c i); auto. intros h Hh. apply H, in_app_iff. left. apply in_flat_map. eauto.
  - rewrite Forall_forall in IH. apply cat_ok. intros m Hm. destruct (Forall2_in_r FN Hm) as (j & _ & Rj). apply (IH m Hm j _ _ Rj).
    + apply ns_sc.
    + intros h Hh. apply H, in_app_iff. right. apply in_flat_map. eauto.
Qed.
End Walk.

Definition closed (t : str) : Prop := t = [] \/ exists u, t = u ++ [nl].
Lemma chunk_closed t : closed t -> chunk t = t.
Proof.
  intros [->|(u & ->)]; [reflexivity|]. unfold chunk. rewrite last_last. change (ascii_of_nat 10) with nl. rewrite Ascii.eqb_refl, app_nil_r. destruct u; reflexivity.
Qed.
Lemma closed_app a b : closed a -> closed b -> closed (a ++ b).
Proof. intros A [->|(u & ->)]; [rewrite app_nil_r; exact A|]. right. exists (a ++ u). rewrite app_assoc. reflexivity. Qed.
Lemma closed_flat {A} (f : A -> str) l : (forall x, In x l -> closed (f x)) -> closed (flat_map f l).
Proof. induction l; simpl; intros H; [left; reflexivity|]. apply closed_app; auto. Qed.
Lemma decl_closed fake n ks fs ms : closed (class_decl fake n ks fs ms).
Proof. right. eexists. unfold class_decl. rewrite !app_assoc. reflexivity. Qed.

Definition value (r : res str) : str := match r with Ok t => t | _ => [] end.

Section Pieces.
Variable G : cfg.
Variable s : st.
Hypothesis D : debug G = true.
Hypothesis Iv : inv G s.
Hypothesis Sh : shape s.
Hypothesis W : well_formed s.
Variable fake : bool.
Variable np : gns.
Hypothesis R : Rn s 0 [] np.

Lemma np_name : gn_name np = S_ "jnivm".
Proof. pose proof (sh_root Sh) as E. destruct np as [x cs ns]. destruct (Rn_inv R) as (_ & _ & _ & _ & y & Hy & Ny & _). unfold ns_name in E. rewrite Hy in E. simpl in *. congruence. Qed.
Lemma np_scope : ns_scope [] (gn_name np) = sc [] [].
Proof. rewrite np_name. reflexivity. Qed.

(** the three texts of each class *)
Lemma own_ok h : In h (pre_n np) -> exists ks fs ms, described s (g_prefix h) ks fs ms /\
  hdr_own fake (full_name (g_prefix h)) h = Ok (class_decl fake (g_prefix h) ks fs ms) /\
  stub_own fake (full_name (g_prefix h)) h = Ok (class_def fake (g_prefix h) fs ms) /\
  bind_own fake (full_name (g_prefix h)) h = Ok (concat (class_hooks fake (g_prefix h) (map fst fs) ms)).
Proof.
  intros Hh. destruct (pre_n_in R Hh) as (j & p & q & Rq & _). destruct (described_ok D Iv W Rq) as (fs & ms & Ds & Ef & Em). exists (map g_name (g_inner h)), fs, ms. split; [exact Ds|].
  pose proof (proj2 (Rc_full Rq)) as En. pose proof (Rc_inner (s := s)) as Hk. destruct h as [n x ks fs0 ms0]. cbn [g_prefix g_name g_inner g_fields g_methods] in *. destruct Ds as [_ _ K1 K2]. split; [|split].
  - apply hdr_text; auto. intros k. apply (Hk _ _ _ _ _ _ _ _ _ Rq).
  - apply stub_text; auto.
  - rewrite Ef. apply bind_text; auto.
Qed.

Lemma header_classes txt g i a : Rc s i a [] g -> (forall h, In h (pre_c g) -> hdr_own fake (full_name (g_prefix h)) h = Ok (txt h) /\ closed (txt h)) ->
  (let* t := Class_GenerateHeader fake (sc a []) g in Ok (chunk t)) = Ok (flat_map txt (pre_c g)).
Proof.
  intros Rg H. rewrite (@walk_pre s (Class_GenerateHeader fake) (hdr_own fake) txt) with (i := i); [|  | |exact Rg|intros h Hh; apply (H h Hh)].
  - cbn [rbind]. rewrite chunk_closed; [reflexivity|]. apply closed_flat. intros h Hh. apply (H h Hh).
  - intros sco n p ks fs ms Sk. cbn [Class_GenerateHeader]. rewrite Sk. reflexivity.
  - intros sco n p ks fs ms t k Sk Ho Hk. cbn [Class_GenerateHeader]. rewrite Sk. unfold hdr_own in Ho.
    destruct (cat_res _ fs); cbn [rbind] in *; try discriminate. destruct (cat_res _ ms); cbn [rbind] in *; try discriminate.
    rewrite Hk. cbn [rbind]. apply (f_equal value) in Ho; cbn [value] in Ho; subst t. rewrite <- !app_assoc. reflexivity.
Qed.
Lemma header_ns txt n : forall k a sco, Rn s k a n -> ns_scope sco (gn_name n) = sc a [] ->
  (forall h, In h (pre_n n) -> hdr_own fake (full_name (g_prefix h)) h = Ok (txt h) /\ closed (txt h)) -> Namespace_GenerateHeader fake sco n = Ok (flat_map txt (pre_n n)).
Proof.
  induction n as [x cs ns IH] using gns_ind2. intros k a sco Rk E H. destruct (Rn_inv Rk) as (_ & _ & _ & _ & x0 & _ & _ & FC & FN). cbn [gn_name] in E.
  cbn [pre_n Namespace_GenerateHeader] in *. rewrite flat_map_app, !flat_flat, E.
  rewrite (cat_ok (g := fun c => flat_map txt (pre_c c))).
  - cbn [rbind]. rewrite (cat_ok (g := fun c => flat_map txt (pre_n c))); [reflexivity|]. intros m Hm. destruct (Forall2_in_r FN Hm) as (j & _ & Rj). rewrite Forall_forall in IH.
    assert (forall h, In h (pre_n m) -> hdr_own fake (full_name (g_prefix h)) h = Ok (txt h) /\ closed (txt h)) as Hp.
    { intros h Hh. apply H, in_app_iff. right. apply in_flat_map. eauto. }
    rewrite (IH m Hm j _ _ Rj (ns_sc _ _) Hp). cbn [rbind]. rewrite chunk_closed; [reflexivity|]. apply closed_flat. intros h Hh. apply (Hp h Hh).
  - intros c Hc. destruct (Forall2_in_r FC Hc) as (i & _ & Ri). apply (header_classes Ri). intros h Hh. apply H, in_app_iff. left. apply in_flat_map. eauto.
Qed.
Lemma header_walk : VM_GenerateHeader fake np = Ok (flat_map (fun h => value (hdr_own fake (full_name (g_prefix h)) h)) (pre_n np)).
Proof.
  apply (@header_ns _ np 0 [] []); [exact R|apply np_scope|].
  intros h Hh. destruct (own_ok Hh) as (ks & fs & ms & _ & E & _). rewrite E. cbn [value]. split; [reflexivity|apply decl_closed].
Qed.
Lemma post_in h : In h (post_n np) -> In h (pre_n np).
Proof. apply Permutation_in. symmetry. apply perm_n. Qed.
Lemma stubs_walk : VM_GenerateStubs fake np = Ok (flat_map (fun h => value (stub_own fake (full_name (g_prefix h)) h)) (post_n np)).
Proof.
  unfold VM_GenerateStubs. set (txt := fun h => value (stub_own fake (full_name (g_prefix h)) h)).
  apply (@walk_ns s (Class_GenerateStubs fake) (Namespace_GenerateStubs fake) post_c post_n txt
    (fun h => stub_own fake (full_name (g_prefix h)) h = Ok (txt h))) with (k := 0) (a := []); auto.
  - intros sco n cs ns t u H1 H2. cbn [Namespace_GenerateStubs]. rewrite H1. cbn [rbind]. rewrite H2. reflexivity.
  - intros g i a Rg H. apply (@walk_post s (Class_GenerateStubs fake) (stub_own fake) txt) with (i := i); auto.
    + intros sco n p ks fs ms Sk. cbn [Class_GenerateStubs]. rewrite Sk. reflexivity.
    + intros sco n p ks fs ms t k Sk Ho Hk. cbn [Class_GenerateStubs]. rewrite Sk, Hk. cbn [rbind]. unfold stub_own in Ho.
      destruct (cat_res _ fs); cbn [rbind] in *; try discriminate. destruct (cat_res _ ms); cbn [rbind] in *; try discriminate. apply (f_equal value) in Ho; cbn [value] in Ho; subst t. reflexivity.
  - apply np_scope.
  - intros h Hh. destruct (own_ok (post_in Hh)) as (ks & fs & ms & _ & _ & E & _). unfold txt. rewrite E. reflexivity.
Qed.

(** binding, FakeJni syntax *)
Definition descriptor (scope hooks : str) : str := S_ "BEGIN_NATIVE_DESCRIPTOR(" ++ scope ++ S_ ")" ++ [nl] ++ hooks ++ S_ "END_NATIVE_DESCRIPTOR" ++ [nl].
Lemma binding_walk : fake = true -> VM_GenerateJNIBinding fake np =
  Ok (flat_map (fun h => descriptor (full_name (g_prefix h)) (value (bind_own fake (full_name (g_prefix h)) h))) (pre_n np)).
Proof.
  intros Fk. unfold VM_GenerateJNIBinding. set (txt := fun h => descriptor (full_name (g_prefix h)) (value (bind_own fake (full_name (g_prefix h)) h))).
  set (own := fun sco h => let* t := bind_own fake sco h in Ok (descriptor sco t)).
  apply (@walk_ns s (Class_GenerateJNIBinding fake) (Namespace_GenerateJNIBinding fake) pre_c pre_n txt
    (fun h => own (full_name (g_prefix h)) h = Ok (txt h))) with (k := 0) (a := []); auto.
  - intros sco n cs ns t u H1 H2. cbn [Namespace_GenerateJNIBinding]. rewrite H1. cbn [rbind]. rewrite H2. reflexivity.
  - intros g i a Rg H. apply (@walk_pre s (Class_GenerateJNIBinding fake) own txt) with (i := i); auto.
    + intros sco n p ks fs ms Sk. cbn [Class_GenerateJNIBinding]. rewrite Sk. reflexivity.
    + intros sco n p ks fs ms t k Sk Ho Hk. cbn [Class_GenerateJNIBinding]. rewrite Sk, Hk. cbn [rbind]. unfold own, bind_own in Ho.
      destruct (cat_res _ ms); cbn [rbind] in *; try discriminate. apply (f_equal value) in Ho; cbn [value] in Ho; subst t. rewrite Fk. cbn [negb]. unfold descriptor. rewrite <- !app_assoc. reflexivity.
  - apply np_scope.
  - intros h Hh. destruct (own_ok Hh) as (ks & fs & ms & _ & _ & _ & E). unfold own, txt. rewrite E. reflexivity.
Qed.

(** binding, plain syntax: [hk] gives the hooks of each class *)
Fixpoint toks (hk : gcls -> list str) (c : gcls) : list stmt :=
  match c with GClass _ p ks _ _ => if skipped p then [] else Enter p :: flat_map (toks hk) ks ++ map Do (hk c) ++ [Leave] end.
Fixpoint toks_n (hk : gcls -> list str) (n : gns) : list stmt :=
  match n with GNs _ cs ns => flat_map (toks hk) cs ++ flat_map (toks_n hk) ns end.
Definition installs (hk : gcls -> list str) (l : list gcls) : list (str * str) := flat_map (fun h => map (pair (g_prefix h)) (hk h)) l.
Lemma run_do c st l r : run_binding (c :: st) (map Do l ++ r) = option_map (app (map (pair c) l)) (run_binding (c :: st) r).
Proof.
  induction l as [|x l IH]; cbn [map app run_binding].
  - destruct (run_binding (c :: st) r); reflexivity.
  - rewrite IH. destruct (run_binding (c :: st) r); reflexivity.
Qed.
Lemma run_list {A} (f : A -> list stmt) (w : A -> list (str * str)) l : (forall x, In x l -> forall st r, run_binding st (f x ++ r) = option_map (app (w x)) (run_binding st r)) ->
  forall st r, run_binding st (flat_map f l ++ r) = option_map (app (flat_map w l)) (run_binding st r).
Proof.
  induction l as [|x l IH]; intros H st r.
  - simpl. destruct (run_binding st r); reflexivity.
  - cbn [flat_map]. rewrite <- app_assoc, (H x (or_introl eq_refl)), IH by (intros; apply H; right; assumption). destruct (run_binding st r); [|reflexivity]. simpl. rewrite app_assoc. reflexivity.
Qed.
Lemma run_toks hk g : forall st r, run_binding st (toks hk g ++ r) = option_map (app (installs hk (post_c g))) (run_binding st r).
Proof.
  induction g as [n p ks fs ms IH] using gcls_ind2. intros st r. cbn [toks post_c]. destruct (skipped p).
  - simpl. destruct (run_binding st r); reflexivity.
  - cbn [app run_binding]. rewrite <- !app_assoc. rewrite Forall_forall in IH. rewrite (@run_list _ (toks hk) (fun k => installs hk (post_c k))); [|exact IH].
    rewrite run_do. cbn [app run_binding]. unfold installs. rewrite flat_map_app, flat_flat. cbn [flat_map g_prefix]. rewrite app_nil_r. destruct (run_binding st r); [|reflexivity]. simpl. rewrite <- app_assoc. reflexivity.
Qed.
Lemma run_toks_n hk n : forall st r, run_binding st (toks_n hk n ++ r) = option_map (app (installs hk (post_n n))) (run_binding st r).
Proof.
  induction n as [x cs ns IH] using gns_ind2. intros st r. cbn [toks_n post_n]. rewrite Forall_forall in IH. rewrite <- app_assoc.
  rewrite (@run_list _ (toks hk) (fun k => installs hk (post_c k))) by (intros; apply run_toks). rewrite (@run_list _ (toks_n hk) (fun k => installs hk (post_n k))); [|exact IH].
  unfold installs. rewrite flat_map_app, !flat_flat. destruct (run_binding st r); [|reflexivity]. simpl. rewrite <- app_assoc. reflexivity.
Qed.

Definition text_of (l : list stmt) : str := flat_map stmt_text l.
Lemma text_do l : flat_map stmt_text (map Do l) = concat l.
Proof. induction l; simpl; congruence. Qed.
Lemma toks_text hk g : fake = false -> forall i a b, Rc s i a b g -> (forall h, In h (post_c g) -> bind_own fake (full_name (g_prefix h)) h = Ok (concat (hk h))) ->
  Class_GenerateJNIBinding fake (sc a b) g = Ok (flat_map stmt_text (toks hk g)).
Proof.
  intros Fk. induction g as [n p ks fs ms IH] using gcls_ind2. intros i a b Rg H. cbn [post_c toks Class_GenerateJNIBinding] in *. destruct (skipped p) eqn:Sk; [reflexivity|].
  destruct (Rc_full Rg) as (Es & _). cbn [g_name g_prefix] in Es. destruct (Rc_inv Rg) as (_ & c & _ & _ & _ & FI & _). rewrite Forall_forall in IH.
  rewrite enter_sc. rewrite (cat_ok (g := fun k => flat_map stmt_text (toks hk k))).
  - assert (bind_own fake (full_name p) (GClass n p ks fs ms) = Ok (concat (hk (GClass n p ks fs ms)))) as Ho by (apply (H (GClass n p ks fs ms)); apply in_app_iff; right; left; reflexivity).
    cbn [rbind]. unfold bind_own in Ho. rewrite Es. destruct (cat_res _ ms); cbn [rbind] in *; try discriminate. injection Ho as Ho. rewrite Fk in *. cbn [negb].
    cbn [flat_map]. rewrite !flat_map_app, flat_flat, text_do, <- Ho. cbn [flat_map]. rewrite app_nil_r. unfold stmt_text. rewrite <- !app_assoc. reflexivity.
  - intros k Hk. destruct (Forall2_in_r FI Hk) as (j & _ & Rj). apply (IH k Hk j _ _ Rj). intros h Hh. apply H, in_app_iff. left. apply in_flat_map. eauto.
Qed.
Lemma toks_n_text hk : fake = false -> forall n k a sco, Rn s k a n -> ns_scope sco (gn_name n) = sc a [] -> (forall h, In h (post_n n) -> bind_own fake (full_name (g_prefix h)) h = Ok (concat (hk h))) ->
  Namespace_GenerateJNIBinding fake sco n = Ok (flat_map stmt_text (toks_n hk n)).
Proof.
  intros Fk. induction n as [x cs ns IH] using gns_ind2. intros k a sco Rk E H. destruct (Rn_inv Rk) as (_ & _ & _ & _ & x0 & _ & _ & FC & FN). cbn [gn_name] in E.
  cbn [post_n toks_n Namespace_GenerateJNIBinding] in *. rewrite flat_map_app, !flat_flat, E.
  rewrite (cat_ok (g := fun c => flat_map stmt_text (toks hk c))).
  - cbn [rbind]. rewrite (cat_ok (g := fun c => flat_map stmt_text (toks_n hk c))); [reflexivity|]. intros m Hm. destruct (Forall2_in_r FN Hm) as (j & _ & Rj). rewrite Forall_forall in IH.
    apply (IH m Hm j _ _ Rj (ns_sc _ _)). intros h Hh. apply H, in_app_iff. right. apply in_flat_map. eauto.
  - intros c Hc. destruct (Forall2_in_r FC Hc) as (i & _ & Ri). apply (toks_text Fk Ri). intros h Hh. apply H, in_app_iff. left. apply in_flat_map. eauto.
Qed.
End Pieces.

(** registration *)
Lemma register_class fake g : Class_GenerateJNIPreDeclaration fake g = flat_map (fun h => registration fake (g_prefix h)) (pre_c g).
Proof.
  induction g as [n p ks fs ms IH] using gcls_ind2. cbn [Class_GenerateJNIPreDeclaration pre_c]. destruct (skipped p); [reflexivity|]. cbn [flat_map g_prefix]. f_equal.
  - unfold registration. rewrite scope_qualified. destruct fake; cbn [negb]; rewrite <- !app_assoc; reflexivity.
  - rewrite cat_flat, flat_flat. apply flat_ext. rewrite Forall_forall in IH. exact IH.
Qed.
Lemma register_walk fake n : VM_GenerateJNIPreDeclaration fake n = flat_map (fun h => registration fake (g_prefix h)) (pre_n n).
Proof.
  unfold VM_GenerateJNIPreDeclaration. induction n as [x cs ns IH] using gns_ind2. cbn [Namespace_GenerateJNIPreDeclaration pre_n]. rewrite !cat_flat, flat_map_app, !flat_flat. f_equal; apply flat_ext.
  - intros c _. apply register_class.
  - rewrite Forall_forall in IH. exact IH.
Qed.
