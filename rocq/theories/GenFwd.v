(** Order of the classes of a dump, and forward declarations. *)
From Coq Require Import Permutation.
From Verif Require Import Base BaseProofs SigModel SigSpec SigProofs2 VmState VmModel VmReg VmTree VmSpec VmClass GenModel GenSpec GenProofs GenText.
Set Implicit Arguments.
Unset Strict Implicit.
Local Open Scope nat_scope.
Local Open Scope list_scope.
Local Open Scope char_scope.

Lemma flat_split {A B} (f : A -> list B) l l1 h l2 : flat_map f l = l1 ++ h :: l2 ->
  exists la x lb u v, l = la ++ x :: lb /\ f x = u ++ h :: v /\ l1 = flat_map f la ++ u.
Proof.
  revert l1. induction l as [|x l IH]; intros l1 E; cbn [flat_map] in E; [destruct l1; discriminate|].
  assert ((exists u v, f x = u ++ h :: v /\ l1 = u) \/ exists w, l1 = f x ++ w /\ flat_map f l = w ++ h :: l2) as C.
  { clear IH. revert l1 E. induction (f x) as [|y r IHr]; intros l1 E; [right; exists l1; auto|]. destruct l1 as [|z l1].
    - injection E as -> E. left. exists [], r. auto.
    - injection E as <- E. destruct (IHr _ E) as [(u & v & -> & ->)|(w & -> & E')]; [left; exists (y :: u), v; auto|right; exists w; auto]. }
  destruct C as [(u & v & E1 & ->)|(w & -> & E')].
  - exists [], x, l, u, v. auto.
  - destruct (IH _ E') as (la & y & lb & u & v & -> & E1 & ->). exists (x :: la), y, lb, u, v. cbn [flat_map]. rewrite <- app_assoc. auto.
Qed.

Section Order.
Variable s : st.
Notation Rc := (Rc s).
Notation Rn := (Rn s).
Lemma pre_c_order g : forall i a b l1 h l2, Rc i a b g -> pre_c g = l1 ++ h :: l2 ->
  forall p r, p <> [] -> r <> [] -> g_prefix h = nm a (b ++ p ++ r) -> comps a (b ++ p ++ r) -> exists h', In h' l1 /\ g_prefix h' = nm a (b ++ p).
Proof.
  induction g as [n x ks fs ms IH] using gcls_ind2. intros i a b l1 h l2 R E p r Np Nr Ph C. cbn [pre_c] in E. destruct (skipped x); [destruct l1; discriminate|].
  pose proof (Rc_prefix R) as (Px & Cx & _). cbn [g_prefix g_name] in Px, Cx. destruct l1 as [|c l1].
  - injection E as <- _. cbn [g_prefix] in Ph. rewrite Px in Ph. destruct (nm_inj Cx C Ph) as (_ & E). apply app_inv_head in E. destruct p as [|y [|]]; try congruence; destruct r; try congruence; discriminate.
  - injection E as <- E. destruct (flat_split E) as (la & k & lb & u & v & -> & Ek & ->). destruct (Rc_inv R) as (_ & c & _ & _ & _ & FI & _).
    assert (In k (la ++ k :: lb)) as Hk by (apply in_app_iff; right; left; reflexivity). destruct (Forall2_in_r FI Hk) as (j & _ & Rj).
    assert (In h (pre_c k)) as Hh by (rewrite Ek; apply in_app_iff; right; left; reflexivity). destruct (pre_c_prefix Rj Hh) as (r0 & P0 & C0).
    rewrite Ph in P0. destruct (nm_inj C C0 P0) as (_ & E0). rewrite <- app_assoc in E0. apply app_inv_head in E0. destruct p as [|y p]; [congruence|]. injection E0 as -> E0.
    destruct p as [|z p].
    + exists (GClass n x (la ++ k :: lb) fs ms). split; [left; reflexivity|]. exact Px.
    + rewrite Forall_forall in IH. destruct (IH k Hk j a (b ++ [n]) u h v Rj Ek (z :: p) r) as (h' & Hh' & Ph'); try discriminate; auto; try (rewrite <- app_assoc; assumption).
      exists h'. split; [right; apply in_app_iff; auto|]. rewrite Ph', <- app_assoc. reflexivity.
Qed.
Lemma pre_n_order n : forall k a l1 h l2, Rn k a n -> pre_n n = l1 ++ h :: l2 ->
  forall a' p r, p <> [] -> r <> [] -> g_prefix h = nm a' (p ++ r) -> comps a' (p ++ r) -> exists h', In h' l1 /\ g_prefix h' = nm a' p.
Proof.
  induction n as [x cs ns IH] using gns_ind2. intros k a l1 h l2 R E a' p r Np Nr Ph C. destruct (Rn_inv R) as (_ & _ & _ & _ & x0 & _ & _ & FC & FN). rewrite Forall_forall in IH.
  cbn [pre_n] in E. assert (flat_map (fun z : gcls + gns => match z with inl c => pre_c c | inr m => pre_n m end) (map inl cs ++ map inr ns) = l1 ++ h :: l2) as E'.
  { rewrite flat_map_app, <- E. f_equal; rewrite !flat_map_concat_map, map_map; reflexivity. }
  destruct (flat_split E') as (la & z & lb & u & v & Ez & Eh & ->). assert (In z (map inl cs ++ map inr ns)) as Hz by (rewrite Ez; apply in_app_iff; right; left; reflexivity).
  apply in_app_iff in Hz. destruct Hz as [Hz|Hz]; apply in_map_iff in Hz; destruct Hz as (y & <- & Hy).
  - destruct (Forall2_in_r FC Hy) as (j & _ & Rj). assert (In h (pre_c y)) as Hh by (rewrite Eh; apply in_app_iff; right; left; reflexivity).
    destruct (pre_c_prefix Rj Hh) as (r0 & P0 & C0). rewrite Ph in P0. destruct (nm_inj C C0 P0) as (<- & _).
    destruct (@pre_c_order y j a' [] u h v Rj Eh p r Np Nr Ph C) as (h' & Hh' & Ph'). exists h'. split; [apply in_app_iff; right; exact Hh'|exact Ph'].
  - destruct (Forall2_in_r FN Hy) as (j & _ & Rj). destruct (IH y Hy _ _ _ _ _ Rj Eh a' p r Np Nr Ph C) as (h' & Hh' & Ph'). exists h'. split; [apply in_app_iff; right; exact Hh'|exact Ph'].
Qed.
Lemma order_ok n k a l1 x l2 : Rn k a n -> map g_prefix (pre_n n) = l1 ++ x :: l2 -> forall m, encloses m x -> m = x \/ In m l1.
Proof.
  intros R E m Hm. apply map_eq_app in E. destruct E as (u & v & E & <- & Ev). apply map_eq_cons in Ev. destruct Ev as (h & v' & -> & <- & <-).
  apply outer_spec in Hm. apply in_map_iff in Hm. destruct Hm as (p & <- & Hp). apply In_prefixes in Hp. destruct Hp as (Np & r & Er). pose proof (parts_comps (g_prefix h)) as C. pose proof (parts_nm (g_prefix h)) as P.
  destruct r as [|y r]; [left; rewrite app_nil_r in Er; rewrite <- Er; exact P|]. right. rewrite Er in *.
  destruct (@pre_n_order n k a u h v' R E (ns_part (g_prefix h)) p (y :: r)) as (h' & Hh' & Ph'); auto; [discriminate|]. rewrite <- Ph'. apply in_map, Hh'.
Qed.
End Order.

(** ** Forward declarations *)
Definition fw_c (c : gcls) : list fwd := if skipped (g_prefix c) then [] else [FClass (g_name c)].
Fixpoint fw_n (n : gns) : list fwd :=
  match n with
  | GNs name cs ns =>
    let parts := flat_map fw_c cs ++ flat_map fw_n ns in
    match name, parts with [], _ => parts | _, [] => [] | _, _ => [FSpace name parts] end
  end.
Definition lines (l : list fwd) : str := join nl (map fwd_text l).

Lemma split_join l : l <> [] -> split_on nl (join nl l) = flat_map (split_on nl) l.
Proof.
  induction l as [|x l IH]; intros N; [congruence|]. destruct l as [|y l]; [simpl; rewrite app_nil_r; reflexivity|]. rewrite join_cons by discriminate. change (flat_map (split_on nl) (x :: y :: l)) with (split_on nl x ++ flat_map (split_on nl) (y :: l)). rewrite <- IH by discriminate.
  generalize (join nl (y :: l)). clear. intros t. induction x as [|c x IH]; cbn [app split_on].
  - change (Ascii.eqb nl nl) with true. reflexivity.
  - rewrite IH. destruct (Ascii.eqb c nl); [reflexivity|]. pose proof (split_ne nl x) as Ne. destruct (split_on nl x) as [|h r]; [congruence|]. reflexivity.
Qed.
Lemma join_concat ls : Forall (fun l => l <> []) ls -> join nl (map (join nl) ls) = join nl (concat ls).
Proof.
  induction 1 as [|l ls H F IH]; [reflexivity|]. cbn [map concat]. destruct ls as [|l' ls]; [simpl; rewrite app_nil_r; reflexivity|].
  rewrite join_cons by discriminate. rewrite IH. inversion F; subst. rewrite join_app; [reflexivity|exact H|]. simpl. destruct l'; [congruence|discriminate].
Qed.
Lemma indent_join l : l <> [] -> indent (join nl l) = join nl (map indented l).
Proof.
  intros N. rewrite indent_indented. unfold indented at 1. rewrite split_join by assumption. rewrite flat_map_concat_map, concat_map, map_map.
  rewrite <- join_concat; [rewrite map_map; reflexivity|]. apply Forall_forall. intros y Hy. apply in_map_iff in Hy. destruct Hy as (x & <- & _). pose proof (split_ne nl x). destruct (split_on nl x); [congruence|discriminate].
Qed.
Definition full (t : str) : bool := match t with [] => false | _ => true end.
Lemma pre_loop_spec name l : forall e ss, pre_loop name l e ss =
  match filter full l with
  | [] => (e, ss)
  | _ => (false, ss ++ (if e then match name with [] => [] | _ => S_ "namespace " ++ name ++ S_ " {" ++ newline end else newline)
                 ++ join nl (map (fun t => match name with [] => t | _ => indent t end) (filter full l)))
  end.
Proof.
  induction l as [|t l IH]; intros e ss; [reflexivity|]. cbn [pre_loop filter]. destruct t as [|c t]; [cbn [full]; apply IH|]. cbn [full]. rewrite IH. destruct (filter full l) as [|u r].
  - cbn [map join]. rewrite <- !app_assoc. reflexivity.
  - set (v := map _ (u :: r)). cbn [map]. fold v. rewrite (@join_cons nl _ v) by discriminate. rewrite <- !app_assoc. reflexivity.
Qed.

Lemma fwd_text_ne f : fwd_text f <> [].
Proof. destruct f; discriminate. Qed.
Lemma lines_ne l : l <> [] -> lines l <> [].
Proof.
  unfold lines. destruct l as [|f l]; [congruence|]. intros _. cbn [map]. pose proof (@fwd_text_ne f) as N. destruct (fwd_text f) as [|c t]; [congruence|]. destruct (map fwd_text l); discriminate.
Qed.
(** the nonempty texts of parts, each the lines of a list of declarations *)
Lemma parts_text {A} (f : A -> str) (g : A -> list fwd) l : (forall x, In x l -> f x = lines (g x)) ->
  filter full (map f l) = map lines (filter (fun x => match x with [] => false | _ => true end) (map g l)).
Proof.
  induction l as [|x l IH]; intros H; [reflexivity|]. cbn [map filter]. rewrite (H x (or_introl eq_refl)), IH by (intros; apply H; right; assumption).
  destruct (g x) as [|y r] eqn:E; [reflexivity|]. pose proof (@lines_ne (y :: r)) as N. destruct (lines (y :: r)) as [|c t] eqn:E'; [exfalso; apply N; congruence|]. cbn [full map]. rewrite E'. reflexivity.
Qed.
Lemma concat_filter {A B} (g : A -> list B) l : concat (filter (fun x => match x with [] => false | _ => true end) (map g l)) = flat_map g l.
Proof. induction l as [|x l IH]; [reflexivity|]. cbn [map filter flat_map]. destruct (g x); [exact IH|]. cbn [concat]. rewrite IH. reflexivity. Qed.
Lemma fwd_class c : Class_GeneratePreDeclaration c = lines (fw_c c).
Proof. unfold Class_GeneratePreDeclaration, fw_c, lines. destruct (skipped _); reflexivity. Qed.
Lemma pre_loop_app name l r : forall e ss, pre_loop name (l ++ r) e ss = let (e', ss') := pre_loop name l e ss in pre_loop name r e' ss'.
Proof. induction l as [|t l IH]; intros e ss; [reflexivity|]. cbn [app pre_loop]. destruct t; apply IH. Qed.
Lemma parts_join x L : Forall (fun z : list fwd => z <> []) L ->
  join nl (map (fun t => match x with [] => t | _ => indent t end) (map lines L)) = join nl (map (fun f => match x : str with [] => fwd_text f | _ => indented (fwd_text f) end) (concat L)).
Proof.
  intros NL. destruct x as [|c x].
  - rewrite map_id. change (map lines L) with (map (fun z => join nl (map fwd_text z)) L). rewrite <- (map_map (map fwd_text) (join nl)), join_concat, <- concat_map; [reflexivity|].
    apply Forall_forall. intros z Hz. apply in_map_iff in Hz. destruct Hz as (y & <- & Hy). rewrite Forall_forall in NL. specialize (NL _ Hy). destruct y; [congruence|discriminate].
  - rewrite map_map. rewrite (map_ext_in _ (fun z => join nl (map (fun f => indented (fwd_text f)) z))).
    + rewrite <- (map_map (map (fun f => indented (fwd_text f))) (join nl)), join_concat, <- concat_map; [reflexivity|].
      apply Forall_forall. intros z Hz. apply in_map_iff in Hz. destruct Hz as (y & <- & Hy). rewrite Forall_forall in NL. specialize (NL _ Hy). destruct y; [congruence|discriminate].
    + intros z Hz. rewrite Forall_forall in NL. specialize (NL _ Hz). unfold lines. rewrite indent_join; [rewrite map_map; reflexivity|]. destruct z; [congruence|discriminate].
Qed.
Lemma fwd_ns n : Namespace_GeneratePreDeclaration n = lines (fw_n n).
Proof.
  induction n as [x cs ns IH] using gns_ind2. rewrite Forall_forall in IH. cbn [Namespace_GeneratePreDeclaration fw_n].
  pose proof (pre_loop_app x (map Class_GeneratePreDeclaration cs) (map Namespace_GeneratePreDeclaration ns) true []) as E. destruct (pre_loop x (map Class_GeneratePreDeclaration cs) true []) as [e ss]. rewrite <- E. clear E.
  rewrite pre_loop_spec, filter_app, (@parts_text _ _ fw_c cs (fun c _ => fwd_class c)), (@parts_text _ _ fw_n ns IH), <- map_app.
  rewrite <- (concat_filter fw_c cs), <- (concat_filter fw_n ns), <- concat_app.
  set (q := fun z : list fwd => match z with [] => false | _ => true end).
  assert (Forall (fun z : list fwd => z <> []) (filter q (map fw_c cs) ++ filter q (map fw_n ns))) as Nq.
  { apply Forall_forall. intros z Hz. apply in_app_iff in Hz. rewrite !filter_In in Hz. destruct z; [destruct Hz as [[_ H]|[_ H]]; discriminate|discriminate]. }
  set (L := filter q (map fw_c cs) ++ filter q (map fw_n ns)) in *. clearbody L. pose proof (parts_join x Nq) as J.
  destruct L as [|z L]; [destruct x; reflexivity|]. cbn [map] in J |- *. cbv beta iota. rewrite J. inversion Nq as [|? ? Nz _]; subst. destruct z as [|f z]; [congruence|].
  cbn [concat app]. destruct x as [|c x].
  - cbn [app]. rewrite app_nil_r. reflexivity.
  - unfold lines. cbn [map join fwd_text]. rewrite <- !app_assoc. reflexivity.
Qed.

Fixpoint top_n (n : gns) : list gcls :=
  match n with GNs _ cs ns => flat_map (fun c => if skipped (g_prefix c) then [] else [c]) cs ++ flat_map top_n ns end.
Definition tl (n : str) : bool := Nat.eqb (length (cls_part n)) 1.

Section Top.
Variable s : st.
Notation Rc := (Rc s).
Notation Rn := (Rn s).
Lemma filter_flat {A B} (p : B -> bool) (f : A -> list B) l : filter p (flat_map f l) = flat_map (fun x => filter p (f x)) l.
Proof. induction l; simpl; [reflexivity|]. rewrite filter_app. congruence. Qed.
Lemma top_c g i a : Rc i a [] g -> filter (fun h => tl (g_prefix h)) (pre_c g) = if skipped (g_prefix g) then [] else [g].
Proof.
  intros R. destruct g as [n p ks fs ms]. cbn [pre_c g_prefix]. destruct (skipped p); [reflexivity|]. cbn [filter g_prefix].
  assert (tl p = true) as ->.
  { destruct (Rc_prefix R) as (P & C & _). cbn [g_prefix g_name app] in P, C. subst p. unfold tl, cls_part. destruct (nm_parts C) as [_ ->]. reflexivity. }
  f_equal. destruct (Rc_inv R) as (_ & c & _ & _ & _ & FI & _). rewrite filter_flat. rewrite (@flat_ext _ _ _ (fun _ => [])); [clear; induction ks; auto|].
  intros k Hk. destruct (Forall2_in_r FI Hk) as (j & _ & Rj).
  assert (forall h, In h (pre_c k) -> tl (g_prefix h) = false) as K.
  { intros h Hh. destruct (pre_c_prefix Rj Hh) as (r & -> & C). unfold tl, cls_part. destruct (nm_parts C) as [_ ->]. reflexivity. }
  revert K. induction (pre_c k) as [|h l IH]; intros K; [reflexivity|]. cbn [filter]. rewrite K by (left; reflexivity). apply IH. intros; apply K; right; assumption.
Qed.
Lemma top_ok n : forall k a, Rn k a n -> top_n n = filter (fun h => tl (g_prefix h)) (pre_n n).
Proof.
  induction n as [x cs ns IH] using gns_ind2. intros k a R. destruct (Rn_inv R) as (_ & _ & _ & _ & x0 & _ & _ & FC & FN). rewrite Forall_forall in IH.
  cbn [top_n pre_n]. rewrite filter_app, !filter_flat. f_equal; apply flat_ext.
  - intros c Hc. destruct (Forall2_in_r FC Hc) as (j & _ & Rj). symmetry. apply (top_c Rj).
  - intros m Hm. destruct (Forall2_in_r FN Hm) as (j & _ & Rj). apply (IH m Hm _ _ Rj).
Qed.
Lemma tl_spec n : tl n = true <-> forall m, encloses m n -> m = n.
Proof.
  unfold tl. rewrite Nat.eqb_eq. pose proof (parts_nm n) as P. pose proof (parts_comps n) as C. split.
  - intros L m Hm. apply outer_spec in Hm. apply in_map_iff in Hm. destruct Hm as (p & <- & Hp). apply In_prefixes in Hp. destruct Hp as (Np & r & E).
    destruct r as [|y r]; [rewrite app_nil_r in E; rewrite <- E; exact P|]. rewrite E, app_length in L. destruct p; [congruence|simpl in L; lia].
  - intros H. destruct (cls_part n) as [|x [|y r]] eqn:E; [destruct C; congruence|reflexivity|]. exfalso.
    assert (encloses (nm (ns_part n) [x]) n) as Hx. { apply outer_spec. apply in_map_iff. exists [x]. split; [reflexivity|]. rewrite E. apply In_prefixes. split; [discriminate|]. exists (y :: r). reflexivity. }
    apply H in Hx. rewrite <- P in Hx at 2. assert (comps (ns_part n) [x]) as C1 by (apply (@comps_prefix _ [x] (y :: r)); [exact C|discriminate]).
    destruct (nm_inj C1 C Hx) as (_ & E'). discriminate.
Qed.

Lemma place_top i a g : Rc i a [] g -> place (g_prefix g) = (S_ "jnivm" :: filter ne a, g_name g).
Proof.
  intros R. destruct (Rc_prefix R) as (P & C & _). unfold place. rewrite <- (proj2 (Rc_full R)). cbn [app] in *. rewrite P. unfold ns_part. destruct (nm_parts C) as [-> _]. reflexivity.
Qed.
Lemma fwd_flat_map {A B C} (f : A -> B) (g : C -> list A) l : map f (flat_map g l) = flat_map (fun x => map f (g x)) l.
Proof. induction l; simpl; [reflexivity|]. rewrite map_app. congruence. Qed.
Lemma fwd_list n : forall k a pa, Rn k a n -> pa ++ filter ne [gn_name n] = S_ "jnivm" :: filter ne a ->
  map (fun x => (pa ++ fst x, snd x)) (flat_map fwd_classes (fw_n n)) = map (fun c => place (g_prefix c)) (top_n n).
Proof.
  induction n as [x cs ns IH] using gns_ind2. intros k a pa R E. destruct (Rn_inv R) as (_ & _ & _ & _ & x0 & _ & _ & FC & FN). rewrite Forall_forall in IH. cbn [gn_name] in E.
  cbn [fw_n top_n]. set (parts := flat_map fw_c cs ++ flat_map fw_n ns).
  assert (map (fun z : list str * str => (pa ++ fst z, snd z)) (flat_map fwd_classes match x, parts with [], _ => parts | _, [] => [] | _, _ => [FSpace x parts] end) =
          map (fun z => ((pa ++ filter ne [x]) ++ fst z, snd z)) (flat_map fwd_classes parts)) as ->.
  { destruct x as [|c x]; [cbn [filter ne]; rewrite app_nil_r; reflexivity|]. destruct parts as [|f l]; [reflexivity|]. cbn [flat_map]. rewrite app_nil_r. cbn [fwd_classes]. rewrite map_map.
    cbn [flat_map filter ne]. apply map_ext. intros [u v]. cbn [fst snd]. rewrite <- app_assoc. reflexivity. }
  rewrite E. unfold parts. rewrite flat_map_app, !map_app, !flat_flat, !fwd_flat_map. f_equal; apply flat_ext.
  - intros c Hc. destruct (Forall2_in_r FC Hc) as (j & _ & Rj). unfold fw_c. destruct (skipped (g_prefix c)); [reflexivity|]. cbn [flat_map fwd_classes app map fst snd].
    rewrite (place_top Rj), app_nil_r. reflexivity.
  - intros m Hm. destruct (Forall2_in_r FN Hm) as (j & _ & Rj). apply (IH m Hm _ _ _ Rj). rewrite filter_app. rewrite app_comm_cons. reflexivity.
Qed.
End Top.

Lemma no_empty_all l : Forall no_empty l -> (fix all l := match l with [] => True | x :: r => no_empty x /\ all r end) l.
Proof. induction 1; simpl; auto. Qed.
Lemma Forall_flat_map {A B} (P : B -> Prop) (f : A -> list B) l : (forall x, In x l -> Forall P (f x)) -> Forall P (flat_map f l).
Proof. induction l; simpl; intros H; [constructor|]. apply Forall_app. auto. Qed.
Lemma fw_no_empty n : Forall no_empty (fw_n n).
Proof.
  induction n as [x cs ns IH] using gns_ind2. rewrite Forall_forall in IH. cbn [fw_n]. set (parts := flat_map fw_c cs ++ flat_map fw_n ns).
  assert (Forall no_empty parts) as H.
  { apply Forall_app. split; apply Forall_flat_map; [|exact IH]. intros c _. unfold fw_c. destruct (skipped _); repeat constructor. }
  clearbody parts. destruct x as [|c x]; [exact H|]. destruct parts as [|f l]; [constructor|]. constructor; [|constructor]. cbn [no_empty]. split; [discriminate|]. split; [discriminate|]. apply (no_empty_all H).
Qed.
