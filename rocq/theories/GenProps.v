(** The generated code: C70 - C77. *)
From Coq Require Import Permutation.
From Verif Require Import Base BaseProofs SigModel SigSpec SigProofs2 SigProps VmState VmModel VmStep VmSpec VmBase VmFrame VmWf VmPrim VmInv VmReg VmFine VmRegInv VmTree VmExact VmQuiet VmClass ClassProps VmNames VmDemo GenModel GenSpec GenProofs GenText GenFwd.
From Verif Require CtxProps VmHook.
Import VmState GenModel GenSpec GenProofs GenText.
Set Implicit Arguments.
Unset Strict Implicit.
Local Open Scope nat_scope.
Local Open Scope list_scope.
Local Open Scope char_scope.

(** A list with one entry for each class of the dump. *)
Definition listing {A} (s : st) (parts : list (str * A)) : Prop :=
  NoDup (map fst parts) /\ forall n, In n (map fst parts) <-> dumped s n.
(** Enclosing classes come before the classes nested in them. *)
Definition outer_first (names : list str) : Prop :=
  forall l1 n l2, names = l1 ++ n :: l2 -> forall m, encloses m n -> m = n \/ In m l1.

(** ** Lists of parts from the walk *)
Definition tag {A} (f : gcls -> A) (l : list gcls) : list (str * A) := map (fun h => (g_prefix h, f h)) l.
Lemma tag_fst {A} (f : gcls -> A) l : map fst (tag f l) = map g_prefix l.
Proof. unfold tag. rewrite map_map. reflexivity. Qed.
Lemma tag_snd {A} (f : gcls -> A) l : map snd (tag f l) = map f l.
Proof. unfold tag. rewrite map_map. reflexivity. Qed.
Lemma tag_in {A} (f : gcls -> A) l n x : In (n, x) (tag f l) -> exists h, In h l /\ n = g_prefix h /\ x = f h.
Proof. unfold tag. rewrite in_map_iff. intros (h & E & H). injection E as <- <-. eauto. Qed.

Section Reach.
Variables (G : cfg) (t : tid) (s : st).
Hypothesis Rs : reachable G t s.
Hypothesis D : debug G = true.
Lemma the_np : exists np, read_np s = Some np /\ Rn s 0 [] np.
Proof. apply (np_ok (reachable_inv Rs) (reachable_shape Rs)). Qed.
Lemma pre_listing {A} np (f : gcls -> A) : Rn s 0 [] np -> listing s (tag f (pre_n np)).
Proof.
  intros R. split; rewrite tag_fst; [apply (pre_n_nodup R)|]. intros n. apply (names_ok D (reachable_inv Rs) R).
Qed.
Lemma post_listing {A} np (f : gcls -> A) : Rn s 0 [] np -> listing s (tag f (post_n np)).
Proof.
  intros R. pose proof (Permutation_map g_prefix (perm_n np)) as P. destruct (pre_listing f R) as [N M]. rewrite tag_fst in N, M. split; rewrite tag_fst.
  - eapply Permutation_NoDup; eauto.
  - intros n. rewrite <- M. split; apply Permutation_in; [symmetry|]; exact P.
Qed.
Lemma pre_outer_first {A} np (f : gcls -> A) : Rn s 0 [] np -> outer_first (map fst (tag f (pre_n np))).
Proof. intros R l1 n l2 E. rewrite tag_fst in E. apply (order_ok R E). Qed.
End Reach.

(** ** C70: declarations *)
Theorem C70_declarations G t s fake : reachable G t s -> debug G = true -> well_formed s ->
  exists np parts, read_np s = Some np /\ VM_GenerateHeader fake np = Ok (concat (map snd parts)) /\
    listing s parts /\ outer_first (map fst parts) /\
    forall n x, In (n, x) parts -> exists ks fs ms, described s n ks fs ms /\ x = class_decl fake n ks fs ms.
Proof.
  intros Rs D W. destruct (the_np Rs) as (np & E & R). exists np, (tag (fun h => value (hdr_own fake (full_name (g_prefix h)) h)) (pre_n np)).
  split; [exact E|]. split; [|split; [|split]].
  - rewrite tag_snd, <- flat_map_concat_map. apply (header_walk D (reachable_inv Rs) (reachable_shape Rs) W fake R).
  - apply (pre_listing Rs D _ R).
  - exact (@pre_outer_first s _ np _ R).
  - intros n x Hx. apply tag_in in Hx. destruct Hx as (h & Hh & -> & ->). destruct (own_ok D (reachable_inv Rs) W fake R Hh) as (ks & fs & ms & Ds & -> & _). eauto 6.
Qed.
(** The generator returns: following inner classes and namespaces ends. *)
Theorem C70_terminates G t s : reachable G t s -> exists np, read_np s = Some np.
Proof. intros Rs. destruct (the_np Rs) as (np & E & _). eauto. Qed.

(** ** C71: definitions *)
Theorem C71_definitions G t s fake : reachable G t s -> debug G = true -> well_formed s ->
  exists np parts, read_np s = Some np /\ VM_GenerateStubs fake np = Ok (concat (map snd parts)) /\
    listing s parts /\ forall n x, In (n, x) parts -> exists ks fs ms, described s n ks fs ms /\ x = class_def fake n fs ms.
Proof.
  intros Rs D W. destruct (the_np Rs) as (np & E & R). exists np, (tag (fun h => value (stub_own fake (full_name (g_prefix h)) h)) (post_n np)).
  split; [exact E|]. split; [|split].
  - rewrite tag_snd, <- flat_map_concat_map. apply (stubs_walk D (reachable_inv Rs) (reachable_shape Rs) W fake R).
  - apply (post_listing Rs D _ R).
  - intros n x Hx. apply tag_in in Hx. destruct Hx as (h & Hh & -> & ->). apply post_in in Hh. destruct (own_ok D (reachable_inv Rs) W fake R Hh) as (ks & fs & ms & Ds & _ & -> & _). eauto 6.
Qed.

(** ** C72: registration and binding *)
Theorem C72_registration G t s fake : reachable G t s -> debug G = true ->
  exists np names, read_np s = Some np /\ VM_GenerateJNIPreDeclaration fake np = concat (map (registration fake) names) /\
    NoDup names /\ (forall n, In n names <-> dumped s n) /\ outer_first names.
Proof.
  intros Rs D. destruct (the_np Rs) as (np & E & R). exists np, (map g_prefix (pre_n np)). split; [exact E|].
  destruct (pre_listing Rs D (fun _ => tt) R) as [N M]. pose proof (@pre_outer_first s _ np (fun _ => tt) R) as O. rewrite tag_fst in N, M, O. split; [|auto].
  rewrite register_walk, map_map. apply flat_map_concat_map.
Qed.
(** FakeJni: one descriptor per class. *)
Theorem C72_descriptors G t s : reachable G t s -> debug G = true -> well_formed s ->
  exists np parts, read_np s = Some np /\ VM_GenerateJNIBinding true np = Ok (concat (map snd parts)) /\
    listing s parts /\ forall n x, In (n, x) parts -> exists ks fs ms, described s n ks fs ms /\
      x = S_ "BEGIN_NATIVE_DESCRIPTOR(" ++ full_name n ++ S_ ")" ++ [nl] ++ concat (class_hooks true n (map fst fs) ms) ++ S_ "END_NATIVE_DESCRIPTOR" ++ [nl].
Proof.
  intros Rs D W. destruct (the_np Rs) as (np & E & R). exists np, (tag (fun h => descriptor (full_name (g_prefix h)) (value (bind_own true (full_name (g_prefix h)) h))) (pre_n np)).
  split; [exact E|]. split; [|split].
  - rewrite tag_snd, <- flat_map_concat_map. apply (binding_walk D (reachable_inv Rs) (reachable_shape Rs) W R). reflexivity.
  - apply (pre_listing Rs D _ R).
  - intros n x Hx. apply tag_in in Hx. destruct Hx as (h & Hh & -> & ->). destruct (own_ok D (reachable_inv Rs) W true R Hh) as (ks & fs & ms & Ds & _ & _ & ->). exists ks, fs, ms. auto.
Qed.
(** hooks of each class *)
Lemma hooks_exist {A} (P : gcls -> list A -> Prop) l : (forall h, In h l -> exists x, P h x) -> NoDup (map g_prefix l) -> exists hk, forall h, In h l -> P h (hk h).
Proof.
  induction l as [|h l IH]; intros H N; [exists (fun _ => []); intros h []|]. cbn [map] in N. inversion N as [|? ? Hn N']; subst.
  destruct (H h (or_introl eq_refl)) as (x & Hx). destruct IH as (hk & Hk); [intros; apply H; right; assumption|exact N'|].
  exists (fun y => if str_eqb (g_prefix y) (g_prefix h) then x else hk y). intros y [<-|Hy]; [rewrite str_eqb_refl; exact Hx|].
  destruct (str_eqb_spec (g_prefix y) (g_prefix h)) as [Ey|_]; [|auto]. exfalso. apply Hn. rewrite <- Ey. apply in_map, Hy.
Qed.
(** Plain syntax: running the blocks installs the hooks of each class on that class, once. *)
Theorem C72_binding G t s : reachable G t s -> debug G = true -> well_formed s ->
  exists np parts code, read_np s = Some np /\ VM_GenerateJNIBinding false np = Ok (concat (map stmt_text code)) /\
    run_binding [] code = Some (flat_map (fun p => map (pair (fst p)) (snd p)) parts) /\
    listing s parts /\ forall n x, In (n, x) parts -> exists ks fs ms, described s n ks fs ms /\ x = class_hooks false n (map fst fs) ms.
Proof.
  intros Rs D W. destruct (the_np Rs) as (np & E & R). pose proof (reachable_inv Rs) as Iv. pose proof (reachable_shape Rs) as Sh.
  destruct (@hooks_exist _ (fun h x => exists ks fs ms, described s (g_prefix h) ks fs ms /\ x = class_hooks false (g_prefix h) (map fst fs) ms /\ bind_own false (full_name (g_prefix h)) h = Ok (concat x)) (pre_n np)) as (hk & Hk).
  { intros h Hh. destruct (own_ok D Iv W false R Hh) as (ks & fs & ms & Ds & _ & _ & E1). exists (class_hooks false (g_prefix h) (map fst fs) ms). exists ks, fs, ms. auto. }
  { apply (pre_n_nodup R). }
  exists np, (tag hk (post_n np)), (toks_n hk np). split; [exact E|]. split; [|split; [|split]].
  - rewrite <- flat_map_concat_map. apply (toks_n_text (fake := false) (s := s)) with (k := 0) (a := []); auto.
    + apply (np_scope Sh R).
    + intros h Hh. apply post_in in Hh. destruct (Hk h Hh) as (ks & fs & ms & _ & _ & H). exact H.
  - pose proof (run_toks_n hk np [] []) as H. rewrite app_nil_r in H. rewrite H. cbn [run_binding option_map]. rewrite app_nil_r. f_equal.
    unfold installs, tag. rewrite flat_map_concat_map, (flat_map_concat_map _ (map _ _)), map_map. reflexivity.
  - apply (post_listing Rs D _ R).
  - intros n x Hx. apply tag_in in Hx. destruct Hx as (h & Hh & -> & ->). apply post_in in Hh. destruct (Hk h Hh) as (ks & fs & ms & Ds & Ex & _). eauto 6.
Qed.

(** ** C73: forward declarations *)
Theorem C73_forward G t s fake : reachable G t s -> debug G = true ->
  exists np decls names, read_np s = Some np /\
    VM_GeneratePreDeclaration fake np = S_ (if fake then "#include <fake-jni/fake-jni.h>" else "#include <jnivm.h>") ++ [nl] ++ join nl (map fwd_text decls) /\
    Forall no_empty decls /\ flat_map fwd_classes decls = map place names /\
    NoDup names /\ forall n, In n names <-> dumped s n /\ forall m, encloses m n -> m = n.
Proof.
  intros Rs D. destruct (the_np Rs) as (np & E & R). exists np, (fw_n np), (map g_prefix (top_n np)). split; [exact E|]. split; [|split; [|split; [|split]]].
  - unfold VM_GeneratePreDeclaration. rewrite fwd_ns. destruct fake; reflexivity.
  - apply fw_no_empty.
  - rewrite map_map. rewrite <- (fwd_list (pa := []) R); [|rewrite (np_name (reachable_shape Rs) R); reflexivity].
    symmetry. rewrite (map_ext _ (fun x => x)); [apply map_id|]. intros [u v]. reflexivity.
  - rewrite (top_ok R). pose proof (pre_n_nodup R) as N. revert N. clear. induction (pre_n np) as [|h l IH]; intros N; [constructor|]. cbn [map] in N. inversion N; subst. cbn [filter].
    destruct (tl (g_prefix h)); [|auto]. cbn [map]. constructor; [|auto]. intros H. apply H1. apply in_map_iff in H. destruct H as (y & <- & Hy). apply filter_In in Hy. apply in_map. tauto.
  - intros n. rewrite (top_ok R). rewrite <- (names_ok D (reachable_inv Rs) R n), <- tl_spec, !in_map_iff. split.
    + intros (h & <- & Hh). apply filter_In in Hh. destruct Hh. split; [eauto|assumption].
    + intros ((h & <- & Hh) & T). exists h. rewrite filter_In. auto.
Qed.

(** ** C74: the C++ names *)
(** A class name of packages and a class, none empty. *)
Definition plain (n : str) : Prop := ~ In "$" n /\ ~ In ":" n /\ Forall (fun x => x <> []) (ns_part n).

Lemma filter_ne l : Forall (fun x : str => x <> []) l -> filter ne l = l.
Proof. induction 1 as [|x l H F IH]; [reflexivity|]. cbn [filter]. destruct x; [congruence|]. cbn [ne]. congruence. Qed.
Lemma colons_inj a b : Forall (fun x => ~ In ":" x) a -> Forall (fun x => ~ In ":" x) b ->
  flat_map (fun x => S_ "::" ++ x) a = flat_map (fun x => S_ "::" ++ x) b -> a = b.
Proof.
  assert (forall x y u v, ~ In ":" x -> ~ In ":" y -> x ++ u = y ++ v -> (u = [] \/ exists u', u = ":" :: u') -> (v = [] \/ exists v', v = ":" :: v') -> x = y /\ u = v) as H.
  { induction x as [|c x IH]; intros y u v Nx Ny E Hu Hv; destruct y as [|d y]; cbn [app] in E.
    - auto.
    - subst u. destruct Hu as [Hu|(u' & Hu)]; [discriminate|]. injection Hu as -> _. exfalso. apply Ny. left. reflexivity.
    - subst v. destruct Hv as [Hv|(v' & Hv)]; [discriminate|]. injection Hv as -> _. exfalso. apply Nx. left. reflexivity.
    - injection E as -> E. destruct (IH y u v) as (-> & ->); auto; intros H; [apply Nx|apply Ny]; right; exact H. }
  intros Fa. revert b. induction Fa as [|x a Nx Fa IH]; intros b Fb E; destruct b as [|y b]; try reflexivity; try discriminate.
  inversion Fb as [|? ? Ny Fb']; subst. cbn [flat_map] in E. rewrite <- !app_assoc in E. apply app_inv_head in E.
  assert (forall l : list str, flat_map (fun x => S_ "::" ++ x) l = [] \/ exists u', flat_map (fun x => S_ "::" ++ x) l = ":" :: u') as T.
  { intros [|z l]; [left; reflexivity|right; eexists; reflexivity]. }
  destruct (H x y _ _ Nx Ny E (T a) (T b)) as (-> & E'). f_equal. apply IH; assumption.
Qed.
Lemma split_sub c d n : ~ In d n -> Forall (fun x => ~ In d x) (split_on c n).
Proof.
  induction n as [|x n IH]; intros N; cbn [split_on]; [repeat constructor; auto|]. specialize (IH (fun H => N (or_intror H))).
  destruct (Ascii.eqb x c); [constructor; auto|]. destruct (split_on c n) as [|h r]; [repeat constructor; intros [H|[]]; apply N; left; exact H|].
  inversion IH; subst. constructor; [intros [H|H]; [apply N; left; exact H|auto]|assumption].
Qed.
Lemma split_none c n : ~ In c n -> split_on c n = [n].
Proof.
  induction n as [|x n IH]; intros N; [reflexivity|]. cbn [split_on]. destruct (Ascii.eqb_spec x c) as [->|_]; [exfalso; apply N; left; reflexivity|].
  rewrite IH by (intros H; apply N; right; exact H). reflexivity.
Qed.
Lemma plain_parts n : plain n -> Forall (fun x => ~ In ":" x) (ns_part n ++ cls_part n) /\ exists x, cls_part n = [x].
Proof.
  intros (N1 & N2 & _). pose proof (split_sub "/" N2) as F2. pose proof (split_sub "/" N1) as F1. pose proof (split_ne "/" n) as Ne. unfold ns_part, cls_part.
  assert (In (last (split_on "/" n) []) (split_on "/" n)) as Hl by (apply last_In; exact Ne). rewrite Forall_forall in F1, F2.
  rewrite (split_none (F1 _ Hl)). split; [|eauto]. apply Forall_forall. intros x Hx. apply F2. rewrite (app_removelast_last [] Ne). exact Hx.
Qed.
Theorem C74_distinct_partial n m : plain n -> plain m -> full_name n = full_name m -> n = m.
Proof.
  intros Pn Pm E. unfold full_name in E. apply app_inv_head in E. fold ne in E.
  change (fun x : list ascii => match x with [] => false | _ => true end) with ne in E. rewrite !filter_ne in E by (apply Pn || apply Pm).
  destruct (plain_parts Pn) as (F1 & x & E1), (plain_parts Pm) as (F2 & y & E2). apply colons_inj in E; [|assumption|assumption].
  rewrite E1, E2 in E. apply app_inj_tail in E. destruct E as (E & ->). rewrite <- (parts_nm n), <- (parts_nm m), E, E1, E2. reflexivity.
Qed.
(** In general different classes share a name. *)
Definition ex_clash : list event := [(main, FindClass_ (S_ "a/b$c")); (main, FindClass_ (S_ "a/b/c"))].
Theorem C74_distinct_refuted : exists s n m, reachable Gd main s /\ dumped s n /\ dumped s m /\ n <> m /\ full_name n = full_name m.
Proof.
  exists (after Gd ex_clash), (S_ "a/b$c"), (S_ "a/b/c").
  assert (reachable Gd main (after Gd ex_clash)) as Rs by (apply after_reachable; vm_compute; reflexivity).
  split; [exact Rs|]. destruct (the_np Rs) as (np & E & R).
  assert (forall n, existsb (str_eqb n) (match read_np (after Gd ex_clash) with Some np => map g_prefix (pre_n np) | None => [] end) = true -> dumped (after Gd ex_clash) n) as K.
  { intros n H. rewrite E in H. apply (names_ok (G := Gd) eq_refl (reachable_inv Rs) R). apply existsb_exists in H. destruct H as (x & Hx & H). apply str_eqb_eq in H. subst. exact Hx. }
  split; [apply K; vm_compute; reflexivity|]. split; [apply K; vm_compute; reflexivity|]. split; [discriminate|reflexivity].
Qed.

(** The name under which a class is declared is the one by which signatures and the registration refer to it
    exactly if no package has an empty name or one with a dollar sign. *)
Lemma qualified_app a b : qualified (a ++ b) = qualified a ++ qualified b.
Proof. induction a as [|c a IH]; [reflexivity|]. cbn [app qualified]. rewrite IH, app_assoc. reflexivity. Qed.
Lemma qualified_free x : free ["/"; "$"] x -> qualified x = x.
Proof.
  induction x as [|c x IH]; intros F; [reflexivity|]. cbn [qualified]. rewrite IH by (intros d Hd H; apply (F d Hd); right; exact H).
  destruct (Ascii.eqb_spec c "/") as [->|_]; [exfalso; apply (F "/"); simpl; auto|]. destruct (Ascii.eqb_spec c "$") as [->|_]; [exfalso; apply (F "$"); simpl; auto|]. reflexivity.
Qed.
Lemma qualified_nm a b : Forall (free ["/"; "$"]) a -> Forall (free ["/"; "$"]) b -> b <> [] ->
  S_ "::" ++ qualified (nm a b) = flat_map (fun x => S_ "::" ++ x) (a ++ b).
Proof.
  intros Fa Fb Nb. unfold nm. rewrite qualified_app. induction Fa as [|x a Hx Fa IH].
  - replace (qualified (joined "/" [])) with (@nil ascii) by reflexivity. rewrite !app_nil_l. induction Fb as [|x b Hx Fb IH]; [congruence|]. destruct b as [|y b].
    + cbn [join flat_map]. rewrite app_nil_r, (qualified_free Hx). reflexivity.
    + rewrite join_cons by discriminate. rewrite qualified_app, (qualified_free Hx). change (qualified ("$" :: join "$" (y :: b))) with (S_ "::" ++ qualified (join "$" (y :: b))).
      rewrite IH by discriminate. cbn [flat_map]. rewrite <- !app_assoc. reflexivity.
  - assert (joined "/" (x :: a) = x ++ "/" :: joined "/" a) as -> by (cbn; rewrite <- ?app_assoc; reflexivity). rewrite qualified_app, (qualified_free Hx). change (qualified ("/" :: joined "/" a)) with (S_ "::" ++ qualified (joined "/" a)).
    cbn [app flat_map]. rewrite <- IH. rewrite <- !app_assoc. reflexivity.
Qed.
Lemma qualified_clean n : ~ In "$" (qualified n).
Proof.
  induction n as [|c n IH]; [intros []|]. cbn [qualified]. rewrite in_app_iff. intros [H|H]; [|auto]. destruct (Ascii.eqb_spec c "/"); [destruct H as [H|[H|[]]]; discriminate|].
  destruct (Ascii.eqb_spec c "$") as [->|N]; [destruct H as [H|[H|[]]]; discriminate|]. destruct H as [H|[]]. congruence.
Qed.
Lemma filter_shorter (l : list str) : length (flat_map (fun x => S_ "::" ++ x) (filter ne l)) <= length (flat_map (fun x => S_ "::" ++ x) l) /\
  (length (flat_map (fun x => S_ "::" ++ x) (filter ne l)) = length (flat_map (fun x => S_ "::" ++ x) l) -> Forall (fun x => x <> []) l).
Proof.
  induction l as [|x l [IH1 IH2]]; [split; [reflexivity|constructor]|]. cbn [filter]. destruct x as [|c x]; cbn [ne flat_map]; rewrite ?app_length in *; cbn [length] in *.
  - change (length (S_ "::")) with 2 in *. split; [lia|]. intros H. lia.
  - split; [lia|]. intros H. constructor; [discriminate|]. apply IH2. lia.
Qed.
Theorem C74_same_name n : full_name n = S_ "jnivm::" ++ qualified n <-> Forall (fun x => x <> [] /\ ~ In "$" x) (ns_part n).
Proof.
  pose proof (parts_nm n) as P. pose proof (parts_comps n) as [Ca Cb Cn]. change (S_ "jnivm::") with (S_ "jnivm" ++ S_ "::"). rewrite <- app_assoc. unfold full_name.
  change (fun x : list ascii => match x with [] => false | _ => true end) with ne.
  assert (Forall (fun x => ~ In "$" x) (ns_part n) -> S_ "::" ++ qualified n = flat_map (fun x => S_ "::" ++ x) (ns_part n ++ cls_part n)) as Q.
  { intros Nd. rewrite <- P at 1. apply qualified_nm; [|exact Cb|exact Cn]. rewrite Forall_forall in *. intros x Hx c [<-|[<-|[]]]; [apply (Ca x Hx); left; reflexivity|auto]. }
  split.
  - intros E. apply app_inv_head in E.
    assert (Forall (fun x => ~ In "$" x) (ns_part n)) as Nd.
    { apply Forall_forall. intros x Hx Hd. assert (In "$" (S_ "::" ++ qualified n)) as H.
      - rewrite <- E. apply in_flat_map. exists x. split; [|apply in_app_iff; right; exact Hd]. apply in_app_iff. left. apply filter_In. split; [exact Hx|]. destruct x; [destruct Hd|reflexivity].
      - apply in_app_iff in H. destruct H as [H|H]; [destruct H as [H|[H|[]]]; discriminate|]. exact (qualified_clean H). }
    rewrite (Q Nd), !flat_map_app in E. apply app_inv_tail in E. pose proof (proj2 (filter_shorter (ns_part n)) (f_equal (@length ascii) E)) as Ne.
    rewrite Forall_forall in *. auto.
  - intros F. assert (Forall (fun x => ~ In "$" x) (ns_part n)) as Nd by (eapply Forall_impl; [|exact F]; cbn; tauto). rewrite (Q Nd), filter_ne; [reflexivity|]. eapply Forall_impl; [|exact F]; cbn; tauto.
Qed.
Example C74_same_name_cases : full_name (S_ "a/B$C") = S_ "jnivm::a::B::C" /\ qualified (S_ "a/B$C") = S_ "a::B::C" /\
  full_name (S_ "a//B") = S_ "jnivm::a::B" /\ qualified (S_ "a//B") = S_ "a::::B" /\
  full_name (S_ "a$b/C") = S_ "jnivm::a$b::C" /\ qualified (S_ "a$b/C") = S_ "a::b::C".
Proof. repeat split. Qed.
Example C74_plain_case : plain (S_ "java/util/List") /\ ~ plain (S_ "a/b$c").
Proof.
  split.
  - repeat split; try (vm_compute; intuition discriminate). vm_compute. repeat constructor; discriminate.
  - intros (H & _). apply H. vm_compute. tauto.
Qed.

(** ** C75: the whole dump *)
Theorem C75_dump G t s fake : reachable G t s -> debug G = true -> well_formed s ->
  exists np h d b, read_np s = Some np /\ VM_GenerateHeader fake np = Ok h /\ VM_GenerateStubs fake np = Ok d /\ VM_GenerateJNIBinding fake np = Ok b /\
    let intro := VM_GeneratePreDeclaration fake np ++ [nl] ++ h ++ d in
    let reg := VM_GenerateJNIPreDeclaration fake np in
    VM_GenerateClassDump fake np =
      Ok (intro ++ if fake then b ++ [nl] ++ S_ "void InitJNIBinding(FakeJni::Jvm* vm) {" ++ [nl] ++ reg ++ [nl] ++ S_ "}"
                   else S_ "void InitJNIBinding(jnivm::ENV* env) {" ++ [nl] ++ reg ++ b ++ [nl] ++ S_ "}") /\
    (fake = true -> printStatistics fake np = Ok (intro ++ b ++ [nl] ++ S_ "void InitJNIBinding(FakeJni::Jvm* vm) {" ++ [nl] ++ reg ++ [nl] ++ S_ "}" ++ [nl])).
Proof.
  intros Rs D W. destruct (C70_declarations fake Rs D W) as (np & p1 & E & H1 & _). destruct (C71_definitions fake Rs D W) as (np2 & p2 & E2 & H2 & _).
  assert (exists b, VM_GenerateJNIBinding fake np = Ok b) as (b & H3).
  { destruct fake.
    - destruct (C72_descriptors Rs D W) as (np3 & p3 & E3 & H3 & _). rewrite E in E3. injection E3 as <-. eauto.
    - destruct (C72_binding Rs D W) as (np3 & p3 & c3 & E3 & H3 & _). rewrite E in E3. injection E3 as <-. eauto. }
  rewrite E in E2. injection E2 as <-. exists np, (concat (map snd p1)), (concat (map snd p2)), b. repeat (split; [assumption|]). cbn zeta. split.
  - unfold VM_GenerateClassDump. rewrite H1, H2, H3. cbn [rbind]. f_equal. rewrite <- !app_assoc. destruct fake; reflexivity.
  - intros ->. unfold printStatistics. rewrite H1, H2, H3. cbn [rbind]. f_equal. rewrite <- !app_assoc. reflexivity.
Qed.

(** ** C76: the registration code of a dump brings the same classes into a new VM *)
Lemma dumped_outer G t s n m : reachable G t s -> debug G = true -> dumped s n -> encloses m n -> dumped s m.
Proof.
  intros Rs D Hn Hm. destruct (the_np Rs) as (np & E & R). apply (names_ok D (reachable_inv Rs) R) in Hn. apply in_split in Hn. destruct Hn as (l1 & l2 & El).
  apply (names_ok D (reachable_inv Rs) R). destruct (order_ok R El Hm) as [->|H]; rewrite El; apply in_app_iff; [right; left; reflexivity|left; exact H].
Qed.
Lemma bind_step G t s k inst n : good G s -> attached s t ->
  exists i s', step G t (UBind_ k inst n) s = Some (OVal (RRef (Some i)), s') /\ get_class s' n = Some i /\ attached s' t.
Proof.
  intros Gs A. destruct (@find_class_spec G false n s (g_inv Gs)) as (r & s1 & E & I1 & Q & _ & Gc & _ & N). destruct (N eq_refl) as [Nr _].
  destruct r as [i|]; [clear N Nr; symmetry in Gc|congruence]. destruct I1 as [W1 [_ _ R1 _]]. destruct (R1 _ _ Gc) as (c & Hc & _).
  unfold cls_of in Hc. destruct (lookup s1 i) as [o|] eqn:L; [|discriminate]. destruct (o_pay o) eqn:Eo; try discriminate. injection Hc as ->.
  set (s2 := with_types s1 (aset ty_eqb (s_types s1) (TUser k) (Some i))).
  set (f := fun c => mkCls (c_name c) (c_prefix c) (c_inner c) (c_fields c) (c_methods c) (c_natives c) (if inst then Some (TUser k) else None) (c_instarr c) (Some (TUser k))).
  assert (obj_ok s2 (set_pay o (PClass (f c))) = true) as Ok2.
  { pose proof (wf_obj W1 _ L) as O. unfold obj_ok in *. rewrite Eo in O. exact O. }
  set (s3 := with_heap s2 (list_set (s_heap s2) i (Some (set_pay o (PClass (f c)))))).
  assert (GetClassT G (TUser k) inst n s = Ret i s3) as E3.
  { unfold GetClassT. unfold bind at 1. rewrite E. cbn [nonnull]. unfold bind at 1, ret at 1. unfold bind at 1. unfold set_type, bind at 1, check. cbn [opt_list forallb].
    assert (is_cls s1 i = true) as -> by (unfold is_cls; rewrite L, Eo; reflexivity). cbn [andb]. cbv beta iota. fold s2. unfold bind at 1, bind_cls. fold f.
    assert (upd_cls i f s2 = Ret tt s3) as ->; [|reflexivity].
    unfold upd_cls, bind at 1, deref. change (lookup s2 i) with (lookup s1 i). rewrite L, Eo. unfold put_obj, bind, check. rewrite Ok2. reflexivity. }
  exists i, (finish s3). pose proof (collect_same (with_tmp s3 [])) as C. unfold same_but_heap in C. destruct C as (_ & C & _ & _ & Ce & _). split; [|split].
  - apply VmHook.step_ret; [exact A|]. cbn [body]. unfold as_oid, bind. rewrite E3. reflexivity.
  - unfold finish, get_class. rewrite <- C. exact Gc.
  - destruct A as (e & A). exists e. unfold finish, get_env in *. rewrite <- Ce. cbn [with_tmp s_envs s3 with_heap s2 with_types]. change (s_envs (with_tmp s3 [])) with (s_envs s1). rewrite (q_envs Q). exact A.
Qed.
Lemma init_provided G t m : class_exists (init_vm G t) m <-> In m provided.
Proof.
  rewrite (class_exists_iff m (init_inv G t)). assert (Permutation (map fst (s_classes (init_vm G t))) provided) as H.
  { assert (map fst (s_classes (init_vm G t)) = nth 0 provided [] :: nth 2 provided [] :: nth 1 provided [] :: skipn 3 provided) as -> by (destruct G as [[] nd rn cs ub]; vm_compute; reflexivity).
    apply perm_skip, perm_swap. }
  assert (get_class (init_vm G t) m <> None <-> In m (map fst (s_classes (init_vm G t)))) as ->.
  { unfold get_class. generalize (s_classes (init_vm G t)). clear. intros l. induction l as [|[k v] l IH]; simpl; [tauto|]. destruct (str_eqb_spec k m) as [->|N]; simpl; [split; [auto|discriminate]|]. rewrite IH. tauto. }
  split; apply Permutation_in; [|symmetry]; exact H.
Qed.
Definition reload (t : tid) (k : str -> nat) (names : list str) : list event := map (fun n => (t, UBind_ (k n) true n)) names.
Theorem C76_reload G t s names G' t' k : reachable G t s -> debug G = true -> (forall n, In n names <-> dumped s n) ->
  exists vs s', exec G' (reload t' k names) (init_vm G' t') = Some (vs, s') /\ forall m, class_exists s' m <-> In m provided \/ dumped s m.
Proof.
  intros Rs D Nm.
  assert (forall l s0, good G' s0 -> attached s0 t' -> exists vs s1, exec G' (reload t' k l) s0 = Some (vs, s1) /\ forall n, In n l -> get_class s1 n <> None) as Ex.
  { induction l as [|n l IH]; intros s0 Gs A; [exists [], s0; split; [reflexivity|intros n []]|]. destruct (@bind_step G' t' s0 (k n) true n Gs A) as (i & s1 & E & Gc & A1).
    pose proof (step_good Gs E) as G1. destruct (IH _ G1 A1) as (vs & s2 & E2 & K). exists (OVal (RRef (Some i)) :: vs), s2. split; [cbn [reload map exec]; rewrite E; unfold reload in E2; rewrite E2; reflexivity|].
    intros m [<-|Hm]; [|auto]. rewrite (exec_kept G1 E2 Gc). discriminate. }
  assert (good G' (init_vm G' t')) as G0 by (apply (reachable_good (t := t')); exists [], []; reflexivity).
  destruct (Ex names _ G0 (proj2 (CtxProps.init_attached G' t' t') eq_refl)) as (vs & s' & E & K). exists vs, s'. split; [exact E|]. pose proof (exec_good G0 E) as G1. intros m. rewrite <- (init_provided G' t' m). split.
  - intros Hm. destruct (exec_creates G0 E Hm) as [H|(l1 & u & o & l2 & vs1 & s1 & n & El & _ & M & Br)]; [left; exact H|]. right.
    unfold reload in El. apply map_eq_app in El. destruct El as (la & lb & -> & _ & Eb). apply map_eq_cons in Eb. destruct Eb as (x & lc & -> & Ex' & _). injection Ex' as <- <-.
    assert (n = x) as -> by (inversion M; auto). clear M. assert (dumped s x) as Dx by (apply Nm, in_app_iff; right; left; reflexivity).
    destruct Dx as (X1 & X2 & X3). pose proof (conj X1 (conj X2 X3)) as Dx. fold (dumped s x) in Dx. unfold brings in Br. destruct (debug G').
    + apply (dumped_outer Rs D Dx). destruct x as [|c x]; [exact Br|]. destruct (Ascii.eqb_spec c "[") as [->|N]; [exfalso; exact (X2 x eq_refl)|].
      destruct c as [[] [] [] [] [] [] [] []]; try exact Br. exfalso; apply N; reflexivity.
    + subst m. exact Dx.
  - intros [H|H].
    + rewrite (class_exists_iff m (g_inv G0)) in H. rewrite (class_exists_iff m (g_inv G1)). destruct (get_class (init_vm G' t') m) as [i|] eqn:Ei; [|congruence]. rewrite (exec_kept G0 E Ei). discriminate.
    + rewrite (class_exists_iff m (g_inv G1)). apply K, Nm, H.
Qed.

(** ** C77: classes are declared before the generated code uses them *)
Definition occurs (p t : str) : Prop := exists u v, t = u ++ p ++ v.
Fixpoint has_prefix (p t : str) : bool :=
  match p, t with [], _ => true | c :: p, d :: t => Ascii.eqb c d && has_prefix p t | _, [] => false end.
Fixpoint find_at (p t : str) : bool := has_prefix p t || match t with [] => false | _ :: r => find_at p r end.
Lemma find_at_ok p t : occurs p t -> find_at p t = true.
Proof.
  intros (u & v & ->). induction u as [|c u IH]; [|cbn [app find_at]; rewrite IH; apply orb_true_r]. cbn [app].
  assert (has_prefix p (p ++ v) = true) as H by (induction p as [|c p IH]; [reflexivity|cbn [app has_prefix]; rewrite Ascii.eqb_refl, IH; reflexivity]).
  destruct (p ++ v); cbn [find_at]; rewrite H; reflexivity.
Qed.
(** Partial: a class that is not nested is declared in front of everything else, with the name by which signatures refer to it
    (missing: nested classes, see [C77_declared_refuted]). *)
Theorem C77_declared_partial G t s fake n : reachable G t s -> debug G = true -> dumped s n -> (forall m, encloses m n -> m = n) ->
  exists np decls, read_np s = Some np /\
    VM_GeneratePreDeclaration fake np = S_ (if fake then "#include <fake-jni/fake-jni.h>" else "#include <jnivm.h>") ++ [nl] ++ join nl (map fwd_text decls) /\
    exists scopes name, In (scopes, name) (flat_map fwd_classes decls) /\
      (Forall (fun x => x <> [] /\ ~ In "$" x) (ns_part n) -> flat_map (fun x => x ++ S_ "::") scopes ++ name = S_ "jnivm::" ++ qualified n).
Proof.
  intros Rs D Hd Top. destruct (C73_forward fake Rs D) as (np & decls & names & E & Ep & _ & Ef & _ & Hn). exists np, decls. split; [exact E|]. split; [exact Ep|].
  exists (fst (place n)), (snd (place n)). split.
  - rewrite <- surjective_pairing, Ef. apply in_map, Hn. auto.
  - intros F. rewrite <- (proj2 (C74_same_name n) F). unfold place, full_name, last_name. cbn [fst snd]. change (fun x : list ascii => match x with [] => false | _ => true end) with ne.
    apply tl_spec in Top. unfold tl in Top. apply Nat.eqb_eq in Top. destruct (cls_part n) as [|x [|y r]]; try discriminate. cbn [last].
    generalize (filter ne (ns_part n)). intros l. generalize (S_ "jnivm"). induction l as [|y l IH]; intros q.
    + cbn [app flat_map]. rewrite !app_nil_r, <- app_assoc. reflexivity.
    + cbn [app flat_map] in *. rewrite <- !app_assoc. specialize (IH y). rewrite <- !app_assoc in IH. rewrite IH. reflexivity.
Qed.
(** A method of a class that is declared earlier mentions a nested class before the enclosing class is defined. *)
Definition ex_use : list event :=
  [(main, FindClass_ (S_ "D")); (main, FindClass_ (S_ "a/B$C")); (main, GetMethodID_ false (Some 9) (S_ "f") (S_ "(La/B$C;)V"))].
Theorem C77_declared_refuted : exists s np before after, reachable Gd main s /\ read_np s = Some np /\ dumped s (S_ "a/B$C") /\
  rbind (VM_GenerateHeader false np) (fun h => Ok (VM_GeneratePreDeclaration false np ++ [nl] ++ h)) = Ok (before ++ S_ "jnivm::a::B::C" ++ after) /\
  ~ occurs (S_ "class jnivm::a::B ") before /\ ~ occurs (S_ "class C;") before.
Proof.
  assert (reachable Gd main (after Gd ex_use)) as Rs by (apply after_reachable; vm_compute; reflexivity). destruct (the_np Rs) as (np & E & R).
  set (use := S_ "jnivm::a::B::C").
  set (f := fix cut (fuel : nat) (t u : str) : str := match fuel with O => rev u | S k => if has_prefix use t then rev u else match t with [] => rev u | c :: r => cut k r (c :: u) end end).
  set (text := match read_np (after Gd ex_use) with Some np => match VM_GenerateHeader false np with Ok h => VM_GeneratePreDeclaration false np ++ [nl] ++ h | _ => [] end | None => [] end).
  set (bef := f 4000 text []).
  exists (after Gd ex_use), np, bef, (skipn (length bef + length use) text). split; [exact Rs|]. split; [exact E|]. split; [|split; [|split]].
  - apply (names_ok (G := Gd) eq_refl (reachable_inv Rs) R). assert (existsb (str_eqb (S_ "a/B$C")) (match read_np (after Gd ex_use) with Some np => map g_prefix (pre_n np) | None => [] end) = true) as H by (vm_compute; reflexivity).
    rewrite E in H. apply existsb_exists in H. destruct H as (x & Hx & H). apply str_eqb_eq in H. rewrite H. exact Hx.
  - assert (match read_np (after Gd ex_use) with Some np => rbind (VM_GenerateHeader false np) (fun h => Ok (VM_GeneratePreDeclaration false np ++ [nl] ++ h)) | None => Ok [] end = Ok (bef ++ use ++ skipn (length bef + length use) text)) as H by (vm_compute; reflexivity).
    rewrite E in H. exact H.
  - intros H. apply find_at_ok in H. revert H. vm_compute. discriminate.
  - intros H. apply find_at_ok in H. revert H. vm_compute. discriminate.
Qed.

(** ** A case *)
Definition candidates := (list jty * list (list jty * option jty))%type.
Definition formed (k : candidates) (s : st) : bool :=
  forallb ty_okb (fst k) && forallb (fun x => forallb ty_okb (fst x) && match snd x with None => true | Some t => ty_okb t end) (snd k) &&
  forallb (fun o => match o with
    | Some o => match o_pay o with
                | PField f => existsb (fun t => str_eqb (f_type f) (descr t)) (fst k)
                | PMethod m => match m_native m with Some _ => true | None => existsb (fun x => str_eqb (m_sig m) (msig (fst x) (snd x))) (snd k) end
                | _ => true
                end
    | None => true
    end) (s_heap s).
Lemma ty_okb_ok t : ty_okb t = true -> ty_ok t.
Proof.
  induction t; cbn [ty_okb ty_ok]; auto. intros H. apply andb_prop in H. destruct H as [H1 H2]. apply negb_true_iff in H1, H2.
  split; intros H; [rewrite <- not_true_iff_false in H1; apply H1|rewrite <- not_true_iff_false in H2; apply H2]; apply existsb_exists; eexists; (split; [exact H|apply Ascii.eqb_refl]).
Qed.
Lemma formed_ok k s : formed k s = true -> well_formed s.
Proof.
  unfold formed. intros H. apply andb_prop in H. destruct H as [H H3]. apply andb_prop in H. destruct H as [H1 H2]. rewrite forallb_forall in H1, H2, H3.
  assert (forall i o, lookup s i = Some o -> In (Some o) (s_heap s)) as L.
  { intros i o. unfold lookup. destruct (nth_error (s_heap s) i) as [[x|]|] eqn:En; try discriminate. intros [= <-]. exact (nth_error_In _ _ En). }
  split.
  - intros i f (o & Lo & P). apply L, H3 in Lo. rewrite P in Lo. apply existsb_exists in Lo. destruct Lo as (t & Ht & Et). apply str_eqb_eq in Et. exists t. split; [apply ty_okb_ok; auto|exact Et].
  - intros i m (o & Lo & P) Nm. apply L, H3 in Lo. rewrite P, Nm in Lo. apply existsb_exists in Lo. destruct Lo as (t & Ht & Et). apply str_eqb_eq in Et. exists t. specialize (H2 _ Ht). apply andb_prop in H2. destruct H2 as [H2 H4].
    rewrite forallb_forall in H2. split; [|split; [|exact Et]].
    + apply Forall_forall. intros y Hy. apply ty_okb_ok. auto.
    + destruct (snd t); cbn [ret_ok]; [apply ty_okb_ok; exact H4|exact Logic.I].
Qed.
Definition ex_dump : list event :=
  [(main, FindClass_ (S_ "a/B$C")); (main, FindClass_ (S_ "D")); (main, GetMethodID_ false (Some 10) (S_ "<init>") (S_ "(I)V"));
   (main, GetMethodID_ true (Some 9) (S_ "f") (S_ "([La/B$C;J)La/B;")); (main, GetFieldID_ true (Some 10) (S_ "x") (S_ "[Z"));
   (main, GetFieldID_ false (Some 9) (S_ "y") (S_ "Ljava/lang/String;"))].
Example C70_case : reachable Gd main (after Gd ex_dump) /\ debug Gd = true /\ well_formed (after Gd ex_dump).
Proof.
  split; [apply after_reachable; vm_compute; reflexivity|]. split; [reflexivity|].
  apply (@formed_ok ([JArr JBool; JObj (S_ "java/lang/String")], [([JInt], Some (JObj (S_ "a/B$C"))); ([JArr (JObj (S_ "a/B$C")); JLong], Some (JObj (S_ "a/B")))])). vm_compute. reflexivity.
Qed.
Example C70_text : (match read_np (after Gd ex_dump) with Some np => VM_GenerateHeader false np | None => UB end) = Ok (S_
"class jnivm::D : public jnivm::Object {
public:
};

class jnivm::a::B : public jnivm::Object {
public:
    class C;
    std::shared_ptr<jnivm::java::lang::String> y;
    static std::shared_ptr<jnivm::a::B> f(jnivm::ENV* env, jnivm::Class* cl, std::shared_ptr<jnivm::Array<jnivm::a::B::C>>, jlong);
};

class jnivm::a::B::C : public jnivm::Object {
public:
    static std::shared_ptr<jnivm::Array<jboolean>> x;
    C(jnivm::ENV* env, jnivm::Class* cl, jint);
};

").
Proof. vm_compute. reflexivity. Qed.
Example C76_case : exists s', exec Gd (reload 3 (fun n => length n) [S_ "D"; S_ "a/B"; S_ "a/B$C"]) (init_vm Gd 3) = Some (map (fun i => OVal (RRef (Some i))) [9; 10; 11], s').
Proof.
  destruct (exec Gd (reload 3 (fun n => length n) [S_ "D"; S_ "a/B"; S_ "a/B$C"]) (init_vm Gd 3)) as [[vs s']|] eqn:E.
  - exists s'. assert (option_map fst (exec Gd (reload 3 (fun n => length n) [S_ "D"; S_ "a/B"; S_ "a/B$C"]) (init_vm Gd 3)) = Some (map (fun i => OVal (RRef (Some i))) [9; 10; 11])) as H by (vm_compute; reflexivity).
    rewrite E in H. cbn [option_map fst] in H. apply (f_equal (fun o => match o with Some x => x | None => vs end)) in H. cbv beta iota in H. rewrite <- H. reflexivity.
  - exfalso. assert (exec Gd (reload 3 (fun n => length n) [S_ "D"; S_ "a/B"; S_ "a/B$C"]) (init_vm Gd 3) <> None) as H by (vm_compute; discriminate). apply H, E.
Qed.

Print Assumptions C70_declarations.
Print Assumptions C70_terminates.
Print Assumptions C71_definitions.
Print Assumptions C72_registration.
Print Assumptions C72_descriptors.
Print Assumptions C72_binding.
Print Assumptions C73_forward.
Print Assumptions C74_distinct_partial.
Print Assumptions C74_distinct_refuted.
Print Assumptions C74_same_name.
Print Assumptions C75_dump.
Print Assumptions C76_reload.
Print Assumptions C77_declared_partial.
Print Assumptions C77_declared_refuted.
