(** C88: createMainMethod, and the start of the VM after it. *)
From Verif Require Import RefProps VmFine Base BaseProofs VmState VmModel VmStep VmSpec RefSpec CallSpec MemSpec ArrSpec HookSpec VmBase VmFrame VmWf VmPrim VmInv VmReg VmRegInv VmExact VmQuiet VmClass VmObj VmRef VmRef2 VmArr VmArr2 VmHook VmCall VmCall2 VmField VmHier VmMember VmMember2 VmMember3 VmThread VmMemHist VmTables VmEnvInv MemberProps CallProps BootProps
  BaronModel BaronProps ClassProps WrapModel CastModel CastSpec VmDemo ArrProps CastProps InvokeModel InvokeSpec InvokeProps StartProps DescModel DescProps MainModel.
Set Implicit Arguments.
Unset Strict Implicit.
Local Open Scope char_scope.

(** ** Specification *)
Notation the_class := (S_ "fakejni/impl/createMainMethod").
Notation main_ := (S_ "main").
Notation strings := (S_ "([Ljava/lang/String;)V").
(** A callback installed in class [c] becomes what a call of main finds: there is no instance method main, also inherited. *)
Definition room (G : cfg) (s : st) (c : oid) : Prop := finds_method G s false false main_ strings c None.
(** Callback [id] is installed as method [m] of class [c]. *)
Record main_made (G : cfg) (t : tid) (id : nat) (c m : oid) (s s' : st) : Prop := {
  mm_class : class_named s' the_class c;
  mm_found : mains G s' c (mkProxy None (Some m) None);
  mm_method : method_at s' m = Some (mkMth main_ strings true None (Some (mkHandle id KStatic RVoid false)));
  mm_own : In m (methods_of s' c);
  mm_reuse : forall i, first_in (same_key s true main_ strings) (methods_of s c) i -> m = i;
  mm_frame : disturbs (fun i => i = c \/ i = m) t s s';
  mm_locals : frames s' t = frames s t;
  mm_room : room G s' c
}.
(** The class is there, or the VM creates it. *)
Definition provided (k : option rules) (s : st) : Prop :=
  class_exists s the_class \/ exists r, k = Some r /\ ~ In the_class (r_classes r).
Definition strings_known (s : st) : Prop := exists i, registered s TString = Some i /\ class_named s (S_ "java/lang/String") i.

Section Main.
Variable G : cfg.

(** ** Lookups and growing states *)
Lemma dfs_keep s s' : (forall i k, class_at s i = Some k -> exists k', class_at s' i = Some k' /\ c_bases k' = c_bases k) -> (forall T, registered s' T = registered s T) ->
  (forall cl L, dfs G s cl L -> dfs G s' cl L) /\ (forall l L, dfs_all G s l L -> dfs_all G s' l L).
Proof.
  intros C T. assert (forall cl, class_at s cl <> None -> super_types G s' cl = super_types G s cl) as Ty.
  { intros cl N. unfold super_types. destruct (class_at s cl) as [k|] eqn:E; [|congruence]. destruct (C _ _ E) as (k' & E' & B). rewrite E', B. reflexivity. }
  apply dfs_both; intros; try (econstructor; eauto; fail). constructor.
  - destruct (class_at s cl) as [k|] eqn:E; [|congruence]. destruct (C _ _ E) as (k' & E' & _). congruence.
  - intros N B. rewrite Ty, T by auto. apply H0; auto.
  - unfold supers. rewrite (Ty cl H). replace (map (registered s') (super_types G s cl)) with (map (registered s) (super_types G s cl)); auto. apply map_ext. auto.
Qed.

Lemma und_class t s s' i k : undisturbed t s s' -> class_at s i = Some k -> exists k', class_at s' i = Some k' /\ c_bases k' = c_bases k /\ c_methods k' = c_methods k.
Proof. intros U E. destruct (intact_class (u_obj U (class_at_live E)) E) as (k' & C & M & _ & _ & _ & _ & _ & _ & B). eauto. Qed.
Lemma und_methods t s s' cl L : undisturbed t s s' -> dfs G s cl L -> flat_map (methods_of s') L = flat_map (methods_of s) L.
Proof.
  intros U D. enough ((forall cl L, dfs G s cl L -> flat_map (methods_of s') L = flat_map (methods_of s) L) /\ (forall l L, dfs_all G s l L -> flat_map (methods_of s') L = flat_map (methods_of s) L)) as [H _] by eauto.
  apply dfs_both; intros; simpl; auto.
  - rewrite H2. f_equal. unfold methods_of. destruct (class_at s cl0) as [k|] eqn:E; [|congruence]. destruct (und_class U E) as (k' & E' & _ & M). rewrite E'. exact M.
  - rewrite !flat_map_app. congruence.
Qed.
Lemma dfs_classes s cl L : dfs G s cl L -> forall d, In d L -> class_at s d <> None.
Proof.
  intros D. enough ((forall cl L, dfs G s cl L -> forall d, In d L -> class_at s d <> None) /\ (forall l L, dfs_all G s l L -> forall d, In d L -> class_at s d <> None)) as [H _] by eauto.
  apply dfs_both; intros; simpl in *; try tauto.
  - destruct H3 as [<-|H3]; auto.
  - apply in_app_iff in H3. destruct H3; auto.
Qed.
Lemma in_dfs_method s cl L i : wf s -> dfs G s cl L -> In i (flat_map (methods_of s) L) -> exists m, method_at s i = Some m.
Proof. intros W _ H. apply in_flat_map in H. destruct H as (c & _ & H). exact (method_wf W H). Qed.
Lemma und_is_method t s s' st nat nm sg i m : undisturbed t s s' -> method_at s i = Some m -> is_method s' st nat nm sg i -> is_method s st nat nm sg i.
Proof.
  intros U E (x & X & R). exists x. split; [|exact R]. pose proof (intact_method (u_obj U (VmCall.method_live E)) E) as E'. congruence.
Qed.
Lemma und_room t s s' c : wf s -> undisturbed t s s' -> room G s c -> room G s' c.
Proof.
  intros W U (L & D & N). exists L. split.
  - apply (@dfs_keep s s'); auto; [|exact (u_types U)]. intros i k E. destruct (und_class U E) as (k' & E' & B & _). eauto.
  - intros i Hi M. rewrite (und_methods U D) in Hi. destruct (in_dfs_method W D Hi) as (m & Hm). exact (N i Hi (und_is_method U Hm M)).
Qed.
Lemma fresh_room s c o : lookup s c = Some o -> fresh_class o -> room G s c.
Proof.
  intros L (_ & _ & n & p & l & P). pose proof (lookup_class_at L P) as E.
  assert (methods_of s c = []) as M by (unfold methods_of; rewrite E; reflexivity). exists [c]. split.
  - assert (super_types G s c = []) as Ty by (unfold super_types; rewrite E; reflexivity). constructor; [congruence|intros _ B; rewrite Ty; intros []|]. unfold supers. rewrite Ty. constructor.
  - simpl. rewrite M. intros i [].
Qed.

(** ** The hook *)
Lemma first_in_imp A (P Q : A -> Prop) l x : first_in P l x -> Q x -> (forall y, In y l -> Q y -> P y) -> first_in Q l x.
Proof. induction 1 as [x l Px|x y l Nx F IH]; intros Hq Hi; [constructor; auto|]. apply fi_later; [intros Qx; apply Nx, Hi; simpl; auto|]. apply IH; auto. intros z Hz. apply Hi. simpl. auto. Qed.
Lemma hook_room t c id s s' m : wf s -> snat s -> room G s c -> hooked_method t c true main_ strings (mkHandle id KStatic RVoid false) s s' m ->
  mains G s' c (mkProxy None (Some m) None) /\ room G s' c /\ In m (methods_of s' c) /\ method_at s' m = Some (mkMth main_ strings true None (Some (mkHandle id KStatic RVoid false))) /\
  disturbs (fun i => i = c \/ i = m) t s s' /\ (forall i, first_in (same_key s true main_ strings) (methods_of s c) i -> m = i).
Proof.
  intros W Sn (L & D & N) H.
  assert (forall i, first_in (same_key s true main_ strings) (methods_of s c) i -> m = i) as Re.
  { intros i Fi. inversion H as [j m0 Fj M M' Mo Di Fr Lv|j No Ei M' Gr Di Fr Lv]; subst j; [eapply first_in_fun; eauto|]. apply first_in_In in Fi. destruct Fi as (Ii & Ki). destruct (No i Ii Ki). }
  destruct (dfs_head D) as (R & ->). pose proof D as D0. inversion D0 as [? ? Cc _ _]; subst. destruct (class_at s c) as [kc|] eqn:Ec; [|congruence]. clear Cc.
  assert (exists new : list oid, method_at s' m = Some (mkMth main_ strings true None (Some (mkHandle id KStatic RVoid false))) /\
    (forall i k, class_at s i = Some k -> exists k', class_at s' i = Some k' /\ c_bases k' = c_bases k /\ c_methods k' = if Nat.eqb i c then c_methods k ++ new else c_methods k) /\
    (forall i x, method_at s i = Some x -> i <> m -> method_at s' i = Some x) /\ (new = [] \/ new = [m]) /\
    first_in (is_method s' true false main_ strings) (c_methods kc ++ new) m /\ (forall T, registered s' T = registered s T) /\ disturbs (fun i => i = c \/ i = m) t s s') as (new & Mm & K & Mi & Nw & F & T & Di).
  { inversion H as [i m0 Fi M M' Mo Di Fr Lv|i No Ei M' Gr Di Fr Lv]; subst i.
    - exists []. assert (m_native m0 = None) as Nm.
      { destruct (m_native m0) eqn:En; auto. exfalso. apply first_in_In in Fi. destruct Fi as (Hi & y & Y & Y1 & Y2 & Y3). rewrite M in Y. injection Y as <-. rewrite (Sn _ _ _ Hi M) in Y3; [discriminate|congruence]. }
      rewrite Nm in M'. split; [exact M'|]. assert (forall i x, method_at s i = Some x -> i <> m -> method_at s' i = Some x) as Mi by (intros i x Hx Ne; eapply intact_method'; eauto; congruence).
      split.
      + intros i k E. destruct (intact_class (d_obj Di (class_at_live E) (fun e => method_not_class M (eq_trans (f_equal _ e) E))) E) as (k' & C & Me & _ & _ & _ & _ & _ & _ & B).
        exists k'. split; auto. split; auto. rewrite app_nil_r. destruct (Nat.eqb i c); auto.
      + split; [exact Mi|]. split; [auto|]. split; [|split; [apply Di|revert Di; apply disturbs_weaken; intros i ->; auto]].
        rewrite app_nil_r. unfold methods_of in Fi. rewrite Ec in Fi. apply (first_in_imp Fi).
        * eexists. split; [exact M'|]. repeat split; simpl; congruence.
        * intros y Hy (x & X & X1 & X2 & X3 & _). destruct (Nat.eq_dec y m) as [->|Ne]; [apply first_in_In in Fi; tauto|].
          assert (In y (methods_of s c)) as Hy' by (unfold methods_of; rewrite Ec; exact Hy). destruct (method_wf W Hy') as (x' & Hx'). rewrite (Mi _ _ Hx' Ne) in X. injection X as ->. exists x. auto.
    - exists [m]. split; [exact M'|]. assert (forall i x, method_at s i = Some x -> i <> m -> method_at s' i = Some x) as Mi.
      { intros i x Hx Ne. eapply intact_method'; eauto. intros <-. eapply method_not_class; eauto. }
      destruct Gr as (k0 & k0' & E0 & E0' & G1 & _ & _ & _ & _ & _ & _ & G2 & _). rewrite Ec in E0. injection E0 as <-. split.
      + intros i k E. destruct (Nat.eqb_spec i c) as [->|Ne]; [exists k0'; rewrite Ec in E; injection E as <-; auto|].
        destruct (intact_class (d_obj Di (class_at_live E) (not_eq_sym Ne)) E) as (k' & C & Me & _ & _ & _ & _ & _ & _ & B). eauto.
      + split; [exact Mi|]. split; [auto|]. split; [|split; [apply Di|revert Di; apply disturbs_weaken; intros i ->; auto]].
        apply first_in_skip; [|constructor; eexists; split; [exact M'|]; repeat split; simpl; congruence].
        intros y Hy (x & X & X1 & X2 & X3 & _). assert (In y (methods_of s c)) as Hy' by (unfold methods_of; rewrite Ec; exact Hy). destruct (method_wf W Hy') as (x' & Hx').
        assert (y <> m) as Ne by (pose proof (VmCall.method_live Hx') as Lv'; apply live_lookup in Lv'; destruct Lv' as (o & Lv'); apply lookup_lt in Lv'; lia).
        rewrite (Mi _ _ Hx' Ne) in X. injection X as ->. apply (No y Hy'). exists x. auto. }
  assert (dfs G s' c (c :: R)) as D'. { apply (@dfs_keep s s'); auto. intros i k E. destruct (K i k E) as (k' & E' & B & _). eauto. }
  destruct (K _ _ Ec) as (kc' & Ec' & _ & Mc). rewrite Nat.eqb_refl in Mc.
  assert (methods_of s' c = c_methods kc ++ new) as Ms by (unfold methods_of; rewrite Ec'; exact Mc).
  assert (forall i, In i (flat_map (methods_of s') (c :: R)) -> i = m \/ In i (flat_map (methods_of s) (c :: R)) /\ method_at s' i = method_at s i) as Hall.
  { intros i Hi. destruct (Nat.eq_dec i m) as [->|Ne]; [auto|right]. apply in_flat_map in Hi. destruct Hi as (d & Hd & Hi).
    assert (class_at s d <> None) as Cd by exact (dfs_classes D Hd).
    destruct (class_at s d) as [k|] eqn:Ed; [|congruence]. destruct (K _ _ Ed) as (k' & Ed' & _ & Md).
    assert (In i (methods_of s d)) as Hi'. { unfold methods_of in *. rewrite Ed. rewrite Ed', Md in Hi. destruct (Nat.eqb d c); auto. apply in_app_iff in Hi. destruct Hi as [Hi|Hi]; auto. destruct Nw; subst new; [destruct Hi|destruct Hi as [Hi|[]]; congruence]. }
    split; [apply in_flat_map; eauto|]. destruct (method_wf W Hi') as (x & Hx). rewrite Hx. apply Mi; auto. }
  assert (forall i, In i (flat_map (methods_of s') (c :: R)) -> ~ is_method s' false false main_ strings i) as No.
  { intros i Hi (x & X & X1 & X2 & X3 & X4). destruct (Hall i Hi) as [->|[Ho Eq]]; [rewrite Mm in X; injection X as <-; discriminate|]. apply (N i Ho). exists x. rewrite <- Eq. auto. }
  split; [|split; [|split; [|split; auto]]].
  - split; [exists (c :: R); split; auto|]. split; [|reflexivity]. exists (c :: R). split; [exact D'|]. cbn [x_static flat_map]. rewrite Ms. apply first_in_app. exact F.
  - exists (c :: R). split; auto.
  - rewrite Ms. apply first_in_In in F. tauto.
Qed.

(** ** The library's own types in a Baron VM *)
Lemma solid_to b s : solid G s <-> solid (mode G b) s.
Proof. split; intros [A B C D]; constructor; auto; apply (good_to G b); auto. Qed.
Lemma find_solid z n s v s' : solid G s -> find_class G z n s = Ret v s' -> good G s' -> solid G s'.
Proof.
  intros [A B C D] E Gs. pose proof (good_wf A) as W. pose proof (f_find (owned_fine G 0) Logic.I z n W) as K1. pose proof (f_find (snat_fine G 0) Logic.I z n W) as K2. pose proof (f_find (einv_fine G 0) Logic.I z n W) as K3.
  rewrite E in *. constructor; auto.
Qed.
Lemma findClass_solid r t n s v s' : solid G s -> findClass G r t n s = Ret v s' -> good G s' -> solid G s'.
Proof.
  unfold findClass, bind at 1, the_env. intros So E Gs. destruct (get_env s t); [|discriminate]. unfold bind at 1 in E. rewrite (find_class_true _ (g_inv (so_good So))) in E.
  destruct (get_class s n); [injection E as _ <-; exact So|]. destruct (isClassDenied r n); [injection E as _ <-; exact So|]. exact (find_solid So E Gs).
Qed.
Lemma good_steps t o a s v s' n T : solid G s -> step (mode G a) t o s = Some (v, s') -> java_name T = Some n -> solid G s' /\ registered s' T = registered s T /\ VmRegInv.kept s s'.
Proof.
  intros So E J. pose proof (proj1 (good_to G a s) (so_good So)) as Ga. split; [apply (solid_to a); eapply step_solid; [|exact E]; apply (solid_to a); exact So|]. split; [exact (good_any Ga E J)|].
  apply (@exec_kept (mode G a) [(t, o)] s [v] s' Ga). cbn [exec]. rewrite E. reflexivity.
Qed.
Lemma kept_trans_ a b c : VmRegInv.kept a b -> VmRegInv.kept b c -> VmRegInv.kept a c.
Proof. unfold VmRegInv.kept. auto. Qed.
Lemma guarded_steps t o d s v s' n T : solid G s -> guarded G t o d s = Some (v, s') -> java_name T = Some n -> solid G s' /\ registered s' T = registered s T /\ VmRegInv.kept s s'.
Proof.
  unfold guarded. intros Gs E J. destruct (step (mode G true) t o s) as [[w s1]|] eqn:E1; [|discriminate]. destruct (good_steps Gs E1 J) as (G1 & R1 & K1).
  assert (Some (w, s1) = Some (v, s') -> solid G s' /\ registered s' T = registered s T /\ VmRegInv.kept s s') as Done by (intros X; injection X as <- <-; auto).
  destruct w as [[]|]; try (apply Done, E). destruct h; [apply Done, E|]. destruct (d s1); [apply Done, E|]. destruct (good_steps G1 E J) as (G2 & R2 & K2).
  split; auto. split; [congruence|]. eapply kept_trans_; eauto.
Qed.
Lemma bstep_steps t o r s v r' s' n T : solid G s -> bstep G t o (r, s) = Some (v, (r', s')) -> java_name T = Some n -> solid G s' /\ registered s' T = registered s T /\ VmRegInv.kept s s'.
Proof.
  intros Gs E J. assert (solid G s /\ registered s T = registered s T /\ VmRegInv.kept s s) as Same by (split; auto; split; auto; intros m i H; exact H).
  destruct o as [o|m|m|a b c|a b c|m|a b c|a b c]; cbn [bstep] in E; try (injection E as _ _ <-; exact Same).
  - destruct (vstep G r t o s) as [[w s1]|] eqn:Ev; [|discriminate]. injection E as _ _ <-. destruct o; cbn [vstep] in Ev; try (eapply good_steps; eauto; fail); try (eapply guarded_steps; eauto; fail).
    + destruct h; [eapply good_steps; eauto|eapply guarded_steps; eauto].
    + destruct obj; eapply good_steps; eauto.
  - destruct (findClass_inv r t m (so_good Gs)) as [A|U]; [|rewrite U in E; discriminate]. destruct (findClass_spec r m (so_good Gs) A) as (w & s1 & Ef & G1 & F1 & U & _ & _ & K & _). pose proof (findClass_solid Gs Ef G1) as S1. rewrite Ef in E. injection E as _ _ <-. rewrite F1.
    split; auto. split; [apply (u_types U)|]. exact K.
Qed.
Lemma baron_builtin t0 r s T n : breachable G t0 (r, s) -> java_name T = Some n -> solid G s /\ exists i, registered s T = Some i /\ class_named s n i.
Proof.
  intros (setup & l & vs & E) J. pose proof (C81_boot (mode G false) t0 T) as B. rewrite J in B. destruct B as (i & Ri & Ci). pose proof (init_good G t0 false) as G0.
  assert (solid G (init_vm (mode G false) t0)) as S0 by (apply (solid_to false), (@reachable_solid _ t0); exists [], []; reflexivity).
  apply (class_named_iff _ _ (g_inv G0)) in Ci. unfold binit in E. clear G0. revert S0 Ri Ci E. generalize (init_vm (mode G false) t0). revert setup vs.
  induction l as [|[t o] l IH]; intros r0 vs s0 G0 Ri Ci E; cbn [bexec] in E.
  - injection E as _ _ <-. split; auto. exists i. split; auto. apply (class_named_iff _ _ (g_inv (so_good G0))). exact Ci.
  - destruct (bstep G t o (r0, s0)) as [[v [r1 s1]]|] eqn:E1; [|discriminate]. destruct (bexec G l (r1, s1)) as [[vs2 y]|] eqn:E2; [|discriminate]. injection E as _ ->.
    destruct (bstep_steps G0 E1 J) as (G1 & R1 & K1). apply (IH r1 vs2 s1 G1); auto. congruence.
Qed.

(** ** createMainMethod *)
Variables (own : ccls -> option str) (t0 t : tid).
(** States of a FakeJni VM, and of a Baron VM with the rules it has *)
Definition vm_state (k : option rules) (s : st) : Prop := match k with None => reachable G t0 s | Some r => breachable G t0 (r, s) end.
Lemma vm_solid k s : vm_state k s -> solid G s.
Proof. destruct k; intros R; [exact (proj1 (@baron_builtin t0 _ s TString _ R eq_refl))|exact (reachable_solid R)]. Qed.
Lemma vm_good k s : vm_state k s -> good G s.
Proof. intros V. exact (so_good (vm_solid V)). Qed.
Lemma vm_strings k s : vm_state k s -> strings_known s.
Proof. destruct k; intros R; [exact (proj2 (@baron_builtin t0 _ s TString _ R eq_refl))|exact (@C81_builtin G t0 s TString _ R eq_refl)]. Qed.

Lemma strings_und s s' : good G s -> good G s' -> undisturbed t s s' -> VmRegInv.kept s s' -> strings_known s -> strings_known s'.
Proof.
  intros Gs Gs' U K (i & R & C). exists i. split; [rewrite (u_types U); exact R|]. apply (class_named_iff _ _ (g_inv Gs')), K, (class_named_iff _ _ (g_inv Gs)). exact C.
Qed.
Lemma string_name s : strings_known s -> reg_name s ClString = Some (S_ "java/lang/String").
Proof.
  intros (i & Rg & o & c & L & P & N). unfold reg_name, entry. cbn [type_of]. unfold registered in Rg. destruct (get_type s TString) as [x|]; [|discriminate]. subst x. rewrite L, P, N. reflexivity.
Qed.
Lemma string_entry s : strings_known s -> existsb (null_entry s) (Return main_callback :: params main_callback) = false.
Proof.
  intros (i & Rg & _). unfold registered in Rg. cbn [existsb main_callback Return params]. unfold null_entry. cbn [class_of leaf]. unfold entry. cbn [type_of]. destruct (get_type s TString) as [x|]; [subst x; reflexivity|discriminate].
Qed.
Lemma installs k id c s1 s : solid G s1 -> attached s1 t -> strings_known s1 -> class_named s1 the_class c -> room G s1 c -> jvm_findClass G k t main_class s = Ret (Some c) s1 ->
  exists m s', createMainMethod G own k t id s = Some (Ok tt, s') /\ main_made G t id c m s1 s' /\ solid G s' /\ strings_known s'.
Proof.
  intros S1 A1 Sk Cn Rm Ef. pose proof (so_good S1) as G1. unfold createMainMethod. rewrite Ef.
  assert (Hook (names_in own s1) (mine_in s1 c) id main_callback = Some ([S_ "[Ljava/lang/String;"], Ok [mkHook WMethod true strings (mkHandle id KStatic RVoid false) 0])) as ->.
  { pose proof (string_name Sk) as Nm. cbv -[reg_name mine_in]. rewrite !Nm. reflexivity. }
  rewrite (string_entry Sk). cbn [fst snd look_up]. destruct (find_kept (S_ "[Ljava/lang/String;") G1) as (i & s2 & E2 & I2 & Q & K & T2 & _). rewrite E2. rewrite (tidy_finish_id T2).
  assert (good G s2) as G2 by (constructor; auto). pose proof (find_solid S1 E2 G2) as S2. pose proof (quiet_undisturbed t Q) as U. pose proof (und_room (good_wf G1) U Rm) as Rm2.
  assert (class_named s2 the_class c) as Cn2 by (apply (class_named_iff _ _ I2), K, (class_named_iff _ _ (g_inv G1)); exact Cn).
  assert (is_cls s2 c = true) as Ic by (destruct Cn2 as (o & x & L & P & _); unfold is_cls; rewrite L, P; reflexivity).
  destruct (hook_method_step true main_ strings (mkHandle id KStatic RVoid false) G2 (quiet_attached Q A1) Ic) as (m & s3 & St & G3 & H).
  exists m, s3. cbn [map run_ops hook_op k_what k_static k_sig k_handle]. change main_name with main_. rewrite St. split; [reflexivity|]. pose proof (step_solid S2 St) as S3.
  assert (VmRegInv.kept s2 s3) as K3 by (apply (@exec_kept G [(t, UHookMethod_ c true main_ strings (mkHandle id KStatic RVoid false))] s2 [OVal (RRef (Some m))] s3 G2); cbn [exec]; rewrite St; reflexivity).
  destruct (hook_room (good_wf G2) (so_snat S2) Rm2 H) as (M & R3 & Im & Mm & Di & Re). split; [|split; [exact S3|]].
  2: { destruct (strings_und G1 G2 U K Sk) as (j & Rj & Cj). exists j. split; [rewrite (d_types Di); exact Rj|]. apply (class_named_iff _ _ (g_inv G3)), K3, (class_named_iff _ _ (g_inv G2)). exact Cj. }
  constructor; auto.
  - apply (class_named_iff _ _ (g_inv G3)), K3, (class_named_iff _ _ (g_inv G2)). exact Cn2.
  - intros j Fi. apply Re. destruct Cn as (o & x & L & P & _). destruct (und_class U (lookup_class_at L P)) as (x' & X' & _ & Me).
    assert (methods_of s2 c = methods_of s1 c) as -> by (unfold methods_of; rewrite X', (lookup_class_at L P); exact Me).
    assert (forall y, In y (methods_of s1 c) -> same_key s2 true main_ strings y <-> same_key s1 true main_ strings y) as Sk_.
    { intros y Hy. destruct (method_wf (good_wf G1) Hy) as (z & Hz). pose proof (intact_method (u_obj U (VmCall.method_live Hz)) Hz) as Hz2. unfold same_key. rewrite Hz, Hz2. tauto. }
    pose proof (first_in_In Fi) as (Ii & Ki). apply (first_in_imp Fi); [apply Sk_; auto|]. intros y Hy. apply Sk_. auto.
  - eapply disturbs_trans; [exact (disturbs_un _ U)|exact Di].
  - rewrite <- (frames_quiet t Q). inversion H; auto.
Qed.

Lemma installs_in k id s : solid G s -> strings_known s -> attached s t -> provided k s -> (forall c, class_named s the_class c -> room G s c) ->
  exists c m s', createMainMethod G own k t id s = Some (Ok tt, s') /\ main_made G t id c m s s' /\ (class_exists s the_class -> class_named s the_class c) /\ solid G s' /\ strings_known s'.
Proof.
  intros So Sk A P Rm. pose proof (so_good So) as Gs. destruct A as (e & Ee).
  destruct (get_class s the_class) as [c|] eqn:Ec.
  - assert (class_named s the_class c) as Cn by (apply (class_named_iff _ _ (g_inv Gs)); exact Ec).
    assert (jvm_findClass G k t main_class s = Ret (Some c) s) as Ef.
    { change main_class with the_class. destruct k as [r|]; cbn [jvm_findClass]; [unfold findClass|]; unfold bind at 1, the_env; rewrite Ee; [unfold bind at 1|]; rewrite (find_class_true _ (g_inv Gs)), Ec; reflexivity. }
    destruct (@installs k id c s s So (ex_intro _ e Ee) Sk Cn (Rm c Cn) Ef) as (m & s' & E & M & S' & Sk'). exists c, m, s'. auto.
  - destruct P as [(i & Hi)|(r & -> & Nd)]; [apply (class_named_iff _ _ (g_inv Gs)) in Hi; congruence|].
    destruct (findClass_spec r the_class Gs (ex_intro _ e Ee)) as (v & s1 & Ef & G1 & F1 & U & Fr & Ev & K & _ & Nw).
    assert (isClassDenied r the_class = false) as Dn. { destruct (isClassDenied r the_class) eqn:X; auto. apply C45_class_query in X. contradiction. }
    destruct (Nw Ec Dn) as (Nv & _). destruct v as [c|]; [|congruence].
    assert (class_named s1 the_class c) as Cn by (apply (class_named_iff _ _ (g_inv G1)); auto).
    pose proof (findClass_solid So Ef G1) as S1.
    assert (room G s1 c) as R1.
    { clear S1. revert Ef. unfold findClass, bind at 1, the_env. rewrite Ee. unfold bind at 1. rewrite (find_class_true _ (g_inv Gs)), Ec, Dn. intros Ef. destruct (find_kept the_class Gs) as (i & s2 & E2 & I2 & Q & K2 & T2 & Gc).
      rewrite E2 in Ef. injection Ef as -> ->. destruct Cn as (o & x & L & P & N). assert (length (s_heap s) <= c) as Le.
      { destruct (Nat.lt_ge_cases c (length (s_heap s))) as [Lt|Ge]; [|exact Ge]. exfalso. destruct (lookup s c) as [o0|] eqn:L0; [|rewrite (q_dead Q Lt L0) in L; discriminate].
        destruct (q_old Q L0) as (o1 & L1 & _ & _ & Sp). rewrite L in L1. injection L1 as <-. rewrite P in Sp. destruct (o_pay o0) eqn:P0; try discriminate Sp. destruct Sp as (l & Sp). injection Sp as ->.
        match goal with H : o_pay o0 = PClass ?x0 |- _ => assert (class_named s the_class c) as Cs by (exists o0, x0; split; [exact L0|split; [exact H|exact N]]) end. apply (class_named_iff _ _ (g_inv Gs)) in Cs. congruence. }
      eapply fresh_room; [exact L|]. eapply (q_new Q); eauto. }
    assert (attached s1 t) as A1. { pose proof (u_envid U) as Ei. rewrite Ee in Ei. destruct (get_env s1 t) as [e1|] eqn:E1; [exists e1; auto|discriminate]. }
    assert (jvm_findClass G (Some r) t main_class s = Ret (Some c) s1) as Ef' by exact Ef.
    destruct (@installs (Some r) id c s1 s S1 A1 (strings_und Gs G1 U K Sk) Cn R1 Ef') as (m & s' & E & [m1 m2 m3 m4 mr m5 m6 m7] & S' & Sk'). exists c, m, s'. split; [exact E|]. split; [|split; [|auto]].
    + constructor; auto; [|eapply disturbs_trans; [exact (disturbs_un _ U)|exact m5]|congruence].
      intros i Fi. exfalso. apply first_in_In in Fi. destruct Fi as (Ii & _). unfold methods_of in Ii. destruct (class_at s c) as [x|] eqn:Ex; [|destruct Ii].
      destruct (intact_class (u_obj U (class_at_live Ex)) Ex) as (x' & X' & _ & _ & _ & Px & _). destruct Cn as (o & y & L & P & Ny). rewrite (lookup_class_at L P) in X'. injection X' as <-.
      assert (class_named s the_class c) as Cs. { unfold class_at, contents in Ex. destruct (lookup s c) as [o0|] eqn:L0; [|discriminate]. simpl in Ex. destruct (o_pay o0) eqn:P0; try discriminate. injection Ex as ->. exists o0, x. repeat split; auto. congruence. }
      apply (class_named_iff _ _ (g_inv Gs)) in Cs. congruence.
    + intros (i & Hi). apply (class_named_iff _ _ (g_inv Gs)) in Hi. congruence.
Qed.
(** The callback becomes the method main of the class, unless the class has or inherits an instance method main; nothing else changes.  If there is such a class
    already, it is used; a Baron VM creates it if it is not denied. *)
Theorem C88_installs k id s : vm_state k s -> attached s t -> provided k s -> (forall c, class_named s the_class c -> room G s c) ->
  exists c m s', createMainMethod G own k t id s = Some (Ok tt, s') /\ main_made G t id c m s s' /\ (class_exists s the_class -> class_named s the_class c).
Proof. intros V A P Rm. destruct (@installs_in k id s (vm_solid V) (vm_strings V) A P Rm) as (c & m & s' & E & M & C & _). eauto 6. Qed.
Lemma made_attached id c m s s' : main_made G t id c m s s' -> attached s t -> attached s' t.
Proof. intros M (e & Ee). pose proof (d_envid (mm_frame M)) as Ei. rewrite Ee in Ei. destruct (get_env s' t) as [e1|] eqn:E1; [exists e1; auto|discriminate]. Qed.
Lemma first_in_left A (P : A -> Prop) l r x : first_in P (l ++ r) x -> In x l -> first_in P l x.
Proof.
  induction l as [|y l IH]; [intros _ []|]. intros F I. inversion F; subst; [constructor; auto|]. apply fi_later; auto. apply IH; auto. destruct I as [->|I]; auto.
  exfalso. match goal with H : first_in P (l ++ r) x |- _ => apply first_in_In in H; destruct H; contradiction end.
Qed.
(** Afterwards Jvm::start runs the callback with the arguments, unless a class before this one in the order of the iteration has a method main. *)
Theorem C88_start k id c m s s' Y args pre post : vm_state k s -> numbered G -> attached s t -> provided k s -> (forall c, class_named s the_class c -> room G s c) ->
  createMainMethod G own k t id s = Some (Ok tt, s') -> main_made G t id c m s s' -> passable G s' (CObj Y args) -> Forall (no_main_in G s') pre ->
  exists s1 s2, gained t (add_locals ([] :: frames s' t) (c :: objects [CObj Y args])) (s_globals s') (c :: objects [CObj Y args] ++ s_ext s') s' s1 /\
    now_running t (mkCall RVoid true id [c]) s1 s2 /\ frames s2 t = frames s1 t /\
    start G t Y args (pre ++ c :: post) s' = Some (IHook RVoid id (Some c) [ArgL args], s2).
Proof.
  intros V N A P Rm E M Pa F. destruct (@installs_in k id s (vm_solid V) (vm_strings V) A P Rm) as (c' & m' & s2 & E' & _ & _ & S' & _). rewrite E in E'. injection E' as <-.
  exact (@runs_solid G t Y args pre c post m _ _ s' S' N (made_attached M A) Pa F (mm_found M) (mm_method M) eq_refl eq_refl eq_refl).
Qed.
(** Another call replaces the callback: the same method of the same class *)
Theorem C88_again k id id' c m s s' : vm_state k s -> attached s t -> provided k s -> (forall c, class_named s the_class c -> room G s c) ->
  createMainMethod G own k t id s = Some (Ok tt, s') -> main_made G t id c m s s' ->
  exists s2, createMainMethod G own k t id' s' = Some (Ok tt, s2) /\ main_made G t id' c m s' s2.
Proof.
  intros V A P Rm E M. destruct (@installs_in k id s (vm_solid V) (vm_strings V) A P Rm) as (c' & m' & s2 & E' & _ & _ & S' & Sk'). rewrite E in E'. injection E' as <-.
  assert (forall d, class_named s' the_class d -> d = c) as Un. { intros d D. apply (class_named_iff _ _ (g_inv (so_good S'))) in D. pose proof (mm_class M) as C. apply (class_named_iff _ _ (g_inv (so_good S'))) in C. congruence. }
  destruct (@installs_in k id' s' S' Sk' (made_attached M A)) as (d & m2 & s2 & E2 & M2 & C2 & _); [left; exists c; apply M|intros d D; rewrite (Un d D); apply M|].
  assert (d = c) as -> by (apply Un, C2; exists c; apply M). exists s2. split; auto. replace m with m2; auto.
  apply (mm_reuse M2). pose proof (mm_found M) as (_ & (L & D & Fi) & _). destruct (dfs_head D) as (R & ->). cbn [x_static flat_map] in Fi. apply first_in_left in Fi; [|apply M].
  pose proof (first_in_In Fi) as (_ & x & X1 & X2 & X3 & X4 & _). apply (first_in_imp Fi); [exists x; auto|]. intros y Hy (z & Z & Z1 & Z2 & Z3). exists z. repeat (split; [assumption|]).
  destruct (m_native z) eqn:Nz; [|split; intros X; [congruence|discriminate X]]. rewrite (so_snat S' Hy Z) in Z3; [discriminate|congruence].
Qed.
(** Without the class: undefined behaviour *)
Theorem C88_undefined k id s : vm_state k s -> attached s t -> ~ provided k s -> createMainMethod G own k t id s = None.
Proof.
  intros V A P. pose proof (vm_good V) as Gs. destruct A as (e & Ee). assert (get_class s the_class = None) as Ec.
  { destruct (get_class s the_class) as [c|] eqn:Ec; auto. exfalso. apply P. left. exists c. apply (class_named_iff _ _ (g_inv Gs)); exact Ec. }
  unfold createMainMethod. change main_class with the_class.
  destruct k as [r|]; cbn [jvm_findClass]; [unfold findClass|]; unfold bind at 1, the_env; rewrite Ee; [unfold bind at 1|]; rewrite (find_class_true _ (g_inv Gs)), Ec; [|reflexivity].
  destruct (isClassDenied r the_class) eqn:Dn; [reflexivity|]. exfalso. apply P. right. exists r. split; auto. intros Hi. apply C45_class_query in Hi. congruence.
Qed.
End Main.

(** ** Cases *)
Notation no_own := (fun _ : ccls => @None str).
(** A FakeJni VM that has just started: "the callback is installed" is false, the behaviour is undefined *)
Theorem C88_refuted : exists s, reachable Gd main s /\ attached s main /\ createMainMethod Gd no_own None main 7 s = None.
Proof. exists (after Gd []). split; [apply after_reachable; vm_compute; reflexivity|]. split; [eexists; vm_compute; reflexivity|vm_compute; reflexivity]. Qed.
Notation nr := (mkRules [] [] []).
Notation b0 := (init_vm (mode Gd false) main).
Definition made (k : option rules) (id : nat) (s : option st) : option st :=
  match s with Some s => match createMainMethod Gd no_own k main id s with Some (Ok tt, s') => Some s' | _ => None end | None => None end.
(** A Baron VM creates the class, 9; 11 is the method, after the class of arrays of strings *)
Example C88_ex_baron : vm_state Gd main (Some nr) b0 /\ attached b0 main /\ provided (Some nr) b0 /\ (forall c, class_named b0 the_class c -> room Gd b0 c) /\
  match made (Some nr) 7 (Some b0) with
  | Some s => get_class s the_class = Some 9 /\ methods_of s 9 = [11] /\ no_main_in Gd s 0 /\
      of_run (start Gd main (TArr None) None [0; 9] s) = Some (IHook RVoid 7 (Some 9) [ArgL None]) /\
      match made (Some nr) 8 (Some s) with Some s2 => methods_of s2 9 = [11] /\ of_run (start Gd main (TArr None) None [0; 9] s2) = Some (IHook RVoid 8 (Some 9) [ArgL None]) | None => False end
  | None => False
  end.
Proof.
  split; [exists nr, [], []; reflexivity|]. split; [eexists; vm_compute; reflexivity|]. split; [right; exists nr; split; [reflexivity|intros []]|].
  split; [intros c C; apply (class_named_iff _ _ (g_inv (init_good Gd main false))) in C; vm_compute in C; discriminate|].
  destruct (made (Some nr) 7 (Some b0)) as [s|] eqn:E; [|vm_compute in E; discriminate].
  vm_compute in E. injection E as <-. split; [vm_compute; reflexivity|]. split; [vm_compute; reflexivity|].
  split; [|split; [vm_compute; reflexivity|vm_compute; auto]].
  split; [exists [0]; split; [dfs_tac|vm_compute; tauto]|]. split; [exists [0]; split; [dfs_tac|vm_compute; tauto]|exists [0]; split; [dfs_tac|vm_compute; tauto]].
Qed.
(** A FakeJni VM with the class, 9 *)
Notation sf := (after Gd [(main, UBind_ 5 true the_class)]).
Example C88_ex_fakejni : vm_state Gd main None sf /\ attached sf main /\ provided None sf /\ (forall c, class_named sf the_class c -> room Gd sf c) /\
  match made None 7 (Some sf) with Some s => of_run (start Gd main (TArr None) None [0; 9] s) = Some (IHook RVoid 7 (Some 9) [ArgL None]) | None => False end.
Proof.
  assert (reachable Gd main sf) as R by (apply after_reachable; vm_compute; reflexivity). split; [exact R|]. split; [eexists; vm_compute; reflexivity|].
  split; [left; exists 9; apply (class_named_iff _ _ (g_inv (reachable_good R))); vm_compute; reflexivity|]. split; [|vm_compute; reflexivity].
  intros c C. apply (class_named_iff _ _ (g_inv (reachable_good R))) in C. assert (c = 9) as -> by (vm_compute in C; congruence).
  exists [9]. split; [dfs_tac|vm_compute; tauto].
Qed.

Print Assumptions C88_installs.
Print Assumptions C88_start.
Print Assumptions C88_again.
Print Assumptions C88_undefined.
Print Assumptions C88_refuted.
