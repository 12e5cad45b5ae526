(** C87: environments of threads that attach and detach concurrently. *)
From Verif Require Import Base VmState ConcLogic EnvModel.
Set Implicit Arguments.
Unset Strict Implicit.

(** ** Specification: what a thread sees, whatever the others do *)
(** The calls that attach the thread, with "penv is not null" *)
Definition attaches (c : ecall) : option bool :=
  match c with EAttach b | EAttachDaemon b => Some b | EGetEnv true => Some true | _ => None end.
(** [answer seen v c r w]: a thread with environment [v] (none: not attached) that has had the environments [seen] calls [c], gets [r] and has [w] *)
Inductive answer (seen : list nat) : option nat -> ecall -> eres -> option nat -> Prop :=
| an_same c b e : attaches c = Some b -> answer seen (Some e) c (if b then EEnv e else ENothing) (Some e)
| an_new c b e : attaches c = Some b -> ~ In e seen -> answer seen None c (if b then EEnv e else ENothing) (Some e)
| an_none v : answer seen v (EGetEnv false) ENothing v
| an_detach v : answer seen v EDetach ENothing None
| an_ref v : answer seen v ECppGetEnv (ERef v) v.
Definition more (v : option nat) (seen : list nat) : list nat := match v with Some e => e :: seen | None => seen end.
Inductive history : list nat -> option nat -> list (ecall * eres) -> list nat -> option nat -> Prop :=
| hi_nil seen v : history seen v [] seen v
| hi_snoc seen v l seen1 v1 c r v2 : history seen v l seen1 v1 -> answer seen1 v1 c r v2 -> history seen v (l ++ [(c, r)]) (more v2 seen1) v2.
Definition first_env (t : nat) : option nat := if Nat.eqb t 0 then Some 0 else None.
Definition gave (r : eres) (e : nat) : Prop := r = EEnv e \/ r = ERef (Some e).
(** Two threads access the table at the same time, at least one of them changes it: undefined behaviour *)
Definition race (C : econf) : Prop :=
  exists t u x y c d p q v w, t <> u /\ nth_error (ethrs C) t = Some x /\ nth_error (ethrs C) u = Some y /\ e_cur x = Some (c, p) /\ e_cur y = Some (d, q) /\ access p = Some v /\ access q = Some w /\ v || w = true.
Definition finished (C : econf) : Prop := forall t x, nth_error (ethrs C) t = Some x -> e_cur x = None /\ e_todo x = [].

(** ** The invariant *)
Definition place (own : nat -> nat) (seen : list nat) (v : option nat) (t : nat) (s : table) (cur : option (ecall * pc)) : Prop :=
  match cur with
  | None => env_at t s = v
  | Some (c, p) =>
      match p with
      | PStart => env_at t s = v
      | PIndex b | PTest b => env_at t s = v /\ attaches c = Some b
      | PCreate b => env_at t s = None /\ v = None /\ attaches c = Some b
      | PStore b => attaches c = Some b /\ exists e, env_at t s = Some e /\ e < created s /\ own e = t /\ (v = Some e \/ v = None /\ ~ In e seen)
      | PFind | PErase => env_at t s = v /\ c = EDetach
      | PRef => env_at t s = v /\ c = ECppGetEnv
      | PUnlock r | PEnd r => exists w, answer seen v c r w /\ env_at t s = w /\ forall e, w = Some e -> e < created s /\ own e = t
      end
  end.
Definition thread_ok (own : nat -> nat) (t : nat) (s : table) (x : ethread) : Prop :=
  exists seen v, history (more (first_env t) []) (first_env t) (e_done x) seen v /\ (forall e, In e seen -> e < created s /\ own e = t) /\ (forall e, v = Some e -> In e seen) /\ place own seen v t s (e_cur x).
Definition in_section (x : ethread) : Prop := match e_cur x with Some (_, (PIndex _ | PTest _ | PCreate _ | PStore _ | PFind | PErase | PUnlock _)) => True | _ => False end.
Record inv (C : econf) : Prop := mkInv {
  i_own : exists own, forall t x, nth_error (ethrs C) t = Some x -> thread_ok own t (tab C) x;
  i_lock : forall t, holder C = Some t <-> exists x, nth_error (ethrs C) t = Some x /\ in_section x }.

Lemma env_at_set u t e s : env_at u (set_entry t e s) = if Nat.eqb u t then match e with Some (Some k) => Some k | _ => None end else env_at u s.
Proof. unfold env_at, set_entry. cbn [entry]. destruct (Nat.eqb u t); auto. Qed.
Lemma env_at_index u t s : env_at u (index t s) = env_at u s.
Proof. unfold index. destruct (entry s t) eqn:E; auto. rewrite env_at_set. destruct (Nat.eqb_spec u t); auto. subst. unfold env_at. rewrite E. reflexivity. Qed.
Lemma created_index t s : created (index t s) = created s.
Proof. unfold index. destruct (entry s t); auto. Qed.
(** Steps of others, and more environments, keep what is known of a thread *)
Lemma place_frame own own2 seen v t s s2 cur : place own seen v t s cur -> env_at t s2 = env_at t s -> created s <= created s2 -> (forall e, e < created s -> own2 e = own e) -> place own2 seen v t s2 cur.
Proof.
  intros P E L O. destruct cur as [[c p]|]; cbn [place] in *; [|congruence]. destruct p; try (rewrite E; exact P).
  - destruct P as (A & e & P1 & P2 & P3 & P4). split; [exact A|]. exists e. rewrite E, (O _ P2). split; [exact P1|]. split; [lia|]. split; assumption.
  - destruct P as (w & A & P1 & P2). exists w. rewrite E. split; [exact A|]. split; [exact P1|]. intros e Hw. destruct (P2 e Hw) as (L1 & O1). rewrite (O _ L1). split; [lia|exact O1].
  - destruct P as (w & A & P1 & P2). exists w. rewrite E. split; [exact A|]. split; [exact P1|]. intros e Hw. destruct (P2 e Hw) as (L1 & O1). rewrite (O _ L1). split; [lia|exact O1].
Qed.
Lemma thread_frame own own2 t s s2 x : thread_ok own t s x -> env_at t s2 = env_at t s -> created s <= created s2 -> (forall e, e < created s -> own2 e = own e) -> thread_ok own2 t s2 x.
Proof.
  intros (seen & v & H & Hs & Hv & P) E L O. exists seen, v. split; [exact H|]. split; [|split; [exact Hv|eapply place_frame; eauto]].
  intros e He. destruct (Hs e He) as (L1 & O1). rewrite (O _ L1). split; [lia|exact O1].
Qed.
Lemma set_same A (l : list A) t x y : nth_error l t = Some x -> nth_error (list_set l t y) t = Some y.
Proof. intros H. rewrite list_set_get, Nat.eqb_refl, H. reflexivity. Qed.
Lemma set_other A (l : list A) t u x : u <> t -> nth_error (list_set l t x) u = nth_error l u.
Proof. intros H. rewrite list_set_get. apply Nat.eqb_neq in H. rewrite H. reflexivity. Qed.

Lemma pstep_ok own t c p s h s2 h2 q x todo : e_cur x = Some (c, p) -> (forall r, p <> PEnd r) -> thread_ok own t s x -> pstep t c p s h = Some (s2, h2, q) ->
  exists own2, thread_ok own2 t s2 (mkEt (Some (c, q)) todo (e_done x)) /\ created s <= created s2 /\ (forall e, e < created s -> own2 e = own e) /\ (forall u, u <> t -> env_at u s2 = env_at u s) /\
    (in_section x -> in_section (mkEt (Some (c, q)) todo (e_done x)) /\ h2 = h \/ h2 = None /\ ~ in_section (mkEt (Some (c, q)) todo (e_done x))) /\
    (~ in_section x -> h2 = h /\ ~ in_section (mkEt (Some (c, q)) todo (e_done x)) \/ h = None /\ h2 = Some t /\ in_section (mkEt (Some (c, q)) todo (e_done x))).
Proof.
  intros Ex Np (seen & v & Hh & Hs & Hv & P) St. unfold in_section. rewrite Ex in *. cbn [place e_cur] in *.
  assert (forall s3 q, e_cur x = Some (c, p) -> env_at t s3 = env_at t s -> created s3 = created s -> place own seen v t s3 (Some (c, q)) -> thread_ok own t s3 (mkEt (Some (c, q)) todo (e_done x))) as K.
  { intros s3 q0 _ E Cr P3. exists seen, v. cbn [e_done e_cur]. split; [exact Hh|]. split; [rewrite Cr; exact Hs|]. split; [exact Hv|exact P3]. }
  destruct p; cbn [pstep] in St.
  - (* PStart *) destruct c as [b|b|[|]| |].
    all: try (destruct h; [discriminate|]); injection St as <- <- <-; exists own;
      (split; [apply K; auto; cbn [place attaches]; try (split; [exact P|reflexivity]); try (exists v; split; [constructor|]; split; [exact P|]; intros e He; auto)|]);
      (split; [lia|]); (split; [auto|]); (split; [auto|]); (split; [intros []|]); intros _; cbn; auto.
  - injection St as <- <- <-. destruct P as (P & A). exists own. split; [apply K; auto; [apply env_at_index|apply created_index|cbn [place]; rewrite env_at_index; auto]|].
    rewrite created_index. split; [lia|]. split; [auto|]. split; [intros u _; apply env_at_index|]. split; [intros _; cbn; auto|intros []; exact I].
  - injection St as <- <- <-. destruct P as (P & A). exists own. split; [|split; [lia|]; split; [auto|]; split; [auto|]; split; [intros _; destruct (env_at t s); cbn; auto|intros []; exact I]].
    apply K; auto. destruct (env_at t s) as [e|] eqn:E; cbn [place].
    + split; [exact A|]. exists e. destruct (Hs e (Hv e (eq_sym P))) as (L1 & O1). auto.
    + auto.
  - injection St as <- <- <-. destruct P as (P & Pv & A). exists (fun e => if Nat.eqb e (created s) then t else own e).
    assert (forall e, e < created s -> (if Nat.eqb e (created s) then t else own e) = own e) as O by (intros e L; destruct (Nat.eqb_spec e (created s)); [lia|reflexivity]).
    split; [|cbn [created]; split; [lia|]; split; [exact O|]; split; [|split; [intros _; cbn; auto|intros []; exact I]]].
    + exists seen, v. cbn [e_done e_cur place created]. split; [exact Hh|]. split; [intros e He; destruct (Hs e He) as (L1 & O1); rewrite (O _ L1); split; [lia|exact O1]|]. split; [exact Hv|]. split; [exact A|].
      exists (created s). unfold env_at. cbn [entry set_entry]. rewrite !Nat.eqb_refl. split; [reflexivity|]. split; [lia|]. split; [reflexivity|]. right. split; [exact Pv|]. intros Hin. destruct (Hs _ Hin). lia.
    + intros u Hu. unfold env_at. cbn [entry set_entry]. apply Nat.eqb_neq in Hu. rewrite Hu. reflexivity.
  - injection St as <- <- <-. destruct P as (A & e & P1 & L1 & O1 & P2). exists own. split; [|split; [lia|]; split; [auto|]; split; [auto|]; split; [intros _; cbn; auto|intros []; exact I]].
    apply K; auto. cbn [place]. exists (Some e). rewrite P1. split; [|split; [reflexivity|intros e1 [= <-]; auto]]. destruct P2 as [->|(-> & Hn)].
    + apply (@an_same seen c penv e A).
    + apply (@an_new seen c penv e A Hn).
  - injection St as <- <- <-. destruct P as (P & ->). exists own. split; [|split; [lia|]; split; [auto|]; split; [auto|]; split; [intros _; destruct (entry s t); cbn; auto|intros []; exact I]].
    apply K; auto. destruct (entry s t) as [o|] eqn:E; cbn [place]; [auto|]. exists None. split; [constructor|]. split; [unfold env_at; rewrite E; reflexivity|discriminate].
  - injection St as <- <- <-. destruct P as (P & ->). exists own. split; [|split; [cbn; lia|]; split; [auto|]; split; [|split; [intros _; cbn; auto|intros []; exact I]]].
    + exists seen, v. cbn [e_done e_cur created set_entry]. split; [exact Hh|]. split; [exact Hs|]. split; [exact Hv|]. cbn [place]. exists None. split; [constructor|]. rewrite env_at_set, Nat.eqb_refl. split; [reflexivity|discriminate].
    + intros u Hu. rewrite env_at_set. apply Nat.eqb_neq in Hu. rewrite Hu. reflexivity.
  - injection St as <- <- <-. exists own. split; [apply K; auto|]. split; [lia|]. split; [auto|]. split; [auto|]. split; [intros _; cbn; auto|intros []; exact I].
  - injection St as <- <- <-. destruct P as (P & ->). exists own. split; [|rewrite created_index; split; [lia|]; split; [auto|]; split; [intros u _; apply env_at_index|]; split; [intros []|intros _; cbn; auto]].
    apply K; auto; [apply env_at_index|apply created_index|]. cbn [place]. exists v. rewrite env_at_index, P. split; [constructor|]. split; [reflexivity|]. rewrite created_index. intros e He. auto.
  - exfalso. eapply Np. reflexivity.
Qed.

Lemma inv_step t C D : inv C -> estep t C = Some D -> inv D.
Proof.
  intros [(own & Ho) Hl] St. unfold estep in St. destruct (nth_error (ethrs C) t) as [x|] eqn:X; [|discriminate].
  destruct (e_cur x) as [[c p]|] eqn:Ec.
  - destruct (match p with PEnd _ => true | _ => false end) eqn:Pe.
    + destruct p as [| | | | | | | | |r]; try discriminate. injection St as <-. split; cbn [tab holder ethrs].
      * exists own. intros u y Hy. destruct (Nat.eq_dec u t) as [->|N].
        -- rewrite (set_same _ X) in Hy. injection Hy as <-. destruct (Ho t x X) as (seen & v & Hh & Hs & Hv & P). rewrite Ec in P. cbn [place] in P. destruct P as (w & A & P1 & P2).
           exists (more w seen), w. cbn [e_done e_cur place]. split; [econstructor; eauto|]. split; [|split; [|exact P1]].
           ++ intros e He. destruct w as [k|]; cbn [more] in He; [|auto]. destruct He as [<-|He]; auto.
           ++ intros e ->. left. reflexivity.
        -- rewrite set_other in Hy by exact N. auto.
      * intros u. rewrite Hl. destruct (Nat.eq_dec u t) as [->|N].
        -- rewrite (set_same _ X), X. split; intros (y & [= <-] & Hy); exfalso; unfold in_section in Hy; [rewrite Ec in Hy|cbn in Hy]; exact Hy.
        -- rewrite set_other by exact N. reflexivity.
    + assert (exists s2 h2 q, pstep t c p (tab C) (holder C) = Some (s2, h2, q) /\ D = mkEc s2 h2 (list_set (ethrs C) t (mkEt (Some (c, q)) (e_todo x) (e_done x)))) as (s2 & h2 & q & Ps & ->).
      { destruct p; try discriminate; (destruct (pstep _ _ _ _ _) as [[[s2 h2] q]|] eqn:E; [|discriminate]); injection St as <-; exists s2, h2, q; auto. }
      clear St. assert (forall r, p <> PEnd r) as Np by (intros r ->; discriminate).
      destruct (pstep_ok (e_todo x) Ec Np (Ho t x X) Ps) as (own2 & T2 & L2 & O2 & F2 & S1 & S2). split; cbn [tab holder ethrs].
      * exists own2. intros u y Hy. destruct (Nat.eq_dec u t) as [->|N].
        -- rewrite (set_same _ X) in Hy. injection Hy as <-. exact T2.
        -- rewrite set_other in Hy by exact N. eapply thread_frame; eauto.
      * assert (in_section x \/ ~ in_section x) as [Is|Is] by (unfold in_section; rewrite Ec; destruct p; auto).
        -- assert (holder C = Some t) as Ht by (apply Hl; eauto). destruct (S1 Is) as [(I1 & ->)|(-> & I1)]; intros u.
           ++ rewrite Hl. destruct (Nat.eq_dec u t) as [->|N]; [rewrite (set_same _ X), X; split; eauto|rewrite set_other by exact N; reflexivity].
           ++ split; [discriminate|]. intros (y & Hy & Iy). destruct (Nat.eq_dec u t) as [->|N]; [rewrite (set_same _ X) in Hy; injection Hy as <-; contradiction|].
              rewrite set_other in Hy by exact N. assert (holder C = Some u) by (apply Hl; eauto). congruence.
        -- destruct (S2 Is) as [(-> & I1)|(Hn & -> & I1)]; intros u.
           ++ rewrite Hl. destruct (Nat.eq_dec u t) as [->|N]; [rewrite (set_same _ X), X; split; intros (y & [= <-] & Hy); contradiction|rewrite set_other by exact N; reflexivity].
           ++ destruct (Nat.eq_dec u t) as [->|N]; [rewrite (set_same _ X); split; eauto|]. rewrite set_other by exact N. split; [congruence|]. intros Hy. assert (holder C = Some u) by (apply Hl; exact Hy). congruence.
  - destruct (e_todo x) as [|c r] eqn:Et; [discriminate|]. injection St as <-. split; cbn [tab holder ethrs].
    + exists own. intros u y Hy. destruct (Nat.eq_dec u t) as [->|N]; [|rewrite set_other in Hy by exact N; auto].
      rewrite (set_same _ X) in Hy. injection Hy as <-. destruct (Ho t x X) as (seen & v & Hh & Hs & Hv & P). rewrite Ec in P. exists seen, v. auto.
    + intros u. rewrite Hl. destruct (Nat.eq_dec u t) as [->|N]; [|rewrite set_other by exact N; reflexivity].
      rewrite (set_same _ X), X. split; intros (y & [= <-] & Hy); exfalso; unfold in_section in Hy; [rewrite Ec in Hy|cbn in Hy]; exact Hy.
Qed.
Lemma nth_map_some A B (f : A -> B) l t y : nth_error (map f l) t = Some y -> exists a, nth_error l t = Some a /\ y = f a.
Proof. rewrite nth_error_map. destruct (nth_error l t); cbn; intros H; [|discriminate]. injection H as <-. eauto. Qed.
Lemma inv_init calls : inv (einit calls).
Proof.
  split; cbn [tab holder ethrs einit].
  - exists (fun _ => 0). intros t x H. apply nth_map_some in H. destruct H as (l & _ & ->). exists (more (first_env t) []), (first_env t). cbn [e_done e_cur place]. split; [constructor|].
    unfold first_env, env_at, booted. cbn [entry created]. destruct (Nat.eqb_spec t 0) as [->|N]; cbn.
    + split; [intros e [<-|[]]; split; [lia|reflexivity]|]. split; [intros e [= <-]; auto|reflexivity].
    + split; [intros e []|]. split; [discriminate|reflexivity].
  - intros t. split; [discriminate|]. intros (x & H & Hx). apply nth_map_some in H. destruct H as (l & _ & ->). destruct Hx.
Qed.
Lemma inv_run l C D : inv C -> erun l C = Some D -> inv D.
Proof. revert C. induction l as [|t l IH]; intros C HC H; cbn [erun] in H; [congruence|]. destruct (estep t C) eqn:E; [|discriminate]. eapply IH; [eapply inv_step; eauto|exact H]. Qed.

(** ** Theorems *)
(** Every thread gets the answers it would get alone: the same environment until it detaches, then a new one. *)
Theorem C87_answers calls l C t x : erun l (einit calls) = Some C -> nth_error (ethrs C) t = Some x ->
  exists seen v, history (more (first_env t) []) (first_env t) (e_done x) seen v /\ (e_cur x = None -> env_at t (tab C) = v).
Proof. intros R H. pose proof (inv_run (inv_init calls) R) as [(own & Ho) _]. destruct (Ho t x H) as (seen & v & Hh & _ & _ & P). exists seen, v. split; [exact Hh|]. intros E. rewrite E in P. exact P. Qed.
Lemma history_seen seen0 v0 l seen v : history seen0 v0 l seen v -> (forall e, v0 = Some e -> In e seen0) -> (forall e, In e seen0 -> In e seen) /\ (forall e, v = Some e -> In e seen) /\ forall c r e, In (c, r) l -> gave r e -> In e seen.
Proof.
  induction 1 as [|seen v l seen1 v1 c r v2 H IH A]; intros H0.
  - split; [auto|]. split; [auto|]. intros c r e [].
  - specialize (IH H0). destruct IH as (I1 & I2 & I3).
    assert (forall e, In e seen1 -> In e (more v2 seen1)) as M by (intros e He; destruct v2; [right|]; exact He).
    split; [auto|]. split; [intros e ->; left; reflexivity|]. intros c1 r1 e Hi G. apply in_app_or in Hi. destruct Hi as [Hi|[[= <- <-]|[]]]; [eauto|].
    destruct A; destruct G as [G|G]; try (destruct b); try discriminate; try (injection G as ->); try (left; reflexivity).
Qed.
(** Different threads never get the same environment, at any time. *)
Theorem C87_distinct calls l C t u x y c r d q e f : erun l (einit calls) = Some C -> t <> u -> nth_error (ethrs C) t = Some x -> nth_error (ethrs C) u = Some y ->
  In (c, r) (e_done x) -> gave r e -> In (d, q) (e_done y) -> gave q f -> e <> f.
Proof.
  intros R N X Y Hc G Hd K ->. pose proof (inv_run (inv_init calls) R) as [(own & Ho) _]. destruct (Ho t x X) as (s1 & v1 & H1 & O1 & _). destruct (Ho u y Y) as (s2 & v2 & H2 & O2 & _).
  assert (forall t e, first_env t = Some e -> In e (more (first_env t) [])) as F by (intros k e E; rewrite E; left; reflexivity).
  pose proof (proj2 (proj2 (history_seen H1 (F t))) _ _ _ Hc G) as I1. pose proof (proj2 (proj2 (history_seen H2 (F u))) _ _ _ Hd K) as I2.
  destruct (O1 _ I1), (O2 _ I2). congruence.
Qed.
(** The entry of a thread changes by its own steps only: its environment stays alive until it detaches. *)
Lemma kept l : forall C D t, inv C -> erun l C = Some D -> ~ In t l -> env_at t (tab D) = env_at t (tab C).
Proof.
  induction l as [|u l IH]; intros C D t I R N; cbn [erun] in R; [congruence|]. destruct (estep u C) as [E|] eqn:St; [|discriminate]. rewrite (IH E D t (inv_step I St) R) by (intros H; apply N; right; exact H).
  assert (t <> u) as Nu by (intros ->; apply N; left; reflexivity). clear IH R N. unfold estep in St. destruct (nth_error (ethrs C) u) as [x|] eqn:X; [|discriminate].
  destruct (e_cur x) as [[c p]|] eqn:Ec; [|destruct (e_todo x); [discriminate|]; injection St as <-; reflexivity].
  destruct (match p with PEnd _ => true | _ => false end) eqn:Pe; [destruct p; try discriminate; injection St as <-; reflexivity|].
  assert (exists s2 h2 q, pstep u c p (tab C) (holder C) = Some (s2, h2, q) /\ tab E = s2) as (s2 & h2 & q & Ps & ->).
  { destruct p; try discriminate; (destruct (pstep _ _ _ _ _) as [[[s2 h2] q]|] eqn:Eq; [|discriminate]); injection St as <-; exists s2, h2, q; auto. }
  destruct I as [(own & Ho) _]. assert (forall r, p <> PEnd r) as Np by (intros r ->; discriminate). destruct (pstep_ok (e_todo x) Ec Np (Ho u x X) Ps) as (own2 & _ & _ & _ & F2 & _). apply F2. exact Nu.
Qed.
Lemma C87_reached calls l C : erun l (einit calls) = Some C -> inv C.
Proof. apply inv_run. apply inv_init. Qed.
Theorem C87_kept calls l0 l C D t : erun l0 (einit calls) = Some C -> erun l C = Some D -> ~ In t l -> env_at t (tab D) = env_at t (tab C).
Proof. intros R. apply kept. exact (C87_reached R). Qed.
(** Between two calls that give a thread its environment: the same one if it did not detach, else another one. *)
Lemma history_app s v l m s2 v2 : history s v (l ++ m) s2 v2 -> exists s1 v1, history s v l s1 v1 /\ history s1 v1 m s2 v2.
Proof.
  revert s2 v2. induction m as [|[c r] m IH] using rev_ind; intros s2 v2 H.
  - rewrite app_nil_r in H. exists s2, v2. split; [exact H|constructor].
  - rewrite app_assoc in H. inversion H as [|? ? l1 s1 v1 c1 r1 w H1 A E1 E2 E3 E4].
    + destruct (l ++ m); discriminate.
    + apply app_inj_tail in E3. destruct E3 as (-> & [= -> ->]). subst. apply IH in H1. destruct H1 as (s3 & v3 & H3 & H4). exists s3, v3. split; [exact H3|]. econstructor; eauto.
Qed.
Lemma history_one s v c r s2 v2 : history s v [(c, r)] s2 v2 -> answer s v c r v2 /\ s2 = more v2 s.
Proof.
  intros H. inversion H as [|? ? l1 s1 v1 c1 r1 w H1 A E1 E2 E3 E4]. destruct l1 as [|y l1]; [|destruct l1; discriminate]. injection E3 as -> ->. subst.
  inversion H1; subst; [auto|]. exfalso. match goal with X : ?l ++ [_] = [] |- _ => destruct l; discriminate X end.
Qed.
Lemma history_keeps s e m s2 v2 : history s (Some e) m s2 v2 -> (forall r, ~ In (EDetach, r) m) -> v2 = Some e.
Proof.
  enough (forall s v m s2 v2, history s v m s2 v2 -> v = Some e -> (forall r, ~ In (EDetach, r) m) -> v2 = Some e) as K by (intros H N; eapply K; eauto). clear.
  intros s v m s2 v2 H. induction H as [|s v l s1 v1 c r v2 H IH A]; intros Ev N; [exact Ev|].
  assert (v1 = Some e) as -> by (apply IH; [exact Ev|intros q Hq; apply (N q), in_or_app; left; exact Hq]). inversion A; subst; auto. exfalso. apply (N ENothing), in_or_app. right. left. reflexivity.
Qed.
Lemma history_leaves s v m s2 v2 e : history s v m s2 v2 -> In e s -> v <> Some e -> v2 <> Some e.
Proof.
  intros H Hs Hv. enough (v2 <> Some e /\ In e s2) by tauto. induction H as [|s v l s1 v1 c r v2 H IH A]; [auto|]. destruct (IH Hs Hv) as (I1 & I2).
  split; [|destruct v2; [right|]; exact I2]. inversion A; subst; auto; try discriminate. intros [= ->]. contradiction.
Qed.
Theorem C87_same calls l C t x l1 c e m d f l2 : erun l (einit calls) = Some C -> nth_error (ethrs C) t = Some x ->
  e_done x = l1 ++ [(c, EEnv e)] ++ m ++ [(d, EEnv f)] ++ l2 -> (e = f <-> forall r, ~ In (EDetach, r) m).
Proof.
  intros R X E. destruct (C87_answers R X) as (seen & v & H & _). rewrite E in H. apply history_app in H. destruct H as (s1 & v1 & _ & H). apply history_app in H. destruct H as (s2 & v2 & H1 & H).
  apply history_app in H. destruct H as (s3 & v3 & H2 & H). apply history_app in H. destruct H as (s4 & v4 & H3 & _). apply history_one in H1. destruct H1 as (A1 & ->). apply history_one in H3. destruct H3 as (A3 & ->).
  assert (v2 = Some e) as -> by (inversion A1; destruct b; congruence). assert (v3 = Some f \/ v3 = None /\ ~ In f s3) as K by (inversion A3; destruct b; try discriminate; match goal with X : EEnv _ = EEnv _ |- _ => injection X as -> end; auto).
  split.
  - intros <- r Hr. apply in_split in Hr. destruct Hr as (m1 & m2 & ->). apply history_app in H2. destruct H2 as (s5 & v5 & Ha & Hb). apply (@history_app _ _ [(EDetach, r)] m2) in Hb. destruct Hb as (s6 & v6 & Hc & Hd).
    apply history_one in Hc. destruct Hc as (Ac & ->). assert (v6 = None) as -> by (inversion Ac; auto; discriminate).
    assert (In e s5) as I5. { apply (proj1 (history_seen Ha (fun k Hk => match Hk in _ = y return match y with Some z => In z (more (Some e) s1) | None => True end with eq_refl => or_introl eq_refl end))). left. reflexivity. }
    destruct K as [->|(-> & K)].
    + eapply (history_leaves Hd); [exact I5|discriminate|reflexivity].
    + apply K. apply (proj1 (history_seen Hd (fun k Hk => ltac:(discriminate)))). exact I5.
  - intros N. pose proof (history_keeps H2 N) as ->. destruct K as [[= ->]|(K & _)]; [reflexivity|discriminate].
Qed.
(** No data race on the table as long as no thread uses VM::GetEnv. *)
Definition jni_only (calls : list (list ecall)) : Prop := forall l, In l calls -> ~ In ECppGetEnv l.
Definition no_cpp (x : ethread) : Prop := ~ In ECppGetEnv (e_todo x) /\ match e_cur x with Some (c, p) => c <> ECppGetEnv /\ p <> PRef | None => True end.
Lemma no_cpp_step t C D : (forall u y, nth_error (ethrs C) u = Some y -> no_cpp y) -> estep t C = Some D -> forall u y, nth_error (ethrs D) u = Some y -> no_cpp y.
Proof.
  intros H St u y Hy. unfold estep in St. destruct (nth_error (ethrs C) t) as [x|] eqn:X; [|discriminate].
  destruct (H t x X) as (Ht & Hc). destruct (e_cur x) as [[c p]|] eqn:Ec.
  - destruct Hc as (Hc & Hp). assert (exists s2 h2 z, D = mkEc s2 h2 (list_set (ethrs C) t z) /\ no_cpp z) as (s2 & h2 & z & -> & Hz).
    { destruct p; cbn [pstep] in St; try congruence.
      - destruct c as [b|b|[|]| |]; try congruence; try (destruct (holder C); [discriminate|]); injection St as <-; eexists _, _, _; (split; [reflexivity|]); (split; [exact Ht|]); cbn; split; congruence.
      - injection St as <-; eexists _, _, _; (split; [reflexivity|]); (split; [exact Ht|]); cbn; split; congruence.
      - injection St as <-; eexists _, _, _; (split; [reflexivity|]); (split; [exact Ht|]); cbn; split; [congruence|destruct (env_at _ _); discriminate].
      - injection St as <-; eexists _, _, _; (split; [reflexivity|]); (split; [exact Ht|]); cbn; split; congruence.
      - injection St as <-; eexists _, _, _; (split; [reflexivity|]); (split; [exact Ht|]); cbn; split; congruence.
      - injection St as <-; eexists _, _, _; (split; [reflexivity|]); (split; [exact Ht|]); cbn; split; [congruence|destruct (entry _ _); discriminate].
      - injection St as <-; eexists _, _, _; (split; [reflexivity|]); (split; [exact Ht|]); cbn; split; congruence.
      - injection St as <-; eexists _, _, _; (split; [reflexivity|]); (split; [exact Ht|]); cbn; split; congruence.
      - injection St as <-; eexists _, _, _; (split; [reflexivity|]); (split; [exact Ht|]); exact I. }
    cbn [ethrs] in Hy. destruct (Nat.eq_dec u t) as [->|N]; [rewrite (set_same _ X) in Hy; injection Hy as <-; exact Hz|rewrite set_other in Hy by exact N; eauto].
  - destruct (e_todo x) as [|c r] eqn:Et; [discriminate|]. injection St as <-. cbn [ethrs] in Hy. destruct (Nat.eq_dec u t) as [->|N]; [rewrite (set_same _ X) in Hy; injection Hy as <-|rewrite set_other in Hy by exact N; eauto].
    split; cbn; [intros Hr; apply Ht; right; exact Hr|]. split; [intros ->; apply Ht; left; reflexivity|discriminate].
Qed.
Lemma no_cpp_run l C D : (forall u y, nth_error (ethrs C) u = Some y -> no_cpp y) -> erun l C = Some D -> forall u y, nth_error (ethrs D) u = Some y -> no_cpp y.
Proof. revert C. induction l as [|t l IH]; intros C H R; cbn [erun] in R; [injection R as <-; exact H|]. destruct (estep t C) eqn:E; [|discriminate]. eapply IH; [eapply no_cpp_step; eauto|exact R]. Qed.
Theorem C87_race_partial calls l C : jni_only calls -> erun l (einit calls) = Some C -> ~ race C.
Proof.
  intros J R (t & u & x & y & c & d & p & q & v & w & N & X & Y & Ex & Ey & A & B & _). pose proof (C87_reached R) as [_ Hl].
  assert (forall k z, nth_error (ethrs C) k = Some z -> no_cpp z) as Hn.
  { eapply no_cpp_run; [|exact R]. intros k z Hz. cbn [einit ethrs] in Hz. apply nth_map_some in Hz. destruct Hz as (m & Hm & ->). split; cbn; [apply J; eapply nth_error_In; eauto|exact I]. }
  assert (in_section x) as Ix. { destruct (Hn t x X) as (_ & H). unfold in_section. rewrite Ex in *. destruct H as (_ & H). destruct p; cbn in A; try discriminate; try exact I. congruence. }
  assert (in_section y) as Iy. { destruct (Hn u y Y) as (_ & H). unfold in_section. rewrite Ey in *. destruct H as (_ & H). destruct q; cbn in B; try discriminate; try exact I. congruence. }
  assert (holder C = Some t) by (apply Hl; eauto). assert (holder C = Some u) by (apply Hl; eauto). congruence.
Qed.
(** What a thread does at a place without access to the table depends on the mutex only and leaves the table alone; reading leaves it alone; every place that
    is said to change it does so for some table. *)
Theorem C87_access t c p : (access p = None -> forall s s' h, match pstep t c p s h, pstep t c p s' h with
    | Some (u, k, q), Some (u', k', q') => u = s /\ u' = s' /\ k = k' /\ q = q' | None, None => True | _, _ => False end) /\
  (access p = Some false -> forall s h, exists q, pstep t c p s h = Some (s, h, q)) /\
  (access p = Some true -> exists s h, forall q, pstep t c p s h <> Some (s, h, q)).
Proof.
  split; [|split].
  - destruct p; try discriminate; intros _ s s' h; simpl; auto. destruct c as [| |[]| |]; destruct h; auto.
  - destruct p; try discriminate; intros _ s h; simpl; eauto.
  - assert (forall k, index t (mkTable (fun _ => None) k) <> mkTable (fun _ => None) k) as K.
    { intros k. unfold index. simpl. intros E. apply (f_equal (fun s => entry s t)) in E. unfold set_entry in E. simpl in E. rewrite Nat.eqb_refl in E. discriminate. }
    destruct p; try discriminate; intros _; simpl.
    + exists (mkTable (fun _ => None) 0), None. intros q E. assert (index t (mkTable (fun _ => None) 0) = mkTable (fun _ => None) 0) as E' by congruence. exact (K 0 E').
    + exists (mkTable (fun _ => None) 0), None. intros q E. apply (f_equal (fun x => match x with Some (u, _, _) => created u | None => 0 end)) in E. discriminate E.
    + exists (mkTable (fun _ => Some None) 0), None. intros q E. apply (f_equal (fun x => match x with Some (u, _, _) => entry u t | None => None end)) in E. simpl in E. rewrite Nat.eqb_refl in E. discriminate E.
    + exists (mkTable (fun _ => None) 0), None. intros q E. assert (index t (mkTable (fun _ => None) 0) = mkTable (fun _ => None) 0) as E' by congruence. exact (K 0 E').
Qed.
(** VM::GetEnv does not take the mutex: with it there are data races. *)
Theorem C87_race_refuted : exists calls l C, erun l (einit calls) = Some C /\ race C.
Proof.
  exists [[ECppGetEnv]; [EAttach true]], [0; 0; 1; 1].
  eexists. split; [vm_compute; reflexivity|]. exists 0, 1. eexists _, _, _, _, _, _, _, _. split; [lia|]. split; [reflexivity|]. split; [reflexivity|]. split; [reflexivity|]. split; [reflexivity|]. split; [reflexivity|]. split; reflexivity.
Qed.
(** No deadlock: as long as a thread has something to do, some thread can go on. *)
Theorem C87_progress calls l C : erun l (einit calls) = Some C -> ~ finished C -> exists t, estep t C <> None.
Proof.
  intros R Nf. pose proof (C87_reached R) as [_ Hl]. destruct (holder C) as [t|] eqn:Eh.
  - destruct (proj1 (Hl t) eq_refl) as (x & X & Ix). exists t. unfold estep. rewrite X. unfold in_section in Ix. destruct (e_cur x) as [[c p]|]; [|destruct Ix]. destruct p; try destruct Ix; cbn [pstep]; discriminate.
  - assert (exists t x, nth_error (ethrs C) t = Some x /\ ~ (e_cur x = None /\ e_todo x = [])) as (t & x & X & Hx).
    { assert (forall L : list ethread, (forall t x, nth_error L t = Some x -> e_cur x = None /\ e_todo x = []) \/ exists t x, nth_error L t = Some x /\ ~ (e_cur x = None /\ e_todo x = [])) as K.
      { induction L as [|y L IH]; [left; intros [|k] z H; discriminate|]. assert ((e_cur y = None /\ e_todo y = []) \/ ~ (e_cur y = None /\ e_todo y = [])) as [Hy|Hy].
        { destruct (e_cur y); [right; intros [E _]; discriminate|]. destruct (e_todo y); [left; auto|right; intros [_ E]; discriminate]. }
        - destruct IH as [IH|(k & z & Hk & Hz)]; [left; intros [|k] z H; [injection H as <-; exact Hy|eapply IH; exact H]|right; exists (S k), z; auto].
        - right. exists 0, y. auto. }
      destruct (K (ethrs C)) as [H|H]; [exfalso; apply Nf; exact H|exact H]. }
    exists t. unfold estep. rewrite X. destruct (e_cur x) as [[c p]|].
    + destruct p; cbn [pstep]; try discriminate. rewrite Eh. destruct c as [b|b|[|]| |]; discriminate.
    + destruct (e_todo x); [exfalso; apply Hx; auto|discriminate].
Qed.
(** GetEnv attaches a thread that is not attached, it never reports JNI_EDETACHED; VM::GetEnv gives such a thread a null pointer. *)
Theorem C87_getenv_refuted : exists calls l C x e, erun l (einit calls) = Some C /\ nth_error (ethrs C) 1 = Some x /\ e_done x = [(ECppGetEnv, ERef None); (EGetEnv true, EEnv e)].
Proof. exists [[]; [ECppGetEnv; EGetEnv true]], [1;1;1;1;1;1;1;1;1;1;1;1]. eexists _, _, _. vm_compute. auto. Qed.
(** Example: two threads attach at the same time, thread 1 detaches and attaches again. *)
Example C87_ex : exists C x y, erun [1;1;2;1;1;1;1;1;2;2;2;2;2;2;2;1; 1;1;1;1;1;1; 1;1;1;1;1;1;1;1] (einit [[]; [EAttach true; EDetach; EGetEnv true]; [EAttachDaemon true]]) = Some C /\
  nth_error (ethrs C) 1 = Some x /\ nth_error (ethrs C) 2 = Some y /\ e_done x = [(EAttach true, EEnv 1); (EDetach, ENothing); (EGetEnv true, EEnv 3)] /\ e_done y = [(EAttachDaemon true, EEnv 2)].
Proof. eexists _, _, _. vm_compute. auto. Qed.
Print Assumptions C87_answers. Print Assumptions C87_distinct. Print Assumptions C87_kept. Print Assumptions C87_same. Print Assumptions C87_race_partial. Print Assumptions C87_access. Print Assumptions C87_race_refuted. Print Assumptions C87_progress. Print Assumptions C87_getenv_refuted.
