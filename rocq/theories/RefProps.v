(** References, threads and monitors: C26 - C35, C37, C38, C44. *)
From Verif Require Import Base BaseProofs SigModel VmState VmModel VmStep VmSpec MemSpec CallSpec RefSpec VmBase VmFrame VmWf VmPrim VmInv VmReg
  VmFine VmRegInv VmExact VmQuiet VmClass VmEnvInv VmMember VmMember2 VmMember3 VmTables VmHook VmMemHist VmCall VmCall2 VmThread VmDemo VmRef VmRef2 VmRef3 MemberProps.
Set Implicit Arguments.
Unset Strict Implicit.
Local Open Scope vm_scope.
Notation add_locals := RefSpec.add_locals.
Local Opaque after.

(** ** C26 Local frames are a stack *)
(** After PushLocalFrame, any well-nested use of the frames above (interleaved with anything other threads do) and the matching
    PopLocalFrame(null), the frames of the thread are those from before, less one reference for each deletion of an outer
    reference, in that order. *)
Theorem C26_bracket G t0 t c l s v0 s1 ds s2 v3 s3 : reachable G t0 s -> step G t (PushLocalFrame_ c) s = Some (v0, s1) ->
  nested G t (length (frames s t)) l s1 ds s2 -> length (frames s2 t) = S (length (frames s t)) ->
  step G t (PopLocalFrame_ None) s2 = Some (v3, s3) -> deleted_all ds (frames s t) (frames s3 t).
Proof.
  intros R E1 N L E3. destruct (bracket_frames (reachable_solid R) E1 N L E3) as (fs & r & D & Dn & F). simpl in Dn. subst r.
  rewrite F, VmRef2.add_locals_nil. exact D.
Qed.
(** The frames below are not affected at any time in between. *)
Theorem C26_outer_frames G t0 t n l s ds s' : reachable G t0 s -> attached s t -> n < length (frames s t) -> nested G t n l s ds s' ->
  n < length (frames s' t) /\ deleted_all ds (bottom n (frames s t)) (bottom n (frames s' t)).
Proof. intros R A L N. destruct (nested_frames (reachable_solid R) N A L) as (_ & L' & D & _). auto. Qed.
Theorem C26_push G t0 t c s : reachable G t0 s -> attached s t ->
  exists v s', step G t (PushLocalFrame_ c) s = Some (v, s') /\ (0 <= c -> v = OVal (RInt 0))%Z /\ frames s' t = [] :: frames s t /\
    calm t s s' /\ (forall i, live s i = true -> intact s s' i) /\ forall i, live s' i = live s i.
Proof.
  intros R A. destruct (PushLocalFrame_step c (reachable_solid R) A) as (s' & E & _ & Gn & Lv). eexists _, s'. split; [exact E|]. split.
  - intros H. destruct (Z.ltb_spec c 0); [lia|auto].
  - split; [apply Gn|]. split; [apply Gn|]. split; [apply Gn|auto].
Qed.
Theorem C26_innermost_exists G t0 t s : reachable G t0 s -> attached s t -> frames s t <> [].
Proof. intros R (e & E). rewrite (frames_env E). apply (wf_env_ok (good_wf (reachable_good R)) E). Qed.
(** Nested frames, an outer reference deleted inside, other threads at work. *)
Definition ex_nest : list event := [(main, FindClass_ (S_ "A")); (main, FindClass_ (S_ "A")); (main, FindClass_ (S_ "B")); (2, Attach_)].
Definition ex_inner : list event :=
  [(main, NewLocalRef_ (Some 10)); (2, FindClass_ (S_ "A")); (main, PushLocalFrame_ 1); (main, DeleteLocalRef_ (Some 9)); (main, FindClass_ (S_ "C"));
   (main, DeleteLocalRef_ (Some 10)); (main, PopLocalFrame_ (Some 11)); (2, Detach_)].
Example C26_ex : exists ds s1 s2 s3 v, step Gd main (PushLocalFrame_ 4) (after Gd ex_nest) = Some (v, s1) /\
  nested Gd main 1 ex_inner s1 ds s2 /\ length (frames s2 main) = 2 /\ step Gd main (PopLocalFrame_ None) s2 = Some (OVal (RRef None), s3) /\
  ds = [9] /\ frames (after Gd ex_nest) main = [[9; 9; 10]] /\ frames s3 main = [[9; 10]].
Proof.
  exists [9]. do 4 eexists. split; [vm_compute; reflexivity|]. split.
  eapply ne_step; [discriminate|discriminate|discriminate|vm_compute; reflexivity|].
  eapply ne_step; [discriminate|discriminate|discriminate|vm_compute; reflexivity|].
  eapply ne_step; [discriminate|discriminate|discriminate|vm_compute; reflexivity|].
  eapply (@ne_delete_outer _ _ _ (Some 9) 9); [den_tac| |vm_compute; reflexivity|].
  { vm_compute. intros f [<-|[<-|[]]] H; repeat (destruct H as [H|H]; [discriminate H|]); destruct H. }
  eapply ne_step; [discriminate|discriminate|discriminate|vm_compute; reflexivity|].
  eapply (@ne_delete_inner _ _ _ (Some 10) 10) with (f := [10]); [den_tac|vm_compute; auto|simpl; auto|vm_compute; reflexivity|].
  eapply ne_step; [discriminate| |discriminate|vm_compute; reflexivity|].
  { intros h [= <-]. vm_compute. lia. }
  eapply ne_step; [discriminate|discriminate|discriminate|vm_compute; reflexivity|]. apply ne_nil.
  repeat split; vm_compute; reflexivity.
Qed.

(** ** C27 PopLocalFrame keeps its result *)
(** The result denotes the same object, is valid in the enclosing frame, and of the popped frame nothing else remains. *)
Theorem C27_result G t0 t h j s : reachable G t0 s -> attached s t -> denotes_opt s h (Some j) ->
  exists s', step G t (PopLocalFrame_ h) s = Some (OVal (RRef (Some j)), s') /\
    frames s' t = add_local (below (frames s t)) j /\ hd_error (frames s' t) = Some (hd [] (below (frames s t)) ++ [j]) /\
    denotes s' j (Some j) /\ intact s s' j /\ released t (add_local (below (frames s t)) j) (s_globals s) (s_ext s) s s'.
Proof.
  intros R A D. pose proof (reachable_good R) as Gs. destruct (PopLocalFrame_step Gs A D) as (s' & G' & St & Rl & _). exists s'. split; [exact St|].
  destruct h as [h|]; [|discriminate]. simpl in D.
  assert (frames s' t = add_local (below (frames s t)) j) as F by apply Rl. split; [exact F|].
  assert (local_ref s' t j) as Lr.
  { unfold local_ref. rewrite F. unfold below. destruct (frames s t) as [|a [|b r]]; simpl;
      (eexists; split; [left; reflexivity|]); try apply in_or_app; simpl; auto. }
  assert (strong s' j) as Sj by (apply sr_anchor; eapply an_local; eauto). split; [rewrite F; unfold below; destruct (frames s t) as [|a [|b r]]; reflexivity|].
  assert (intact s s' j) as In0 by (apply (rl_obj Rl); auto; eapply denotes_target_live; eauto).
  split; [|split; auto]. eapply ident_denotes; [|eapply denotes_self; eauto|eapply intact_live; eauto].
  exact (VmRef3.step_ident (good_wf Gs) St).
Qed.
Theorem C27_null G t0 t h s : reachable G t0 s -> attached s t -> denotes_opt s h None ->
  exists s', step G t (PopLocalFrame_ h) s = Some (OVal (RRef h), s') /\ released t (below (frames s t)) (s_globals s) (s_ext s) s s'.
Proof. intros R A D. destruct (PopLocalFrame_step (reachable_good R) A D) as (s' & _ & St & Rl). eauto. Qed.
(** Objects that only the popped frame kept are destroyed (reference cycles aside). *)
Theorem C27_dropped G t0 t h s v s' i : reachable G t0 s -> step G t (PopLocalFrame_ h) s = Some (v, s') ->
  ~ strong s' i -> ~ cyclic s' i -> live s' i = false.
Proof.
  intros R St N C. assert (reachable G t0 s') as R' by (eapply reachable_exec; [exact R|]; apply step_exec; exact St).
  destruct (live s' i) eqn:L; auto. pose proof (reachable_solid R') as So.
  destruct (tidy_strong (good_wf (so_good So)) (so_env So) (g_tidy (so_good So)) L); contradiction.
Qed.
(** A string made in the frame is returned, another one is destroyed. *)
Definition ex_pop : list event := [(main, PushLocalFrame_ 4); (main, NewStringUTF_ (Some (S_ "hi"))); (main, NewStringUTF_ (Some (S_ "ok")))].
Example C27_ex : runs Gd ex_pop = true /\ frames (after Gd ex_pop) main = [[9; 10]; []] /\
  seen Gd (ex_pop ++ [(main, PopLocalFrame_ (Some 10)); (main, GetStringLength_ (Some 10))]) = [OVal (RInt 0); OVal (RRef (Some 9)); OVal (RRef (Some 10)); OVal (RRef (Some 10)); OVal (RInt 2)] /\
  live (after Gd (ex_pop ++ [(main, PopLocalFrame_ (Some 10))])) 9 = false /\ frames (after Gd (ex_pop ++ [(main, PopLocalFrame_ (Some 10))])) main = [[10]].
Proof. vm_compute. repeat split. Qed.

(** ** C28 Local references keep their object *)
(** [n] bottom frames have more references to the object than DeleteLocalRef has been called for it. *)
Theorem C28_local G t0 t n i l s k s' : reachable G t0 s -> attached s t -> n <= length (frames s t) -> holding G t n i l s k s' ->
  k < count_refs i (bottom n (frames s t)) ->
  local_ref s' t i /\ live s' i = true /\ (denotes s i (Some i) -> denotes s' i (Some i)) /\
  (forall p, contents s i = Some p -> exists p', contents s' i = Some p' /\ same_kind p p').
Proof. intros R A L H K. destruct (local_persists (reachable_solid R) A L H K) as (B & C & _ & D & E). auto. Qed.
(** In particular a reference from NewLocalRef lives as long as its frame, unless it is deleted. *)
Theorem C28_new_local G t0 t h i s s1 l s2 : reachable G t0 s -> step G t (NewLocalRef_ h) s = Some (OVal (RRef (Some i)), s1) ->
  holding G t (length (frames s1 t)) i l s1 0 s2 -> denotes_opt s h (Some i) -> local_ref s2 t i /\ denotes s2 i (Some i).
Proof.
  intros R St H D. pose proof (reachable_good R) as Gs. assert (attached s t) as A.
  { eapply step_attached; [exact St|reflexivity]. }
  destruct (NewLocalRef_step Gs A D) as (s1' & St' & _ & Gn & Lv). rewrite St in St'. injection St' as <-.
  assert (reachable G t0 s1) as R1 by (eapply reachable_exec; [exact R|]; apply step_exec; exact St).
  assert (attached s1 t) as A1 by (eapply gained_attached; eauto).
  assert (0 < count_refs i (bottom (length (frames s1 t)) (frames s1 t))) as K.
  { unfold bottom. rewrite Nat.sub_diag. simpl. rewrite (gn_frames Gn). destruct A as (e & E). pose proof (wf_env_ok (good_wf Gs) E) as (_ & Nn & _).
    rewrite (frames_env E). destruct (e_frames e) as [|f r]; [congruence|]. unfold count_refs. simpl. apply count_occ_In. rewrite !in_app_iff. simpl. auto. }
  destruct (C28_local R1 A1 (Nat.le_refl _) H K) as (B & C & Dn & _). split; auto. apply Dn.
  destruct h as [h|]; [|discriminate]. eapply ident_denotes; [|eapply denotes_self; exact D|].
  - exact (VmRef3.step_ident (good_wf Gs) St).
  - rewrite Lv. eapply denotes_target_live. exact D.
Qed.
Example C28_ex : exists s', count_refs 9 (bottom 1 (frames (after Gd ex_nest) main)) = 2 /\
  holding Gd main 1 9 ex_inner (after Gd ex_nest) 1 s' /\ frames s' main = [[9; 10; 11]] /\ local_ref s' main 9.
Proof.
  eexists. split; [vm_compute; reflexivity|]. split.
  - eapply ho_step; [discriminate|discriminate|discriminate|vm_compute; reflexivity|].
    eapply ho_step; [discriminate|discriminate|discriminate|vm_compute; reflexivity|].
    eapply ho_step; [discriminate|discriminate|discriminate|vm_compute; reflexivity|].
    eapply ho_delete; [den_tac|vm_compute; reflexivity|].
    eapply ho_step; [discriminate|discriminate|discriminate|vm_compute; reflexivity|].
    eapply ho_step; [|discriminate|discriminate|vm_compute; reflexivity|].
    { intros h [= <-] D. simpl in D. assert (Some 10 = Some 9) as E; [|discriminate E]. eapply denotes_fun; [|exact D].
      eapply den_obj; [vm_compute; reflexivity|vm_compute; discriminate|vm_compute; discriminate]. }
    eapply ho_step; [discriminate| |discriminate|vm_compute; reflexivity|].
    { intros h [= <-]. vm_compute. lia. }
    eapply ho_step; [discriminate|discriminate|discriminate|vm_compute; reflexivity|]. apply ho_nil.
  - split; [vm_compute; reflexivity|]. eexists. split; [vm_compute; left; reflexivity|vm_compute; auto].
Qed.

(** ** C29 Global references keep their object *)
Theorem C29_global G t0 t h j s g s1 l vs s2 : reachable G t0 s -> attached s t -> denotes_opt s h (Some j) ->
  step G t (NewGlobalRef_ h) s = Some (OVal (RRef (Some g)), s1) -> exec G l s1 = Some (vs, s2) -> (forall u, ~ In (u, DeleteGlobalRef_ (Some g)) l) ->
  denotes s2 g (Some j) /\ live s2 j = true /\ (forall i, live s i = true -> i <> g) /\
  forall p, contents s j = Some p -> exists p', contents s2 j = Some p' /\ same_kind p p'.
Proof.
  intros R A D St E N. pose proof (reachable_good R) as Gs. pose proof (NewGlobalRef_step Gs A D) as H. cbv beta iota in H.
  destruct H as (g' & s1' & St' & G1 & Lg & C & Gn & _). rewrite St in St'. injection St' as <- <-.
  assert (handle_to false s1 g j) as H1 by (split; [rewrite (gn_globals Gn); apply in_or_app; simpl; auto|exact C]).
  assert (handle_to false s2 g j) as [_ H2] by (exact (handle_persists (weak := false) G1 N E H1)).
  destruct (global_denotes (exec_good G1 E) H2) as [L2 Dn]. destruct h as [h|]; [|discriminate]. simpl in D.
  assert (ident s s1) as I1 by exact (VmRef3.step_ident (good_wf Gs) St). assert (ident s1 s2) as I2 by exact (exec_ident (good_wf G1) E).
  assert (live s1 j = true) as L1 by (eapply intact_live, (gn_obj Gn), denotes_target_live; exact D).
  split; [|split; [exact L2|split]].
  - apply Dn. eapply ident_denotes; [exact I2| |exact L2]. eapply ident_denotes; [exact I1|eapply denotes_self; exact D|exact L1].
  - intros i Li ->. pose proof (live_lt _ _ Li). unfold oid in *. lia.
  - intros p P. destruct (ident_contents I1 P L1) as (p1 & P1 & K1). destruct (ident_contents I2 P1 L2) as (p2 & P2 & K2). exists p2. split; [exact P2|].
    eapply same_kind_trans; eauto.
Qed.
(** NewGlobalRef changes nothing but the list of global references (and creates the handle, with its class if needed). *)
Theorem C29_new G t0 t h j s : reachable G t0 s -> attached s t -> denotes_opt s h (Some j) ->
  exists g s', step G t (NewGlobalRef_ h) s = Some (OVal (RRef (Some g)), s') /\ live s g = false /\ is_global_handle s' g j /\
    gained t (frames s t) (s_globals s ++ [g]) (s_ext s) s s' /\ forall i, live s' i = true -> live s i = true \/ i = g \/ is_cls s' i = true.
Proof.
  intros R A D. pose proof (NewGlobalRef_step (reachable_good R) A D) as (g & s' & St & _ & L & C & Gn & N). exists g, s'. split; [exact St|].
  split; [|auto]. destruct (live s g) eqn:E; auto. pose proof (live_lt _ _ E). unfold oid in *. lia.
Qed.
Theorem C29_new_null G t0 t h s : reachable G t0 s -> attached s t -> denotes_opt s h None -> step G t (NewGlobalRef_ h) s = Some (OVal (RRef None), s).
Proof. intros R A D. exact (NewGlobalRef_step (reachable_good R) A D). Qed.
(** DeleteGlobalRef removes one entry, nothing else, and refuses other references. *)
Theorem C29_delete G t0 t g j s : reachable G t0 s -> attached s t -> is_global_handle s g j ->
  exists s' gl, step G t (DeleteGlobalRef_ (Some g)) s = Some (OVal RUnit, s') /\ removed g (s_globals s) gl /\ released t (frames s t) gl (s_ext s) s s'.
Proof. intros R A H. destruct (del_global_step false (reachable_good R) A H) as (s' & gl & St & _ & Rm & Rl). eauto. Qed.
Theorem C29_delete_other G t0 t g p s : reachable G t0 s -> attached s t -> contents s g = Some p -> (forall j, p <> PGlobal j) ->
  exists m, step G t (DeleteGlobalRef_ (Some g)) s = Some (OExn (Err m), s).
Proof.
  intros R A H N. pose proof (del_global_step false (reachable_good R) A H) as K.
  destruct p; simpl in K; try exact K. exfalso. exact (N _ eq_refl).
Qed.
Theorem C29_delete_null G t0 t s : reachable G t0 s -> attached s t -> step G t (DeleteGlobalRef_ None) s = Some (OVal RUnit, s).
Proof. intros R A. exact (del_global_null false (reachable_good R) A). Qed.
(** A string is only referenced by a global reference (10); frames come and go, the creating
    thread detaches and another global reference to it is deleted. *)
Definition ex_glob : list event :=
  [(2, Attach_); (2, NewStringUTF_ (Some (S_ "hi"))); (2, NewGlobalRef_ (Some 9)); (2, NewGlobalRef_ (Some 10)); (2, DeleteLocalRef_ (Some 9)); (2, Detach_);
   (main, PushLocalFrame_ 1); (main, PopLocalFrame_ None); (main, DeleteGlobalRef_ (Some 11)); (main, GetStringUTFLength_ (Some 10)); (main, IsSameObject_ (Some 10) (Some 9))].
Example C29_ex : seen Gd ex_glob =
  [OVal (REnv 1); OVal (RRef (Some 9)); OVal (RRef (Some 10)); OVal (RRef (Some 11)); OVal RUnit; OVal (RInt 0); OVal (RInt 0); OVal (RRef None); OVal RUnit;
   OVal (RInt 2); OVal (RBool true)] /\ s_globals (after Gd ex_glob) = [10] /\ live (after Gd (ex_glob ++ [(main, DeleteGlobalRef_ (Some 10))])) 9 = false.
Proof. vm_compute. repeat split. Qed.

(** ** C30 Weak global references *)
(** In every later state, the weak reference denotes its object as long as that exists, and null from then on. *)
Theorem C30_weak G t0 t h j s w s1 l vs s2 : reachable G t0 s -> attached s t -> denotes_opt s h (Some j) ->
  step G t (NewWeakGlobalRef_ h) s = Some (OVal (RRef (Some w)), s1) -> exec G l s1 = Some (vs, s2) -> (forall u, ~ In (u, DeleteWeakGlobalRef_ (Some w)) l) ->
  (strong s2 j -> denotes s2 w (Some j)) /\
  (~ strong s2 j -> ~ cyclic s2 j -> denotes s2 w None) /\
  (denotes s2 w (Some j) /\ live s2 j = true \/ denotes s2 w None /\ live s2 j = false).
Proof.
  intros R A D St E N. pose proof (reachable_good R) as Gs. pose proof (NewWeakGlobalRef_step Gs A D) as H. cbv beta iota in H.
  destruct H as (g' & s1' & St' & G1 & Lg & C & Gn & _). rewrite St in St'. injection St' as <- <-.
  assert (handle_to true s1 w j) as H1 by (split; [rewrite (gn_globals Gn); apply in_or_app; simpl; auto|exact C]).
  assert (handle_to true s2 w j) as [_ H2] by (exact (handle_persists (weak := true) G1 N E H1)).
  destruct h as [h|]; [|discriminate]. simpl in D.
  assert (ident s s1) as I1 by exact (VmRef3.step_ident (good_wf Gs) St). assert (ident s1 s2) as I2 by exact (exec_ident (good_wf G1) E).
  assert (live s1 j = true) as L1 by (eapply intact_live, (gn_obj Gn), denotes_target_live; exact D).
  assert (denotes s2 j (Some j) \/ live s2 j = false) as Dj.
  { destruct (live s2 j) eqn:L2; auto. left. eapply ident_denotes; [exact I2| |exact L2]. eapply ident_denotes; [exact I1|eapply denotes_self; exact D|exact L1]. }
  assert (reachable G t0 s2) as R2 by (eapply reachable_exec; [eapply reachable_exec; [exact R|apply step_exec; exact St]|exact E]).
  pose proof (fun r => weak_denotes r H2 Dj) as K. pose proof (reachable_solid R2) as So. split; [|split].
  - intros S. apply K. rewrite (strong_live (g_inv (so_good So)) S). reflexivity.
  - intros S Cy. apply K. destruct (live s2 j) eqn:L2; auto.
    destruct (tidy_strong (good_wf (so_good So)) (so_env So) (g_tidy (so_good So)) L2); contradiction.
  - destruct (live s2 j); [left|right]; (split; [apply K; reflexivity|reflexivity]).
Qed.
(** An object that is gone stays gone. *)
Theorem C30_gone_for_good G t0 s l vs s' j : reachable G t0 s -> exec G l s = Some (vs, s') -> j < length (s_heap s) -> live s j = false -> live s' j = false.
Proof.
  intros R E Lt L. destruct (exec_ident (good_wf (reachable_good R)) E) as [_ I]. specialize (I j Lt). unfold live in *.
  destruct (lookup s j); [discriminate|]. destruct (lookup s' j); [contradiction|reflexivity].
Qed.
Theorem C30_new G t0 t h j s : reachable G t0 s -> attached s t -> denotes_opt s h (Some j) ->
  exists g s', step G t (NewWeakGlobalRef_ h) s = Some (OVal (RRef (Some g)), s') /\ live s g = false /\ is_weak_handle s' g j /\
    gained t (frames s t) (s_globals s ++ [g]) (s_ext s) s s' /\ forall i, live s' i = true -> live s i = true \/ i = g \/ is_cls s' i = true.
Proof.
  intros R A D. pose proof (NewWeakGlobalRef_step (reachable_good R) A D) as (g & s' & St & _ & L & C & Gn & N). exists g, s'. split; [exact St|].
  split; [|auto]. destruct (live s g) eqn:E; auto. pose proof (live_lt _ _ E). unfold oid in *. lia.
Qed.
Theorem C30_new_null G t0 t h s : reachable G t0 s -> attached s t -> denotes_opt s h None -> step G t (NewWeakGlobalRef_ h) s = Some (OVal (RRef None), s).
Proof. intros R A D. exact (NewWeakGlobalRef_step (reachable_good R) A D). Qed.
Theorem C30_delete G t0 t g j s : reachable G t0 s -> attached s t -> is_weak_handle s g j ->
  exists s' gl, step G t (DeleteWeakGlobalRef_ (Some g)) s = Some (OVal RUnit, s') /\ removed g (s_globals s) gl /\ released t (frames s t) gl (s_ext s) s s'.
Proof. intros R A H. destruct (del_global_step true (reachable_good R) A H) as (s' & gl & St & _ & Rm & Rl). eauto. Qed.
Theorem C30_delete_other G t0 t g p s : reachable G t0 s -> attached s t -> contents s g = Some p -> (forall j, p <> PWeak j) ->
  exists m, step G t (DeleteWeakGlobalRef_ (Some g)) s = Some (OExn (Err m), s).
Proof.
  intros R A H N. pose proof (del_global_step true (reachable_good R) A H) as K.
  destruct p; simpl in K; try exact K. exfalso. exact (N _ eq_refl).
Qed.
(** A string with a weak reference (10) and a local one; then the local one is deleted. *)
Definition ex_weak : list event :=
  [(main, NewStringUTF_ (Some (S_ "hi"))); (main, NewWeakGlobalRef_ (Some 9)); (main, IsSameObject_ (Some 10) None); (main, NewLocalRef_ (Some 10));
   (main, DeleteLocalRef_ (Some 9)); (main, IsSameObject_ (Some 10) None); (main, GetStringUTFLength_ (Some 10)); (main, DeleteLocalRef_ (Some 9));
   (main, IsSameObject_ (Some 10) None); (main, NewLocalRef_ (Some 10)); (main, NewGlobalRef_ (Some 10))].
Example C30_ex : seen Gd ex_weak =
  [OVal (RRef (Some 9)); OVal (RRef (Some 10)); OVal (RBool false); OVal (RRef (Some 9)); OVal RUnit; OVal (RBool false); OVal (RInt 2); OVal RUnit;
   OVal (RBool true); OVal (RRef None); OVal (RRef None)].
Proof. vm_compute. reflexivity. Qed.
(** Both cases of [C30_weak] occur. *)
Example C30_ex_strong : strong (after Gd (firstn 7 ex_weak)) 9 /\ live (after Gd (firstn 8 ex_weak)) 9 = false.
Proof.
  split; [|vm_compute; reflexivity]. apply sr_anchor, (@an_local _ _ main). eexists. split; [vm_compute; left; reflexivity|vm_compute; auto].
Qed.

(** ** C31 DeleteLocalRef removes one reference *)
Theorem C31_delete G t0 t h i s : reachable G t0 s -> attached s t -> denotes_opt s h (Some i) ->
  exists s' fs, step G t (DeleteLocalRef_ h) s = Some (OVal RUnit, s') /\ deleted i (frames s t) fs /\ released t fs (s_globals s) (s_ext s) s s'.
Proof. intros R A D. destruct (DeleteLocalRef_step (reachable_good R) A D) as (s' & St & _ & fs & H). eauto. Qed.
Theorem C31_null G t0 t h s : reachable G t0 s -> attached s t -> denotes_opt s h None -> step G t (DeleteLocalRef_ h) s = Some (OVal RUnit, s).
Proof. intros R A D. destruct (DeleteLocalRef_step (reachable_good R) A D) as (s' & St & _ & ->). exact St. Qed.
Lemma aset_get {V} (m : list (nat * V)) k v : aget Nat.eqb m k = Some v -> aset Nat.eqb m k v = m.
Proof.
  induction m as [|[k' v'] m IH]; simpl; [discriminate|]. destruct (Nat.eqb k' k); [intros [= ->]; reflexivity|]. intros H. rewrite IH; auto.
Qed.
(** A reference that the thread does not hold: nothing changes. *)
Theorem C31_not_held G t0 t h i s : reachable G t0 s -> attached s t -> denotes_opt s h (Some i) -> ~ local_ref s t i ->
  step G t (DeleteLocalRef_ h) s = Some (OVal RUnit, s).
Proof.
  intros R A D N. pose proof (reachable_good R) as Gs. pose proof (good_wf Gs) as W. destruct A as (e & E).
  assert (del_frames i (e_frames e) = e_frames e) as Ed.
  { assert (forall f, In f (e_frames e) -> ~ In i f) as H by (intros f F Hi; apply N; exists f; rewrite (frames_env E); auto).
    clear -H. revert H. generalize (e_frames e). intros fs. induction fs as [|f r IH]; intros H; [reflexivity|].
    eapply deleted_fun; [apply del_frames_deleted|]. apply dl_later; [apply H; simpl; auto|]. rewrite <- IH at 2; [apply del_frames_deleted|]. intros g Hg. apply H. simpl. auto. }
  assert (penv s t (env_frames e (del_frames i (e_frames e))) = s) as P.
  { rewrite Ed. assert (env_frames e (e_frames e) = e) as -> by (destruct e; reflexivity). unfold penv, with_envs.
    replace (aset Nat.eqb (s_envs s) t e) with (s_envs s) by (symmetry; apply aset_get; exact E). destruct s; reflexivity. }
  unfold step. rewrite run_attached by (exists e; auto). simpl. unfold as_unit, bind at 1, DeleteLocalRef, bind at 1. rewrite (jnicast_obj G W D).
  unfold frame_del, upd_env, bind at 1, the_env. rewrite E. rewrite put_env_eq.
  - rewrite P. unfold ret. simpl. rewrite (tidy_finish_id (g_tidy Gs)). reflexivity.
  - apply (env_frames_ok W E). intros j Hj. eapply frames_live; eauto. eapply del_frames_In; eauto.
Qed.
(** Two references to A in one frame and one in another; and one that another thread holds. *)
Example C31_ex :
  let p := ex_nest ++ [(main, PushLocalFrame_ 1); (main, FindClass_ (S_ "B")); (main, FindClass_ (S_ "A")); (2, FindClass_ (S_ "C"))] in
  frames (after Gd p) main = [[10; 9]; [9; 9; 10]] /\
  frames (after Gd (p ++ [(main, DeleteLocalRef_ (Some 9))])) main = [[10]; [9; 9; 10]] /\
  frames (after Gd (p ++ [(main, DeleteLocalRef_ (Some 9)); (main, DeleteLocalRef_ (Some 9))])) main = [[10]; [9; 10]] /\
  ~ local_ref (after Gd p) main 11 /\ runs Gd (p ++ [(main, DeleteLocalRef_ (Some 11))]) = true.
Proof.
  repeat split; try (vm_compute; reflexivity). intros (f & F & H).
  assert (frames (after Gd (ex_nest ++ [(main, PushLocalFrame_ 1); (main, FindClass_ (S_ "B")); (main, FindClass_ (S_ "A")); (2, FindClass_ (S_ "C"))])) main = [[10; 9]; [9; 9; 10]]) as K
    by (vm_compute; reflexivity).
  rewrite K in F. destruct F as [<-|[<-|[]]]; simpl in H; repeat (destruct H as [H|H]; [discriminate H|]); exact H.
Qed.

(** ** C32 IsSameObject *)
Theorem C32_same G t0 t a b x y s : reachable G t0 s -> attached s t -> denotes_opt s a x -> denotes_opt s b y ->
  exists r, step G t (IsSameObject_ a b) s = Some (OVal (RBool r), s) /\ (r = true <-> x = y).
Proof. intros R. apply IsSameObject_step. exact (reachable_good R). Qed.
(** every valid reference denotes one thing, whatever its kind *)
Theorem C32_total G t0 h s : reachable G t0 s -> (forall i, h = Some i -> live s i = true) ->
  exists x, denotes_opt s h x /\ forall y, denotes_opt s h y -> y = x.
Proof.
  intros R L. destruct h as [h|].
  - destruct (denotes_total (good_wf (reachable_good R)) (L h eq_refl)) as (r & D). exists r. split; [exact D|]. intros y Dy. exact (denotes_fun Dy D).
  - exists None. split; [reflexivity|]. simpl. auto.
Qed.
(** Equivalence relation on the valid references of a state *)
Definition says_same (G : cfg) (t : tid) (s : st) (a b : option oid) : Prop := step G t (IsSameObject_ a b) s = Some (OVal (RBool true), s).
Theorem C32_equivalence G t0 t s : reachable G t0 s -> attached s t ->
  (forall a, says_same G t s a a) /\
  forall a b c, (forall i, a = Some i \/ b = Some i \/ c = Some i -> live s i = true) ->
    (says_same G t s a b -> says_same G t s b a) /\ (says_same G t s a b -> says_same G t s b c -> says_same G t s a c).
Proof.
  intros R A. split; [intros a; apply IsSameObject_same; auto; exact (reachable_good R)|]. intros a b c L.
  destruct (@C32_total G t0 a s R) as (x & Dx & _); [auto|]. destruct (@C32_total G t0 b s R) as (y & Dy & _); [auto|].
  destruct (@C32_total G t0 c s R) as (z & Dz & _); [auto|].
  assert (forall p q u v, denotes_opt s p u -> denotes_opt s q v -> (says_same G t s p q <-> u = v)) as K.
  { intros p q u v Dp Dq. destruct (C32_same R A Dp Dq) as (r & St & Hr). unfold says_same. rewrite St. rewrite <- Hr. split; [intros [= ->]; auto|intros ->; auto]. }
  rewrite (K _ _ _ _ Dx Dy), (K _ _ _ _ Dy Dx), (K _ _ _ _ Dy Dz), (K _ _ _ _ Dx Dz). split; congruence.
Qed.
(** local 9, global 10 to it, weak 11 to the global's object, another string 12 with weak reference 13, then deleted *)
Definition ex_same : list event :=
  [(main, NewStringUTF_ (Some (S_ "hi"))); (main, NewGlobalRef_ (Some 9)); (main, NewWeakGlobalRef_ (Some 10)); (main, NewStringUTF_ (Some (S_ "hi")));
   (main, NewWeakGlobalRef_ (Some 12)); (main, DeleteLocalRef_ (Some 12))].
Example C32_ex : runs Gd ex_same = true /\
  forallb (fun '(a, b) => match step Gd main (IsSameObject_ a b) (after Gd ex_same) with Some (OVal (RBool true), _) => true | _ => false end)
    [(Some 9, Some 10); (Some 11, Some 10); (Some 9, Some 11); (Some 13, None)] = true /\
  existsb (fun '(a, b) => match step Gd main (IsSameObject_ a b) (after Gd ex_same) with Some (OVal (RBool true), _) => true | _ => false end)
    [(Some 9, Some 13); (Some 11, None); (Some 13, Some 10)] = false.
Proof. vm_compute. repeat split. Qed.

(** ** C33 GetObjectRefType *)
Theorem C33_local G t0 t h i s s1 l vs s2 u : reachable G t0 s -> attached s t -> denotes_opt s h (Some i) ->
  step G t (NewLocalRef_ h) s = Some (OVal (RRef (Some i)), s1) -> exec G l s1 = Some (vs, s2) -> live s2 i = true -> attached s2 u ->
  step G u (GetObjectRefType_ (Some i)) s2 = Some (OVal (RRefType RefLocal), s2).
Proof.
  intros R A D St E L A2. pose proof (reachable_good R) as Gs. destruct h as [h|]; [|discriminate]. simpl in D.
  assert (exec G ((t, NewLocalRef_ (Some h)) :: l) s = Some (OVal (RRef (Some i)) :: vs, s2)) as E' by (simpl; rewrite St, E; reflexivity).
  pose proof (exec_ident (good_wf Gs) E') as I. pose proof (ident_denotes I (denotes_self D) L) as D2.
  assert (good G s2) as G2 by (exact (exec_good Gs E')).
  destruct (@GetObjectRefType_step G u (Some i) s2 G2 A2) as (r & St2 & K); [intros ? [= <-]; exact L|]. rewrite St2. unfold contents in K.
  destruct (denotes_target D2) as (o & Lo & Nw & Ng). rewrite Lo in K. simpl in K.
  destruct (o_pay o) eqn:P; try (rewrite K; reflexivity); exfalso; [exact (Nw _ eq_refl)|exact (Ng _ eq_refl)].
Qed.
Lemma handle_type G t0 (weak : bool) u w j s : reachable G t0 s -> attached s u -> handle_to weak s w j ->
  step G u (GetObjectRefType_ (Some w)) s = Some (OVal (RRefType (if weak then RefWeak else RefGlobal)), s).
Proof.
  intros R A H. destruct (@GetObjectRefType_step G u (Some w) s (reachable_good R) A) as (r & St & K); [intros ? [= <-]; eapply handle_live; exact H|].
  rewrite St. destruct H as [_ H]. destruct weak; unfold is_weak_handle, is_global_handle in H; rewrite H in K; rewrite K; reflexivity.
Qed.
(** whatever was done, while the reference has not been deleted *)
Theorem C33_global G t0 t h s g s1 l vs s2 u : reachable G t0 s -> attached s t -> (exists j, denotes_opt s h (Some j)) ->
  step G t (NewGlobalRef_ h) s = Some (OVal (RRef (Some g)), s1) -> exec G l s1 = Some (vs, s2) -> (forall u, ~ In (u, DeleteGlobalRef_ (Some g)) l) -> attached s2 u ->
  step G u (GetObjectRefType_ (Some g)) s2 = Some (OVal (RRefType RefGlobal), s2).
Proof.
  intros R A (j & D) St E N A2. pose proof (NewGlobalRef_step (reachable_good R) A D) as (g' & s1' & St' & G1 & Lg & C & Gn & _).
  rewrite St in St'. injection St' as <- <-. refine (@handle_type G t0 false u g j s2 _ A2 _).
  - eapply reachable_exec; [eapply reachable_exec; [exact R|apply step_exec; exact St]|exact E].
  - apply (handle_persists (weak := false) G1 N E). split; [rewrite (gn_globals Gn); apply in_or_app; simpl; auto|exact C].
Qed.
Theorem C33_weak G t0 t h s g s1 l vs s2 u : reachable G t0 s -> attached s t -> (exists j, denotes_opt s h (Some j)) ->
  step G t (NewWeakGlobalRef_ h) s = Some (OVal (RRef (Some g)), s1) -> exec G l s1 = Some (vs, s2) -> (forall u, ~ In (u, DeleteWeakGlobalRef_ (Some g)) l) -> attached s2 u ->
  step G u (GetObjectRefType_ (Some g)) s2 = Some (OVal (RRefType RefWeak), s2).
Proof.
  intros R A (j & D) St E N A2. pose proof (NewWeakGlobalRef_step (reachable_good R) A D) as (g' & s1' & St' & G1 & Lg & C & Gn & _).
  rewrite St in St'. injection St' as <- <-. refine (@handle_type G t0 true u g j s2 _ A2 _).
  - eapply reachable_exec; [eapply reachable_exec; [exact R|apply step_exec; exact St]|exact E].
  - apply (handle_persists (weak := true) G1 N E). split; [rewrite (gn_globals Gn); apply in_or_app; simpl; auto|exact C].
Qed.
Theorem C33_null G t0 t s : reachable G t0 s -> attached s t -> step G t (GetObjectRefType_ None) s = Some (OVal (RRefType RefInvalid), s).
Proof. intros R A. destruct (@GetObjectRefType_step G t None s (reachable_good R) A) as (r & St & ->); [discriminate|exact St]. Qed.
Example C33_ex : map (fun h => match step Gd main (GetObjectRefType_ h) (after Gd ex_same) with Some (v, _) => Some v | None => None end)
    [Some 9; Some 10; Some 11; Some 13; None] =
  [Some (OVal (RRefType RefLocal)); Some (OVal (RRefType RefGlobal)); Some (OVal (RRefType RefWeak)); Some (OVal (RRefType RefWeak)); Some (OVal (RRefType RefInvalid))].
Proof. vm_compute. reflexivity. Qed.

(** ** C34 Careful clients never cause undefined behaviour *)
(** A client that starts at any time and keeps book of the references it gets.  (Weak references are not passed to
    PopLocalFrame, see [C34_refuted]; a thread does not detach while it executes a hook.) *)
Theorem C34_defined_partial G t0 s l L' s' : reachable G t0 s -> client G l (fresh_ledger s) s L' s' ->
  forall t o, allowed L' t o -> (o = Detach_ -> running s' t = []) -> exists v s2, step G t o s' = Some (v, s2).
Proof.
  intros R C t o Al Dt. destruct (client_right (reachable_solid R) C (fresh_right s)) as (So & B & _). exact (allowed_defined So B Al Dt).
Qed.
(** Every reference in the book denotes the object it should. *)
Theorem C34_book G t0 s l L' s' : reachable G t0 s -> client G l (fresh_ledger s) s L' s' ->
  (forall t fs i, b_local L' t = Some fs -> In i (concat fs) -> denotes s' i (Some i) /\ local_ref s' t i) /\
  (forall g, In g (b_global L') -> exists j, denotes s' g (Some j)) /\ (forall w, In w (b_weak L') -> exists r, denotes s' w r).
Proof.
  intros R C. destruct (client_right (reachable_solid R) C (fresh_right s)) as (So & B & _). split; [|split].
  - intros t fs i F Hi. split; [exact (br_self B F Hi)|]. pose proof (br_local B t) as K. rewrite F in K. destruct K as [_ K].
    unfold local_ref. pose proof (sub_concat K Hi) as Hc. apply in_concat in Hc. destruct Hc as (f & Hf & Hi'). eauto.
  - intros g Hg. destruct (br_global B Hg) as (_ & j & H & D). exists j. apply (global_denotes (so_good So) H). exact D.
  - intros w Hw. destruct (br_weak B Hw) as (Hs & j & H). apply (denotes_total (good_wf (so_good So))). eapply (handle_live (weak := true)). split; eauto.
Qed.
Theorem C34_frame G t0 t s : reachable G t0 s -> attached s t -> frames s t <> [].
Proof. apply C26_innermost_exists. Qed.
(** A careful client on two threads *)
Definition ex_client : list event :=
  [(main, FindClass_ (S_ "A")); (main, NewWeakGlobalRef_ (Some 9)); (2, Attach_); (2, PushLocalFrame_ 3); (2, NewLocalRef_ (Some 10)); (2, NewGlobalRef_ (Some 9));
   (main, DeleteLocalRef_ (Some 9)); (2, PopLocalFrame_ (Some 11)); (2, DeleteGlobalRef_ (Some 11)); (2, DeleteWeakGlobalRef_ (Some 10))].
Ltac mine_tac := let i := fresh in let H := fresh in intros i H; try (injection H as <-); try discriminate H; simpl;
  first [right; left; auto; fail|right; right; auto; fail|left; eexists; split; [vm_compute; reflexivity|vm_compute; auto]|auto].
Example C34_ex : exists L s, client Gd ex_client (fresh_ledger (start Gd)) (start Gd) L s /\ b_local L 2 = Some [[9]] /\ b_local L main = Some [[]] /\ b_global L = [] /\ b_weak L = [] /\
  allowed L 2 (GetObjectRefType_ (Some 9)).
Proof.
  do 2 eexists. split.
  - eapply cl_ref; [reflexivity|split; [intros _; vm_compute; discriminate|exact I]|vm_compute; reflexivity|eapply bk_local; [eauto|vm_compute; reflexivity]|].
    eapply cl_ref; [reflexivity|split; [intros _; vm_compute; discriminate|mine_tac]|vm_compute; reflexivity|eapply bk_weak|].
    eapply cl_ref; [reflexivity|split; [intros K; destruct (K eq_refl)|exact I]|vm_compute; reflexivity|eapply bk_attach; vm_compute; reflexivity|].
    eapply cl_ref; [reflexivity|split; [intros _; vm_compute; discriminate|simpl; lia]|vm_compute; reflexivity|eapply bk_push; vm_compute; reflexivity|].
    eapply cl_ref; [reflexivity|split; [intros _; vm_compute; discriminate|mine_tac]|vm_compute; reflexivity|eapply bk_local; [eauto|vm_compute; reflexivity]|].
    eapply cl_ref; [reflexivity|split; [intros _; vm_compute; discriminate|mine_tac]|vm_compute; reflexivity|eapply bk_global|].
    eapply cl_ref; [reflexivity|split; [intros _; vm_compute; discriminate|]|vm_compute; reflexivity|eapply bk_del; [vm_compute; reflexivity|apply (@dl_here 9 [] []); simpl; tauto]|].
    { intros i [= <-]. eexists. split; [vm_compute; reflexivity|vm_compute; auto]. }
    eapply cl_ref; [reflexivity|split; [intros _; vm_compute; discriminate|]|vm_compute; reflexivity|eapply bk_pop; vm_compute; reflexivity|].
    { intros i [= <-]. right. simpl. auto. }
    eapply cl_ref; [reflexivity|split; [intros _; vm_compute; discriminate|]|vm_compute; reflexivity|eapply bk_gdel; apply (@rm_here 11 [] []); simpl; tauto|].
    { intros i [= <-]. simpl. auto. }
    eapply cl_ref; [reflexivity|split; [intros _; vm_compute; discriminate|]|vm_compute; reflexivity|eapply bk_wdel; apply (@rm_here 10 [] []); simpl; tauto|].
    { intros i [= <-]. simpl. auto. }
    apply cl_nil.
  - do 4 (split; [vm_compute; reflexivity|]). split; [intros _; vm_compute; discriminate|].
    intros i [= <-]. left. eexists. split; [vm_compute; reflexivity|vm_compute; auto].
Qed.
(** The exception: PopLocalFrame returns an expired weak reference unchanged.  The client takes it for a local reference;
    after DeleteWeakGlobalRef it is dangling, and using it is undefined behaviour. *)
Definition ex_expired : list event :=
  [(main, NewStringUTF_ (Some (S_ "hi"))); (main, NewWeakGlobalRef_ (Some 9)); (main, DeleteLocalRef_ (Some 9)); (main, PushLocalFrame_ 1);
   (main, PopLocalFrame_ (Some 10)); (main, DeleteWeakGlobalRef_ (Some 10))].
Theorem C34_refuted : exists s, exec Gd ex_expired (start Gd) =
    Some ([OVal (RRef (Some 9)); OVal (RRef (Some 10)); OVal RUnit; OVal (RInt 0); OVal (RRef (Some 10)); OVal RUnit], s) /\
  step Gd main (NewLocalRef_ (Some 10)) s = None.
Proof. eexists. split; [vm_compute; reflexivity|vm_compute; reflexivity]. Qed.

(** ** C35 Everything is released in the end *)
(** An object exists only while something refers to it: a reference, a variable of C++ code, the class registry, or an owner,
    or a cycle of owners. *)
Theorem C35_kept G t0 s i : reachable G t0 s -> live s i = true -> strong s i \/ cyclic s i.
Proof.
  intros R L. pose proof (reachable_solid R) as So. exact (tidy_strong (good_wf (so_good So)) (so_env So) (g_tidy (so_good So)) L).
Qed.
Theorem C35_referenced G t0 s i : reachable G t0 s -> strong s i -> live s i = true.
Proof. intros R. apply strong_live with (G := G). exact (g_inv (reachable_good R)). Qed.
(** When all threads have detached, C++ code holds nothing and only weak global references are left, then besides them only
    classes, their members, what those own, and cycles exist. *)
Theorem C35_released G t0 s i : reachable G t0 s -> (forall t, ~ attached s t) -> s_ext s = [] -> (forall g, In g (s_globals s) -> exists j, is_weak_handle s g j) ->
  live s i = true -> In i (s_globals s) \/ (exists n k, class_named s n k /\ (i = k \/ chain_to s k i)) \/ cyclic s i.
Proof.
  intros R N X Gw L. destruct (C35_kept R L) as [S|C]; auto. clear L. assert (forall t, get_env s t = None) as Ne.
  { intros t. destruct (get_env s t) as [e|] eqn:E; auto. exfalso. apply (N t). exists e. exact E. }
  induction S as [i A|k i S IH O].
  - destruct A as [H|n H|t (f & F & H)|t H|t k H H'|H]; auto.
    + right. left. exists n, i. auto.
    + unfold frames in F. rewrite Ne in F. destruct F.
    + unfold pending in H. rewrite Ne in H. discriminate.
    + unfold running in H. rewrite Ne in H. destruct H.
    + rewrite X in H. destruct H.
  - destruct IH as [H|[(n & k0 & H & K)|(k0 & H & K)]].
    + destruct (Gw k H) as (j & W). destruct O as (p & P & Op). unfold is_weak_handle in W. rewrite W in P. injection P as <-. inversion Op.
    + right. left. exists n, k0. split; auto. right. destruct K as [->|K]; [apply ch_one|eapply ch_more]; eauto.
    + right. right. exists k0. split; auto. right. destruct K as [->|K]; [apply ch_one; exact O|eapply ch_more; eauto].
Qed.
(** an array of strings, held by a global, a local and a C++ reference; all are given up *)
Definition ex_gone : list event :=
  [(2, Attach_); (2, NewStringUTF_ (Some (S_ "hi"))); (2, FindClass_ (S_ "java/lang/String")); (2, NewObjectArray_ 2 (Some 2) (Some 9)); (2, NewGlobalRef_ (Some 11));
   (main, UHold_ TObject (Some 9)); (2, Detach_); (main, DeleteGlobalRef_ (Some 12)); (main, UDrop_ 9); (main, Detach_)].
Example C35_ex : runs Gd ex_gone = true /\ map (fun n => map (live (after Gd (firstn n ex_gone))) [9; 11; 12]) [6; 7; 8; 9; 10] =
  [[true; true; true]; [true; true; true]; [true; false; false]; [false; false; false]; [false; false; false]].
Proof. vm_compute. split; reflexivity. Qed.
Example C35_ex_hyp : s_envs (after Gd ex_gone) = [] /\ s_ext (after Gd ex_gone) = [] /\ s_globals (after Gd ex_gone) = [].
Proof. vm_compute. repeat split. Qed.
(** Cycles stay: an array that contains itself *)
Definition ex_cycle : list event :=
  [(main, FindClass_ (S_ "java/lang/Object")); (main, NewObjectArray_ 1 (Some 0) None); (main, SetObjectArrayElement_ (Some 10) 0 (Some 10)); (main, Detach_)].
Example C35_ex_cycle : runs Gd ex_cycle = true /\ live (after Gd ex_cycle) 10 = true /\ cyclic (after Gd ex_cycle) 10.
Proof.
  split; [vm_compute; reflexivity|]. split; [vm_compute; reflexivity|]. exists 10. split; [|auto]. apply ch_one.
  eexists. split; [vm_compute; reflexivity|]. constructor. simpl. auto.
Qed.

(** ** C37 Threads do not disturb each other *)
Theorem C37_isolated G t0 u l s vs s' : reachable G t0 s -> Forall (fun e : event => fst e <> u) l -> exec G l s = Some (vs, s') ->
  (attached s' u <-> attached s u) /\ frames s' u = frames s u /\ pending s' u = pending s u /\ running s' u = running s u /\
  (forall i, local_ref s' u i <-> local_ref s u i).
Proof.
  intros R F E. pose proof (others_exec (good_wf (reachable_good R)) F E) as H. unfold attached, local_ref, frames, pending, running. rewrite H. repeat split; auto.
Qed.
Theorem C37_step G t0 t u o s v s' : reachable G t0 s -> u <> t -> step G t o s = Some (v, s') ->
  frames s' u = frames s u /\ pending s' u = pending s u /\ running s' u = running s u.
Proof.
  intros R N E. pose proof (others_step (good_wf (reachable_good R)) N E) as H. unfold frames, pending, running. rewrite H. auto.
Qed.
(** What thread 2 does - frames, a failing call, a pending exception, detaching - with an exception pending on main. *)
Definition ex_iso : list event := [(main, FindClass_ (S_ "E")); (main, ThrowNew_ (Some 9) (Some (S_ "x"))); (2, Attach_)].
Definition ex_iso2 : list event :=
  [(2, PushLocalFrame_ 1); (2, FindClass_ (S_ "F")); (2, ThrowNew_ (Some 11) (Some (S_ "y"))); (2, ExceptionClear_); (2, DeleteLocalRef_ (Some 9)); (2, Detach_)].
Example C37_ex : runs Gd (ex_iso ++ ex_iso2) = true /\ pending (after Gd ex_iso) main <> None /\ pending (after Gd (ex_iso ++ firstn 3 ex_iso2)) 2 <> None /\
  pending (after Gd (ex_iso ++ ex_iso2)) main = pending (after Gd ex_iso) main /\ frames (after Gd (ex_iso ++ ex_iso2)) main = [[9]].
Proof. repeat split; try (vm_compute; reflexivity); vm_compute; discriminate. Qed.

(** ** C38 Attaching and detaching threads *)
(** The environment of an attached thread is kept until it detaches, and AttachCurrentThread returns it. *)
Theorem C38_idempotent G t0 t s k s1 l vs s2 : reachable G t0 s -> step G t Attach_ s = Some (OVal (REnv k), s1) -> exec G l s1 = Some (vs, s2) ->
  ~ In (t, Detach_) l -> step G t Attach_ s2 = Some (OVal (REnv k), s2).
Proof.
  intros R St E N. pose proof (reachable_good R) as Gs.
  assert (exists e, get_env s1 t = Some e /\ e_id e = k) as K.
  { pose proof (Attach_step t Gs) as H. destruct (get_env s t) as [e|] eqn:Eq.
    - rewrite St in H. injection H as -> ->. eauto.
    - destruct H as (k' & s1' & St' & _ & _ & H & _). rewrite St in St'. injection St' as -> ->. rewrite H. eauto. }
  assert (good G s1) as G1 by (eapply step_good; eauto). clear R Gs St s. revert s1 vs G1 K E N. induction l as [|[u o] l IH]; simpl; intros s1 vs G1 (e & Ge & Id) E N.
  - injection E as <- <-. pose proof (Attach_step t G1) as H. rewrite Ge, Id in H. exact H.
  - destruct (step G u o s1) as [[v s3]|] eqn:E1; [|discriminate]. destruct (exec G l s3) as [[w s4]|] eqn:E2; [|discriminate]. injection E as <- <-.
    assert (o <> Detach_ \/ t <> u) as Nd.
    { destruct (Nat.eq_dec t u) as [->|]; auto. left. intros ->. apply N. auto. }
    destruct (envid_step (good_wf G1) Ge Nd E1) as (e' & Ge' & Id').
    apply (IH s3 w); auto; [eapply step_good; eauto|exists e'; split; congruence].
Qed.
Theorem C38_attach_again G t0 t s : reachable G t0 s -> attached s t -> exists k, step G t Attach_ s = Some (OVal (REnv k), s).
Proof. intros R (e & E). pose proof (Attach_step t (reachable_good R)) as H. rewrite E in H. eauto. Qed.
Theorem C38_distinct G t0 t u s k k' : reachable G t0 s -> attached s t -> attached s u -> step G t Attach_ s = Some (OVal (REnv k), s) -> step G u Attach_ s = Some (OVal (REnv k'), s) ->
  k = k' -> t = u.
Proof.
  intros R (e & E) (e' & E') St Su ->. pose proof (Attach_step t (reachable_good R)) as H. rewrite E, St in H. injection H as H.
  pose proof (Attach_step u (reachable_good R)) as H'. rewrite E', Su in H'. injection H' as H'. apply (reachable_apart R E E'). congruence.
Qed.
Lemma attach_number G t s v s' : get_env s t = None -> step G t Attach_ s = Some (v, s') -> v = OVal (REnv (s_nextenv s)).
Proof. intros E. unfold step, run, bind. cbn [needs_env body]. unfold ret, bind, Attach. rewrite E. intros [= <- _]. reflexivity. Qed.
(** Attaching creates a new environment with one empty frame and without exception; nothing else changes. *)
Theorem C38_attach G t0 t s : reachable G t0 s -> ~ attached s t ->
  exists k s', step G t Attach_ s = Some (OVal (REnv k), s') /\ attached s' t /\ frames s' t = [[]] /\ pending s' t = None /\ running s' t = [] /\
    (forall u, u <> t -> get_env s' u = get_env s u) /\ s_globals s' = s_globals s /\ s_ext s' = s_ext s /\
    (forall i, live s i = true -> intact s s' i) /\ (forall i, live s' i = live s i).
Proof.
  intros R N. pose proof (Attach_step t (reachable_good R)) as H. destruct (get_env s t) as [e|] eqn:E; [exfalso; apply N; exists e; auto|].
  destruct H as (k & s' & St & _ & _ & Ge & Ot & Gl & Ex & _ & In0 & Lv). exists k, s'. split; [exact St|].
  unfold attached, frames, pending, running. rewrite Ge. repeat split; eauto.
Qed.
(** Detaching drops all local references of the thread (and its pending exception), and nothing of other threads. *)
Theorem C38_detach G t0 t s : reachable G t0 s -> running s t = [] ->
  exists s', step G t Detach_ s = Some (OVal (RInt 0), s') /\ ~ attached s' t /\ (forall i, ~ local_ref s' t i) /\ pending s' t = None /\
    (forall u, u <> t -> get_env s' u = get_env s u) /\ s_globals s' = s_globals s /\ s_ext s' = s_ext s /\
    (forall i, live s i = true -> strong s' i -> intact s s' i) /\ (forall i, live s' i = true -> live s i = true) /\
    (forall i, live s' i = true -> strong s' i \/ cyclic s' i).
Proof.
  intros R Rn. destruct (Detach_step (reachable_solid R) Rn) as (s' & St & G' & Ge & Ot & Gl & Ex & _ & In0 & Lv). exists s'. split; [exact St|].
  assert (reachable G t0 s') as R' by (eapply reachable_exec; [exact R|apply step_exec; exact St]).
  unfold attached, local_ref, frames, pending. rewrite Ge. split; [intros (e & H); discriminate H|]. split; [intros i (f & [] & _)|]. split; [reflexivity|].
  repeat (split; [assumption|]). intros i. apply C35_kept with (G := G) (t0 := t0). exact R'.
Qed.
(** Reattaching never gives an environment that was in use before, on whichever thread. *)
Theorem C38_reattach G t0 t u s e l vs s2 v s3 : reachable G t0 s -> get_env s u = Some e -> exec G l s = Some (vs, s2) -> ~ attached s2 t ->
  step G t Attach_ s2 = Some (v, s3) -> v <> OVal (REnv (e_id e)).
Proof.
  intros R E Ex N St. pose proof (good_wf (reachable_good R)) as W. destruct (wf_env_ok W E) as (_ & _ & Lt). pose proof (nextenv_exec W Ex) as Le.
  assert (get_env s2 t = None) as Ne by (destruct (get_env s2 t) as [e2|] eqn:E2; auto; exfalso; apply N; exists e2; auto).
  rewrite (attach_number Ne St). intros [= H]. lia.
Qed.
Definition ex_att : list event :=
  [(2, Attach_); (2, NewStringUTF_ (Some (S_ "hi"))); (2, PushLocalFrame_ 1); (2, NewLocalRef_ (Some 9)); (2, Attach_); (main, Attach_); (3, Attach_); (2, Detach_); (2, Attach_)].
Example C38_ex : seen Gd ex_att = [OVal (REnv 1); OVal (RRef (Some 9)); OVal (RInt 0); OVal (RRef (Some 9)); OVal (REnv 1); OVal (REnv 0); OVal (REnv 2); OVal (RInt 0); OVal (REnv 3)] /\
  frames (after Gd ex_att) 2 = [[]] /\ live (after Gd ex_att) 9 = false.
Proof. vm_compute. repeat split. Qed.

(** ** C44 Monitors *)
(** Through any reference to the object: enter waits for (here: cannot proceed before) the owner's last exit, is re-entrant
    for the owner; exit is for the owner only. *)
Theorem C44_enter G t0 t h i s : reachable G t0 s -> attached s t -> denotes_opt s h (Some i) ->
  match lock_do (monitor s i) (Lock t) with
  | Some m => exists s', step G t (MonitorEnter_ h) s = Some (OVal (RInt 0), s') /\ relocked t i m s s'
  | None => step G t (MonitorEnter_ h) s = None
  end.
Proof.
  intros R A D. pose proof (MonitorEnter_step (reachable_good R) A D) as H. destruct (lock_do (monitor s i) (Lock t)); auto.
  destruct H as (s' & St & _ & K). eauto.
Qed.
Theorem C44_exit G t0 t h i s : reachable G t0 s -> attached s t -> denotes_opt s h (Some i) ->
  match lock_do (monitor s i) (Unlock t) with
  | Some m => exists s', step G t (MonitorExit_ h) s = Some (OVal (RInt 0), s') /\ relocked t i m s s'
  | None => step G t (MonitorExit_ h) s = None
  end.
Proof.
  intros R A D. pose proof (MonitorExit_step (reachable_good R) A D) as H. destruct (lock_do (monitor s i) (Unlock t)); auto.
  destruct H as (s' & St & _ & K). eauto.
Qed.
(** From when the monitor is free: each thread owns it as often as it has entered more often than exited, only one thread
    does, and it is free exactly if all have exited as often as entered. *)
Theorem C44_history G t0 i l s r s' : reachable G t0 s -> live s i = true -> monitor s i = None -> locking G i l s r s' -> live s' i = true ->
  (forall t, Z.of_nat (holds (monitor s' i) t) = balance t r) /\
  (forall t, balance t r >= 0)%Z /\
  (forall t u, balance t r > 0 -> balance u r > 0 -> t = u)%Z /\
  (monitor s' i = None <-> forall t, balance t r = 0%Z).
Proof.
  intros R L M Lk L'. destruct (locking_monitor (reachable_good R) Lk L L') as [Lr _].
  assert (forall u, monitor s i <> Some (u, 0)) as Nz by (rewrite M; discriminate).
  assert (forall t, Z.of_nat (holds (monitor s' i) t) = balance t r) as B.
  { intros t. destruct (lock_run_balance t Lr Nz) as [_ H]. rewrite M in H. simpl in H. exact H. }
  assert (forall u, monitor s' i <> Some (u, 0)) as Nz' by (destruct (lock_run_balance 0 Lr Nz) as [H _]; exact H).
  split; [exact B|]. split; [intros t; rewrite <- B; lia|]. split.
  - intros t u. rewrite <- !B. unfold holds. destruct (monitor s' i) as [[w n]|]; [|simpl; lia].
    destruct (Nat.eqb_spec t w), (Nat.eqb_spec u w); subst; auto; simpl; lia.
  - split; [intros E t; rewrite <- B, E; reflexivity|]. intros Z0. destruct (monitor s' i) as [[w n]|] eqn:E; auto. exfalso.
    specialize (Z0 w). rewrite <- B in Z0. unfold holds in Z0. rewrite Nat.eqb_refl in Z0. destruct n; [exact (Nz' w eq_refl)|lia].
Qed.
(** An object that is locked can neither be entered nor left by another thread. *)
Theorem C44_exclusive G t0 t u n h i s : reachable G t0 s -> attached s t -> denotes_opt s h (Some i) -> monitor s i = Some (u, n) -> t <> u ->
  step G t (MonitorEnter_ h) s = None /\ step G t (MonitorExit_ h) s = None.
Proof.
  intros R A D M N. pose proof (C44_enter R A D) as H. pose proof (C44_exit R A D) as K. rewrite M in H, K. simpl in H, K.
  destruct (Nat.eqb_spec t u); [contradiction|]. split; auto. destruct n; auto.
Qed.
(** Locked through the local and the global reference; released through the global; then thread 2 can enter. *)
Definition ex_lock : list event :=
  [(main, NewStringUTF_ (Some (S_ "hi"))); (main, NewGlobalRef_ (Some 9)); (2, Attach_)].
Definition ex_lock2 : list event :=
  [(main, MonitorEnter_ (Some 9)); (main, MonitorEnter_ (Some 10)); (2, FindClass_ (S_ "A")); (main, MonitorExit_ (Some 10)); (main, MonitorExit_ (Some 10)); (2, MonitorEnter_ (Some 10))].
Example C44_ex : exists s', locking Gd 9 ex_lock2 (after Gd ex_lock) [Lock main; Lock main; Unlock main; Unlock main; Lock 2] s' /\ monitor s' 9 = Some (2, 1) /\
  runs Gd (ex_lock ++ firstn 4 ex_lock2 ++ [(2, MonitorEnter_ (Some 10))]) = false.
Proof.
  assert (forall s, (exists o, lookup s 10 = Some o /\ o_pay o = PGlobal 9) -> denotes s 9 (Some 9) -> denotes_opt s (Some 10) (Some 9)) as Dg.
  { intros s (o & L & P) D. eapply den_global; eauto. }
  eexists. split.
  - eapply lk_enter; [den_tac|vm_compute; reflexivity|].
    eapply lk_enter; [apply Dg; [eexists; split; vm_compute; reflexivity|den_tac]|vm_compute; reflexivity|].
    eapply lk_other; [intros h [H|H]; discriminate H|vm_compute; reflexivity|].
    eapply lk_exit; [apply Dg; [eexists; split; vm_compute; reflexivity|den_tac]|vm_compute; reflexivity|].
    eapply lk_exit; [apply Dg; [eexists; split; vm_compute; reflexivity|den_tac]|vm_compute; reflexivity|].
    eapply lk_enter; [apply Dg; [eexists; split; vm_compute; reflexivity|den_tac]|vm_compute; reflexivity|]. apply lk_nil.
  - split; vm_compute; reflexivity.
Qed.

Print Assumptions C26_bracket.
Print Assumptions C28_local.
Print Assumptions C29_global.
Print Assumptions C30_weak.
Print Assumptions C34_defined_partial.
Print Assumptions C35_released.
Print Assumptions C38_reattach.
Print Assumptions C44_history.
