(** C20: loggers do not stop a simulation. *)
From Coq Require Import Lra Lia.
From Verif Require Import Spec_Sim Spec_Step Proof_World Proof_World3 Proof_World4 Proof_Tree Proof_Sim Proof_Sim2 Proof_Sim3 Proof_Sim5 Proof_Sim6 Props_Step Props_Named.
From Verif Require Import Props_Sim Props_Sim2 Props_Sim3 Props_Sim5 Proof_Anim2.

(** update_dynamic gives a pose to every body of the tree *)
Lemma upd_dyn_keeps e sc h J : forall fuel b k st st', update_dynamic e sc h J fuel b k st = Ok st' -> forall x, a_pose (st x) <> None -> a_pose (st' x) <> None.
Proof.
  induction fuel as [ | n IH]; intros b k st st' E x Px; [discriminate | ]. cbn [update_dynamic] in E.
  match type of E with ?f _ _ = _ => assert (L : forall js s s', f js s = Ok s' -> a_pose (s x) <> None -> a_pose (s' x) <> None) end.
  { induction js as [ | j js IHj]; intros s s' Es Ps; [injection Es as <-; exact Ps | ]. destruct (jframes h j) as [(f0, f1) | ]; [ | discriminate]. destruct (child_kin _ _ _ _ _ _ _) as [k' | ]; [ | discriminate]. cbn [rbind] in Es.
    destruct (update_dynamic e sc h J n (frame_body e f1) k' s) as [s1 | ] eqn:E1; [ | discriminate]. cbn [rbind] in Es. exact (IHj _ _ Es (IH _ _ _ _ E1 x Ps)). }
  apply (L _ _ _ E). unfold upd. destruct (Nat.eqb x b); [discriminate | exact Px].
Qed.
Lemma upd_dyn_sets e sc h J : forall t fuel k st st', rep e h t -> update_dynamic e sc h J fuel (root t) k st = Ok st' -> forall x, In x (bodies t) -> a_pose (st' x) <> None.
Proof.
  intros t. induction t as [b ks IH] using tree_ind'. intros fuel k st st' Rt E x Ix. inversion Rt as [? ? Ec Fk]; subst. clear Rt. destruct fuel as [ | n]; [discriminate | ]. cbn [update_dynamic root] in E. rewrite Ec in E. clear Ec.
  match type of E with ?f _ _ = _ => set (lp := f) in E end.
  assert (Kp : forall js s s', lp js s = Ok s' -> forall x, a_pose (s x) <> None -> a_pose (s' x) <> None).
  { induction js as [ | j js IHj]; intros s s' Es y Ps; [injection Es as <-; exact Ps | ]. cbn in Es. fold lp in Es. destruct (jframes h j) as [(f0, f1) | ]; [ | discriminate]. destruct (child_kin _ _ _ _ _ _ _) as [k' | ]; [ | discriminate]. cbn [rbind] in Es.
    destruct (update_dynamic e sc h J n (frame_body e f1) k' s) as [s1 | ] eqn:E1; [ | discriminate]. cbn [rbind] in Es. exact (IHj _ _ Es y (upd_dyn_keeps _ _ _ _ _ _ _ _ _ E1 y Ps)). }
  rewrite bodies_eq in Ix. destruct Ix as [<- | Ix].
  - apply (Kp _ _ _ E). unfold upd. rewrite Nat.eqb_refl. discriminate.
  - match type of E with lp _ ?s = _ => generalize dependent s end. clear st. revert st'.
    induction ks as [ | (j, u) ks IHk]; intros st' s E; [destruct Ix | ]. inversion IH as [ | ? ? IHu IHks]; subst. inversion Fk as [ | ? ? (Ed & Ru) Fks]; subst. cbn [fst snd] in *.
    cbn [map fst lp] in E. fold lp in E. destruct Ed as ((f0 & f1 & Ef & _ & Er) & _). rewrite Ef in E. destruct (child_kin _ _ _ _ _ _ _) as [k' | ]; [ | discriminate]. cbn [rbind] in E.
    destruct (update_dynamic e sc h J n (frame_body e f1) k' s) as [s1 | ] eqn:E1; [ | discriminate]. cbn [rbind] in E.
    cbn [flat_map snd] in Ix. apply in_app_iff in Ix. destruct Ix as [Ix | Ix].
    + apply (Kp _ _ _ E). rewrite Er in E1. exact (IHu _ _ _ _ Ru E1 x Ix).
    + eapply IHk; eassumption.
Qed.

(** along a simulation, once update_dynamic has been called, the bodies have a pose *)
Definition has_poses (t : tree) (x : sim) : Prop := forall b, In b (bodies t) -> a_pose (v_st (w_v (sm_w x)) b) <> None.
Section Poses.
  Context (U : setup) (O : nat -> okind) (tl : list R) (t : tree) (h0 : @heap R) (ty0 : nat -> jtype).
  Hypothesis Hty : forall j, In j (joints t) -> jndof (su_e U) j = ndof_of (ty0 j).
  Hypothesis Hf : (height t < su_fuel U)%nat.
  Hypothesis Hr : root t = ground (su_e U).
  Let I := interp U O tl.
  Lemma any_st c x x1 : c <> Dyn -> I c x = (x1, Ok tt) -> v_st (w_v (sm_w x1)) = v_st (w_v (sm_w x)).
  Proof.
    intros Nd E. destruct c; try congruence.
    - unfold I in E. cbn [interp] in E. unfold world_init in E. destruct (Model_World.init _ _ _ _) as (h, [ | ]); [ | discriminate]. destruct (rmapM _ _); [ | discriminate]. destruct (ctl_inits _ _ _ _); [ | discriminate]. injection E as <-. reflexivity.
    - rewrite (proj1 (proj2 (proj2 (interp_frame _ _ _ _ _ _ _ E))) eq_refl). reflexivity.
    - exact (proj2 (proj2 (proj2 (ctl_frozen _ _ _ _ _ _ E)))).
    - exact (proj2 (proj2 (proj2 (cons_frozen _ _ _ _ _ _ E)))).
    - rewrite (proj1 (proj2 (proj2 (interp_frame _ _ _ _ _ _ _ E))) eq_refl). reflexivity.
    - unfold I in E. cbn [interp] in E. unfold world_integrate in E. destruct (integrate _ _ _ _) as (s, r). injection E as <- _. reflexivity.
    - rewrite (proj1 (proj2 (proj2 (interp_frame _ _ _ _ _ _ _ E))) eq_refl). reflexivity.
  Qed.
  Lemma performed_poses x l y : performed I x l y -> (forall c r, In (c, r) l -> c <> WInit) -> alive U t h0 ty0 x -> (has_poses t x \/ exists r l', l = (Dyn, r) :: l') -> has_poses t y.
  Proof.
    induction 1 as [x | x c x1 l y E P IH]; intros N A Hd.
    - destruct Hd as [Hd | (r & l' & Q)]; [exact Hd | discriminate].
    - assert (Nc : c <> WInit) by (apply (N c (now x)); now left). apply IH; [intros c' r J; apply (N c' r); now right | exact (any_alive U O tl t h0 ty0 Hty Hf c x x1 Nc E A) | left].
      assert (Dc : c = Dyn \/ c <> Dyn) by (destruct c; auto; right; discriminate). destruct Dc as [-> | Nd].
      + destruct (dyn_alive U O tl t h0 ty0 x x1 E A) as (A1 & st & dd & Ud). unfold world_update_dynamic in Ud. destruct (update_dynamic _ _ _ _ _ _ _ _) as [st1 | ] eqn:E1; [ | discriminate]. cbn [rbind] in Ud. destruct (iter_descendant_bodies _ _ _ _); [ | discriminate]. cbn [rbind] in Ud. destruct (accumulate _ _ _ _); [ | discriminate]. cbn [rbind] in Ud. injection Ud as Ud _.
        rewrite <- Hr in E1. intros b Ib. rewrite <- Ud. exact (upd_dyn_sets _ _ _ _ t _ _ _ _ (proj1 (proj1 (proj1 (proj2 A1)))) E1 b Ib).
      + destruct Hd as [Hd | (r & l' & Q)]; [ | injection Q as -> _ _; congruence]. intros b Ib. assert (Q := any_st c x x1 Nd E). unfold has_poses in Hd. specialize (Hd b Ib). congruence.
  Qed.
End Poses.

(** the initialisation of a logger refuses nothing but duplicated names *)
Lemma name_all_err sid nm it chk nm' e : name_all_elements sid nm it chk = (nm', Err e) -> exists l, e = DuplicateNameError l.
Proof.
  destruct it as [l | l]; [ | destruct chk; discriminate]. destruct chk; [ | discriminate].
  intros E. destruct (C03_duplicates_on_lists sid nm l) as (A & B & _). rewrite E in A, B. cbn [fst snd] in A, B. destruct (ListDec.NoDup_dec string_dec (map (name_of nm') l)) as [Nd | Nd]; [discriminate (A Nd) | ]. destruct (B Nd) as (s & Es & _). injection Es as ->. now exists s.
Qed.
Lemma frames1_total h js : (forall j, In j js -> jframes h j <> None) -> exists fs, frames1 h js = Ok fs.
Proof.
  induction js as [ | j js IH]; intros H; [now exists [] | ]. unfold frames1 in *. cbn [rmapM]. destruct (jframes h j) as [(f0, f1) | ] eqn:Ej; [ | destruct (H j (or_introl eq_refl) Ej)]. cbn [rbind]. destruct IH as (fs & ->); [intros j' J; apply H; now right | ]. eexists. reflexivity.
Qed.
Lemma log_init_err U v o tl nm t nm' e : rep (su_e U) (s_heap (v_s v)) t -> root t = ground (su_e U) -> (height t < su_fuel U)%nat ->
  iterbodies (su_e U) (su_fuel U) (s_heap (v_s v)) = Ok (bodies t) -> iterjoints (su_e U) (su_fuel U) (s_heap (v_s v)) = Ok (joints t) -> (forall j, In j (joints t) -> jframes (s_heap (v_s v)) j <> None) ->
  log_init U v o tl nm = (nm', Err e) -> exists l, e = DuplicateNameError l.
Proof.
  intros Rt Er F Ib Ij Fj E. unfold log_init in E. destruct (log_state_init _ _ _ _ _) as (nm1, r1) eqn:E1.
  assert (S1 : forall e', r1 = Err e' -> exists l, e' = DuplicateNameError l).
  { intros e' ->. unfold log_state_init in E1. destruct (lo_state o); [ | discriminate]. rewrite Ij in E1. destruct (name_all_elements _ _ _ _) as (nm0, [[] | e0]) eqn:En; [discriminate | ]. injection E1 as _ <-. exact (name_all_err _ _ _ _ _ _ En). }
  destruct r1 as [dp | e1]; [ | injection E as _ <-; now apply S1]. destruct (log_what_init _ _ _ _) as (nm2, r2) eqn:E2.
  destruct r2 as [dw | e2]; [discriminate | ]. injection E as _ <-. unfold log_what_init in E2. destruct (lo_transforms o); [ | discriminate].
  match type of E2 with (let '(_, _) := ?a in _) = _ => assert (Hd : forall a0 x0, a = (a0, Err x0) -> exists l, x0 = DuplicateNameError l); [ | destruct a as (nm3, r3)] end.
  { intros a0 x0 Q. destruct (lo_flat o).
    - rewrite Ib in Q. destruct (name_all_elements _ _ _ _) as (nm0, [[] | e0]) eqn:En; [discriminate | ]. injection Q as _ <-. exact (name_all_err _ _ _ _ _ _ En).
    - rewrite Ij in Q. destruct (frames1_total _ _ Fj) as (fs & Ef). rewrite Ef in Q. destruct (name_all_elements _ _ _ _) as (nm0, [[] | e0]) eqn:En; [discriminate | ]. injection Q as _ <-. exact (name_all_err _ _ _ _ _ _ En). }
  destruct r3 as [d1 | e3]; [ | injection E2 as _ <-; eapply Hd; reflexivity]. destruct (name_all_elements _ _ _ _) as (nm0, [[] | e0]) eqn:En; [discriminate | ]. injection E2 as _ <-. exact (name_all_err _ _ _ _ _ _ En).
Qed.
(** the names of the objects of [ids]: all given, all different *)
Definition named_apart (nm : names) (ids : list nat) : Prop := (forall a, In a ids -> nm a <> None) /\ NoDup (map nm ids).
Lemma name_all_fine sid nm0 nm ids : keeps nm0 nm -> named_apart nm0 ids -> snd (name_all_elements sid nm (IterList ids) true) = Ok tt.
Proof.
  intros K (Al & Nd). apply (proj1 (C03_duplicates_on_lists sid nm ids)). destruct (name_all_elements sid nm (IterList ids) true) as (nm', r) eqn:E. cbn [fst]. assert (K' := keeps_trans _ _ _ K (name_all_keeps _ _ _ _ _ _ E)). clear E.
  assert (X : forall l, (forall a, In a l -> In a ids) -> NoDup (map nm0 l) -> NoDup (map (name_of nm') l)); [ | apply X; auto].
  induction l as [ | a l IH]; intros Hin N; [constructor | ]. cbn [map] in *. inversion N as [ | ? ? Na Nl]; subst. constructor; [ | apply IH; [intros b Hb; apply Hin; now right | exact Nl]].
  intros J. apply in_map_iff in J. destruct J as (b & Eb & Jb). apply Na. apply in_map_iff. exists b. split; [ | exact Jb].
  destruct (nm0 a) as [s | ] eqn:Ea; [ | destruct (Al a (Hin a (or_introl eq_refl)) Ea)]. destruct (nm0 b) as [s' | ] eqn:Eb'; [ | destruct (Al b (Hin b (or_intror Jb)) Eb')].
  rewrite (proj1 (name_of_keeps _ _ _ _ K' Ea)), (proj1 (name_of_keeps _ _ _ _ K' Eb')) in Eb. congruence.
Qed.
Lemma log_init_fine U v o tl nm0 nm t : keeps nm0 nm ->
  iterbodies (su_e U) (su_fuel U) (s_heap (v_s v)) = Ok (bodies t) -> iterjoints (su_e U) (su_fuel U) (s_heap (v_s v)) = Ok (joints t) -> (forall j, In j (joints t) -> jframes (s_heap (v_s v)) j <> None) ->
  named_apart nm0 (map id_joint (joints t)) -> (forall fs, frames1 (s_heap (v_s v)) (joints t) = Ok fs -> named_apart nm0 (map id_frame fs)) ->
  exists nm' g, log_init U v o tl nm = (nm', Ok g).
Proof.
  intros K Ib Ij Fj Nj Nf. destruct (log_init U v o tl nm) as (nm', [g | e]) eqn:E; [eauto | exfalso]. unfold log_init in E. destruct (log_state_init _ _ _ _ _) as (nm1, r1) eqn:E1. assert (K1 := keeps_trans _ _ _ K (log_state_keeps _ _ _ _ _ _ _ E1)).
  destruct r1 as [dp | e1].
  2: { unfold log_state_init in E1. destruct (lo_state o); [ | discriminate]. rewrite Ij in E1. assert (Q := name_all_fine (su_str_id U) nm0 nm _ K Nj). destruct (name_all_elements _ _ _ _) as (nm2, [[] | e0]); [discriminate | discriminate Q]. }
  destruct (log_what_init _ _ _ _) as (nm2, r2) eqn:E2. destruct r2 as [dw | e2]; [discriminate | ]. unfold log_what_init in E2. destruct (lo_transforms o); [ | discriminate]. destruct (lo_flat o).
  - rewrite Ib in E2. assert (Q := C04_generators_refuted (su_str_id U) nm1 (map (fun b => id_frame (FBody b)) (bodies t)) true). destruct (name_all_elements _ _ _ _) as (nm3, [[] | e0]); [ | discriminate Q].
    assert (Q' := C04_generators_refuted (su_str_id U) nm3 (map (fun m => id_frame (FMov m)) (itermovingsubframes (s_heap (v_s v)))) true). destruct (name_all_elements _ _ _ _) as (nm4, [[] | e0]); [discriminate | discriminate Q'].
  - rewrite Ij in E2. destruct (frames1_total _ _ Fj) as (fs & Ef). rewrite Ef in E2. assert (Q := name_all_fine (su_str_id U) nm0 nm1 _ K1 (Nf fs Ef)). destruct (name_all_elements _ _ _ _) as (nm3, [[] | e0]); [ | discriminate Q].
    assert (Q' := C04_generators_refuted (su_str_id U) nm3 (map (fun m => id_frame (FMov m)) (itermovingsubframes (s_heap (v_s v)))) true). destruct (name_all_elements _ _ _ _) as (nm4, [[] | e0]); [discriminate | discriminate Q'].
Qed.

Lemma bodies_same e fuel h h1 : same_objects h h1 -> iterbodies e fuel h1 = iterbodies e fuel h.
Proof.
  intros (A & B & _). unfold iterbodies. f_equal. generalize (ground e). induction fuel as [ | n IH]; intros b; [reflexivity | ]. cbn. rewrite A.
  assert (Q : rmapM (child_body e h1) (childrenjoints h b) = rmapM (child_body e h) (childrenjoints h b)).
  { generalize (childrenjoints h b). intros l. induction l as [ | j l IHl]; [reflexivity | ]. cbn. unfold child_body at 1 3. rewrite B, IHl. reflexivity. }
  rewrite Q. clear Q. destruct (rmapM (child_body e h) (childrenjoints h b)) as [bs | ]; [ | reflexivity]. cbn [rbind]. apply rconcat_ext. intros c. rewrite IH. reflexivity.
Qed.

(** SaveLoggers do not stop a simulation: if a world built with the API can be simulated without observers, it can be simulated
    with any number of loggers, of any options, and ends in the same state, unless one of them refuses the names of the objects
    when it is initialised (DuplicateNameError).  It does not when the joints have different names and so have the frames they
    move.  (With a flat logger, the registered MovingSubFrames must lie on bodies of the world: the others have no pose.) *)
Theorem C20_loggers_harmless : forall U O t0 ts obs x y g0 t, let h := s_heap (w_s (sm_w x)) in
  reachable 0 (su_e U) g0 h -> rep (su_e U) h t -> root t = ground (su_e U) -> (height t < su_fuel U)%nat ->
  (forall j, In j (joints t) -> jndof (su_e U) j = ndof_of (s_ty (w_s (sm_w x)) j)) ->
  NoDup obs -> (forall i, In i obs -> exists o, O i = OLog o) -> (forall m, In (FMov m) (w_subframes h) -> In (mov_body (su_e U) m) (bodies t)) ->
  simulate U O (t0 :: ts) (IterList []) x = (y, Ok tt) ->
  exists y' r, simulate U O (t0 :: ts) (IterList obs) x = (y', r) /\
    ((r = Ok tt /\ sm_w y' = sm_w y) \/ exists l, r = Err (DuplicateNameError l)) /\
    (named_apart (sm_names x) (map id_joint (joints t)) -> (forall fs, frames1 h (joints t) = Ok fs -> named_apart (sm_names x) (map id_frame fs)) -> r = Ok tt).
Proof.
  intros U O t0 ts obs x y g0 t h Rc Rt Er F Hty No Ho Mv Sm. destruct (simulate U O (t0 :: ts) (IterList obs) x) as (y', r) eqn:E. exists y', r. split; [reflexivity | ].
  destruct (C65_observers_passive U O O t0 ts obs x x y' r eq_refl E) as (y2 & r2 & E2 & D). rewrite Sm in E2. injection E2 as <- <-.
  destruct D as [(<- & W) | (e & i & c & l1 & l2 & x1 & -> & Ii & Oc & Es & P & Ec)]; [split; [left; auto | reflexivity] | ].
  destruct (Ho i Ii) as (o & Eo). set (I := interp U O (t0 :: ts)) in *. set (ty0 := s_ty (w_s (sm_w x))) in *.
  destruct (C45_reachable _ _ _ Rc) as (t2 & Rp2 & Er2 & Hin). assert (t2 = t) as -> by (apply (rep_unique (su_e U) h); auto; congruence). destruct (Hin (su_fuel U) F) as (h' & Ei & Lv). clear Rp2 Er2 Hin.
  destruct (world_iterators (su_e U) h (reachable_forest 0 _ _ _ Rc)) as (t2 & R2 & E2 & N2 & _ & It). assert (t2 = t) by (apply (rep_unique (su_e U) h t2 t R2 Rt); congruence). subst t2. destruct (It (su_fuel U)) as (It1 & _). destruct (It1 F) as (Ib0 & Ij0).
  assert (Fj0 : forall j, In j (joints t) -> jframes h j <> None). { intros j Ij E0. destruct (Proof_Register.subtree_joint t j Ij) as (b & ks & u & Su & Iu). assert (Rb := Proof_World2.subtree_rep (su_e U) h _ _ Su Rt). inversion Rb as [? ? _ Fk]; subst. rewrite Forall_forall in Fk. destruct (Fk _ Iu) as (((f0 & f1 & Ef & _) & _) & _). cbn [fst] in Ef. congruence. }
  (* the first call is World.init *)
  assert (Hd : exists l1' z, l1 = (WInit, t0) :: l1' /\ I WInit (set_w x (set_time (sm_w x) t0)) = (z, Ok tt) /\ performed I z l1' x1 /\ at_ t0 (map OInit obs) ++ steps obs t0 ts ++ at_ (last ts t0) (map OFin obs) = l1' ++ (c, now x1) :: l2).
  { unfold schedule in Es. unfold at_ in Es at 1. cbn [map app] in Es. fold (at_ t0 (map OInit obs)) in Es. destruct l1 as [ | a l1]; [injection Es as Es _ _; subst c; discriminate Oc | ]. injection Es as <- Es. remember ((WInit, t0) :: l1) as l0 eqn:El. remember (set_w x (set_time (sm_w x) t0)) as x0 eqn:Ex0. destruct P as [ | x0 c0 z l y0 E0 P]; [discriminate | ]. injection El as -> _ ->. subst x0. exists l1, z. auto. }
  destruct Hd as (l1' & z & -> & Ez & Pz & Es'). clear Es P. rename l1' into m.
  assert (Az : alive U t h ty0 z).
  { assert (Gr := interp_graph _ _ _ _ _ _ Ez). split; [exact Gr | ]. unfold I in Ez. cbn [interp] in Ez. unfold world_init in Ez. change (s_heap (w_s (sm_w (set_w x (set_time (sm_w x) t0))))) with h in Ez. rewrite Ei in Ez.
    destruct (rmapM _ _); [ | discriminate]. destruct (ctl_inits _ _ _ _); [ | discriminate]. injection Ez as <-. split; [exact Lv | reflexivity]. }
  assert (Nw : forall c r, In (c, r) (at_ t0 (map OInit obs) ++ steps obs t0 ts ++ at_ (last ts t0) (map OFin obs)) -> c <> WInit).
  { intros c0 r J. apply in_app_iff in J. destruct J as [J | J]; [apply in_map_iff in J; destruct J as (c1 & Q & J); injection Q as -> _; apply in_map_iff in J; destruct J as (k & <- & _); discriminate | ].
    apply in_app_iff in J. destruct J as [J | J]; [exact (steps_no_init _ _ _ _ _ J) | ]. apply in_map_iff in J; destruct J as (c1 & Q & J); injection Q as -> _; apply in_map_iff in J; destruct J as (k & <- & _); discriminate. }
  assert (Nm : forall c r, In (c, r) m -> c <> WInit) by (intros c0 r J; apply (Nw c0 r); rewrite Es'; apply in_app_iff; now left).
  assert (A1 := performed_alive U O (t0 :: ts) t h ty0 Hty F _ _ _ Pz Nm Az).
  assert (Kp : keeps (sm_names x) (sm_names x1)).
  { assert (X : forall x l y, performed I x l y -> keeps (sm_names x) (sm_names y)). { clear. induction 1 as [z | z c z1 l y E _ IH]; [apply keeps_refl | ]. eapply keeps_trans; [exact (proj1 (interp_frame _ _ _ _ _ _ _ E)) | exact IH]. }
    eapply keeps_trans; [exact (proj1 (interp_frame _ _ _ _ _ _ _ Ez)) | exact (X _ _ _ Pz)]. }
  assert (So := proj1 A1). fold (heap_of x1) in So.
  destruct c as [ | i' | | | | i' dt | | i']; try discriminate; cbn [of_observer] in Oc; injection Oc as ->.
  - (* init *) unfold I in Ec. cbn [interp] in Ec. unfold obs_init in Ec. rewrite Eo in Ec. destruct (log_init U (w_v (sm_w x1)) o (t0 :: ts) (sm_names x1)) as (nm', [g | e']) eqn:El; [discriminate | ]. injection Ec as _ ->.
    assert (Ib : iterbodies (su_e U) (su_fuel U) (s_heap (v_s (w_v (sm_w x1)))) = Ok (bodies t)).
    { change (s_heap (v_s (w_v (sm_w x1)))) with (heap_of x1). rewrite (bodies_same _ _ _ _ So). exact Ib0. }
    assert (Ij : iterjoints (su_e U) (su_fuel U) (s_heap (v_s (w_v (sm_w x1)))) = Ok (joints t)) by (change (s_heap (v_s (w_v (sm_w x1)))) with (heap_of x1); rewrite (iter_same _ _ _ _ So); exact Ij0).
    assert (Fj : forall j, In j (joints t) -> jframes (s_heap (v_s (w_v (sm_w x1)))) j <> None) by (intros j J; change (s_heap (v_s (w_v (sm_w x1)))) with (heap_of x1); rewrite (proj1 (proj2 So)); exact (Fj0 j J)).
    split.
    + right. destruct (log_init_err U _ o _ _ t _ _ (proj1 (proj1 (proj1 (proj2 A1)))) Er F Ib Ij Fj El) as (l & ->). now exists l.
    + intros Nj Nf. exfalso. destruct (log_init_fine U (w_v (sm_w x1)) o (t0 :: ts) (sm_names x) (sm_names x1) t Kp Ib Ij Fj Nj) as (nm2 & g & Q); [ | rewrite El in Q; discriminate].
      intros fs Ef. apply Nf. rewrite <- Ef. unfold frames1. change (s_heap (v_s (w_v (sm_w x1)))) with (heap_of x1). rewrite (proj1 (proj2 So)). reflexivity.
  - (* update *) exfalso.
    assert (Q := C20_in_bounds U O t0 ts obs x y' e i dt ((WInit, t0) :: m) l2 x1 No). cbv zeta in Q. rewrite Eo in Q. destruct Q as (f & tg & Lg & Et).
    + unfold schedule. unfold at_ at 1. cbn [map app]. fold (at_ t0 (map OInit obs)). now rewrite Es'.
    + assert (T0 : now (set_w x (set_time (sm_w x) t0)) = t0) by reflexivity. rewrite <- T0 at 2. eapply perf_cons; [exact Ez | exact Pz].
    + exact Ec.
    + assert (Ps : has_poses t x1).
      { destruct (upd_prefix obs t0 ts ((WInit, t0) :: m) i dt (now x1) l2 No) as (_ & (m2 & Em & _) & Lt). { unfold schedule. unfold at_ at 1. cbn [map app]. fold (at_ t0 (map OInit obs)). now rewrite Es'. }
        unfold at_ in Em at 1. cbn [map app] in Em. fold (at_ t0 (map OInit obs)) in Em. injection Em as ->. apply perf_inv_app in Pz. destruct Pz as (z2 & P2 & P3). rewrite <- app_assoc in Es'. apply app_inv_head in Es'.
        assert (A2 : alive U t h ty0 z2) by (apply (performed_alive U O (t0 :: ts) t h ty0 Hty F _ _ _ P2); [intros c0 r J; apply (Nm c0 r); apply in_app_iff; now left | exact Az]).
        apply (performed_poses U O (t0 :: ts) t h ty0 Hty F Er _ _ _ P3); [intros c0 r J; apply (Nm c0 r); apply in_app_iff; now right | exact A2 | right].
        destruct ts as [ | u us]; [cbn in Lt; lia | ]. cbn [steps] in Es'. unfold step_calls in Es'. rewrite at_app in Es'. cbn [at_ map app] in Es'. destruct m2 as [ | a m2]; [discriminate | ]. cbn [app] in Es'. injection Es' as <- _. eauto. }
      inversion Lg as [b bs Fl Eb Hb | j js f0 f1 Fl Ej Hj Ef | k Ik]; subst.
      * fold h in Eb. rewrite Ib0 in Eb. injection Eb as <-. cbn [target_pose] in Et. unfold frame_pose in Et. cbn [frame_body] in Et. specialize (Ps b Hb). destruct (a_pose _); [discriminate | congruence].
      * discriminate.
      * cbn [target_pose] in Et. destruct (lo_flat o); [ | discriminate]. unfold frame_pose in Et. cbn [frame_body] in Et. specialize (Ps _ (Mv k Ik)). destruct (a_pose _); [discriminate | congruence].
  - (* finish *) exfalso. unfold I in Ec. cbn [interp] in Ec. unfold obs_finish in Ec. rewrite Eo in Ec. destruct (sm_obs x1 i); discriminate.
Qed.
Print Assumptions C20_loggers_harmless.
