(** A world with one hinge: witnesses for C88 and C89. *)
From Coq Require Import Lra Lia FunctionalExtensionality.
From Verif Require Import Spec_Mem Proof_Mem Proof_Mem2 Proof_Mem3 Proof_Mem4 Proof_Mem5.
From Verif Require Import Spec_Dyn Proof_Tree Proof_World Proof_World2 Proof_World3 Proof_Dofs Proof_Register Proof_World4.
From Verif Require Import Proof_Linalg Proof_Deriv Proof_SE3 Proof_Exp Proof_Joints Proof_Dyn Proof_Dyn2 Props_Dyn Props_DynEx Props_Mem.
Open Scope R_scope.
Definition kz := [RzJoint].
Lemma kz_ready : ready (ch_e kz) (ch_h kz) (ch_t 0 1).
Proof. ch_ready. Qed.
Definition hg_s : wst := WS (ch_h kz) (fun _ => RzJoint) (fun _ => eye4) (fun _ _ => 0) wdyn0 vzero mzero mzero 0.
Lemma kz_rigid sc s : s_heap s = ch_h kz -> s_ty s = (fun _ => RzJoint) -> (forall f, SE3 (bpose sc f)) -> rigid_scene (ch_e kz) sc (ch_t 0 1) (joints_of s).
Proof.
  intros Eh Et Sb. split; [exact Sb | ]. intros j Ij. unfold joints_of, joint_state. cbn [jt]. split.
  - unfold valid_joint. cbn [jt]. rewrite Et. discriminate.
  - rewrite Et. cbn [joints ch_t map] in Ij. destruct Ij as [<- | []]. reflexivity.
Qed.
Lemma kz_frames : jframes (ch_h kz) 1 = Some (FBody 0, FBody 1). Proof. reflexivity. Qed.
Lemma kz_dof : jdof (ch_h kz) 1 = Some (0, 1)%nat. Proof. reflexivity. Qed.
Lemma kz_path : path (ch_t 0 1) 1 [(1, 0)]%nat.
Proof. apply (path_step 0 _ 1 (ch_t 1 0) 1 []); [now left | constructor]. Qed.
Lemma kz_k sc J : kin_of sc (ch_h kz) J [1]%nat = stepk sc (ch_h kz) (J 1%nat) (0, 1)%nat (FBody 0) (FBody 1) kin0.
Proof. unfold kin_of. cbn [fold_right]. unfold stepj. rewrite kz_frames, kz_dof. reflexivity. Qed.
Lemma kz_jac m J : jt (J 1%nat) = RzJoint -> k_jac (kin_of (ch_sc m) (ch_h kz) J [1]%nat) 0%nat = e6 2.
Proof.
  intros Et. rewrite kz_k. cbn [stepk k_jac kin0 fst snd bpose]. rewrite adjoint_eye, mv6_zero6, v6add_0_l. unfold slice_col. cbn [Nat.leb Nat.ltb andb Nat.sub]. rewrite mv6_1.
  unfold jacobian. rewrite Et. reflexivity.
Qed.
(** the mass matrix of a body of mass eye(6) on a hinge is eye(1) *)
Lemma kz_mass s : s_heap s = ch_h kz -> s_ty s = (fun _ => RzJoint) ->
  exists st d, world_update_dynamic (ch_e kz) (ch_sc (fun _ => eye6)) (s_heap s) (joints_of s) 3 (fun _ => no_attr) = Ok (st, d) /\ d_mass d 0%nat 0%nat = 1.
Proof.
  intros Eh Et. rewrite Eh. destruct (world_ok (ch_e kz) (ch_sc (fun _ => eye6)) (ch_h kz) (ch_t 0 1) (joints_of s) 3 (fun _ => no_attr) kz_ready) as (st & d & E & P & _ & M & _).
  { apply kz_rigid; [assumption | assumption | ]. intros [b | b | b]; apply SE3_eye. }
  { cbn. lia. }
  exists st, d. split; [exact E | ]. rewrite M. change (tl (bodies (ch_t 0 1))) with [1%nat]. cbn [suml ch_sc b_mass].
  assert (K := kin_at_attr st 1 _ _ (P _ _ kz_path)). rewrite K. cbn [map fst]. unfold congr. rewrite kz_jac; [ | unfold joints_of, joint_state; cbn [jt]; now rewrite Et].
  rewrite mv6_1. unf. cbn. lra.
Qed.
(** the pose of the body is the rotation of the joint *)
Lemma kz_pose m s st0 : s_heap s = ch_h kz -> s_ty s = (fun _ => RzJoint) ->
  exists st, world_update_geometric (ch_e kz) (ch_sc m) (s_heap s) (joints_of s) 3 st0 = Ok st /\ a_pose (st 1%nat) = Some (rotz (s_q s 1%nat 0%nat)).
Proof.
  intros Eh Et. rewrite Eh. destruct (geometric_ok (ch_e kz) (ch_sc m) (ch_h kz) (ch_t 0 1) (joints_of s) 3 st0 kz_ready) as (st & E & P & _).
  { apply kz_rigid; [assumption | assumption | ]. intros [b | b | b]; apply SE3_eye. }
  { cbn. lia. }
  exists st. split; [exact E | ]. rewrite (P _ _ kz_path). cbn [a_pose map fst]. f_equal. cbn [fold_right]. unfold posej. rewrite kz_frames, rel_bodies, mm4_1_l.
  unfold joints_of, joint_state, Model_Joints.pose. cbn [jt gpos]. rewrite Et. reflexivity.
Qed.

(** general steps, over any world *)
Lemma dyn_mass e n w st d : owned w -> world_update_dynamic e (scene_in w) (mw_heap w) (joints_of (wst_in w)) n (store_in w) = Ok (st, d) ->
  mw_mass (fst (mcall_run e n CDynamic w)) = mw_mass w /\ m_at (rn (mw_ram (fst (mcall_run e n CDynamic w)))) (mw_mass w) = d_mass d.
Proof.
  intros O E. assert (Pm : mw_mass (fst (mcall_run e n CDynamic w)) = mw_mass w) by exact (f_equal (fun p => fst (fst (fst (fst p)))) (call_places e n CDynamic w O ltac:(discriminate))). split; [exact Pm | ].
  assert (V := proj1 (proj2 (C88_values e n w O))). destruct (mcall_run e n CDynamic w) as (w1 & r). cbn [fst] in *. rewrite E in V. destruct V as (_ & _ & _ & V).
  rewrite <- Pm. exact (f_equal (fun s => d_mass (s_dyn s)) V).
Qed.
Lemma geo_pose e n w st b H : owned w -> world_update_geometric e (scene_in w) (mw_heap w) (joints_of (wst_in w)) n (store_in w) = Ok st -> a_pose (st b) = Some H ->
  let w1 := fst (mcall_run e n CGeometric w) in
  owned w1 /\ scene_in w1 = scene_in w /\ wst_in w1 = wst_in w /\ exists a, v_pose (mw_body w1 b) = Some a /\ m_at (r4 (mw_ram w1)) a = H.
Proof.
  intros O E Eb. cbv zeta. cbn [mcall_run]. assert (V := m_update_geometric_ok e n w O). destruct (m_update_geometric e n w) as (w1 & r). cbn [fst]. rewrite E in V. destruct V as (K & V1 & V2 & _ & V3).
  split; [apply K | ]. split; [exact V1 | ]. split; [exact V2 | ]. rewrite <- V3 in Eb. change (a_pose (store_in w1 b)) with (option_map (m_at (r4 (mw_ram w1))) (v_pose (mw_body w1 b))) in Eb.
  destruct (v_pose (mw_body w1 b)) as [a | ]; [ | discriminate]. exists a. split; [reflexivity | ]. cbn [option_map] in Eb. congruence.
Qed.
Lemma gpos_moved e n w j q : owned w -> mw_ty w j = RzJoint -> let w1 := fst (mcall_run e n (CSetGpos j q) w) in
  owned w1 /\ scene_in w1 = scene_in w /\ mw_heap w1 = mw_heap w /\ s_ty (wst_in w1) = s_ty (wst_in w) /\ s_q (wst_in w1) j = q.
Proof.
  intros O T. cbv zeta. cbn [mcall_run]. assert (A := m_set_gpos_ok j q w O). assert (E : snd (m_set_gpos j q w) = Ok tt) by (unfold m_set_gpos; now rewrite T).
  destruct (m_set_gpos j q w) as (w1 & r). cbn [fst snd] in *. destruct A as (K & (A1 & A2 & A3) & A4). specialize (A4 E). split; [apply K | ]. split; [exact A1 | ]. split; [exact A3 | ].
  rewrite A4. cbn [s_ty s_q]. split; [reflexivity | ]. unfold upd. now rewrite Nat.eqb_refl.
Qed.
Lemma live_refuted e n w st d : owned w -> world_update_dynamic e (scene_in w) (mw_heap w) (joints_of (wst_in w)) n (store_in w) = Ok (st, d) ->
  d_mass d 0%nat 0%nat <> d_mass (s_dyn (wst_in w)) 0%nat 0%nat ->
  exists css w' xs vs, legal_watch e n QWMass css w /\ no_init (concat css) /\ watch e n QWMass css w = (w', xs, vs) /\ map (rmap (content w')) xs <> vs.
Proof.
  intros O E N. destruct (dyn_mass e n w st d O E) as (Pm & D). exists [[]; [CDynamic]]. cbn [watch mcalls_run fetch rmap]. set (w1 := fst (mcall_run e n CDynamic w)) in *.
  do 3 eexists. split; [cbn [legal_watch legal_calls legal]; repeat split | ]. split; [intros [X | []]; discriminate | ]. split; [reflexivity | ].
  cbn [map rmap content]. rewrite D. intros X. injection X as X. apply (f_equal (fun A : mat => A 0%nat 0%nat)) in X. exact (N X).
Qed.
(** Kept arrays of world.mass do not show the values they were read with: after init the matrix is zero, after update_dynamic it is not. *)
Theorem C89_history_refuted : exists e fuel css w w' xs vs, owned w /\ live_query w QWMass /\ legal_watch e fuel QWMass css w /\ no_init (concat css) /\ watch e fuel QWMass css w = (w', xs, vs) /\
  map (rmap (content w')) xs <> vs.
Proof.
  destruct (load_ok (ch_sc (fun _ => eye6)) hg_s) as (O & _ & Es & Ew & Est).
  destruct (kz_mass hg_s eq_refl eq_refl) as (st & d & E & Ed).
  destruct (live_refuted (ch_e kz) 3 (load (ch_sc (fun _ => eye6)) hg_s) st d O) as (css & w' & xs & vs & A & B & C & D).
  { change (mw_heap (load (ch_sc (fun _ => eye6)) hg_s)) with (s_heap hg_s). rewrite Es, Ew, Est. exact E. }
  { rewrite Ed, Ew. cbn. lra. }
  do 7 eexists. split; [exact O | ]. split; [exact Logic.I | ]. split; [exact A | ]. split; [exact B | ]. split; [exact C | exact D].
Qed.
Lemma two_poses e n w b j q st st' H H' : owned w -> mw_ty w j = RzJoint ->
  world_update_geometric e (scene_in w) (mw_heap w) (joints_of (wst_in w)) n (store_in w) = Ok st -> a_pose (st b) = Some H ->
  (forall s st0, s_heap s = mw_heap w -> s_ty s = mw_ty w -> s_q s j = q -> world_update_geometric e (scene_in w) (mw_heap w) (joints_of s) n st0 = Ok (st' s st0) /\ a_pose (st' s st0 b) = Some H') ->
  exists css w' x1 x2, legal_watch e n (QPose (FBody b)) css w /\ watch e n (QPose (FBody b)) css w = (w', [Ok x1; Ok x2], [Ok (Val4 H); Ok (Val4 H')]) /\ content w' x1 = Val4 H /\ content w' x2 = Val4 H'.
Proof.
  intros O T E1 P1 E2. destruct (geo_pose e n w st b H O E1 P1) as (O1 & S1 & W1 & a1 & V1 & C1).
  set (w1 := fst (mcall_run e n CGeometric w)) in *.
  assert (T1 : mw_ty w1 j = RzJoint) by (assert (X := f_equal s_ty W1); cbn in X; now rewrite X).
  destruct (gpos_moved e n w1 j q O1 T1) as (O2 & S2 & H2 & T2 & Q2). set (w2 := fst (mcall_run e n (CSetGpos j q) w1)) in *.
  assert (Hh : mw_heap w1 = mw_heap w) by exact (f_equal s_heap W1).
  destruct (E2 (wst_in w2) (store_in w2)) as (E3 & P3); [cbn [wst_in s_heap]; congruence | rewrite T2, W1; reflexivity | exact Q2 | ].
  destruct (geo_pose e n w2 (st' (wst_in w2) (store_in w2)) b H' O2) with (2 := P3) as (O3 & S3 & W3 & a3 & V3 & C3).
  { rewrite S2, S1, H2, Hh. exact E3. }
  set (w3 := fst (mcall_run e n CGeometric w2)) in *.
  set (css := [[CGeometric]; [CSetGpos j q; CGeometric]]).
  assert (Lw : legal_watch e n (QPose (FBody b)) css w) by (unfold css; cbn [legal_watch legal_calls legal]; repeat split).
  assert (Wa : watch e n (QPose (FBody b)) css w = (w3, [Ok (H4 a1); Ok (H4 a3)], [Ok (Val4 H); Ok (Val4 H')])).
  { unfold css. cbn [watch mcalls_run fetch]. fold w1. fold w2. fold w3. rewrite V1, V3. cbn [attr_handle rmap content]. rewrite C1, C3. reflexivity. }
  assert (Rc := C88_record e n (QPose (FBody b)) css w w3 _ _ O Logic.I Lw Wa). cbn [map rmap] in Rc.
  exists css, w3, (H4 a1), (H4 a3). split; [exact Lw | ]. split; [exact Wa | ].
  assert (Rd := Rc ltac:(intros x _ m a [X | [X | [X | []]]]; discriminate)). injection Rd as R1 R2. cbn [content]. rewrite R1, R2. split; reflexivity.
Qed.
(** The hypotheses of C88 are met by a run in which the values differ: the pose read at two positions of the hinge. *)
Theorem C88_witness : exists e fuel css w w' x1 x2, owned w /\ legal_watch e fuel (QPose (FBody 1)) css w /\
  watch e fuel (QPose (FBody 1)) css w = (w', [Ok x1; Ok x2], [Ok (Val4 (rotz 0)); Ok (Val4 (rotz PI))]) /\
  content w' x1 = Val4 (rotz 0) /\ content w' x2 = Val4 (rotz PI) /\ rotz 0 <> rotz PI.
Proof.
  destruct (load_ok (ch_sc (fun _ => eye6)) hg_s) as (O & _ & Es & Ew & Est).
  destruct (kz_pose (fun _ => eye6) hg_s (fun _ => no_attr) eq_refl eq_refl) as (st & E & P).
  destruct (two_poses (ch_e kz) 3 (load (ch_sc (fun _ => eye6)) hg_s) 1 1 (fun _ => PI) st
    (fun s st0 => match world_update_geometric (ch_e kz) (ch_sc (fun _ => eye6)) (s_heap s) (joints_of s) 3 st0 with Ok st => st | Err _ => st0 end) (rotz 0) (rotz PI) O eq_refl) as (css & w' & x1 & x2 & A & B & C & D).
  { change (mw_heap (load (ch_sc (fun _ => eye6)) hg_s)) with (s_heap hg_s). rewrite Es, Ew, Est. exact E. }
  { exact P. }
  { intros s st0 Eh Et Eq. change (mw_heap (load (ch_sc (fun _ => eye6)) hg_s)) with (ch_h kz) in *. rewrite Es. destruct (kz_pose (fun _ => eye6) s st0 Eh Et) as (st1 & F & G).
    rewrite F. rewrite Eh in F. rewrite Eq in G. split; [exact F | exact G]. }
  do 7 eexists. split; [exact O | ]. split; [exact A | ]. split; [exact B | ]. split; [exact C | ]. split; [exact D | ].
  intros X. apply (f_equal (fun M => m00 (rot M))) in X. cbn in X. rewrite cos_0, cos_PI in X. lra.
Qed.
