(** C53: PointContact.update. *)
From Verif Require Import Spec_Con Spec_Dyn Proof_Tree Proof_Linalg Proof_Deriv Proof_SE3 Proof_Joints Proof_Dyn Proof_Dyn2 Props_Dyn Props_DynEx.
From Verif Require Import Proof_Matrix Proof_Cons Props_Con.

Lemma sum6_scal n k f : sum6 n (fun i => v6scal k (f i)) = v6scal k (sum6 n f).
Proof. induction n as [ | n IH]; cbn [sum6]; [symmetry; apply v6scal_zero6 | ]. rewrite IH, v6scal_add. reflexivity. Qed.

(** After [World.update_dynamic], for a contact whose private frames sit on the bodies of its shapes and
    a collision solver returning rigid motions: [update] succeeds, stores the distance, resets the force,
    puts the two frames exactly where the collision solver said, and activates the contact iff the gap
    predicted with the normal row of the contact's jacobian is below the proximity. *)
Theorem C53_update : forall e sc h t J v fuel st sd d E c dt sdist Hc0 Hc1,
  ready e h t -> rigid_scene e sc t J -> (height t < fuel)%nat -> world_velocity e h t J v ->
  world_update_dynamic e sc h J fuel st = Ok (sd, d) ->
  ce_e E = e -> ce_sc E = sc -> ce_st E = sd ->
  In (sf_b0 c) (bodies t) -> In (sf_b1 c) (bodies t) ->
  mov_body e (sf_m0 c) = sf_b0 c -> mov_body e (sf_m1 c) = sf_b1 c -> sf_m0 c <> sf_m1 c ->
  sf_coll c sd = Ok (sdist, Hc0, Hc1) -> SE3 Hc0 -> SE3 Hc1 ->
  exists c' A, sf_update E c dt = Ok c' /\
    frame_pose e (sf_scene E c') sd (FMov (sf_m0 c)) = Ok Hc0 /\
    frame_pose e (sf_scene E c') sd (FMov (sf_m1 c)) = Ok Hc1 /\
    sf_jac E c' = Ok A /\
    (sf_act c' = true <-> sdist + dt * mvn (w_ndof h) A v 3%nat < sf_prox c) /\
    sf_sdist c' = sdist /\ (forall i, sf_force c' i = 0) /\
    sf_on c' = sf_on c /\ sf_mu c' = sf_mu c /\ sf_prox c' = sf_prox c /\ (forall i, sf_eps c' i = sf_eps c i) /\
    (forall f, f <> FMov (sf_m0 c) -> f <> FMov (sf_m1 c) -> bpose (sf_scene E c') f = bpose sc f).
Proof.
  intros e sc h t J v fuel st sd d E c dt sdist Hc0 Hc1 Rd Ri F Wv U Ee Es Et I0 I1 M0 M1 Nm Cl S0 S1.
  destruct (C39_poses e sc h t J fuel st Rd Ri F) as (sg & sd' & d' & _ & U' & HP & _). rewrite U in U'. injection U' as <- <-.
  destruct (C40_twist_is_jacobian_gvel e sc h t J v fuel st Rd Ri F Wv) as (sd' & d' & U' & HT). rewrite U in U'. injection U' as <- <-.
  destruct (HP (FBody (sf_b0 c)) I0) as (P0 & SP0 & _ & EP0 & _ & _). destruct (HP (FBody (sf_b1 c)) I1) as (P1 & SP1 & _ & EP1 & _ & _).
  destruct (HT (FBody (sf_b0 c)) I0) as (T0 & A0 & ET0 & EA0 & Q0 & _). destruct (HT (FBody (sf_b1 c)) I1) as (T1 & A1 & ET1 & EA1 & Q1 & _).
  cbn [frame_body frame_twist frame_jac] in *.
  set (B0 := mm4 (inv_ P0) Hc0). set (B1 := mm4 (inv_ P1) Hc1).
  assert (SB0 : SE3 B0) by (apply SE3_mm4; auto; apply SE3_inv; auto). assert (SB1 : SE3 B1) by (apply SE3_mm4; auto; apply SE3_inv; auto).
  assert (SH : SE3 (mm4 (inv_ Hc0) Hc1)) by (apply SE3_mm4; auto; apply SE3_inv; auto).
  set (sc' := with_frames sc (sf_m0 c) (sf_m1 c) B0 B1).
  assert (E0 : bpose sc' (FMov (sf_m0 c)) = B0).
  { cbn [sc' with_frames bpose mov_bpose]. unfold upd. destruct (Nat.eqb_spec (sf_m1 c) (sf_m0 c)); [congruence | ]. rewrite ?Nat.eqb_refl. destruct (Nat.eqb_spec (sf_m0 c) (sf_m1 c)); [congruence | ]. reflexivity. }
  assert (E1 : bpose sc' (FMov (sf_m1 c)) = B1) by (cbn [sc' with_frames bpose mov_bpose]; unfold upd; rewrite Nat.eqb_refl; reflexivity).
  assert (W0 : mm4 P0 B0 = Hc0) by (unfold B0; rewrite mm4_assoc, inv_r, mm4_1_l; auto).
  assert (W1 : mm4 P1 B1 = Hc1) by (unfold B1; rewrite mm4_assoc, inv_r, mm4_1_l; auto).
  assert (Fp0 : frame_pose e sc' sd (FMov (sf_m0 c)) = Ok Hc0).
  { unfold frame_pose. cbn [frame_body]. rewrite M0, E0. rewrite EP0. cbn [get rbind]. f_equal. exact W0. }
  assert (Fp1 : frame_pose e sc' sd (FMov (sf_m1 c)) = Ok Hc1).
  { unfold frame_pose. cbn [frame_body]. rewrite M1, E1. rewrite EP1. cbn [get rbind]. f_equal. exact W1. }
  assert (Ft0 : frame_twist e sc' sd (FMov (sf_m0 c)) = Ok (mv6 (iadjoint_ B0) T0)).
  { unfold frame_twist. cbn [frame_body]. rewrite M0, E0, iadjoint_ok by auto. cbn [rbind]. rewrite ET0. reflexivity. }
  assert (Ft1 : frame_twist e sc' sd (FMov (sf_m1 c)) = Ok (mv6 (iadjoint_ B1) T1)).
  { unfold frame_twist. cbn [frame_body]. rewrite M1, E1, iadjoint_ok by auto. cbn [rbind]. rewrite ET1. reflexivity. }
  eexists. eexists. split.
  { unfold sf_update. rewrite Et, Ee, Es, Cl. cbn [rbind]. unfold get. rewrite EP0. cbn [rbind]. rewrite inv_ok by auto. cbn [rbind].
    rewrite EP1. cbn [rbind]. rewrite inv_ok by auto. cbn [rbind]. unfold set_bpose. fold B0 B1. rewrite !ishom_SE3 by auto. cbn [rbind].
    rewrite inv_ok by auto. cbn [rbind]. rewrite adjoint_ok by auto. cbn [rbind]. fold sc'. rewrite Ft1. cbn [rbind]. rewrite Ft0. cbn [rbind]. reflexivity. }
  unfold sf_scene at 1 2. unfold sf_jac, sf_scene. cbn [sf_m0 sf_m1 sf_H0 sf_H1 sf_act sf_sdist sf_force sf_on sf_mu sf_prox sf_eps]. rewrite Es, Ee, Et. fold sc'.
  split; [exact Fp0 | ]. split; [exact Fp1 | ]. split.
  { unfold rel_jac. rewrite Fp0. cbn [rbind]. rewrite inv_ok by auto. cbn [rbind]. rewrite Fp1. cbn [rbind]. rewrite adjoint_ok by auto. cbn [rbind].
    unfold frame_jac. cbn [frame_body]. rewrite M0, M1, E0, E1, !iadjoint_ok by auto. cbn [rbind]. rewrite EA0, EA1. cbn [rbind]. reflexivity. }
  split.
  { rewrite Rltb_true. cbv beta.
    set (K := fun i => v6sub (mv6 (adjoint_ (mm4 (inv_ Hc0) Hc1)) (mv6 (iadjoint_ B1) (A1 i))) (mv6 (iadjoint_ B0) (A0 i))).
    change (mvn (w_ndof h) _ v 3%nat) with (mvn (w_ndof h) (fun k i => comp6 k (K i)) v 5%nat).
    rewrite <- comp6_sum.
    replace (sum6 (w_ndof h) (fun i => v6scal (v i) (K i))) with
      (v6sub (mv6 (adjoint_ (mm4 (inv_ Hc0) Hc1)) (mv6 (iadjoint_ B1) T1)) (mv6 (iadjoint_ B0) T0)).
    2:{ rewrite Q0, Q1, <- !sum6_mv6. clear.
        rewrite (sum6_ext _ (fun i => v6scal (v i) (K i)) (fun i => v6add (mv6 (adjoint_ (mm4 (inv_ Hc0) Hc1)) (mv6 (iadjoint_ B1) (v6scal (v i) (A1 i)))) (v6scal (-1) (mv6 (iadjoint_ B0) (v6scal (v i) (A0 i)))))).
        2:{ intros i _. unfold K. rewrite !mv6_scal. generalize (mv6 (adjoint_ (mm4 (inv_ Hc0) Hc1)) (mv6 (iadjoint_ B1) (A1 i))) (mv6 (iadjoint_ B0) (A0 i)). lin. }
        rewrite sum6_add, sum6_scal. generalize (sum6 (w_ndof h) (fun i => mv6 (adjoint_ (mm4 (inv_ Hc0) Hc1)) (mv6 (iadjoint_ B1) (v6scal (v i) (A1 i))))) (sum6 (w_ndof h) (fun i => mv6 (iadjoint_ B0) (v6scal (v i) (A0 i)))). lin. }
    assert (C5 : forall a b, comp6 5 (v6sub a b) = comp6 5 a - comp6 5 b) by reflexivity.
    rewrite C5. split; lra. }
  repeat split; auto.
  intros [x | x | x] N0 N1; try reflexivity. cbn [sc' with_frames bpose mov_bpose]. unfold upd.
  destruct (Nat.eqb_spec x (sf_m1 c)); [congruence | ]. destruct (Nat.eqb_spec x (sf_m0 c)); [congruence | ]. reflexivity.
Qed.

(** The rate used in the prediction is the true one: for the frames left by [update] at time [s], carried
    along by the bodies in any motion, the normal component of the position of frame 1 seen from frame 0
    grows at exactly that rate, provided frame 1 is on the normal of frame 0 (as the collision solvers
    arrange). *)
Theorem C53_gap_rate : forall e sc h t f s fuel st (St : R -> store) (D : R -> wdyn) v E c c' dt sdist Hc0 Hc1,
  ready e h t -> rigid_scene e sc t (f s) -> world_motion t f s -> (height t < fuel)%nat ->
  (forall u, world_update_dynamic e sc h (f u) fuel st = Ok (St u, D u)) -> world_velocity e h t (f s) v ->
  ce_e E = e -> ce_sc E = sc -> ce_st E = St s ->
  In (sf_b0 c) (bodies t) -> In (sf_b1 c) (bodies t) ->
  mov_body e (sf_m0 c) = sf_b0 c -> mov_body e (sf_m1 c) = sf_b1 c -> sf_m0 c <> sf_m1 c ->
  sf_coll c (St s) = Ok (sdist, Hc0, Hc1) -> SE3 Hc0 -> SE3 Hc1 ->
  (exists z, pos (mm4 (inv_ Hc0) Hc1) = V3 0 0 z) ->
  sf_update E c dt = Ok c' ->
  exists A P0 P1, sf_jac E c' = Ok A /\ P0 s = Hc0 /\ P1 s = Hc1 /\
    (forall u, frame_pose e (sf_scene E c') (St u) (FMov (sf_m0 c)) = Ok (P0 u) /\
               frame_pose e (sf_scene E c') (St u) (FMov (sf_m1 c)) = Ok (P1 u)) /\
    derivable_pt_lim (fun u => vz (pos (mm4 (inv_ (P0 u)) (P1 u)))) s (mvn (w_ndof h) A v 3%nat).
Proof.
  intros e sc h t f s fuel st St D v E c c' dt sdist Hc0 Hc1 Rd Ri Mo F U Wv Ee Es Et I0 I1 M0 M1 Nm Cl S0 S1 [z Hz] Up.
  destruct (C53_update e sc h t (f s) v fuel st (St s) (D s) E c dt sdist Hc0 Hc1 Rd Ri F Wv (U s) Ee Es Et I0 I1 M0 M1 Nm Cl S0 S1)
    as (c2 & A & Up2 & F0 & F1 & EA & _). rewrite Up in Up2. injection Up2 as <-.
  destruct (C41_pose_derivative e sc h t f s fuel st St D Rd Ri Mo F U (FBody (sf_b0 c)) I0) as (G0 & T0 & HG0 & HT0 & D0).
  destruct (C41_pose_derivative e sc h t f s fuel st St D Rd Ri Mo F U (FBody (sf_b1 c)) I1) as (G1 & T1 & HG1 & HT1 & D1).
  destruct (C40_twist_is_jacobian_gvel e sc h t (f s) v fuel st Rd Ri F Wv) as (sd' & d' & U' & HT). rewrite U in U'. injection U' as <- <-.
  destruct (HT (FBody (sf_b0 c)) I0) as (T0' & A0 & ET0 & EA0 & Q0 & _). destruct (HT (FBody (sf_b1 c)) I1) as (T1' & A1 & ET1 & EA1 & Q1 & _).
  rewrite HT0 in ET0. injection ET0 as <-. rewrite HT1 in ET1. injection ET1 as <-.
  assert (SG : forall u b G, In b (bodies t) -> frame_pose e sc (St u) (FBody b) = Ok G -> SE3 G).
  { intros u b G Ib EG. assert (Ru := rigid_motion e sc t f s u Ri Mo).
    destruct (C39_poses e sc h t (f u) fuel st Rd Ru F) as (sg & sd' & d' & _ & U' & HP & _). rewrite U in U'. injection U' as <- <-.
    destruct (HP (FBody b) Ib) as (H & SH & _ & _ & _ & EH). rewrite EG in EH. injection EH as ->. apply SE3_mm4; auto. apply SE3_eye. }
  assert (SG0 : forall u, SE3 (G0 u)) by (intros u; apply (SG u _ _ I0 (HG0 u))).
  assert (SG1 : forall u, SE3 (G1 u)) by (intros u; apply (SG u _ _ I1 (HG1 u))).
  assert (PO : forall u b G, frame_pose e sc (St u) (FBody b) = Ok G -> a_pose (St u b) = Some G).
  { intros u b G EG. unfold frame_pose in EG. cbn [frame_body] in EG. destruct (a_pose _); [ | discriminate]. cbn in EG. congruence. }
  (* the frames left by update *)
  unfold sf_update in Up. rewrite Et, Ee, Es, Cl in Up. cbn [rbind] in Up. rewrite (PO s _ _ (HG0 s)), (PO s _ _ (HG1 s)) in Up. cbn [get rbind] in Up.
  rewrite !inv_ok in Up by auto. cbn [rbind] in Up.
  set (B0 := mm4 (inv_ (G0 s)) Hc0) in *. set (B1 := mm4 (inv_ (G1 s)) Hc1) in *.
  assert (SB0 : SE3 B0) by (apply SE3_mm4; auto; apply SE3_inv; auto). assert (SB1 : SE3 B1) by (apply SE3_mm4; auto; apply SE3_inv; auto).
  unfold set_bpose in Up. rewrite !ishom_SE3 in Up by auto. cbn [rbind] in Up.
  assert (SH : SE3 (mm4 (inv_ Hc0) Hc1)) by (apply SE3_mm4; auto; apply SE3_inv; auto).
  rewrite adjoint_ok in Up by auto. cbn [rbind] in Up.
  destruct (frame_twist e _ (St s) (FMov (sf_m1 c))) as [X1 | ] eqn:EX1; [ | discriminate]. cbn [rbind] in Up.
  destruct (frame_twist e _ (St s) (FMov (sf_m0 c))) as [X0 | ] eqn:EX0; [ | discriminate]. cbn [rbind] in Up.
  injection Up as <-. unfold sf_jac, sf_scene in *. cbn [sf_m0 sf_m1 sf_H0 sf_H1] in *. rewrite Es, Ee, Et in *.
  set (sc' := with_frames sc (sf_m0 c) (sf_m1 c) B0 B1) in *.
  assert (E0 : bpose sc' (FMov (sf_m0 c)) = B0).
  { cbn [sc' with_frames bpose mov_bpose]. unfold upd. rewrite ?Nat.eqb_refl. destruct (Nat.eqb_spec (sf_m0 c) (sf_m1 c)); [congruence | ]. reflexivity. }
  assert (E1 : bpose sc' (FMov (sf_m1 c)) = B1) by (cbn [sc' with_frames bpose mov_bpose]; unfold upd; rewrite Nat.eqb_refl; reflexivity).
  exists A, (fun u => mm4 (G0 u) B0), (fun u => mm4 (G1 u) B1). split; [exact EA | ].
  assert (W0 : mm4 (G0 s) B0 = Hc0) by (unfold B0; rewrite mm4_assoc, inv_r, mm4_1_l; auto).
  assert (W1 : mm4 (G1 s) B1 = Hc1) by (unfold B1; rewrite mm4_assoc, inv_r, mm4_1_l; auto).
  split; [exact W0 | ]. split; [exact W1 | ]. split.
  { intros u. unfold frame_pose. cbn [frame_body]. rewrite M0, M1, (PO u _ _ (HG0 u)), (PO u _ _ (HG1 u)). cbn [get rbind]. rewrite E0, E1. split; reflexivity. }
  assert (DP0 : dm4 (fun u => mm4 (G0 u) B0) s (mm4 (mm4 (G0 s) B0) (hat (mv6 (iadjoint_ B0) T0)))).
  { eapply (tw_eq (fun u => mm4 (G0 u) B0)); [exact (compose_deriv G0 (fun _ => B0) s T0 zero6 SG0 (fun _ => SB0) D0 (const_motion B0 s SB0)) | ]. cbv beta. apply v6add_0_r. }
  assert (DP1 : dm4 (fun u => mm4 (G1 u) B1) s (mm4 (mm4 (G1 s) B1) (hat (mv6 (iadjoint_ B1) T1)))).
  { eapply (tw_eq (fun u => mm4 (G1 u) B1)); [exact (compose_deriv G1 (fun _ => B1) s T1 zero6 SG1 (fun _ => SB1) D1 (const_motion B1 s SB1)) | ]. cbv beta. apply v6add_0_r. }
  assert (DH := relative_deriv (fun u => mm4 (G0 u) B0) (fun u => mm4 (G1 u) B1) s _ _ (fun u => SE3_mm4 _ _ (SG0 u) SB0) (fun u => SE3_mm4 _ _ (SG1 u) SB1) DP0 DP1). cbv zeta in DH. cbv beta in DH.
  rewrite W0, W1 in DH. set (T := v6sub _ _) in DH.
  assert (EA3 : mvn (w_ndof h) A v 3%nat = vz (lin T)).
  { unfold rel_jac in EA. rewrite F0 in EA. cbn [rbind] in EA. rewrite inv_ok in EA by auto. cbn [rbind] in EA. rewrite F1 in EA. cbn [rbind] in EA. rewrite adjoint_ok in EA by auto. cbn [rbind] in EA.
    unfold frame_jac in EA. cbn [frame_body] in EA. rewrite M0, M1, E0, E1, !iadjoint_ok in EA by auto. cbn [rbind] in EA.
    cbn [frame_jac] in EA0, EA1. rewrite EA0, EA1 in EA. cbn [rbind] in EA. injection EA as <-.
    set (K := fun i => v6sub (mv6 (adjoint_ (mm4 (inv_ Hc0) Hc1)) (mv6 (iadjoint_ B1) (A1 i))) (mv6 (iadjoint_ B0) (A0 i))).
    change (mvn (w_ndof h) _ v 3%nat) with (mvn (w_ndof h) (fun k i => comp6 k (K i)) v 5%nat).
    rewrite <- comp6_sum. change (vz (lin T)) with (comp6 5 T). f_equal. unfold T. rewrite Q0, Q1, <- !sum6_mv6. clear.
    rewrite (sum6_ext _ (fun i => v6scal (v i) (K i)) (fun i => v6add (mv6 (adjoint_ (mm4 (inv_ Hc0) Hc1)) (mv6 (iadjoint_ B1) (v6scal (v i) (A1 i)))) (v6scal (-1) (mv6 (iadjoint_ B0) (v6scal (v i) (A0 i)))))).
    2:{ intros i _. unfold K. rewrite !mv6_scal. generalize (mv6 (adjoint_ (mm4 (inv_ Hc0) Hc1)) (mv6 (iadjoint_ B1) (A1 i))) (mv6 (iadjoint_ B0) (A0 i)). lin. }
    rewrite sum6_add, sum6_scal. generalize (sum6 (w_ndof h) (fun i => mv6 (adjoint_ (mm4 (inv_ Hc0) Hc1)) (mv6 (iadjoint_ B1) (v6scal (v i) (A1 i))))) (sum6 (w_ndof h) (fun i => mv6 (iadjoint_ B0) (v6scal (v i) (A0 i)))). lin. }
  rewrite EA3. destruct DH as (_ & (_ & _ & Dz) & _ & _). cbv beta in Dz.
  match type of Dz with derivable_pt_lim _ _ ?x => replace (vz (lin T)) with x; [exact Dz | ] end.
  rewrite (SE3_eta _ SH), Hz. generalize (rot (mm4 (inv_ Hc0) Hc1)). clear. generalize T. lin.
Qed.

(** A body hinged to the ground about z, turning at 1 rad/s, and a contact normal along y at (1, 0, 0):
    the gap of 0.5 m closes at 1 m/s, so that the contact is active for a step of 0.5 s and a proximity of
    1 cm although it is not within the proximity.  (rotx (-PI/2) has its z axis along y.) *)
Definition cw_e : env := Env 0 (fun _ => 0%nat) (fun m => m) (fun _ => FBody 0) (fun _ => []) (fun j => match j with O => O | S i => ndof_of (nth i kz FixedJoint) end).
Lemma cw_ready : ready cw_e (ch_h kz) (ch_t 0 1). Proof. ch_ready. Qed.
Definition cw_R : m3 := M3 1 0 0 0 0 1 0 (-1) 0.
Definition cw_H (y : R) : m4 := M4 cw_R (V3 1 y 0) zero3 1.
Lemma cw_SE3 y : SE3 (cw_H y).
Proof. split; [ | split; reflexivity]. split; unfold cw_H, cw_R; cbn [rot]; unf; entries; ring. Qed.
Definition cw_c : sfc := SF true 1 0 1 0 eye4 eye4 (fun _ => Ok (1 / 2, cw_H 0, cw_H (1 / 2))) false 0 (1 / 100) 1 (fun _ => 1) vzero.
Example C53_witness : exists sd d E A c',
  world_update_dynamic cw_e kz_sc (ch_h kz) (mv_f kz 0) 10 (fun _ => no_attr) = Ok (sd, d) /\
  ce_e E = cw_e /\ ce_sc E = kz_sc /\ ce_st E = sd /\ world_velocity cw_e (ch_h kz) (ch_t 0 1) (mv_f kz 0) (fun _ => 1) /\
  sf_update E cw_c (1 / 2) = Ok c' /\ sf_jac E c' = Ok A /\ mvn 1 A (fun _ => 1) 3%nat = -1 /\ sf_act c' = true /\
  (exists c2, sf_update E cw_c (1 / 4) = Ok c2 /\ sf_act c2 = false) /\
  (exists z, pos (mm4 (inv_ (cw_H 0)) (cw_H (1 / 2))) = V3 0 0 z).
Proof.
  assert (Ri : rigid_scene cw_e kz_sc (ch_t 0 1) (mv_f kz 0)) by exact (kz_rigid 0).
  assert (Wv : world_velocity cw_e (ch_h kz) (ch_t 0 1) (mv_f kz 0) (fun _ => 1)) by (intros j s d _ _ i _; reflexivity).
  destruct (world_ok _ _ _ _ (mv_f kz 0) 10 (fun _ => no_attr) cw_ready Ri) as (sd & d & U & P & _); [cbn; lia | ].
  assert (P1 : sd 1%nat = attr eye6 (kin_of kz_sc (ch_h kz) (mv_f kz 0) [1]%nat)).
  { assert (Pa : path (ch_t 0 1) 1 [(1, 0)]%nat) by (apply (path_step 0 _ 1 (ch_t 1 0) 1 []); [now left | constructor]). exact (P _ _ Pa). }
  assert (P0 : sd 0%nat = attr eye6 kin0) by exact (P _ _ (path_root_nil (ch_t 0 1))).
  set (E := CE cw_e kz_sc sd (fun _ _ => 0) (fun _ _ => mzero) (fun _ => []) (fun _ _ _ => None)).
  assert (G := fun dt => C53_update cw_e kz_sc (ch_h kz) (ch_t 0 1) (mv_f kz 0) (fun _ => 1) 10 (fun _ => no_attr) sd d E cw_c dt (1 / 2) (cw_H 0) (cw_H (1 / 2))
    cw_ready Ri ltac:(cbn; lia) Wv U eq_refl eq_refl eq_refl ltac:(cbn; auto) ltac:(cbn; auto) eq_refl eq_refl ltac:(discriminate) eq_refl (cw_SE3 0) (cw_SE3 (1 / 2))).
  assert (V : forall dt c' A, sf_update E cw_c dt = Ok c' -> sf_jac E c' = Ok A -> mvn 1 A (fun _ => 1) 3%nat = -1).
  { intros dt c' A Up Ja. destruct (G dt) as (c2 & A2 & Up2 & F0 & F1 & _). rewrite Up in Up2. injection Up2 as <-.
    assert (Eh : exists B0 B1, sf_m0 c' = 1%nat /\ sf_m1 c' = 0%nat /\ sf_H0 c' = B0 /\ sf_H1 c' = B1 /\ B0 = cw_H 0 /\ SE3 B1).
    { unfold sf_update in Up. cbn [cw_c sf_coll rbind sf_b0 sf_b1 E ce_st] in Up. rewrite P0, P1 in Up. cbn [attr a_pose get rbind] in Up.
      rewrite kz_pose in Up. change (k_pose kin0) with eye4 in Up. rewrite !inv_ok in Up by auto using SE3_eye, rotz_SE3, cw_SE3. cbn [rbind] in Up.
      replace (inv_ (rotz 0)) with eye4 in Up by (unfold rotz; rewrite cos_0, sin_0; unf; f_equal; f_equal; ring). replace (inv_ eye4) with eye4 in Up by lin.
      rewrite !mm4_1_l in Up. unfold set_bpose in Up. rewrite !ishom_SE3 in Up by apply cw_SE3. cbn [rbind] in Up.
      destruct (adjoint _); [ | discriminate]. cbn [rbind] in Up. destruct (frame_twist _ _ _ _); [ | discriminate]. cbn [rbind] in Up.
      destruct (frame_twist _ _ _ _); [ | discriminate]. cbn [rbind] in Up. injection Up as <-. do 2 eexists. cbn. repeat split; apply cw_SE3. }
    destruct Eh as (B0 & B1 & Em0 & Em1 & EB0 & EB1 & -> & SB1).
    unfold sf_jac in Ja. rewrite Em0, Em1 in Ja. unfold rel_jac in Ja. cbn [sf_m0 sf_m1 cw_c] in F0, F1. change (ce_e E) with cw_e in Ja. change (ce_st E) with sd in Ja.
    rewrite F0 in Ja. cbn [rbind] in Ja. rewrite inv_ok in Ja by apply cw_SE3. cbn [rbind] in Ja. rewrite F1 in Ja. cbn [rbind] in Ja.
    rewrite adjoint_ok in Ja by (apply SE3_mm4; [apply SE3_inv | ]; apply cw_SE3). cbn [rbind] in Ja. unfold frame_jac in Ja. cbn [frame_body cw_e mov_body] in Ja.
    rewrite P0, P1 in Ja. cbn [attr a_jac get rbind] in Ja. unfold sf_scene, bpose, with_frames in Ja. rewrite Em0, Em1, EB0, EB1 in Ja. cbn [mov_bpose] in Ja.
    unfold upd in Ja. cbn [Nat.eqb] in Ja. rewrite !iadjoint_ok in Ja by (auto; apply cw_SE3). cbn [rbind] in Ja.
    apply (f_equal (fun r => match r with Ok a => a | Err _ => A end)) in Ja. cbv beta iota in Ja. rewrite <- Ja.
    unfold mvn. cbn [sumR plus]. rewrite kz_jac. change (k_jac kin0 0%nat) with zero6. rewrite !mv6_zero6. unfold e6, v6of, cw_H, cw_R, iadjoint_. cbn [Nat.eqb comp6]. unf. ring. }
  destruct (G (1 / 2)) as (c' & A & Up & _ & _ & Ja & Ac & _).
  destruct (G (1 / 4)) as (c2 & A2 & Up2 & _ & _ & Ja2 & Ac2 & _).
  exists sd, d, E, A, c'. split; [exact U | ]. split; [reflexivity | ]. split; [reflexivity | ]. split; [reflexivity | ]. split; [exact Wv | ].
  split; [exact Up | ]. split; [exact Ja | ]. change (w_ndof (ch_h kz)) with 1%nat in *. rewrite (V _ _ _ Up Ja) in Ac. rewrite (V _ _ _ Up2 Ja2) in Ac2.
  cbn [cw_c sf_prox] in Ac, Ac2.
  split; [exact (V _ _ _ Up Ja) | ]. split; [apply Ac; lra | ]. split.
  - exists c2. split; [exact Up2 | ]. apply not_true_is_false. intros Q. apply Ac2 in Q. lra.
  - exists (1 / 2). unfold cw_H, cw_R. unf. f_equal; ring.
Qed.
