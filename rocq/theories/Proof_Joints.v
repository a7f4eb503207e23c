(** Joint kinematics. *)
From Verif Require Import Model_Linalg Model_Hg Model_Joints Spec_SE3 Spec_Joints.
From Verif Require Import Proof_Linalg Proof_Deriv Proof_SE3 Proof_Exp.

Lemma pose_SE3 j : valid_joint j -> SE3 (pose j).
Proof.
  intros V. unfold pose. destruct j as [k H q v]. unfold valid_joint in V. cbn [jt gposH gpos gvel] in *.
  destruct k; auto using SE3_eye, rotzyx_SE3, rotzy_SE3, rotzx_SE3, rotyx_SE3, rotx_SE3, roty_SE3, rotz_SE3, transl_SE3.
Qed.

Ltac projs := cbv [dm4 dm3 dv3 dv6 m00 m01 m02 m10 m11 m12 m20 m21 m22 vx vy vz rot pos bot hom ang lin].

Lemma twist_sum j : twist j = sum6 (ndof_of (jt j)) (fun c => v6scal (gvel j c) (jacobian j c)).
Proof.
  destruct j as [k H q v]. unfold twist, jacobian; cbn [jt gposH gpos gvel]; destruct k; try reflexivity.
  cbn [ndof_of sum6]. unfold e6, v6of. cbn [Nat.eqb]. lin.
Qed.

(** velocity of a product of motions *)
Lemma compose_deriv A B t T1 T2 : (forall s, SE3 (A s)) -> (forall s, SE3 (B s)) ->
  dm4 A t (mm4 (A t) (hat T1)) -> dm4 B t (mm4 (B t) (hat T2)) ->
  dm4 (fun s => mm4 (A s) (B s)) t (mm4 (mm4 (A t) (B t)) (hat (v6add (mv6 (iadjoint_ (B t)) T1) T2))).
Proof.
  intros SA SB DA DB.
  replace (mm4 (mm4 (A t) (B t)) (hat (v6add (mv6 (iadjoint_ (B t)) T1) T2))) with
    (m4add (mm4 (mm4 (A t) (hat T1)) (B t)) (mm4 (A t) (mm4 (B t) (hat T2)))).
  { apply dm4_mm4; auto. }
  replace (hat (v6add (mv6 (iadjoint_ (B t)) T1) T2)) with (m4add (hat (mv6 (iadjoint_ (B t)) T1)) (hat T2))
   by (generalize (iadjoint_ (B t)); lin).
  unfold iadjoint_. rewrite hat_adjoint by (apply SE3_inv; auto). rewrite inv_inv by auto.
  rewrite mm4_add_r. f_equal; [ | apply mm4_assoc].
  rewrite !mm4_assoc, <- (mm4_assoc (A t) (B t) (inv_ (B t))), inv_r, mm4_1_r by auto. reflexivity.
Qed.
Lemma const_motion H t : SE3 H -> dm4 (fun _ => H) t (mm4 H (hat zero6)).
Proof.
  intros S. replace (mm4 H (hat zero6)) with (M4 zerom3 zero3 zero3 0).
  - apply dm4_const.
  - rewrite (SE3_eta _ S). lin.
Qed.

Lemma rotz_deriv q t v : derivable_pt_lim q t v -> dm4 (fun s => rotz (q s)) t (mm4 (rotz (q t)) (hat (v6scal v (e6 2)))).
Proof. intros Dq. unfold rotz, e6, v6of. cbn [Nat.eqb]. cbn zeta. unf. projs. dsplit; D. Qed.
Lemma roty_deriv q t v : derivable_pt_lim q t v -> dm4 (fun s => roty (q s)) t (mm4 (roty (q t)) (hat (v6scal v (e6 1)))).
Proof. intros Dq. unfold roty, e6, v6of. cbn [Nat.eqb]. cbn zeta. unf. projs. dsplit; D. Qed.
Lemma rotx_deriv q t v : derivable_pt_lim q t v -> dm4 (fun s => rotx (q s)) t (mm4 (rotx (q t)) (hat (v6scal v (e6 0)))).
Proof. intros Dq. unfold rotx, e6, v6of. cbn [Nat.eqb]. cbn zeta. unf. projs. dsplit; D. Qed.
Lemma transl_deriv x y z t a b c : derivable_pt_lim x t a -> derivable_pt_lim y t b -> derivable_pt_lim z t c ->
  dm4 (fun s => transl (x s) (y s) (z s)) t (mm4 (transl (x t) (y t) (z t)) (hat (V6 zero3 (V3 a b c)))).
Proof. intros. unfold transl. unf. projs. dsplit; D. Qed.

Lemma tw_eq f t d d' : dm4 f t (mm4 (f t) (hat d)) -> d = d' -> dm4 f t (mm4 (f t) (hat d')).
Proof. intros; subst; auto. Qed.

Ltac jsetup K := match goal with |- dm4 (fun s => pose (?f s)) ?t _ => idtac end.

Lemma pose_deriv k f t : joint_motion k f t ->
  dm4 (fun s => pose (f s)) t (mm4 (pose (f t)) (hat (twist (f t)))).
Proof.
  intros (M0 & MF & ML).
  assert (K : forall s, jt (f s) = k) by (intros s; apply M0).
  assert (DQ : k <> FreeJoint -> forall i, (i < ndof_of k)%nat -> derivable_pt_lim (fun s => gpos (f s) i) t (gvel (f t) i)) by auto.
  destruct k.
  - apply dm4_ext with (f := fun s => gposH (f s)). { intros s. unfold pose. rewrite K. reflexivity. }
    unfold pose, twist. rewrite K. auto.
  - apply dm4_ext with (f := fun s => eye4). { intros s. unfold pose. rewrite K. reflexivity. }
    unfold pose, twist. rewrite K. apply const_motion, SE3_eye.
  - apply dm4_ext with (f := fun s => mm4 (mm4 (rotz (gpos (f s) 0%nat)) (roty (gpos (f s) 1%nat))) (rotx (gpos (f s) 2%nat))).
    { intros s. unfold pose. rewrite K, rotzyx_eq, mm4_assoc. reflexivity. }
    unfold pose. rewrite K, rotzyx_eq, mm4_assoc.
    eapply (tw_eq (fun s => mm4 (mm4 (rotz (gpos (f s) 0%nat)) (roty (gpos (f s) 1%nat))) (rotx (gpos (f s) 2%nat)))).
    + apply (compose_deriv (fun s => mm4 (rotz (gpos (f s) 0%nat)) (roty (gpos (f s) 1%nat))) (fun s => rotx (gpos (f s) 2%nat)));
        auto using rotx_SE3, roty_SE3, rotz_SE3, SE3_mm4.
      * apply (compose_deriv (fun s => rotz (gpos (f s) 0%nat)) (fun s => roty (gpos (f s) 1%nat)));
          auto using rotx_SE3, roty_SE3, rotz_SE3, SE3_mm4.
        -- apply (rotz_deriv (fun s => gpos (f s) 0%nat)). apply DQ; [discriminate | cbn; lia].
        -- apply (roty_deriv (fun s => gpos (f s) 1%nat)). apply DQ; [discriminate | cbn; lia].
      * apply (rotx_deriv (fun s => gpos (f s) 2%nat)). apply DQ; [discriminate | cbn; lia].
    + unfold twist. rewrite K. unfold jacobian. rewrite K. cbn [ndof_of sum6].
      unfold rotx, roty, e6, v6of, acol. cbn [Nat.eqb]. cbn zeta. unf. entries; ring.
  - apply dm4_ext with (f := fun s => mm4 (rotz (gpos (f s) 0%nat)) (roty (gpos (f s) 1%nat))).
    { intros s. unfold pose. rewrite K, rotzy_eq. reflexivity. }
    unfold pose. rewrite K, rotzy_eq.
    eapply (tw_eq (fun s => mm4 (rotz (gpos (f s) 0%nat)) (roty (gpos (f s) 1%nat)))).
    + apply (compose_deriv (fun s => rotz (gpos (f s) 0%nat)) (fun s => roty (gpos (f s) 1%nat)));
          auto using rotx_SE3, roty_SE3, rotz_SE3, SE3_mm4.
      * apply (rotz_deriv (fun s => gpos (f s) 0%nat)). apply DQ; [discriminate | cbn; lia].
      * apply (roty_deriv (fun s => gpos (f s) 1%nat)). apply DQ; [discriminate | cbn; lia].
    + unfold twist. rewrite K. unfold jacobian. rewrite K. cbn [ndof_of sum6].
      unfold rotx, roty, e6, v6of, acol. cbn [Nat.eqb]. cbn zeta. unf. entries; ring.
  - apply dm4_ext with (f := fun s => mm4 (rotz (gpos (f s) 0%nat)) (rotx (gpos (f s) 1%nat))).
    { intros s. unfold pose. rewrite K, rotzx_eq. reflexivity. }
    unfold pose. rewrite K, rotzx_eq.
    eapply (tw_eq (fun s => mm4 (rotz (gpos (f s) 0%nat)) (rotx (gpos (f s) 1%nat)))).
    + apply (compose_deriv (fun s => rotz (gpos (f s) 0%nat)) (fun s => rotx (gpos (f s) 1%nat)));
          auto using rotx_SE3, roty_SE3, rotz_SE3, SE3_mm4.
      * apply (rotz_deriv (fun s => gpos (f s) 0%nat)). apply DQ; [discriminate | cbn; lia].
      * apply (rotx_deriv (fun s => gpos (f s) 1%nat)). apply DQ; [discriminate | cbn; lia].
    + unfold twist. rewrite K. unfold jacobian. rewrite K. cbn [ndof_of sum6].
      unfold rotx, roty, e6, v6of, acol. cbn [Nat.eqb]. cbn zeta. unf. entries; ring.
  - apply dm4_ext with (f := fun s => mm4 (roty (gpos (f s) 0%nat)) (rotx (gpos (f s) 1%nat))).
    { intros s. unfold pose. rewrite K, rotyx_eq. reflexivity. }
    unfold pose. rewrite K, rotyx_eq.
    eapply (tw_eq (fun s => mm4 (roty (gpos (f s) 0%nat)) (rotx (gpos (f s) 1%nat)))).
    + apply (compose_deriv (fun s => roty (gpos (f s) 0%nat)) (fun s => rotx (gpos (f s) 1%nat)));
          auto using rotx_SE3, roty_SE3, rotz_SE3, SE3_mm4.
      * apply (roty_deriv (fun s => gpos (f s) 0%nat)). apply DQ; [discriminate | cbn; lia].
      * apply (rotx_deriv (fun s => gpos (f s) 1%nat)). apply DQ; [discriminate | cbn; lia].
    + unfold twist. rewrite K. unfold jacobian. rewrite K. cbn [ndof_of sum6].
      unfold rotx, roty, e6, v6of, acol. cbn [Nat.eqb]. cbn zeta. unf. entries; ring.
  - apply dm4_ext with (f := fun s => rotz (gpos (f s) 0%nat)). { intros s. unfold pose. rewrite K. reflexivity. }
    unfold pose. rewrite K. eapply (tw_eq (fun s => rotz (gpos (f s) 0%nat))).
    + apply (rotz_deriv (fun s => gpos (f s) 0%nat)). apply DQ; [discriminate | cbn; lia].
    + unfold twist. rewrite K. unfold jacobian. rewrite K. cbn [ndof_of sum6]. rewrite v6add_0_l. reflexivity.
  - apply dm4_ext with (f := fun s => roty (gpos (f s) 0%nat)). { intros s. unfold pose. rewrite K. reflexivity. }
    unfold pose. rewrite K. eapply (tw_eq (fun s => roty (gpos (f s) 0%nat))).
    + apply (roty_deriv (fun s => gpos (f s) 0%nat)). apply DQ; [discriminate | cbn; lia].
    + unfold twist. rewrite K. unfold jacobian. rewrite K. cbn [ndof_of sum6]. rewrite v6add_0_l. reflexivity.
  - apply dm4_ext with (f := fun s => rotx (gpos (f s) 0%nat)). { intros s. unfold pose. rewrite K. reflexivity. }
    unfold pose. rewrite K. eapply (tw_eq (fun s => rotx (gpos (f s) 0%nat))).
    + apply (rotx_deriv (fun s => gpos (f s) 0%nat)). apply DQ; [discriminate | cbn; lia].
    + unfold twist. rewrite K. unfold jacobian. rewrite K. cbn [ndof_of sum6]. rewrite v6add_0_l. reflexivity.
  - apply dm4_ext with (f := fun s => transl (gpos (f s) 0%nat) (gpos (f s) 1%nat) (gpos (f s) 2%nat)). { intros s. unfold pose. rewrite K. reflexivity. }
    unfold pose. rewrite K. eapply (tw_eq (fun s => transl (gpos (f s) 0%nat) (gpos (f s) 1%nat) (gpos (f s) 2%nat))).
    + apply (transl_deriv (fun s => gpos (f s) 0%nat) (fun s => gpos (f s) 1%nat) (fun s => gpos (f s) 2%nat)); apply DQ; try discriminate; cbn; lia.
    + unfold twist. rewrite K. unfold jacobian. rewrite K. cbn [ndof_of sum6]. unfold e6, v6of. cbn [Nat.eqb]. unf. entries; ring.
  - apply dm4_ext with (f := fun s => transl 0 0 (gpos (f s) 0%nat)). { intros s. unfold pose. rewrite K. reflexivity. }
    unfold pose. rewrite K. eapply (tw_eq (fun s => transl 0 0 (gpos (f s) 0%nat))).
    + apply (transl_deriv (fun _ => 0) (fun _ => 0) (fun s => gpos (f s) 0%nat)); try apply Dconst; apply DQ; try discriminate; cbn; lia.
    + unfold twist. rewrite K. unfold jacobian. rewrite K. cbn [ndof_of sum6]. unfold e6, v6of. cbn [Nat.eqb]. unf. entries; ring.
  - apply dm4_ext with (f := fun s => transl 0 (gpos (f s) 0%nat) 0). { intros s. unfold pose. rewrite K. reflexivity. }
    unfold pose. rewrite K. eapply (tw_eq (fun s => transl 0 (gpos (f s) 0%nat) 0)).
    + apply (transl_deriv (fun _ => 0) (fun s => gpos (f s) 0%nat) (fun _ => 0)); try apply Dconst; apply DQ; try discriminate; cbn; lia.
    + unfold twist. rewrite K. unfold jacobian. rewrite K. cbn [ndof_of sum6]. unfold e6, v6of. cbn [Nat.eqb]. unf. entries; ring.
  - apply dm4_ext with (f := fun s => transl (gpos (f s) 0%nat) 0 0). { intros s. unfold pose. rewrite K. reflexivity. }
    unfold pose. rewrite K. eapply (tw_eq (fun s => transl (gpos (f s) 0%nat) 0 0)).
    + apply (transl_deriv (fun s => gpos (f s) 0%nat) (fun _ => 0) (fun _ => 0)); try apply Dconst; apply DQ; try discriminate; cbn; lia.
    + unfold twist. rewrite K. unfold jacobian. rewrite K. cbn [ndof_of sum6]. unfold e6, v6of. cbn [Nat.eqb]. unf. entries; ring.
Qed.

Lemma jac_deriv k f t c : joint_motion k f t -> dv6 (fun s => jacobian (f s) c) t (djacobian (f t) c).
Proof.
  intros (M0 & MF & ML).
  assert (K : forall s, jt (f s) = k) by (intros s; apply M0).
  assert (DQ : k <> FreeJoint -> forall i, (i < ndof_of k)%nat -> derivable_pt_lim (fun s => gpos (f s) i) t (gvel (f t) i)) by auto.
  assert (E : exists g, (forall s, jacobian (f s) c = g s) /\ dv6 g t (djacobian (f t) c)).
  2: { destruct E as (g & E & Dg). eapply dv6_ext; [ | exact Dg]. exact E. }
  unfold jacobian, djacobian. rewrite K.
  destruct k; try (eexists; split; [intros s; rewrite K; reflexivity | apply dv6_const]).
  - assert (D1 := DQ ltac:(discriminate) 1%nat ltac:(cbn; lia)).
    assert (D2 := DQ ltac:(discriminate) 2%nat ltac:(cbn; lia)).
    eexists; split; [intros s; rewrite K; reflexivity | ]. cbn zeta.
    destruct c as [ | [ | c]]; unfold acol, zero6, zero3; projs; dsplit; D.
  - assert (D1 := DQ ltac:(discriminate) 1%nat ltac:(cbn; lia)).
    eexists; split; [intros s; rewrite K; reflexivity | ]. cbn zeta.
    destruct c as [ | c]; unfold acol, zero6, zero3; projs; dsplit; D.
  - assert (D1 := DQ ltac:(discriminate) 1%nat ltac:(cbn; lia)).
    eexists; split; [intros s; rewrite K; reflexivity | ]. cbn zeta.
    destruct c as [ | c]; unfold acol, zero6, zero3; projs; dsplit; D.
  - assert (D1 := DQ ltac:(discriminate) 1%nat ltac:(cbn; lia)).
    eexists; split; [intros s; rewrite K; reflexivity | ]. cbn zeta.
    destruct c as [ | c]; unfold acol, zero6, zero3; projs; dsplit; D.
Qed.

(** the inverse motion *)
Lemma ipose_ok j : valid_joint j -> ipose j = Ok (inv_ (pose j)).
Proof.
  intros V. assert (S := pose_SE3 _ V). unfold ipose. destruct (jt j) eqn:K; try (apply inv_ok; exact S);
  f_equal; unfold pose; rewrite K; unfold rotz, roty, rotx, transl; cbn zeta; rewrite ?cos_neg, ?sin_neg; unf; entries; ring.
Qed.
Lemma j_iadjoint_ok j : valid_joint j -> j_iadjoint j = Ok (iadjoint_ (pose j)).
Proof.
  intros V. unfold j_iadjoint. rewrite ipose_ok by auto. cbn [rbind].
  rewrite adjoint_ok; auto. apply SE3_inv, pose_SE3, V.
Qed.
Lemma itwist_ok j : valid_joint j -> itwist j = Ok (v6neg (mv6 (iadjoint_ (pose j)) (twist j))).
Proof. intros V. unfold itwist. rewrite j_iadjoint_ok by auto. reflexivity. Qed.
Lemma idadjoint_ok j : valid_joint j ->
  idadjoint j = Ok (mm6 (iadjoint_ (pose j)) (adjacency (v6neg (mv6 (iadjoint_ (pose j)) (twist j))))).
Proof.
  intros V. unfold idadjoint, j_iadjacency. rewrite itwist_ok, j_iadjoint_ok by auto. reflexivity.
Qed.
(** for simple joints the twist is invariant under the motion, so iadjoint and adjoint agree on it *)
Lemma simple_itwist j : simple_joint (jt j) -> v6neg (mv6 (iadjoint_ (pose j)) (twist j)) = v6neg (mv6 (adjoint_ (pose j)) (twist j)).
Proof.
  intros S. f_equal. unfold twist, pose, jacobian. destruct (jt j); try contradiction S; cbn [ndof_of sum6];
  unfold e6, v6of, rotx, roty, rotz, transl; cbn [Nat.eqb]; cbn zeta; unf; entries; ring.
Qed.
(** the right derivative of the inverse adjoint *)
Lemma iadjoint_deriv f t T : (forall s, SE3 (f s)) -> dm4 f t (mm4 (f t) (hat T)) ->
  dm6 (fun s => iadjoint_ (f s)) t (mm6 (iadjoint_ (f t)) (adjacency (v6neg (mv6 (adjoint_ (f t)) T)))).
Proof.
  intros S D. apply (adjoint_deriv (fun s => inv_ (f s))).
  - intros s. apply SE3_inv, S.
  - apply inv_deriv; auto.
Qed.
Lemma simple_idadjoint k f t : simple_joint k -> joint_motion k f t ->
  exists A B, (forall s, j_iadjoint (f s) = Ok (A s)) /\ idadjoint (f t) = Ok B /\ dm6 A t B.
Proof.
  intros S M. assert (V : forall s, valid_joint (f s)) by (intros s; apply M).
  exists (fun s => iadjoint_ (pose (f s))). eexists. split; [intros s; apply j_iadjoint_ok; auto | ].
  split; [apply idadjoint_ok; auto | ].
  rewrite simple_itwist. 2: { replace (jt (f t)) with k; auto. symmetry; apply M. }
  apply (iadjoint_deriv (fun s => pose (f s))); [intros s; apply pose_SE3; auto | apply (pose_deriv k); auto].
Qed.
