(** C31-C33, C35: joints. *)
From Verif Require Import Model_Linalg Model_Hg Model_Joints Spec_SE3 Spec_Joints.
From Verif Require Import Proof_Linalg Proof_Deriv Proof_SE3 Proof_Exp Proof_Exp2 Proof_Joints.

(** ** C31 *)
Theorem C31_joint_twist_is_velocity : forall k f t, joint_motion k f t ->
  (forall s, SE3 (pose (f s))) /\
  dm4 (fun s => pose (f s)) t (mm4 (pose (f t)) (hat (twist (f t)))) /\
  twist (f t) = sum6 (ndof_of k) (fun c => v6scal (gvel (f t) c) (jacobian (f t) c)).
Proof.
  intros k f t M. split; [intros s; apply pose_SE3, M | split; [apply (pose_deriv k); auto | ]].
  rewrite twist_sum. destruct M as [M _]. destruct (M t) as [-> _]. reflexivity.
Qed.
(** a motion of a three-axis joint meeting the hypothesis *)
Example C31_witness : joint_motion RzRyRxJoint
  (fun s => JS RzRyRxJoint eye4 (fun i => INR i * s) (fun i => INR i)) 1.
Proof.
  split; [split; [reflexivity | intros [=]] | split; [intros [=] | ]].
  intros _ i _. cbn [gpos gvel]. eapply dconv; [apply Dmult; [apply Dconst | apply Did] | cbv beta; ring].
Qed.
Example C31_witness_free : joint_motion FreeJoint
  (fun s => JS FreeJoint (rotz s) (fun _ => 0) (fun i => if Nat.eqb i 2 then 1 else 0)) 1.
Proof.
  split; [split; [reflexivity | intros _; apply rotz_SE3] | split; [ | intros H; contradiction H; reflexivity]].
  intros _. cbn [gposH gvel]. replace (v6of _) with (v6scal 1 (e6 2)) by (unfold e6, v6of; cbn [Nat.eqb]; lin).
  apply (rotz_deriv (fun s => s)). apply Did.
Qed.

(** ** C32 *)
Theorem C32_djacobian_is_derivative : forall k f t c, joint_motion k f t ->
  dv6 (fun s => jacobian (f s) c) t (djacobian (f t) c).
Proof. intros. eapply jac_deriv; eauto. Qed.

(** ** C33 *)
Theorem C33_ipose : forall j, valid_joint j ->
  exists K, ipose j = Ok K /\ mm4 K (pose j) = eye4 /\ mm4 (pose j) K = eye4.
Proof.
  intros j V. exists (inv_ (pose j)). rewrite ipose_ok by auto.
  repeat split; [apply inv_l | apply inv_r]; apply pose_SE3; auto.
Qed.
Theorem C33_dadjoint : forall k f t, joint_motion k f t ->
  exists A B, (forall s, j_adjoint (f s) = Ok (A s)) /\ dadjoint (f t) = Ok B /\ dm6 A t B.
Proof.
  intros k f t M. assert (V : forall s, valid_joint (f s)) by (intros s; apply M).
  exists (fun s => adjoint_ (pose (f s))), (mm6 (adjoint_ (pose (f t))) (adjacency (twist (f t)))).
  assert (O : forall s, j_adjoint (f s) = Ok (adjoint_ (pose (f s)))) by (intros s; apply adjoint_ok, pose_SE3, V).
  split; [exact O | ]. split; [unfold dadjoint; rewrite O; reflexivity | ].
  apply (adjoint_deriv (fun s => pose (f s))); [intros s; apply pose_SE3, V | apply (pose_deriv k); auto].
Qed.
(** itwist and idadjoint, for the joints whose axes are fixed in both frames *)
Theorem C33_inverse_motion_partial : forall k f t, simple_joint k -> joint_motion k f t ->
  (exists T, itwist (f t) = Ok T /\
     forall K, (forall s, ipose (f s) = Ok (K s)) -> dm4 K t (mm4 (K t) (hat T))) /\
  (exists A B, (forall s, j_iadjoint (f s) = Ok (A s)) /\ idadjoint (f t) = Ok B /\ dm6 A t B).
Proof.
  intros k f t S M. split; [ | eapply simple_idadjoint; eauto].
  assert (V : forall s, valid_joint (f s)) by (intros s; apply M).
  eexists. split; [apply itwist_ok; auto | ]. intros K HK.
  assert (E : forall s, K s = inv_ (pose (f s))).
  { intros s. specialize (HK s). rewrite ipose_ok in HK by auto. congruence. }
  rewrite simple_itwist. 2: { replace (jt (f t)) with k; auto. symmetry; apply M. }
  apply dm4_ext with (f := fun s => inv_ (pose (f s))); [exact E | ]. rewrite E.
  apply (inv_deriv (fun s => pose (f s))); [intros s; apply pose_SE3, V | apply (pose_deriv k); auto].
Qed.

Lemma itwist_wrong k f t : joint_motion k f t ->
  mv6 (iadjoint_ (pose (f t))) (twist (f t)) <> mv6 (adjoint_ (pose (f t))) (twist (f t)) ->
  exists T K, itwist (f t) = Ok T /\ (forall s, ipose (f s) = Ok (K s)) /\ ~ dm4 K t (mm4 (K t) (hat T)).
Proof.
  intros M N. assert (V : forall s, valid_joint (f s)) by (intros s; apply M).
  exists (v6neg (mv6 (iadjoint_ (pose (f t))) (twist (f t)))), (fun s => inv_ (pose (f s))).
  split; [apply itwist_ok; auto | ]. split; [intros s; apply ipose_ok; auto | ]. intros D.
  assert (D' := inv_deriv (fun s => pose (f s)) t (twist (f t)) (fun s => pose_SE3 _ (V s)) (pose_deriv k f t M)).
  cbv beta in D'.
  assert (U : forall g (a b : m4), dm4 g t a -> dm4 g t b -> a = b).
  { clear. intros g a b A B. unfold dm4, dm3, dv3 in *.
    repeat match goal with H : _ /\ _ |- _ => destruct H end.
    apply m4_ext; [apply m3_ext | apply v3_ext | apply v3_ext | ]; eapply derivable_unique; eassumption. }
  assert (E := U _ _ _ D D'). clear D D' U.
  assert (S := pose_SE3 _ (V t)). assert (SI := SE3_inv _ S).
  apply (f_equal (mm4 (pose (f t)))) in E. rewrite !mm4_assoc, inv_r, !mm4_1_l in E by auto.
  apply N. revert E. generalize (mv6 (iadjoint_ (pose (f t))) (twist (f t))), (mv6 (adjoint_ (pose (f t))) (twist (f t))).
  intros [[a1 a2 a3] [a4 a5 a6]] [[b1 b2 b3] [b4 b5 b6]]. unf. intros [=]. f_equal; f_equal; lra.
Qed.
(** For the multi-axis joints itwist is NOT the twist of the inverse motion: RigidMotion.itwist applies
    the inverse adjoint where the adjoint is needed. *)
Theorem C33_itwist_refuted : forall k, In k [RzRyRxJoint; RzRyJoint; RzRxJoint; RyRxJoint; FreeJoint] ->
  exists f T K, joint_motion k f 0 /\ itwist (f 0) = Ok T /\
    (forall s, ipose (f s) = Ok (K s)) /\ ~ dm4 K 0 (mm4 (K 0) (hat T)).
Proof.
  intros k Hk.
  assert (L : forall k (c : nat -> R) v, k <> FreeJoint -> joint_motion k (fun s => JS k eye4 (fun i => c i + v i * s) v) 0).
  { intros k0 c v N. split; [split; [reflexivity | intros E; contradiction] | split; [intros E; contradiction | ]].
    intros _ i _. cbn [gpos gvel]. eapply dconv; [apply Dplus; [apply Dconst | apply Dmult; [apply Dconst | apply Did]] | cbv beta; ring]. }
  assert (N10 : forall a b c d e f a' b' d' e' f' : R, c = -1 ->
      V6 (V3 a b c) (V3 d e f) <> V6 (V3 a' b' 1) (V3 d' e' f')) by (intros; intros [=]; lra).
  destruct Hk as [<- | [<- | [<- | [<- | [<- | []]]]]].
  - set (c := fun i => if Nat.eqb i 1 then PI / 2 else 0). set (v := fun i => if Nat.eqb i 0 then 1 else 0).
    assert (M := L RzRyRxJoint c v ltac:(discriminate)).
    destruct (itwist_wrong _ _ _ M) as (T & K & E). 2: exists (fun s => JS RzRyRxJoint eye4 (fun i => c i + v i * s) v), T, K; tauto.
    unfold pose, twist, jacobian, c, v. cbn [jt gpos gvel Nat.eqb ndof_of sum6]. 
    replace (0 + 1 * 0) with 0 by ring. replace (0 + 0 * 0) with 0 by ring. replace (PI / 2 + 0 * 0) with (PI / 2) by ring.
    unfold rotzyx, acol. cbn zeta. rewrite cos_0, sin_0, cos_PI2, sin_PI2. unf. apply N10 || (intros [=]; lra).
  - set (c := fun i => if Nat.eqb i 1 then PI / 2 else 0). set (v := fun i => if Nat.eqb i 0 then 1 else 0).
    assert (M := L RzRyJoint c v ltac:(discriminate)).
    destruct (itwist_wrong _ _ _ M) as (T & K & E). 2: exists (fun s => JS RzRyJoint eye4 (fun i => c i + v i * s) v), T, K; tauto.
    unfold pose, twist, jacobian, c, v. cbn [jt gpos gvel Nat.eqb ndof_of sum6]. 
    replace (0 + 1 * 0) with 0 by ring. replace (PI / 2 + 0 * 0) with (PI / 2) by ring.
    unfold rotzy, acol. cbn zeta. rewrite cos_0, sin_0, cos_PI2, sin_PI2. unf. intros [=]; lra.
  - set (c := fun i => if Nat.eqb i 1 then PI / 2 else 0). set (v := fun i => if Nat.eqb i 0 then 1 else 0).
    assert (M := L RzRxJoint c v ltac:(discriminate)).
    destruct (itwist_wrong _ _ _ M) as (T & K & E). 2: exists (fun s => JS RzRxJoint eye4 (fun i => c i + v i * s) v), T, K; tauto.
    unfold pose, twist, jacobian, c, v. cbn [jt gpos gvel Nat.eqb ndof_of sum6]. 
    replace (0 + 1 * 0) with 0 by ring. replace (PI / 2 + 0 * 0) with (PI / 2) by ring.
    unfold rotzx, acol. cbn zeta. rewrite cos_0, sin_0, cos_PI2, sin_PI2. unf. intros [=]; lra.
  - set (c := fun i => if Nat.eqb i 1 then PI / 2 else 0). set (v := fun i => if Nat.eqb i 0 then 1 else 0).
    assert (M := L RyRxJoint c v ltac:(discriminate)).
    destruct (itwist_wrong _ _ _ M) as (T & K & E). 2: exists (fun s => JS RyRxJoint eye4 (fun i => c i + v i * s) v), T, K; tauto.
    unfold pose, twist, jacobian, c, v. cbn [jt gpos gvel Nat.eqb ndof_of sum6]. 
    replace (0 + 1 * 0) with 0 by ring. replace (PI / 2 + 0 * 0) with (PI / 2) by ring.
    unfold rotyx, acol. cbn zeta. rewrite cos_0, sin_0, cos_PI2, sin_PI2. unf. intros [=]; lra.
  - (* free joint at a quarter turn about z, translating along x *)
    set (H := rotz (PI / 2)). set (v := fun i => if Nat.eqb i 3 then 1 else 0).
    set (f := fun s => JS FreeJoint (mm4 H (transl s 0 0)) (fun _ => 0) v).
    assert (M : joint_motion FreeJoint f 0).
    { split; [split; [reflexivity | intros _; apply SE3_mm4; [apply rotz_SE3 | apply transl_SE3]] | split; [ | intros X; contradiction X; reflexivity]].
      intros _. unfold f. cbn [gposH gvel].
      eapply (tw_eq (fun s => mm4 H (transl s 0 0))).
      - apply (compose_deriv (fun _ => H) (fun s => transl s 0 0)).
        + intros; apply rotz_SE3. + intros; apply transl_SE3.
        + apply const_motion, rotz_SE3.
        + apply (transl_deriv (fun s => s) (fun _ => 0) (fun _ => 0)); [apply Did | apply Dconst | apply Dconst].
      - unfold v, v6of. cbn [Nat.eqb]. rewrite mv6_zero6. lin. }
    destruct (itwist_wrong _ _ _ M) as (T & K & E). 2: exists f, T, K; tauto.
    unfold pose, twist, f, H, v, v6of. cbn [jt gposH gpos gvel Nat.eqb].
    unfold rotz, transl. cbn zeta. rewrite cos_PI2, sin_PI2. unf. intros [=]; lra.
Qed.

(** ** C35 *)
(** the successive states of a free joint under a list of (velocity, time step) *)
Definition run_free (j : jstate) (steps : list ((nat -> R) * R)) : jstate :=
  fold_left (fun j s => j_integrate j (fst s) (snd s)) steps j.
(** rotation made in one step *)
Definition step_angle (s : (nat -> R) * R) : R := norm3 (ang (v6scal (snd s) (v6of (fst s)))).

Lemma exp_shape tw : bot (exp tw) = zero3 /\ hom (exp tw) = 1.
Proof. unfold exp. destruct (exp_coeffs _) as [[? ?] ?]. split; reflexivity. Qed.
Lemma exp_SE3 tw : 1 / 1000 <= norm3 (ang tw) \/ norm3 (ang tw) = 0 -> SE3 (exp tw).
Proof.
  intros [L | Z].
  - replace tw with (v6scal 1 tw) by lin. rewrite exp_large by (rewrite vscal_1; auto). apply screwG_SE3. lra.
  - apply norm3_zero in Z. destruct tw as [w v]. cbn [ang] in Z. subst. rewrite exp_zero. split; [apply SO3_eye | split; reflexivity].
Qed.
Lemma exp_det tw : 1 - 1 / 12000000000000 <= det3 (rot (exp tw)) <= 1.
Proof.
  destruct (Rle_dec (1 / 1000) (norm3 (ang tw))) as [L | L].
  - destruct (exp_SE3 tw (or_introl L)) as [[_ ->] _]. lra.
  - rewrite exp_small by lra. cbn [rot]. rewrite rodr_det, <- norm3_sq. set (t := norm3 (ang tw)) in *.
    assert (P : 0 <= t) by apply norm3_pos.
    replace ((1 - 1 / 2 * (t * t)) * (1 - 1 / 2 * (t * t)) + (1 - t ^ 2 / 6) * (1 - t ^ 2 / 6) * (t * t)) with (1 - t ^ 4 / 12 + t ^ 6 / 36) by field.
    assert (T2 : 0 <= t ^ 2 <= 1 / 1000000) by (simpl; nra).
    assert (T4 : 0 <= t ^ 4 <= 1 / 1000000000000). { replace (t ^ 4) with (t ^ 2 * t ^ 2) by ring. nra. }
    assert (T6 : 0 <= t ^ 6 <= t ^ 4). { replace (t ^ 6) with (t ^ 4 * t ^ 2) by ring. nra. }
    lra.
Qed.
Lemma mm4_hom A B : bot A = zero3 -> hom A = 1 -> bot B = zero3 -> hom B = 1 ->
  bot (mm4 A B) = zero3 /\ hom (mm4 A B) = 1 /\ det3 (rot (mm4 A B)) = det3 (rot A) * det3 (rot B).
Proof.
  intros A1 A2 B1 B2. unfold mm4. cbn [rot bot hom]. rewrite A1, A2, B1, B2. repeat split; lin.
Qed.

(** exactly rigid as long as no step turns by a nonzero angle below 0.001 *)
Theorem C35_stays_rigid_partial : forall steps j, jt j = FreeJoint -> SE3 (gposH j) ->
  Forall (fun s => 1 / 1000 <= step_angle s \/ step_angle s = 0) steps ->
  SE3 (pose (run_free j steps)).
Proof.
  induction steps as [ | s l IH]; intros j K S F.
  - unfold run_free, pose. cbn [fold_left]. rewrite K. exact S.
  - unfold run_free. cbn [fold_left]. apply IH.
    + unfold j_integrate. rewrite K. reflexivity.
    + unfold j_integrate. rewrite K. cbn [gposH]. apply SE3_mm4; auto. apply exp_SE3. inversion F; auto.
    + inversion F; auto.
Qed.
(** accepted as a homogeneous matrix for any 12000 steps *)
Theorem C35_bounded_run_partial : forall steps j, jt j = FreeJoint -> SE3 (gposH j) ->
  (List.length steps <= 12000)%nat -> ishomogeneousmatrix (pose (run_free j steps)) = true.
Proof.
  intros steps j K S L.
  assert (G : forall steps j, jt j = FreeJoint -> bot (gposH j) = zero3 -> hom (gposH j) = 1 ->
     0 <= det3 (rot (gposH j)) <= 1 ->
     let H := pose (run_free j steps) in
     bot H = zero3 /\ hom H = 1 /\ det3 (rot (gposH j)) - INR (List.length steps) * (1 / 12000000000000) <= det3 (rot H) <= 1).
  { clear. induction steps as [ | s l IH]; intros j K B C D; cbn zeta.
    - unfold run_free, pose. cbn [fold_left List.length INR]. rewrite K. repeat split; auto; lra.
    - unfold run_free. cbn [fold_left]. set (j' := j_integrate j (fst s) (snd s)).
      assert (E : gposH j' = mm4 (gposH j) (exp (v6scal (snd s) (v6of (fst s))))) by (unfold j', j_integrate; rewrite K; reflexivity).
      set (tw := v6scal (snd s) (v6of (fst s))) in *.
      destruct (exp_shape tw) as [X1 X2]. assert (X3 := exp_det tw).
      destruct (mm4_hom _ _ B C X1 X2) as (Y1 & Y2 & Y3). rewrite <- E in Y1, Y2, Y3.
      destruct (IH j') as (Z1 & Z2 & Z3); auto.
      + unfold j', j_integrate. rewrite K. reflexivity.
      + rewrite Y3. split; [apply Rmult_le_pos; lra | nra].
      + fold (run_free j' l). repeat split; auto; try apply Z3.
        destruct Z3 as [Z3 _]. rewrite Y3 in Z3. cbn [List.length]. rewrite S_INR. nra. }
  destruct S as ((_ & D) & B & C).
  destruct (G steps j K B C) as (G1 & G2 & G3); [lra | ].
  apply ishom_iff. repeat split; auto. apply le_INR in L.
  replace (INR 12000) with 12000 in L by (rewrite INR_IZR_INZ; reflexivity).
  rewrite D in G3. rewrite Rabs_left1 by lra. unfold tol. lra.
Qed.
(** but not for ever: at a constant slow spin the position is eventually refused, and so is every
    later dynamic update of the world holding the joint (idadjoint raises AssertionError). *)
Theorem C35_drift_refuted : exists v dt n j, 0 < dt /\ jt j = FreeJoint /\ SE3 (gposH j) /\
  ishomogeneousmatrix (pose (run_free j (repeat (v, dt) n))) = false /\
  idadjoint (run_free j (repeat (v, dt) n)) = Err AssertionError.
Proof.
  set (v := fun i : nat => if Nat.eqb i 2 then 1 else 0). set (dt := 1 / 2000).
  set (tw := v6scal dt (v6of v)).
  assert (T : norm3 (ang tw) = 1 / 2000).
  { unfold tw, v, v6of. cbn [Nat.eqb v6scal ang lin]. unfold norm3.
    replace (dot3 _ _) with (Rsqr (1 / 2000)) by (unfold dt, Rsqr; unf; field). apply sqrt_Rsqr; lra. }
  set (d := det3 (rot (exp tw))).
  assert (Dd : 0 <= d < 1).
  { split; [pose proof (exp_det tw); unfold d; lra | ]. unfold d. rewrite exp_small by (rewrite T; lra). cbn [rot].
    rewrite rodr_det, <- norm3_sq, T. lra. }
  assert (A : forall n, let j := run_free (JS FreeJoint eye4 (fun _ => 0) (fun _ => 0)) (repeat (v, dt) n) in
    jt j = FreeJoint /\ bot (gposH j) = zero3 /\ hom (gposH j) = 1 /\ det3 (rot (gposH j)) = d ^ n).
  { assert (AG : forall n j0 e, jt j0 = FreeJoint /\ bot (gposH j0) = zero3 /\ hom (gposH j0) = 1 /\ det3 (rot (gposH j0)) = e ->
      let j := run_free j0 (repeat (v, dt) n) in
      jt j = FreeJoint /\ bot (gposH j) = zero3 /\ hom (gposH j) = 1 /\ det3 (rot (gposH j)) = e * d ^ n).
    { induction n as [ | n IH]; intros j0 e (K & B & C & E).
      - cbn. rewrite Rmult_1_r. auto.
      - cbn [repeat]. unfold run_free. cbn [fold_left fst snd].
        replace (e * d ^ S n) with (e * d * d ^ n) by (simpl; ring). apply IH.
        unfold j_integrate. rewrite K. cbn [jt gposH]. fold tw.
        destruct (exp_shape tw) as [X1 X2]. destruct (mm4_hom _ _ B C X1 X2) as (Y1 & Y2 & Y3).
        repeat split; auto. rewrite Y3, E. reflexivity. }
    intros n. destruct (AG n (JS FreeJoint eye4 (fun _ => 0) (fun _ => 0)) 1) as (K & B & C & E).
    { cbn [jt gposH]. repeat split; unfold eye4; cbn; try reflexivity. apply det_eye. }
    rewrite Rmult_1_l in E. auto. }
  destruct (pow_lt_1_zero d) with (y := 1 / 2) as [N HN]; [rewrite Rabs_right; lra | lra | ].
  specialize (HN N (le_n N)). specialize (A N). cbn zeta in A. destruct A as (K & B & C & E).
  exists v, dt, N, (JS FreeJoint eye4 (fun _ => 0) (fun _ => 0)).
  assert (F : ishomogeneousmatrix (pose (run_free (JS FreeJoint eye4 (fun _ => 0) (fun _ => 0)) (repeat (v, dt) N))) = false).
  { destruct (ishomogeneousmatrix _) eqn:I; auto. exfalso. apply ishom_iff in I. destruct I as [I _].
    unfold pose in I. rewrite K in I. rewrite E in I. rewrite Rabs_right in HN by (apply Rle_ge, pow_le; lra).
    rewrite Rabs_left in I by lra. unfold tol in I. lra. }
  split; [unfold dt; lra | ]. split; [reflexivity | ]. split; [apply SE3_eye | ]. split; [exact F | ].
  unfold idadjoint, j_iadjoint, ipose. rewrite K. unfold inv. rewrite F. reflexivity.
Qed.
Example C35_witness : Forall (fun s => 1 / 1000 <= step_angle s \/ step_angle s = 0)
  (repeat ((fun i => if Nat.eqb i 0 then 3 else 0), 1 / 10) 5000).
Proof.
  apply Forall_forall. intros x Hx. apply repeat_spec in Hx. subst. left.
  unfold step_angle, v6of. cbn [fst snd Nat.eqb v6scal ang]. unfold norm3.
  replace (dot3 _ _) with (Rsqr (3 / 10)) by (unfold Rsqr; unf; field). rewrite sqrt_Rsqr; lra.
Qed.
