(** C23-C27: homogeneous matrices, adjoints, adjacency. *)
From Verif Require Import Model_Linalg Model_Hg Spec_SE3 Proof_Linalg Proof_Deriv Proof_SE3.

(** ** C23 *)
Theorem C23_elementary_transforms : forall a b c x y z : R,
  SE3 (transl x y z) /\ SE3 (rotx a) /\ SE3 (roty a) /\ SE3 (rotz a) /\
  SE3 (rotzyx a b c) /\ SE3 (rotzy a b) /\ SE3 (rotzx a b) /\ SE3 (rotyx a b) /\
  rotzyx a b c = mm4 (rotz a) (mm4 (roty b) (rotx c)) /\
  rotzy a b = mm4 (rotz a) (roty b) /\ rotzx a b = mm4 (rotz a) (rotx b) /\
  rotyx a b = mm4 (roty a) (rotx b) /\
  (forall H, SE3 H -> ishomogeneousmatrix H = true).
Proof.
  intros. repeat split; try apply transl_SE3; try apply rotx_SE3; try apply roty_SE3; try apply rotz_SE3;
    try apply rotzyx_SE3; try apply rotzy_SE3; try apply rotzx_SE3; try apply rotyx_SE3;
    auto using rotzyx_eq, rotzy_eq, rotzx_eq, rotyx_eq, ishom_SE3.
Qed.

(** which axis each elementary rotation fixes, its sense, and what a translation does *)
Theorem C23_sense_of_rotation : forall a x y z p,
  pdot (transl x y z) p = Ok (vadd p (V3 x y z)) /\
  vdot (transl x y z) p = Ok p /\
  vdot (rotx a) (V3 1 0 0) = Ok (V3 1 0 0) /\ vdot (rotx a) (V3 0 1 0) = Ok (V3 0 (cos a) (sin a)) /\
  vdot (roty a) (V3 0 1 0) = Ok (V3 0 1 0) /\ vdot (roty a) (V3 0 0 1) = Ok (V3 (sin a) 0 (cos a)) /\
  vdot (rotz a) (V3 0 0 1) = Ok (V3 0 0 1) /\ vdot (rotz a) (V3 1 0 0) = Ok (V3 (cos a) (sin a) 0) /\
  pos (rotx a) = zero3 /\ pos (roty a) = zero3 /\ pos (rotz a) = zero3.
Proof.
  intros. rewrite pdot_ok, !vdot_ok by auto using transl_SE3, rotx_SE3, roty_SE3, rotz_SE3.
  unfold transl, rotx, roty, rotz. repeat split; try (f_equal; lin); reflexivity.
Qed.

(** ** C24 *)
Theorem C24_inv_is_inverse : forall H, SE3 H ->
  exists K, inv H = Ok K /\ SE3 K /\ mm4 K H = eye4 /\ mm4 H K = eye4 /\ inv K = Ok H.
Proof.
  intros H A. exists (inv_ H). rewrite inv_ok by auto.
  repeat split; try apply SE3_inv; auto using inv_l, inv_r.
  rewrite inv_ok, inv_inv; auto using SE3_inv.
Qed.
Theorem C24_inv_reverses_products : forall H1 H2, SE3 H1 -> SE3 H2 ->
  exists K1 K2, inv H1 = Ok K1 /\ inv H2 = Ok K2 /\ inv (mm4 H1 H2) = Ok (mm4 K2 K1).
Proof.
  intros. exists (inv_ H1), (inv_ H2). rewrite !inv_ok, inv_mm4; auto using SE3_mm4.
Qed.
Theorem C24_inv_refuses : forall H,
  ~ (Rabs (det3 (rot H) - 1) <= tol /\ bot H = zero3 /\ hom H = 1) -> inv H = Err AssertionError.
Proof.
  intros H N. rewrite <- ishom_iff in N. unfold inv. destruct (ishomogeneousmatrix H); [congruence | reflexivity].
Qed.
(** an accepted matrix is correctly inverted exactly when its rotation part is orthogonal ... *)
Theorem C24_inverted_iff_orthogonal : forall H K, inv H = Ok K ->
  (mm4 K H = eye4 <-> mm (tr (rot H)) (rot H) = eye3).
Proof.
  intros H K E. unfold inv in E. destruct (ishomogeneousmatrix H) eqn:I; [ | discriminate].
  assert (K = inv_ H) by congruence; subst. apply ishom_iff in I. destruct I as (_ & B & C).
  split.
  - intros F. assert (G : rot (mm4 (inv_ H) H) = eye3) by (rewrite F; reflexivity).
    unfold mm4, inv_ in G. cbn [rot pos bot] in G. rewrite B in G. rewrite <- G.
    replace (outer _ zero3) with zerom3 by (generalize (vneg (mv (tr (rot H)) (pos H))); lin).
    rewrite madd_0_r. reflexivity.
  - intros O. unfold mm4, inv_, eye4. cbn [rot pos bot hom]. rewrite B, C, O.
    f_equal; try solve [lin].
Qed.
(** ... and matrices whose rotation part is not orthogonal are accepted: the claim "any accepted
    matrix is inverted" is false (a shear has determinant 1). *)
Theorem C24_accepted_but_not_inverted_refuted :
  exists H K, inv H = Ok K /\ mm4 K H <> eye4.
Proof.
  exists (M4 (M3 1 1 0 0 1 0 0 0 1) zero3 zero3 1). eexists. split.
  - unfold inv. assert (E : ishomogeneousmatrix (M4 (M3 1 1 0 0 1 0 0 0 1) zero3 zero3 1) = true).
    { apply ishom_iff. unf. repeat split. match goal with |- Rabs ?x <= _ => replace x with 0 by ring end.
      rewrite Rabs_R0. pose proof tol_pos; lra. }
    rewrite E. reflexivity.
  - unf. intros [=]. lra.
Qed.

(** ** C25 *)
Theorem C25_actions : forall H1 H2 p v, SE3 H1 -> SE3 H2 ->
  pdot (mm4 H1 H2) p = rbind (pdot H2 p) (pdot H1) /\
  vdot (mm4 H1 H2) v = rbind (vdot H2 v) (vdot H1) /\
  rbind (pdot H1 p) (fun q => rbind (inv H1) (fun K => pdot K q)) = Ok p /\
  rbind (vdot H1 v) (fun q => rbind (inv H1) (fun K => vdot K q)) = Ok v /\
  pdot eye4 p = Ok p.
Proof.
  intros H1 H2 p v A B.
  assert (C := SE3_mm4 _ _ A B).
  rewrite !inv_ok, !pdot_ok, !vdot_ok by auto using SE3_eye. cbn [rbind].
  rewrite !pdot_ok, !vdot_ok by auto using SE3_inv.
  assert (F := SE3_eta _ B). destruct A as (A & A1 & A2), B as (B & B1 & B2).
  repeat split; f_equal.
  - unfold mm4; cbn [rot pos]. rewrite B1, B2, vscal_1, mv_add, <- mv_mm, vadd_assoc.
    replace (outer (pos H1) zero3) with zerom3 by lin. rewrite madd_0_r. reflexivity.
  - unfold mm4; cbn [rot pos]. rewrite B1, <- mv_mm.
    replace (outer (pos H1) zero3) with zerom3 by lin. rewrite madd_0_r. reflexivity.
  - unfold inv_; cbn [rot pos]. rewrite mv_add, <- mv_mm, (SO3_l _ A), mv_1, <- vadd_assoc, vadd_neg, vadd_0_r. reflexivity.
  - unfold inv_; cbn [rot pos]. rewrite <- mv_mm, (SO3_l _ A), mv_1. reflexivity.
  - lin.
Qed.
Theorem C25_isometry : forall H p q v w p' q' v' w', SE3 H ->
  pdot H p = Ok p' -> pdot H q = Ok q' -> vdot H v = Ok v' -> vdot H w = Ok w' ->
  norm3 (vsub p' q') = norm3 (vsub p q) /\ norm3 v' = norm3 v /\ dot3 v' w' = dot3 v w /\
  (forall c, vdot H (cross v w) = Ok c -> cross v' w' = c).
Proof.
  intros H p q v w p' q' v' w' A E1 E2 E3 E4.
  rewrite pdot_ok in E1, E2 by auto. rewrite vdot_ok in E3, E4 by auto.
  destruct A as (A & _).
  assert (v' = mv (rot H) v) by congruence. assert (w' = mv (rot H) w) by congruence.
  assert (P : vsub p' q' = mv (rot H) (vsub p q)).
  { assert (p' = vadd (mv (rot H) p) (pos H)) by congruence. assert (q' = vadd (mv (rot H) q) (pos H)) by congruence.
    subst. lin. }
  subst. rewrite P. unfold norm3. rewrite !(SO3_dot _ _ _ A). repeat split.
  intros c Hc. unfold vdot in Hc. destruct (ishomogeneousmatrix H); [ | discriminate].
  rewrite SO3_cross by auto. congruence.
Qed.

(** ** C26 *)
Theorem C26_adjoint_representation : forall H1 H2, SE3 H1 -> SE3 H2 ->
  exists A1 A2 I1, adjoint H1 = Ok A1 /\ adjoint H2 = Ok A2 /\ iadjoint H1 = Ok I1 /\
    adjoint (mm4 H1 H2) = Ok (mm6 A1 A2) /\ adjoint eye4 = Ok eye6 /\
    mm6 A1 I1 = eye6 /\ mm6 I1 A1 = eye6 /\ Ad_inv A1 = I1.
Proof.
  intros H1 H2 A B. exists (adjoint_ H1), (adjoint_ H2), (iadjoint_ H1).
  rewrite !adjoint_ok, !iadjoint_ok by auto using SE3_mm4, SE3_eye.
  repeat split; auto.
  - f_equal. apply SE3_adjoint_mm; auto.
  - f_equal. apply adjoint_eye.
  - apply iadjoint_r; auto.
  - apply iadjoint_l; auto.
  - unfold Ad_inv, iadjoint_, adjoint_, inv_. cbn [aa al la ll rot pos]. f_equal.
    destruct A as (A & _).
    replace (vneg (mv (tr (rot H1)) (pos H1))) with (mv (tr (rot H1)) (vneg (pos H1))) by lin.
    rewrite SO3_skew by (apply SO3_transpose; auto).
    rewrite tr_mm, tr_skew. f_equal. lin.
Qed.
Theorem C26_adjoint_moves_twists : forall H T, SE3 H ->
  exists A K, adjoint H = Ok A /\ inv H = Ok K /\ hat (mv6 A T) = mm4 (mm4 H (hat T)) K.
Proof.
  intros H T A. exists (adjoint_ H), (inv_ H). rewrite adjoint_ok, inv_ok by auto.
  repeat split. apply hat_adjoint; auto.
Qed.

(** ** C27 *)
Theorem C27_adjacency_is_lie_bracket : forall T1 T2 T3,
  hat (mv6 (adjacency T1) T2) = m4add (mm4 (hat T1) (hat T2)) (m4scal (-1) (mm4 (hat T2) (hat T1))) /\
  mv6 (adjacency T1) T2 = v6neg (mv6 (adjacency T2) T1) /\
  v6add (mv6 (adjacency T1) (mv6 (adjacency T2) T3))
   (v6add (mv6 (adjacency T2) (mv6 (adjacency T3) T1)) (mv6 (adjacency T3) (mv6 (adjacency T1) T2))) = zero6.
Proof. intros. repeat split; lin. Qed.
(** along any differentiable rigid motion of velocity [T] (expressed in the moving frame) *)
Theorem C27_dAdjoint_is_derivative : forall (H : R -> m4) (t : R) (T : v6),
  (forall s, SE3 (H s)) -> dm4 H t (mm4 (H t) (hat T)) ->
  exists Ad : R -> m6, (forall s, adjoint (H s) = Ok (Ad s)) /\ dm6 Ad t (dAdjoint (Ad t) T).
Proof.
  intros H t T S D. exists (fun s => adjoint_ (H s)). split.
  - intros s. apply adjoint_ok; auto.
  - apply adjoint_deriv; auto.
Qed.
(** witness: rotation about z composed with a drifting origin *)
Example C27_witness : forall t, let H s := mm4 (transl s 0 0) (rotz s) in
  (forall s, SE3 (H s)) /\ dm4 H t (mm4 (H t) (hat (V6 (V3 0 0 1) (V3 (cos t) (- sin t) 0)))).
Proof.
  intros t H. split; [intros; apply SE3_mm4; [apply transl_SE3 | apply rotz_SE3] | ].
  unfold H, transl, rotz; cbn zeta. unf. cbv [dm4 dm3 dv3]. cbv [m00 m01 m02 m10 m11 m12 m20 m21 m22 vx vy vz rot pos bot hom].
  pose proof (cs2 t).
  dsplit; (eapply dconv; [solve [dsolve] | cbv beta; try ring]); nra.
Qed.
