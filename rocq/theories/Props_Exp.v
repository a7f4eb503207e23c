(** C28: the exponential of a twist. *)
From Verif Require Import Model_Linalg Model_Hg Spec_SE3 Proof_Linalg Proof_Deriv Proof_SE3 Proof_Exp Proof_Exp2.

(** Each twist generates exactly one screw motion; above the threshold (and for a null rotation)
    [exp] is that motion. *)
Theorem C28_exp_is_the_screw_motion : forall tw,
  exists E, screw_motion tw E /\ (forall E', screw_motion tw E' -> forall s, E' s = E s) /\
    (forall s, SE3 (E s)) /\
    (forall s, 1 / 1000 <= norm3 (vscal s (ang tw)) \/ vscal s (ang tw) = zero3 -> exp (v6scal s tw) = E s).
Proof.
  intros tw. destruct (screw_exists tw) as (E & M & S & N & Z). exists E. repeat split; try apply M; auto; try apply S.
  - intros E' M' s. apply (screw_unique tw); auto.
  - intros s [L | L].
    + rewrite N; [apply exp_large; auto | ].
      rewrite norm3_scal in L. intros W. rewrite W, Rmult_0_r in L. lra.
    + destruct (Req_EM_T (norm3 (ang tw)) 0) as [W | W].
      * rewrite (Z W). assert (W' := norm3_zero _ W). destruct tw as [w v]; cbn [ang] in W'. subst.
        unfold v6scal. cbn [ang lin]. rewrite vscal_0_r. rewrite exp_zero. unfold screw0. cbn [ang lin]. f_equal. lin.
      * rewrite (N W). assert (K : Rabs s * norm3 (ang tw) = 0).
        { rewrite <- norm3_scal, L. unfold norm3. replace (dot3 zero3 zero3) with 0 by lin. apply sqrt_0. }
        assert (s = 0). { destruct (Rmult_integral _ _ K); [ | contradiction].
          destruct (Req_EM_T s 0); auto. exfalso; apply (Rabs_no_R0 s); auto. }
        subst. rewrite screwG_0 by auto. replace (v6scal 0 tw) with (V6 zero3 zero3) by lin.
        rewrite exp_zero. unfold screw0, eye4. cbn [lin]. f_equal. lin.
Qed.

(** [exp] above the threshold rotates by the angle |w| about the axis w. *)
Theorem C28_axis_and_angle : forall tw, let w := ang tw in let t := norm3 w in 1 / 1000 <= t ->
  SE3 (exp tw) /\ vdot (exp tw) w = Ok w /\
  (forall u, dot3 w u = 0 ->
     vdot (exp tw) u = Ok (vadd (vscal (cos t) u) (vscal (sin t / t) (cross w u)))).
Proof.
  intros tw w t L.
  assert (N : norm3 (ang tw) <> 0) by (unfold t, w in L; lra).
  assert (E : exp tw = screwG tw 1).
  { rewrite <- (exp_large tw 1). f_equal. lin. rewrite vscal_1. exact L. }
  assert (S : SE3 (exp tw)) by (rewrite E; apply screwG_SE3; auto).
  assert (Er : rot (exp tw) = rodr w (sin t / t) ((1 - cos t) / (t * t))) by (rewrite E, screwG_1; reflexivity).
  split; [exact S | ]. split.
  - rewrite vdot_ok, Er by auto. f_equal. unfold rodr. clear. generalize w. lin.
  - intros u O. rewrite vdot_ok, Er by auto. f_equal.
    assert (Q := norm3_sq w). fold t in Q.
    replace (mv (rodr w (sin t / t) ((1 - cos t) / (t * t))) u) with
      (vadd (vadd u (vscal (sin t / t) (cross w u)))
            (vscal ((1 - cos t) / (t * t)) (vadd (vscal (dot3 w u) w) (vscal (- dot3 w w) u))))
     by (unfold rodr; clear; generalize w; lin).
    rewrite O, <- Q. assert (t <> 0) by (fold w t in N; auto).
    destruct u as [u1 u2 u3]. generalize dependent w. intros w; intros.
    destruct (cross w (V3 u1 u2 u3)) as [c1 c2 c3]. destruct w as [w1 w2 w3]. unf. entries; field; auto.
Qed.

(** velocity: where the branch condition holds strictly, s |-> exp(s tw) has body velocity tw *)
Theorem C28_velocity : forall tw s, 1 / 1000 < norm3 (vscal s (ang tw)) ->
  dm4 (fun r => exp (v6scal r tw)) s (mm4 (exp (v6scal s tw)) (hat tw)).
Proof.
  intros tw s L. rewrite exp_large by lra. set (t := norm3 (ang tw)) in *.
  rewrite norm3_scal in L. fold t in L.
  assert (P : 0 <= t) by apply norm3_pos.
  assert (N : 0 < t) by (destruct P as [P | P]; auto; rewrite <- P, Rmult_0_r in L; lra).
  set (r := (Rabs s * t - 1 / 1000) / t).
  assert (Pr : 0 < r) by (apply Rdiv_lt_0_compat; lra).
  assert (X : forall q, Rabs (q - s) < r -> exp (v6scal q tw) = screwG tw q).
  { intros q Hq. apply exp_large. rewrite norm3_scal. fold t.
    assert (Rabs s - Rabs q <= Rabs (q - s)).
    { rewrite Rabs_minus_sym. eapply Rle_trans; [apply Rabs_triang_inv | lra]. }
    assert (r * t = Rabs s * t - 1 / 1000) by (unfold r; field; lra). nra. }
  assert (D := screwG_deriv tw s ltac:(fold t; lra)).
  unfold dm4, dm3, dv3 in *.
  repeat match goal with H : _ /\ _ |- _ => destruct H end; dsplit;
  (eapply dext_loc; [exact Pr | | eassumption]); intros q Hq; cbv beta; rewrite X by exact Hq; reflexivity.
Qed.

(** Below the threshold: within t^4/20 (rotation) and t^3/20 |v| (position) of the true screw
    displacement, and accepted as a homogeneous matrix. *)
Theorem C28_small_angle : forall tw, let t := norm3 (ang tw) in t < 1 / 1000 ->
  ishomogeneousmatrix (exp tw) = true /\
  (forall E, screw_motion tw E ->
     m3_near (t ^ 4 / 20) (rot (exp tw)) (rot (E 1)) /\
     v3_near (t ^ 3 / 20 * norm3 (lin tw)) (pos (exp tw)) (pos (E 1))).
Proof.
  intros tw t L. assert (P : 0 <= t) by apply norm3_pos. split.
  - rewrite exp_small by exact L. apply ishom_iff. cbn [rot bot hom]. repeat split.
    rewrite rodr_det, <- norm3_sq. fold t.
    replace ((1 - 1 / 2 * (t * t)) * (1 - 1 / 2 * (t * t)) + (1 - t ^ 2 / 6) * (1 - t ^ 2 / 6) * (t * t) - 1)
      with (- (t ^ 4 / 12 - t ^ 6 / 36)) by field.
    rewrite Rabs_Ropp. assert (T2 : 0 <= t ^ 2 <= 1 / 1000000) by (simpl; nra).
    assert (T4 : 0 <= t ^ 4 <= 1 / 1000000000000).
    { replace (t ^ 4) with (t ^ 2 * t ^ 2) by ring. nra. }
    assert (T6 : 0 <= t ^ 6 <= t ^ 4).
    { replace (t ^ 6) with (t ^ 4 * t ^ 2) by ring. nra. }
    rewrite Rabs_right; unfold tol; lra.
  - intros E M. destruct (screw_exists tw) as (G & MG & SG & NG & ZG).
    rewrite (screw_unique tw E G SG MG M). destruct (Req_EM_T (norm3 (ang tw)) 0) as [W | W].
    + rewrite (ZG W). unfold t. rewrite W. assert (W' := norm3_zero _ W). destruct tw as [w v]; cbn [ang] in W'; subst.
      rewrite exp_zero. unfold m3_near, v3_near. rewrite !Rminus_diag_eq, !Rabs_R0 by reflexivity.
      replace (0 ^ 4 / 20) with 0 by field. replace (0 ^ 3 / 20 * norm3 (lin (V6 zero3 v))) with 0 by (field). lra.
    + rewrite (NG W), screwG_1, exp_small by exact L. cbn [rot pos]. fold t in W |- *.
      assert (T : 0 < t) by lra. destruct (coef_bounds t) as (A & B & C); [lra | ].
      split.
      * assert (K := rodr_near (ang tw) _ _ _ _ _ _ A B). cbn zeta in K. fold t in K.
        assert (t ^ 4 / 120 * t + t ^ 2 / 24 * (t * t) <= t ^ 4 / 20).
        { replace (t ^ 4 / 120 * t + t ^ 2 / 24 * (t * t)) with (t ^ 4 * (t / 120 + 1 / 24)) by field.
          replace (t ^ 4 / 20) with (t ^ 4 * (1 / 20)) by field. apply Rmult_le_compat_l; [apply pow_le; lra | lra]. }
        unfold m3_near, v3_near in *. repeat match goal with H : _ /\ _ |- _ => destruct H end.
        repeat split; eapply Rle_trans; eauto.
      * assert (K := vmat_near (ang tw) (lin tw) _ _ _ _ _ _ _ _ _ A B C). cbn zeta in K. fold t in K.
        assert ((t ^ 4 / 120 + t ^ 2 / 24 * t + t ^ 2 / 120 * (t * t)) * norm3 (lin tw) <= t ^ 3 / 20 * norm3 (lin tw)).
        { apply Rmult_le_compat_r; [apply norm3_pos | ].
          replace (t ^ 4 / 120 + t ^ 2 / 24 * t + t ^ 2 / 120 * (t * t)) with (t ^ 3 * (t / 60 + 1 / 24)) by field.
          replace (t ^ 3 / 20) with (t ^ 3 * (1 / 20)) by field. apply Rmult_le_compat_l; [apply pow_le; lra | lra]. }
        unfold v3_near in *. repeat match goal with H : _ /\ _ |- _ => destruct H end.
        repeat split; eapply Rle_trans; eauto.
Qed.
(** ... but it is never exactly orthogonal there. *)
Theorem C28_small_angle_defect : forall tw, let t := norm3 (ang tw) in 0 < t < 1 / 1000 ->
  det3 (rot (exp tw)) = 1 - t ^ 4 / 12 + t ^ 6 / 36 /\ det3 (rot (exp tw)) < 1 /\ ~ SE3 (exp tw).
Proof.
  intros tw t [P L]. assert (Dt : det3 (rot (exp tw)) = 1 - t ^ 4 / 12 + t ^ 6 / 36).
  { rewrite exp_small by exact L. cbn [rot]. rewrite rodr_det, <- norm3_sq. fold t. field. }
  assert (t ^ 6 < t ^ 4).
  { replace (t ^ 6) with (t ^ 4 * t ^ 2) by ring. rewrite <- (Rmult_1_r (t ^ 4)) at 2.
    apply Rmult_lt_compat_l; [apply pow_lt; auto | simpl; nra]. }
  assert (0 < t ^ 4) by (apply pow_lt; auto).
  split; [exact Dt | ]. rewrite Dt. split; [lra | ]. intros ((_ & D1) & _). rewrite Dt in D1. lra.
Qed.

(** witnesses: both sides of the threshold are inhabited by genuine rotations *)
Example C28_witness_large : 1 / 1000 <= norm3 (ang (V6 (V3 1 2 2) (V3 1 0 0))).
Proof.
  cbn [ang]. unfold norm3. replace (dot3 (V3 1 2 2) (V3 1 2 2)) with (Rsqr 3) by (unfold Rsqr; unf; ring).
  rewrite sqrt_Rsqr; lra.
Qed.
Example C28_witness_small : 0 < norm3 (ang (V6 (V3 0 0 (1 / 2000)) (V3 1 0 0))) < 1 / 1000.
Proof.
  cbn [ang]. unfold norm3. replace (dot3 (V3 0 0 (1 / 2000)) (V3 0 0 (1 / 2000))) with (Rsqr (1 / 2000)) by (unfold Rsqr; unf; ring).
  rewrite sqrt_Rsqr; lra.
Qed.
