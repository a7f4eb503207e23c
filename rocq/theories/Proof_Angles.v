(** arctan2, roll-pitch-yaw angles, zaligned. *)
From Verif Require Import Model_Linalg Model_Hg Spec_SE3 Proof_Linalg Proof_Deriv Proof_SE3 Proof_Exp Proof_Exp2.

Lemma cos_atan_pos k : 0 < cos (atan k).
Proof. destruct (atan_bound k). apply cos_gt_0; lra. Qed.
Lemma sin_atan_tan k : sin (atan k) = k * cos (atan k).
Proof.
  assert (C := cos_atan_pos k). assert (T : tan (atan k) = k) by apply tan_atan.
  unfold tan in T. rewrite <- T at 2. field. lra.
Qed.
Lemma cos_atan2 k : cos (atan k) * cos (atan k) * (1 + k * k) = 1.
Proof. pose proof (cs2 (atan k)). rewrite (sin_atan_tan k) in H. nra. Qed.

(** polar coordinates *)
Lemma arctan2_polar y x r : 0 < r -> r * r = x * x + y * y ->
  cos (arctan2 y x) = x / r /\ sin (arctan2 y x) = y / r.
Proof.
  intros P Q. unfold arctan2. destruct (Rlt_dec 0 x) as [X | X].
  - assert (C := cos_atan_pos (y / x)). assert (C2 := cos_atan2 (y / x)).
    assert (E : cos (atan (y / x)) = x / r).
    { assert (cos (atan (y / x)) * r = x).
      { apply Rsqr_inj; [nra | lra | ]. unfold Rsqr. set (c := cos (atan (y / x))) in *.
        transitivity (c * c * (r * r)); [ring | ]. rewrite Q.
        transitivity ((c * c * (1 + y / x * (y / x))) * (x * x)); [field; lra | rewrite C2; ring]. }
      transitivity (cos (atan (y / x)) * r / r); [field; lra | rewrite H; reflexivity]. }
    split; [exact E | ]. rewrite sin_atan_tan, E. field; lra.
  - destruct (Rlt_dec x 0) as [X' | X'].
    + assert (C := cos_atan_pos (y / x)). assert (C2 := cos_atan2 (y / x)).
      assert (E : cos (atan (y / x)) = - x / r).
      { assert (cos (atan (y / x)) * r = - x).
        { apply Rsqr_inj; [nra | lra | ]. unfold Rsqr. set (c := cos (atan (y / x))) in *.
          transitivity (c * c * (r * r)); [ring | ]. rewrite Q.
          transitivity ((c * c * (1 + y / x * (y / x))) * (x * x)); [field; lra | rewrite C2; ring]. }
        transitivity (cos (atan (y / x)) * r / r); [field; lra | rewrite H; reflexivity]. }
      destruct (Rle_dec 0 y).
      * rewrite neg_cos, neg_sin, sin_atan_tan, E. split; field; lra.
      * replace (atan (y / x) - PI) with (- (PI - atan (y / x))) by ring.
        rewrite cos_neg, sin_neg.
        replace (PI - atan (y / x)) with (- atan (y / x) + PI) by ring.
        rewrite neg_cos, neg_sin, cos_neg, sin_neg, sin_atan_tan, E. split; field; lra.
    + assert (x = 0) by lra. subst x.
      destruct (Rlt_dec 0 y) as [Y | Y].
      * assert (r = y) by nra. subst. rewrite cos_PI2, sin_PI2. split; field; lra.
      * destruct (Rlt_dec y 0).
        -- assert (r = - y) by nra. subst. rewrite cos_neg, sin_neg, cos_PI2, sin_PI2. split; field; lra.
        -- assert (y = 0) by lra. subst. nra.
Qed.
Lemma arctan2_bound y x : - PI < arctan2 y x <= PI.
Proof.
  assert (P := PI_RGT_0). unfold arctan2.
  destruct (Rlt_dec 0 x); [destruct (atan_bound (y / x)); lra | ].
  destruct (Rlt_dec x 0).
  - destruct (atan_bound (y / x)). destruct (Rle_dec 0 y).
    + assert (atan (y / x) <= 0).
      { destruct (Rle_lt_or_eq_dec 0 y r0) as [H1 | H1].
        - rewrite <- (Ropp_involutive (y / x)), atan_opp.
          assert (0 < - (y / x)). { replace (- (y / x)) with (y * / (- x)) by (field; lra). apply Rmult_lt_0_compat; auto. apply Rinv_0_lt_compat; lra. }
          assert (atan 0 < atan (- (y / x))) by (apply atan_increasing; auto). rewrite atan_0 in *. lra.
        - subst. replace (0 / x) with 0 by (field; lra). rewrite atan_0; lra. }
      lra.
    + assert (0 < atan (y / x)).
      { rewrite <- atan_0. apply atan_increasing. replace (y / x) with ((- y) * / (- x)) by (field; lra).
        apply Rmult_lt_0_compat; [lra | ]. apply Rinv_0_lt_compat; lra. }
      lra.
  - destruct (Rlt_dec 0 y); [lra | ]. destruct (Rlt_dec y 0); lra.
Qed.
(** an angle in (-pi, pi] is determined by its cosine and sine *)
Lemma angle_unique a b : - PI < a <= PI -> - PI < b <= PI -> cos a = cos b -> sin a = sin b -> a = b.
Proof.
  intros A B C S. assert (P := PI_RGT_0).
  assert (E : cos (a - b) = 1).
  { rewrite cos_minus, C, S. pose proof (cs2 b). lra. }
  assert (F : sin ((a - b) / 2) = 0).
  { replace (a - b) with (2 * ((a - b) / 2)) in E by field. rewrite cos_2a_sin in E. nra. }
  assert (G : - PI < (a - b) / 2 < PI) by lra.
  destruct (Rtotal_order ((a - b) / 2) 0) as [L | [L | L]].
  - assert (sin ((a - b) / 2) < 0).
    { rewrite <- (Ropp_involutive ((a - b) / 2)), sin_neg. assert (0 < sin (- ((a - b) / 2))) by (apply sin_gt_0; lra). lra. }
    lra.
  - lra.
  - assert (0 < sin ((a - b) / 2)) by (apply sin_gt_0; lra). lra.
Qed.
Lemma arctan2_angle r a : 0 < r -> - PI < a <= PI -> arctan2 (r * sin a) (r * cos a) = a.
Proof.
  intros P A. destruct (arctan2_polar (r * sin a) (r * cos a) r P) as [C S].
  - pose proof (cs2 a). nra.
  - apply angle_unique; auto using arctan2_bound.
    + rewrite C. field; lra.
    + rewrite S. field; lra.
Qed.

(** a rotation with a zero at (1,0) is Ry Rx *)
Lemma rotyx_of B ay ax : SO3 B -> m10 B = 0 -> m00 B = cos ay -> m20 B = - sin ay ->
  m11 B = cos ax -> m12 B = - sin ax -> B = rot (rotyx ay ax).
Proof.
  intros S Z A1 A2 A3 A4. assert (T := SO3_tr _ S).
  destruct B as [b00 b01 b02 b10 b11 b12 b20 b21 b22]. unfold rotyx, adj3, tr in *. cbn [m00 m01 m02 m10 m11 m12 m20 m21 m22 rot] in *.
  injection T. intros. subst b10 b00 b20 b11 b12. apply Proof_Exp.m3_ext; cbn [m00 m01 m02 m10 m11 m12 m20 m21 m22 rot]; nra.
Qed.

Lemma SO3_rows B : SO3 B ->
  m00 B * m00 B + m10 B * m10 B + m20 B * m20 B = 1 /\ m10 B * m10 B + m11 B * m11 B + m12 B * m12 B = 1.
Proof.
  intros S. assert (L := SO3_l _ S). assert (Rr := SO3_r _ S). split.
  - assert (E : m00 (mm (tr B) B) = 1) by (rewrite L; reflexivity). revert E. destruct B; unf. lra.
  - assert (E : m11 (mm B (tr B)) = 1) by (rewrite Rr; reflexivity). revert E. destruct B; unf. lra.
Qed.

Lemma rotzyx_rot a b c : rot (rotzyx a b c) = mm (rot (rotz a)) (rot (rotyx b c)).
Proof. unfold rotzyx, rotz, rotyx; cbn zeta; lin. Qed.

Lemma rotzT_entries a A : let B := mm (tr (rot (rotz a))) A in
  m00 B = cos a * m00 A + sin a * m10 A /\ m10 B = - sin a * m00 A + cos a * m10 A /\ m20 B = m20 A /\
  m11 B = cos a * m11 A - sin a * m01 A /\ m12 B = cos a * m12 A - sin a * m02 A.
Proof. unfold rotz; cbn zeta. destruct A; unf. repeat split; ring. Qed.
(** main branch *)
Lemma rpy_main A az ay ax : SO3 A -> ~ (m00 A = 0 /\ m10 A = 0) ->
  az = arctan2 (m10 A) (m00 A) ->
  ay = arctan2 (- m20 A) (cos az * m00 A + sin az * m10 A) ->
  ax = arctan2 (sin az * m02 A - cos az * m12 A) (cos az * m11 A - sin az * m01 A) ->
  rot (rotzyx az ay ax) = A.
Proof.
  intros S N Az Ay Ax. destruct (SO3_rows _ S) as [C0 _].
  set (r := sqrt (m00 A * m00 A + m10 A * m10 A)).
  assert (R2 : r * r = m00 A * m00 A + m10 A * m10 A) by (apply sqrt_sqrt; nra).
  assert (Rp : 0 < r).
  { apply sqrt_lt_R0. destruct (Req_EM_T (m00 A) 0), (Req_EM_T (m10 A) 0); try tauto; nra. }
  destruct (arctan2_polar (m10 A) (m00 A) r Rp R2) as [Cz Sz]. rewrite <- Az in Cz, Sz.
  set (B := mm (tr (rot (rotz az))) A).
  assert (SZ : SO3 (rot (rotz az))) by apply rotz_SE3.
  assert (SB : SO3 B) by (apply SO3_mm; auto using SO3_transpose).
  destruct (rotzT_entries az A) as (B00' & B10' & B20 & B11 & B12). fold B in B00', B10', B20, B11, B12.
  assert (X : cos az * m00 A + sin az * m10 A = r).
  { rewrite Cz, Sz. transitivity ((m00 A * m00 A + m10 A * m10 A) / r); [field; lra | rewrite <- R2; field; lra]. }
  assert (B00 : m00 B = r) by congruence.
  assert (B10 : m10 B = 0) by (rewrite B10', Cz, Sz; field; lra).
  destruct (SO3_rows _ SB) as [K0 K1]. rewrite B10, B00, B20 in K0. rewrite B10 in K1.
  rewrite X in Ay. destruct (arctan2_polar (- m20 A) r 1) as [Cy Sy]; [lra | nra | ]. rewrite <- Ay in Cy, Sy.
  rewrite <- B11 in Ax. replace (sin az * m02 A - cos az * m12 A) with (- m12 B) in Ax by (rewrite B12; ring).
  destruct (arctan2_polar (- m12 B) (m11 B) 1) as [Cx Sx]; [lra | nra | ]. rewrite <- Ax in Cx, Sx.
  rewrite rotzyx_rot, <- (rotyx_of B ay ax); auto.
  - unfold B. rewrite mm_assoc, SO3_r, mm_1_l; auto.
  - rewrite B00, Cy. field.
  - rewrite B20, Sy. field.
  - rewrite Cx. field.
  - rewrite Sx. field.
Qed.
(** singular branch, exact singularity *)
Lemma rpy_sing A : SO3 A -> m00 A = 0 -> m10 A = 0 ->
  rot (rotzyx 0 (arctan2 (- m20 A) (m00 A)) (arctan2 (- m12 A) (m11 A))) = A.
Proof.
  intros S Z0 Z1. destruct (SO3_rows _ S) as [K0 K1]. rewrite Z0, Z1 in K0. rewrite Z1 in K1.
  destruct (arctan2_polar (- m20 A) (m00 A) 1) as [Cy Sy]; [lra | rewrite Z0; nra | ].
  destruct (arctan2_polar (- m12 A) (m11 A) 1) as [Cx Sx]; [lra | nra | ].
  rewrite rotzyx_rot. rewrite <- (rotyx_of A); auto; try (rewrite ?Cy, ?Sy, ?Cx, ?Sx; field).
  unfold rotz; cbn zeta. rewrite cos_0, sin_0. cbn [rot]. lin.
Qed.
