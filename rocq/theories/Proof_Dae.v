(** The meshes of the collada document cover the shapes of the world. *)
From Coq Require Import Lra Lia.
From Verif Require Import Spec_Dae Proof_SE3 Proof_Linalg Props_Angles.
Open Scope R_scope.

Lemma tfs_nil P : mm4 P (tfs_mat []) = P. Proof. unfold tfs_mat, fold_right. lin. Qed.
Lemma tfs_one P t : mm4 P (tfs_mat [t]) = mm4 P (tf_mat t). Proof. unfold tfs_mat, fold_right. now rewrite mm4_1_r. Qed.
Lemma tfs_two P t t' : mm4 P (tfs_mat [t; t']) = mm4 (mm4 P (tf_mat t)) (tf_mat t'). Proof. unfold tfs_mat, fold_right. now rewrite mm4_1_r, mm4_assoc. Qed.
Definition scaled (s u : v3) : v3 := V3 (vx s * vx u) (vy s * vy u) (vz s * vz u).
Lemma ground_scale P s u : ground_of (mm4 P (scale4 s)) u = ground_of P (scaled s u).
Proof. unfold ground_of, scale4, scaled. destruct P as [[] [] [] ?], s, u. lin. Qed.
Lemma ground_mm P Q u : bot Q = zero3 -> hom Q = 1 -> ground_of (mm4 P Q) u = ground_of P (ground_of Q u).
Proof. intros B H. unfold ground_of. destruct P as [[] [] [] ?], Q as [[] [] [] ?], u. simpl in B, H. unfold zero3 in B. injection B as -> -> ->. subst. lin. Qed.
Lemma norm3_nonneg u : 0 <= norm3 u. Proof. apply sqrt_pos. Qed.
Lemma norm3_scal k u : norm3 (vscal k u) = Rabs k * norm3 u.
Proof. unfold norm3. replace (dot3 (vscal k u) (vscal k u)) with ((k * k) * dot3 u u) by (destruct u; unf; ring). rewrite sqrt_mult_alt by nra. f_equal. apply sqrt_Rsqr_abs. Qed.
Lemma norm3_rot A u : SO3 A -> norm3 (mv A u) = norm3 u.
Proof.
  intros S. unfold norm3. f_equal. assert (E : dot3 (mv A u) (mv A u) = dot3 u (mv (mm (tr A) A) u)) by (destruct A, u; unf; ring).
  rewrite E, (proj1 S). destruct u; unf; ring.
Qed.
Lemma mv_tr A u : SO3 A -> mv A (mv (tr A) u) = u.
Proof. intros S. assert (E : mv A (mv (tr A) u) = mv (mm A (tr A)) u) by (destruct A, u; lin). rewrite E, (SO3_r _ S). destruct u. lin. Qed.
Lemma ground_dist P u : SE3 P -> dist (ground_of P u) (pos P) = norm3 u.
Proof. intros S. unfold dist, ground_of. replace (vsub (vadd (mv (rot P) u) (pos P)) (pos P)) with (mv (rot P) u) by (destruct (mv (rot P) u), (pos P); lin). apply norm3_rot, S. Qed.
Lemma ground_onto P x : SE3 P -> exists u, x = ground_of P u.
Proof.
  intros S. exists (mv (tr (rot P)) (vsub x (pos P))). unfold ground_of. rewrite mv_tr by apply S. destruct x, (pos P). lin.
Qed.
Lemma vscal_scal a b u : vscal a (vscal b u) = vscal (a * b) u. Proof. destruct u. lin. Qed.
Lemma vscal_1 u : vscal 1 u = u. Proof. destruct u. lin. Qed.

(** an interval, scaled *)
Lemma interval a e : 0 <= e -> Rabs a <= e -> exists b, Rabs b <= 1 /\ a = e * b.
Proof.
  intros He Ha. destruct (Req_dec e 0) as [-> | Ne].
  - exists 0. split; [rewrite Rabs_R0; lra | ]. assert (Rabs a = 0) by (pose proof (Rabs_pos a); lra). destruct (Req_dec a 0) as [-> | N]; [lra | ]. apply Rabs_pos_lt in N. lra.
  - exists (a / e). split; [ | now field]. unfold Rdiv. rewrite Rabs_mult, (Rabs_right (/ e)); [ | apply Rle_ge, Rlt_le, Rinv_0_lt_compat; lra].
    apply (Rmult_le_reg_r e); [lra | ]. rewrite Rmult_assoc, Rinv_l by exact Ne. lra.
Qed.
Lemma interval_in a e b : 0 <= e -> Rabs b <= 1 -> a = e * b -> Rabs a <= e.
Proof. intros He Hb ->. rewrite Rabs_mult, (Rabs_right e) by lra. pose proof (Rabs_pos b). nra. Qed.

Lemma sphere_covers P N r : SE3 P -> 0 <= r -> dn_mesh N = MSphere -> dn_tfs N = [TScale (V3 r r r)] -> forall x, covers P N x <-> ball (pos P) r x.
Proof.
  intros S Hr Em Et x. unfold covers, ball. rewrite Em, Et, tfs_one. cbn [tf_mat in_mesh].
  assert (Sc : forall u, scaled (V3 r r r) u = vscal r u) by (intros u; destruct u; unfold scaled; lin). split.
  - intros (u & Hu & ->). rewrite ground_scale, ground_dist, Sc, norm3_scal, Rabs_right by (auto; lra). pose proof (norm3_nonneg u). nra.
  - intros Hx. destruct (ground_onto P x S) as (w & ->). rewrite ground_dist in Hx by exact S. destruct (Req_dec r 0) as [-> | Nr].
    + exists zero3. split; [unfold norm3; replace (dot3 zero3 zero3) with 0 by lin; rewrite sqrt_0; lra | ]. rewrite ground_scale, Sc. f_equal.
      assert (Z : dot3 w w = 0). { unfold norm3 in Hx. pose proof (sqrt_pos (dot3 w w)). apply sqrt_eq_0; [destruct w; unf; nra | lra]. }
      destruct w as [a b c]. unfold dot3 in Z; cbn [vx vy vz] in Z. assert (a = 0) by nra. assert (b = 0) by nra. assert (c = 0) by nra. subst. lin.
    + exists (vscal (/ r) w). split.
      * rewrite norm3_scal, Rabs_right by (apply Rle_ge, Rlt_le, Rinv_0_lt_compat; lra). apply (Rmult_le_reg_l r); [lra | ]. rewrite <- Rmult_assoc, Rinv_r by exact Nr. lra.
      * rewrite ground_scale, Sc, vscal_scal, Rinv_r, vscal_1 by exact Nr. reflexivity.
Qed.

Lemma box_covers P N he : 0 <= vx he -> 0 <= vy he -> 0 <= vz he -> dn_mesh N = MBox -> dn_tfs N = [TScale he] -> forall x, covers P N x <-> in_box P he x.
Proof.
  intros H0 H1 H2 Em Et x. unfold covers, in_box. rewrite Em, Et, tfs_one. cbn [tf_mat in_mesh]. split.
  - intros (u & (U0 & U1 & U2) & ->). rewrite ground_scale. exists (scaled he u). split; [reflexivity | ]. unfold scaled; cbn [vx vy vz]. split; [exact (interval_in _ _ _ H0 U0 eq_refl) | ]. split; [exact (interval_in _ _ _ H1 U1 eq_refl) | exact (interval_in _ _ _ H2 U2 eq_refl)].
  - intros (u & -> & U0 & U1 & U2). destruct (interval _ _ H0 U0) as (a & A & Ea), (interval _ _ H1 U1) as (b & B & Eb), (interval _ _ H2 U2) as (c & C & Ec).
    exists (V3 a b c). split; [auto | ]. rewrite ground_scale. f_equal. unfold scaled; cbn [vx vy vz]. rewrite <- Ea, <- Eb, <- Ec. now destruct u.
Qed.

Lemma disc_scale r a b : 0 <= r -> sqrt ((r * a) * (r * a) + (r * b) * (r * b)) = r * sqrt (a * a + b * b).
Proof. intros Hr. replace (r * a * (r * a) + r * b * (r * b)) with ((r * r) * (a * a + b * b)) by ring. rewrite sqrt_mult_alt by nra. now rewrite sqrt_square. Qed.
Lemma cylinder_covers P N l r : 0 <= l -> 0 <= r -> dn_mesh N = MCylinder -> dn_tfs N = [TScale (V3 r r l)] -> forall x, covers P N x <-> in_cylinder P l r x.
Proof.
  intros Hl Hr Em Et x. unfold covers, in_cylinder. rewrite Em, Et, tfs_one. cbn [tf_mat in_mesh]. split.
  - intros (u & (U0 & U1) & ->). rewrite ground_scale. exists (scaled (V3 r r l) u). split; [reflexivity | ]. unfold scaled; cbn [vx vy vz]. rewrite disc_scale by exact Hr.
    split; [pose proof (sqrt_pos (vx u * vx u + vy u * vy u)); nra | ]. rewrite Rabs_mult, (Rabs_right l) by lra. pose proof (Rabs_pos (vz u)). nra.
  - intros (u & -> & U0 & U1).
    assert (Z : exists c, Rabs c <= 1 / 2 /\ vz u = l * c).
    { destruct (interval (2 * vz u) l Hl) as (c & C & E); [rewrite Rabs_mult, (Rabs_right 2) by lra; lra | ]. exists (c / 2). split; [ | lra]. unfold Rdiv. rewrite Rabs_mult, (Rabs_right (/ 2)) by lra. lra. }
    destruct Z as (c & C & Ec).
    assert (D : exists a b, sqrt (a * a + b * b) <= 1 /\ vx u = r * a /\ vy u = r * b).
    { destruct (Req_dec r 0) as [-> | Nr].
      - exists 0, 0. split; [replace (0 * 0 + 0 * 0) with 0 by ring; rewrite sqrt_0; lra | ]. pose proof (sqrt_pos (vx u * vx u + vy u * vy u)).
        assert (Z : vx u * vx u + vy u * vy u = 0) by (apply sqrt_eq_0; [nra | lra]). assert (vx u = 0) by nra. assert (vy u = 0) by nra. lra.
      - exists (vx u / r), (vy u / r). assert (Ex : vx u = r * (vx u / r)) by now field. assert (Ey : vy u = r * (vy u / r)) by now field. split; [ | auto].
        rewrite Ex, Ey, disc_scale in U0 by exact Hr. apply (Rmult_le_reg_l r); lra. }
    destruct D as (a & b & D & Ea & Eb). exists (V3 a b c). split; [auto | ]. rewrite ground_scale. f_equal. unfold scaled; cbn [vx vy vz]. rewrite <- Ea, <- Eb, <- Ec. now destruct u.
Qed.

Lemma plane_covers P N n d H a b : SE3 H -> zcol (rot H) = n -> 0 <= a -> 0 <= b -> dn_mesh N = MPlane ->
  dn_tfs N = [TMat (M4 (rot H) (vscal d n) (bot H) (hom H)); TScale (V3 a b 0)] ->
  triad (xcol (rot H)) (ycol (rot H)) n /\ forall x, covers P N x <-> in_rectangle P n d (xcol (rot H)) (ycol (rot H)) a b x.
Proof.
  intros SH Z Ha Hb Em Et. split.
  - destruct SH as ((O & _) & _). subst n. destruct (rot H) as [a00 a01 a02 a10 a11 a12 a20 a21 a22]. unfold triad, norm3, xcol, ycol, zcol. unfold mm, tr, eye3 in O. cbn [m00 m01 m02 m10 m11 m12 m20 m21 m22] in *.
    injection O as E0 E1 E2 E3 E4 E5 E6 E7 E8. unf. repeat split; try lra.
    + replace (a00 * a00 + a10 * a10 + a20 * a20) with 1 by lra. apply sqrt_1.
    + replace (a01 * a01 + a11 * a11 + a21 * a21) with 1 by lra. apply sqrt_1.
  - intros x. unfold covers, in_rectangle. rewrite Em, Et, tfs_two. cbn [tf_mat in_mesh]. destruct SH as (_ & B & Hm).
    assert (G : forall s t, ground_of (mm4 (mm4 P (M4 (rot H) (vscal d n) (bot H) (hom H))) (scale4 (V3 a b 0))) (V3 s t 0) = ground_of P (vadd (vscal d n) (vadd (vscal (a * s) (xcol (rot H))) (vscal (b * t) (ycol (rot H)))))).
    { intros s t. rewrite ground_scale, ground_mm by assumption. f_equal. unfold ground_of, scaled, xcol, ycol. cbn [rot Model_Linalg.pos vx vy vz]. destruct (rot H), n. lin. }
    split.
    + intros ([s t z] & (U0 & U1 & U2) & ->). cbn [vx vy vz] in *. subst z. rewrite G. exists (a * s), (b * t). split; [exact (interval_in _ _ _ Ha U0 eq_refl) | ]. split; [exact (interval_in _ _ _ Hb U1 eq_refl) | reflexivity].
    + intros (s & t & U0 & U1 & ->). destruct (interval _ _ Ha U0) as (s' & A & ->), (interval _ _ Hb U1) as (t' & B' & ->). exists (V3 s' t' 0). split; [auto | ]. now rewrite G.
Qed.
