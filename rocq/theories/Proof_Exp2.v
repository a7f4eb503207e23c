(** Size of the error made by [exp] below its threshold. *)
From Verif Require Import Model_Linalg Model_Hg Spec_SE3 Proof_Linalg Proof_Deriv Proof_SE3 Proof_Exp.

Lemma sqr_le_norm x k : 0 <= k -> x * x <= k * k -> Rabs x <= k.
Proof.
  intros K H. rewrite <- (Rabs_right k) by lra. apply Rsqr_le_abs_0. exact H.
Qed.
Lemma vx_norm w : Rabs (vx w) <= norm3 w.
Proof. apply sqr_le_norm; [apply norm3_pos | rewrite norm3_sq; destruct w; unf; nra]. Qed.
Lemma vy_norm w : Rabs (vy w) <= norm3 w.
Proof. apply sqr_le_norm; [apply norm3_pos | rewrite norm3_sq; destruct w; unf; nra]. Qed.
Lemma vz_norm w : Rabs (vz w) <= norm3 w.
Proof. apply sqr_le_norm; [apply norm3_pos | rewrite norm3_sq; destruct w; unf; nra]. Qed.
Lemma lagrange u v : dot3 (cross u v) (cross u v) + dot3 u v * dot3 u v = dot3 u u * dot3 v v.
Proof. lin. Qed.
Lemma cauchy u v : Rabs (dot3 u v) <= norm3 u * norm3 v.
Proof.
  apply sqr_le_norm; [apply Rmult_le_pos; apply norm3_pos | ].
  replace (norm3 u * norm3 v * (norm3 u * norm3 v)) with ((norm3 u * norm3 u) * (norm3 v * norm3 v)) by ring.
  rewrite !norm3_sq, <- (lagrange u v). pose proof (dot3_nonneg (cross u v)). lra.
Qed.
Lemma norm_cross u v : norm3 (cross u v) <= norm3 u * norm3 v.
Proof.
  rewrite <- (Rabs_right (norm3 (cross u v))) by (apply Rle_ge, norm3_pos).
  apply sqr_le_norm; [apply Rmult_le_pos; apply norm3_pos | ].
  replace (norm3 u * norm3 v * (norm3 u * norm3 v)) with ((norm3 u * norm3 u) * (norm3 v * norm3 v)) by ring.
  rewrite !norm3_sq, <- (lagrange u v). pose proof (Rle_0_sqr (dot3 u v)). unfold Rsqr in *. lra.
Qed.

Lemma Rabs_le_mul x y a b : Rabs x <= a -> Rabs y <= b -> Rabs (x * y) <= a * b.
Proof. intros. rewrite Rabs_mult. apply Rmult_le_compat; auto using Rabs_pos. Qed.
Lemma Rabs_le_add x y a b : Rabs x <= a -> Rabs y <= b -> Rabs (x + y) <= a + b.
Proof. intros. eapply Rle_trans; [apply Rabs_triang | lra]. Qed.

Lemma coef_bounds t : 0 < t < 1 / 1000 ->
  Rabs (1 - t ^ 2 / 6 - sin t / t) <= t ^ 4 / 120 /\
  Rabs (1 / 2 - (1 - cos t) / (t * t)) <= t ^ 2 / 24 /\
  Rabs (1 / 6 - (t - sin t) / (t * t * t)) <= t ^ 2 / 120.
Proof.
  intros [P L]. destruct (sin_bounds t) as [S1 S2]; [lra | ]. destruct (cos_bounds t) as [C1 C2]; [lra | ].
  assert (T2 : 0 < t * t) by nra. assert (T3 : 0 < t * t * t) by nra.
  repeat split.
  - replace (1 - t ^ 2 / 6 - sin t / t) with ((t - t ^ 3 / 6 - sin t) / t) by (field; lra).
    unfold Rdiv at 1. rewrite Rabs_mult, (Rabs_right (/ t)) by (apply Rle_ge, Rlt_le, Rinv_0_lt_compat; lra).
    apply (Rmult_le_reg_r t); [lra | ]. rewrite Rmult_assoc, Rinv_l, Rmult_1_r by lra.
    apply Rabs_le. nra.
  - replace (1 / 2 - (1 - cos t) / (t * t)) with ((t ^ 2 / 2 - 1 + cos t) / (t * t)) by (field; lra).
    unfold Rdiv at 1. rewrite Rabs_mult, (Rabs_right (/ (t * t))) by (apply Rle_ge, Rlt_le, Rinv_0_lt_compat; lra).
    apply (Rmult_le_reg_r (t * t)); [lra | ]. rewrite Rmult_assoc, Rinv_l, Rmult_1_r by lra.
    apply Rabs_le. nra.
  - replace (1 / 6 - (t - sin t) / (t * t * t)) with ((t ^ 3 / 6 - t + sin t) / (t * t * t)) by (field; lra).
    unfold Rdiv at 1. rewrite Rabs_mult, (Rabs_right (/ (t * t * t))) by (apply Rle_ge, Rlt_le, Rinv_0_lt_compat; lra).
    apply (Rmult_le_reg_r (t * t * t)); [lra | ]. rewrite Rmult_assoc, Rinv_l, Rmult_1_r by lra.
    apply Rabs_le. nra.
Qed.

Lemma exp_small tw : norm3 (ang tw) < 1 / 1000 ->
  let t := norm3 (ang tw) in
  exp tw = M4 (rodr (ang tw) (1 - t ^ 2 / 6) (1 / 2)) (mv (vmat (ang tw) (1 - t ^ 2 / 6) (1 / 2) (1 / 6)) (lin tw)) zero3 1.
Proof.
  intros L t. unfold exp, exp_coeffs. fold t. destruct (Rle_dec (1 / 1000) t); [unfold t in *; lra | reflexivity].
Qed.
Lemma screwG_1 tw : let t := norm3 (ang tw) in
  screwG tw 1 = M4 (rodr (ang tw) (sin t / t) ((1 - cos t) / (t * t)))
     (mv (vmat (ang tw) (sin t / t) ((1 - cos t) / (t * t)) ((t - sin t) / (t * t * t))) (lin tw)) zero3 1.
Proof. intros t. unfold screwG. fold t. cbn zeta. rewrite Rmult_1_r. reflexivity. Qed.

Lemma rodr_near w a b a' b' ea eb : let t := norm3 w in
  Rabs (a - a') <= ea -> Rabs (b - b') <= eb -> m3_near (ea * t + eb * (t * t)) (rodr w a b) (rodr w a' b').
Proof.
  intros t A B. assert (X := vx_norm w). assert (Y := vy_norm w). assert (Z := vz_norm w).
  assert (Q := norm3_sq w). fold t in X, Y, Z, Q. assert (T : 0 <= t) by apply norm3_pos.
  assert (EA : 0 <= ea) by (pose proof (Rabs_pos (a - a')); lra).
  assert (EB : 0 <= eb) by (pose proof (Rabs_pos (b - b')); lra).
  destruct w as [x y z]. unfold m3_near, v3_near, rodr. unf.
  assert (Nx : Rabs (- x) <= t) by (rewrite Rabs_Ropp; auto).
  assert (Ny : Rabs (- y) <= t) by (rewrite Rabs_Ropp; auto).
  assert (Nz : Rabs (- z) <= t) by (rewrite Rabs_Ropp; auto).
  assert (XX : Rabs (- (y * y + z * z)) <= t * t) by (rewrite Rabs_Ropp, Rabs_right; nra).
  assert (YY : Rabs (- (x * x + z * z)) <= t * t) by (rewrite Rabs_Ropp, Rabs_right; nra).
  assert (ZZ : Rabs (- (x * x + y * y)) <= t * t) by (rewrite Rabs_Ropp, Rabs_right; nra).
  assert (XY := Rabs_le_mul _ _ _ _ X Y). assert (XZ := Rabs_le_mul _ _ _ _ X Z). assert (YZ := Rabs_le_mul _ _ _ _ Y Z).
  assert (Z0 : Rabs 0 <= t) by (rewrite Rabs_R0; auto).
  Ltac mk A B k q := match goal with |- Rabs ?e <= _ =>
     match type of A with Rabs ?da <= _ => match type of B with Rabs ?db <= _ =>
     replace e with (da * k + db * q) by ring end end;
     apply Rabs_le_add; apply Rabs_le_mul; auto end.
  repeat split.
  - mk A B 0 (- (y * y + z * z)).
  - mk A B (- z) (x * y).
  - mk A B y (x * z).
  - mk A B z (x * y).
  - mk A B 0 (- (x * x + z * z)).
  - mk A B (- x) (y * z).
  - mk A B (- y) (x * z).
  - mk A B x (y * z).
  - mk A B 0 (- (x * x + y * y)).
Qed.
Lemma vmat_near w v a b d a' b' d' ea eb ed : let t := norm3 w in
  Rabs (a - a') <= ea -> Rabs (b - b') <= eb -> Rabs (d - d') <= ed ->
  v3_near ((ea + eb * t + ed * (t * t)) * norm3 v) (mv (vmat w a b d) v) (mv (vmat w a' b' d') v).
Proof.
  intros t A B Dd. set (n := norm3 v).
  assert (X := vx_norm w). assert (Y := vy_norm w). assert (Z := vz_norm w).
  assert (X1 := vx_norm v). assert (Y1 := vy_norm v). assert (Z1 := vz_norm v).
  assert (X2 := vx_norm (cross w v)). assert (Y2 := vy_norm (cross w v)). assert (Z2 := vz_norm (cross w v)).
  assert (C2 := norm_cross w v). assert (C := cauchy w v). fold t in X, Y, Z, C, C2. fold n in X1, Y1, Z1, C, C2.
  assert (X3 := Rabs_le_mul _ _ _ _ X C). assert (Y3 := Rabs_le_mul _ _ _ _ Y C). assert (Z3 := Rabs_le_mul _ _ _ _ Z C).
  assert (X4 := Rle_trans _ _ _ X2 C2). assert (Y4 := Rle_trans _ _ _ Y2 C2). assert (Z4 := Rle_trans _ _ _ Z2 C2).
  assert (forall i j k, Rabs i <= n -> Rabs j <= t * n -> Rabs k <= t * (t * n) ->
    Rabs ((a - a') * i + (b - b') * j + (d - d') * k) <= (ea + eb * t + ed * (t * t)) * n).
  { intros i j k Hi Hj Hk. replace ((ea + eb * t + ed * (t * t)) * n) with (ea * n + eb * (t * n) + ed * (t * (t * n))) by ring.
    repeat apply Rabs_le_add; apply Rabs_le_mul; auto. }
  assert (E : forall (p : v3 -> R), (p = vx \/ p = vy \/ p = vz) ->
     p (mv (vmat w a b d) v) - p (mv (vmat w a' b' d') v) =
     (a - a') * p v + (b - b') * p (cross w v) + (d - d') * (p w * dot3 w v)).
  { clear. intros p [ -> | [ -> | -> ]]; destruct w, v; unfold vmat; unf; ring. }
  unfold v3_near. rewrite !E by auto. repeat split; apply H; auto.
Qed.
