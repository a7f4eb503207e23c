(** C29 (roll-pitch-yaw angles) and C30 (zaligned). *)
From Verif Require Import Model_Linalg Model_Hg Spec_SE3 Proof_Linalg Proof_Deriv Proof_SE3 Proof_Exp Proof_Exp2 Proof_Angles.

(** the rotation rebuilt from a triple of angles *)
Definition of_angles (a : R * R * R) : m3 := let '(z, y, x) := a in rot (rotzyx z y x).

(** ** C29 *)
(** exact round trip for every rotation outside the tolerance band around the singularity,
    and exactly at the singularity *)
Theorem C29_reproduces_rotation_partial : forall H, SE3 H ->
  (tol <= Rabs (m00 (rot H)) \/ tol <= Rabs (m10 (rot H)) \/ (m00 (rot H) = 0 /\ m10 (rot H) = 0)) ->
  exists a, rotzyx_angles H = Ok a /\ of_angles a = rot H.
Proof.
  intros H S C. assert (S3 : SO3 (rot H)) by apply S. pose proof tol_pos as Tp.
  unfold rotzyx_angles. rewrite ishom_SE3 by auto.
  destruct (Rltb (Rabs (m00 (rot H))) tol && Rltb (Rabs (m10 (rot H))) tol) eqn:B.
  - apply andb_true_iff in B. rewrite !Rltb_true in B.
    destruct C as [C | [C | [C0 C1]]]; [lra | lra | ].
    eexists. split; [reflexivity | ]. apply rpy_sing; auto.
  - assert (N : ~ (m00 (rot H) = 0 /\ m10 (rot H) = 0)).
    { intros [A0 A1]. rewrite A0, A1, Rabs_R0 in B. rewrite (proj2 (Rltb_true 0 tol) Tp) in B. discriminate. }
    eexists. split; [reflexivity | ]. unfold of_angles. eapply rpy_main; eauto.
Qed.
(** every returned pitch etc. lies in (-pi, pi] *)
Theorem C29_range : forall H z y x, rotzyx_angles H = Ok (z, y, x) ->
  - PI < z <= PI /\ - PI < y <= PI /\ - PI < x <= PI.
Proof.
  intros H z y x E. unfold rotzyx_angles in E. destruct (ishomogeneousmatrix H); [ | discriminate].
  destruct (Rltb _ _ && Rltb _ _); cbv zeta in E; injection E as <- <- <-;
  repeat split; try apply arctan2_bound; pose proof PI_RGT_0; lra.
Qed.
(** inside the band the rotation is reproduced within 2 tol on each entry *)
Theorem C29_band_error : forall H, SE3 H -> exists a, rotzyx_angles H = Ok a /\ m3_near (2 * tol) (of_angles a) (rot H).
Proof.
  intros H S. assert (S3 : SO3 (rot H)) by apply S. pose proof tol_pos as Tp.
  destruct (Rlt_dec (Rabs (m00 (rot H))) tol) as [B0 | B0]; [destruct (Rlt_dec (Rabs (m10 (rot H))) tol) as [B1 | B1] | ].
  2: { destruct (C29_reproduces_rotation_partial H S) as (a & E & F); [right; left; lra | ].
       exists a. split; auto. rewrite F. unfold m3_near, v3_near. rewrite !Rminus_diag_eq, !Rabs_R0 by reflexivity. repeat split; lra. }
  2: { destruct (C29_reproduces_rotation_partial H S) as (a & E & F); [left; lra | ].
       exists a. split; auto. rewrite F. unfold m3_near, v3_near. rewrite !Rminus_diag_eq, !Rabs_R0 by reflexivity. repeat split; lra. }
  unfold rotzyx_angles. rewrite ishom_SE3 by auto.
  rewrite (proj2 (Rltb_true _ _) B0), (proj2 (Rltb_true _ _) B1). cbn [andb].
  eexists. split; [reflexivity | ]. unfold of_angles.
  destruct (SO3_rows _ S3) as [K0 K1]. assert (T := SO3_tr _ S3). assert (KR := SO3_r _ S3).
  destruct (rot H) as [a00 a01 a02 a10 a11 a12 a20 a21 a22]. cbn [m00 m01 m02 m10 m11 m12 m20 m21 m22] in *.
  clear S S3. unfold adj3, tr in T. cbn [m00 m01 m02 m10 m11 m12 m20 m21 m22] in T. injection T. clear T. intros.
  assert (E2 : 0 <= a10 * a10 <= tol * tol).
  { split; [nra | ]. apply Rabs_def2 in B1. nra. }
  assert (TT : tol * tol <= tol / 4) by (unfold tol; lra).
  set (p := sqrt (1 - a10 * a10)).
  assert (P2 : p * p = 1 - a10 * a10) by (apply sqrt_sqrt; unfold tol in *; lra).
  assert (Pp : 0 < p) by (apply sqrt_lt_R0; unfold tol in *; lra).
  assert (P1 : p <= 1) by nra.
  destruct (arctan2_polar (- a20) a00 p Pp) as [Cy Sy]; [nra | ].
  destruct (arctan2_polar (- a12) a11 p Pp) as [Cx Sx]; [nra | ].
  unfold rotzyx. cbn zeta. rewrite cos_0, sin_0, Cy, Sy, Cx, Sx.
  set (q := / p). assert (Q1 : q * p = 1) by (apply Rinv_l; lra).
  assert (Qge : 1 <= q) by nra.
  assert (Q2 : q * q * (1 - a10 * a10) = 1) by (rewrite <- P2; nra).
  assert (Q2le : q * q <= 1 + 2 * (a10 * a10)) by (unfold tol in *; nra).
  assert (Qle : q <= 1 + 2 * (a10 * a10)) by nra.
  unfold Rdiv. fold q.
  assert (Bd : forall x y z, x * x + y * y + z * z = 1 -> Rabs x <= 1 /\ Rabs y <= 1 /\ Rabs z <= 1).
  { intros x y z E. repeat split; apply sqr_le_norm; nra. }
  unfold mm in KR. cbn [m00 m01 m02 m10 m11 m12 m20 m21 m22] in KR.
  injection KR. intros. clear KR.
  destruct (Bd a00 a01 a02) as (b00 & b01 & b02); [lra | ].
  destruct (Bd a10 a11 a12) as (b10 & b11 & b12); [lra | ].
  destruct (Bd a20 a21 a22) as (b20 & b21 & b22); [lra | ].
  assert (kq : Rabs (q - 1) <= tol / 2) by (rewrite Rabs_right; unfold tol in *; lra).
  assert (kq2 : Rabs (q * q - 1) <= tol / 2) by (rewrite Rabs_right; unfold tol in *; nra).
  assert (ke : Rabs a10 <= tol) by lra.
  assert (one : forall x k, Rabs x <= 1 -> Rabs k <= tol / 2 -> Rabs (x * k) <= 2 * tol).
  { intros x k Hx Hk. assert (Z := Rabs_le_mul _ _ _ _ Hx Hk). lra. }
  assert (two : forall x y k e z, Rabs x <= 1 -> Rabs y <= 1 -> Rabs k <= tol / 2 -> Rabs e <= tol -> Rabs z <= 1 ->
     Rabs (x * y * k + e * z) <= 2 * tol).
  { intros x y k e z Hx Hy Hk He Hz. assert (Z := Rabs_le_mul _ _ _ _ (Rabs_le_mul _ _ _ _ Hx Hy) Hk).
    assert (Z2 := Rabs_le_mul _ _ _ _ He Hz). assert (Z3 := Rabs_le_add _ _ _ _ Z Z2). lra. }
  assert (ne : forall x e, Rabs x <= e -> Rabs (- x) <= e) by (intros; rewrite Rabs_Ropp; auto).
  unfold m3_near, v3_near. cbn [m00 m01 m02 m10 m11 m12 m20 m21 m22 vx vy vz rot].
  repeat split.
  - replace (1 * (a00 * q) - a00) with (a00 * (q - 1)) by ring. apply one; auto.
  - match goal with |- Rabs ?e <= _ => replace e with (a20 * a12 * (q * q - 1) + a10 * a22) by lra end. apply two; auto.
  - match goal with |- Rabs ?e <= _ => replace e with ((- a20) * a11 * (q * q - 1) + (- a10) * a21) by lra end. apply two; auto.
  - match goal with |- Rabs ?e <= _ => replace e with (- a10) by ring end. apply ne. lra.
  - match goal with |- Rabs ?e <= _ => replace e with (a11 * (q - 1)) by ring end. apply one; auto.
  - match goal with |- Rabs ?e <= _ => replace e with (a12 * (q - 1)) by ring end. apply one; auto.
  - match goal with |- Rabs ?e <= _ => replace e with (a20 * (q - 1)) by ring end. apply one; auto.
  - match goal with |- Rabs ?e <= _ => replace e with ((- a00) * a12 * (q * q - 1) + (- a10) * a02) by lra end. apply two; auto.
  - match goal with |- Rabs ?e <= _ => replace e with (a00 * a11 * (q * q - 1) + a10 * a01) by lra end. apply two; auto.
Qed.

(** the angles themselves are recovered as soon as the first column leaves the band *)
Theorem C29_recovers_angles_partial : forall z y x, - PI < z <= PI -> - PI < x <= PI -> - (PI / 2) < y < PI / 2 ->
  2 * tol <= cos y -> rotzyx_angles (rotzyx z y x) = Ok (z, y, x).
Proof.
  intros z y x Z X Y C. pose proof tol_pos. unfold rotzyx_angles. rewrite ishom_SE3 by apply rotzyx_SE3.
  assert (Cy : 0 < cos y) by (apply cos_gt_0; lra).
  assert (Pi := PI_RGT_0). assert (Sz := cs2 z).
  assert (B : Rltb (Rabs (m00 (rot (rotzyx z y x)))) tol && Rltb (Rabs (m10 (rot (rotzyx z y x)))) tol = false).
  { apply andb_false_iff. rewrite !Rltb_false. unfold rotzyx; cbn [rot m00 m10].
    rewrite !Rabs_mult, (Rabs_right (cos y)) by lra.
    destruct (Rle_dec (1 / 2) (Rabs (cos z))) as [K | K]; [left | right].
    - nra.
    - assert (1 / 2 <= Rabs (sin z)); [ | nra].
      assert (cos z * cos z <= 1 / 4). { assert (Rabs (cos z) * Rabs (cos z) <= 1 / 4) by (pose proof (Rabs_pos (cos z)); nra).
        rewrite <- Rabs_mult, Rabs_right in H0; nra. }
      destruct (Rle_dec (1 / 2) (Rabs (sin z))); auto.
      assert (Rabs (sin z) * Rabs (sin z) <= 1 / 4) by (pose proof (Rabs_pos (sin z)); nra).
      rewrite <- Rabs_mult, Rabs_right in H1; nra. }
  rewrite B. cbv zeta. unfold rotzyx; cbn [rot m00 m10 m01 m02 m11 m12 m20].
  assert (E1 : arctan2 (sin z * cos y) (cos z * cos y) = z).
  { rewrite (Rmult_comm (sin z)), (Rmult_comm (cos z)). apply arctan2_angle; auto. }
  rewrite E1.
  replace (cos z * (cos z * cos y) + sin z * (sin z * cos y)) with (1 * cos y)
    by (transitivity ((cos z * cos z + sin z * sin z) * cos y); [rewrite Sz; ring | ring]).
  replace (- - sin y) with (1 * sin y) by ring.
  replace (sin z * (cos z * sin y * cos x + sin z * sin x) - cos z * (sin z * sin y * cos x - cos z * sin x)) with (1 * sin x)
    by (transitivity ((cos z * cos z + sin z * sin z) * sin x); [rewrite Sz; ring | ring]).
  replace (cos z * (sin z * sin y * sin x + cos z * cos x) - sin z * (cos z * sin y * sin x - sin z * cos x)) with (1 * cos x)
    by (transitivity ((cos z * cos z + sin z * sin z) * cos x); [rewrite Sz; ring | ring]).
  rewrite !arctan2_angle; auto; lra.
Qed.
(** Neither half holds without restriction: pitch close enough to pi/2 loses the yaw. *)
Theorem C29_band_refuted : exists z y x a, - PI < z < PI /\ - PI < x < PI /\ - (PI / 2) < y < PI / 2 /\
  SE3 (rotzyx z y x) /\ rotzyx_angles (rotzyx z y x) = Ok a /\ a <> (z, y, x) /\
  of_angles a <> rot (rotzyx z y x).
Proof.
  assert (P3 : 3 < PI) by (pose proof PI2_3_2; lra).
  assert (Hb : -1 <= tol / 2 <= 1) by (unfold tol; lra).
  assert (C := cos_acos _ Hb). assert (Bd := acos_bound (tol / 2)).
  set (y := acos (tol / 2)) in *.
  assert (Yl : y < PI / 2).
  { destruct (Rlt_dec y (PI / 2)); auto. exfalso. assert (cos y <= 0) by (apply cos_le_0; lra). unfold tol in *; lra. }
  assert (SI : 0 < sin 1) by (apply sin_gt_0; lra).
  assert (S1 : sin 1 <= 1) by apply SIN_bound.
  assert (C1 := COS_bound 1).
  exists 1, y, 0. eexists. repeat split; try lra; try apply rotzyx_SE3.
  - unfold rotzyx_angles. rewrite ishom_SE3 by apply rotzyx_SE3.
    assert (B : Rltb (Rabs (m00 (rot (rotzyx 1 y 0)))) tol && Rltb (Rabs (m10 (rot (rotzyx 1 y 0)))) tol = true).
    { apply andb_true_iff. rewrite !Rltb_true. unfold rotzyx; cbn [rot m00 m10]. rewrite C. pose proof tol_pos.
      rewrite !Rabs_mult, !(Rabs_right (tol / 2)) by lra. split.
      - assert (Rabs (cos 1) <= 1) by (apply Rabs_le; lra). nra.
      - rewrite Rabs_right by lra. nra. }
    rewrite B. reflexivity.
  - intros [= E _ _]. lra.
  - unfold of_angles. intros E. assert (E' := f_equal m10 E).
    assert (L : forall b c, m10 (rot (rotzyx 0 b c)) = 0) by (intros; unfold rotzyx; cbn [rot m10]; rewrite sin_0; ring).
    assert (Rr : m10 (rot (rotzyx 1 y 0)) = sin 1 * cos y) by reflexivity.
    rewrite L, Rr, C in E'. assert (0 < sin 1 * (tol / 2)) by (apply Rmult_lt_0_compat; unfold tol; lra). lra.
Qed.
Example C29_witness : rotzyx_angles (rotzyx 2 1 (-1)) = Ok (2, 1, -1).
Proof.
  assert (P3 : 3 < PI) by (pose proof PI2_3_2; lra). destruct (cos_bounds 1) as [C _]; [lra | ].
  apply C29_recovers_angles_partial; unfold tol; lra.
Qed.

(** ** C30 *)
(** what numpy.argsort guarantees, ties in any order *)
Definition is_argsort (idx : nat * nat * nat) (key : v3) : Prop :=
  let '(i, j, k) := idx in
  In idx [(0,1,2); (0,2,1); (1,0,2); (1,2,0); (2,0,1); (2,1,0)]%nat /\
  axis i key <= axis j key /\ axis j key <= axis k key.
Definition vabs (u : v3) := V3 (Rabs (vx u)) (Rabs (vy u)) (Rabs (vz u)).

Lemma zaligned_core idx v : is_argsort idx (vabs v) -> v <> zero3 ->
  Rabs (norm3 v - 1) < 1 / 1000000000 ->
  exists H, zaligned idx v = Ok H /\ zcol (rot H) = v /\ dot3 (xcol (rot H)) (xcol (rot H)) = 1 /\
    dot3 (xcol (rot H)) v = 0 /\ ycol (rot H) = cross v (xcol (rot H)) /\ pos H = zero3 /\ bot H = zero3 /\ hom H = 1.
Proof.
  intros A NZ N. unfold zaligned. rewrite (proj2 (Rltb_true _ _) N).
  assert (sq : forall a b, Rabs a <= Rabs b -> a * a <= b * b) by (intros; apply (Rsqr_le_abs_1 a b); auto).
  assert (posi : forall a b c, Rabs a <= Rabs b -> Rabs b <= Rabs c -> (a = 0 -> b = 0 -> c = 0 -> False) -> 0 < b * b + c * c).
  { intros a b c H1 H2 NZ'. apply sq in H1. apply sq in H2. destruct (Req_EM_T c 0).
    - subst. exfalso. apply NZ'; nra.
    - nra. }
  destruct idx as [[i j] k]. destruct A as [I [L1 L2]]. destruct v as [x y z].
  assert (NZ' : x = 0 -> y = 0 -> z = 0 -> False) by (intros; subst; apply NZ; reflexivity).
  repeat match goal with H : In _ _ |- _ => destruct H as [H | H]; [inversion H; subst; clear H | ] | H : In _ [] |- _ => destruct H end;
  cbn [axis set_axis vx vy vz vabs] in *;
  (eexists; split; [reflexivity | ]);
  unfold zcol, xcol, ycol; cbn [rot pos bot hom m00 m01 m02 m10 m11 m12 m20 m21 m22 vx vy vz cross];
  match goal with |- context [norm3 ?u] => set (n := norm3 u);
     assert (Q : n * n = dot3 u u) by apply norm3_sq; assert (0 <= n) by apply norm3_pos end;
  unfold dot3 in *; cbn [vx vy vz] in *;
  (assert (0 < n * n) by (rewrite Q; eapply Rlt_le_trans; [eapply posi; [exact L1 | exact L2 | tauto] | nra]));
  assert (n <> 0) by nra;
  repeat split; try reflexivity; try (field; auto);
  match goal with |- ?l = 1 => transitivity ((n * n) / (n * n)); [rewrite Q at 1 | ]; field; auto end.
Qed.

Lemma frame_det x v : dot3 x x = 1 -> dot3 x v = 0 ->
  let y := cross v x in
  let A := M3 (vx x) (vx y) (vx v) (vy x) (vy y) (vy v) (vz x) (vz y) (vz v) in
  det3 A = dot3 v v /\ (dot3 v v = 1 -> SO3 A).
Proof.
  intros X O y A.
  assert (D : det3 A = dot3 v v * dot3 x x - dot3 x v * dot3 x v).
  { unfold A, y. destruct x, v; unf. ring. }
  rewrite X, O in D. split; [lra | ]. intros V. split; [ | lra].
  assert (YY : dot3 y y = 1). { unfold y. pose proof (lagrange v x). rewrite (dot3_comm v x), X, V, O in H. lra. }
  assert (YX : dot3 y x = 0). { unfold y. rewrite dot3_comm. apply dot_cross_r. }
  assert (YV : dot3 y v = 0). { unfold y. rewrite dot3_comm. apply dot_cross. }
  unfold A. clear A D. generalize dependent y. intros y; intros. destruct x, y, v. unf.
  apply Proof_Exp.m3_ext; cbn; lra.
Qed.

Theorem C30_zaligned_frame : forall idx v, is_argsort idx (vabs v) -> norm3 v = 1 ->
  exists H, zaligned idx v = Ok H /\ SE3 H /\ zcol (rot H) = v /\ pos H = zero3.
Proof.
  intros idx v A N. destruct (zaligned_core idx v) as (H & E & Z & X & O & Y & P & B & C); auto.
  - intros ->. unfold norm3 in N. replace (dot3 zero3 zero3) with 0 in N by lin. rewrite sqrt_0 in N. lra.
  - rewrite N. replace (1 - 1) with 0 by ring. rewrite Rabs_R0. lra.
  - exists H. repeat split; auto; destruct (frame_det _ _ X O) as [Dt S];
    (assert (V : dot3 v v = 1) by (rewrite <- norm3_sq, N; ring)); specialize (S V);
    rewrite <- Y, <- Z in S; destruct H as [[]]; unfold xcol, ycol, zcol in S; cbn in S; apply S.
Qed.
Theorem C30_refuses : forall idx v, 1 / 1000000000 <= Rabs (norm3 v - 1) -> zaligned idx v = Err AssertionError.
Proof. intros idx v N. unfold zaligned. rewrite (proj2 (Rltb_false _ _) N). reflexivity. Qed.
(** for every accepted vector: third column v, unit first column normal to it; accepted as a
    homogeneous matrix exactly when |v|^2 is within tolerance of 1 *)
Theorem C30_accepted_vector_partial : forall idx v, is_argsort idx (vabs v) -> Rabs (norm3 v - 1) < 1 / 1000000000 ->
  exists H, zaligned idx v = Ok H /\ zcol (rot H) = v /\
    dot3 (xcol (rot H)) (xcol (rot H)) = 1 /\ dot3 (xcol (rot H)) v = 0 /\ ycol (rot H) = cross v (xcol (rot H)) /\
    (ishomogeneousmatrix H = true <-> Rabs (dot3 v v - 1) <= tol).
Proof.
  intros idx v A N. destruct (zaligned_core idx v) as (H & E & Z & X & O & Y & P & B & C); auto.
  - intros ->. unfold norm3 in N. replace (dot3 zero3 zero3) with 0 in N by lin. rewrite sqrt_0 in N.
    rewrite Rabs_left in N; lra.
  - exists H. repeat split; auto.
    all: destruct (frame_det _ _ X O) as [Dt _]; rewrite <- Y, <- Z in Dt; rewrite Z in Dt;
      assert (F : det3 (rot H) = dot3 v v) by (rewrite <- Dt; rewrite <- Z; destruct H as [[]]; reflexivity).
    + intros I. apply ishom_iff in I. rewrite F in I. tauto.
    + intros I. apply ishom_iff. rewrite F. auto.
Qed.
(** ... which is not every accepted vector *)
Theorem C30_accepted_but_not_homogeneous_refuted : exists idx v H,
  is_argsort idx (vabs v) /\ zaligned idx v = Ok H /\ ishomogeneousmatrix H = false.
Proof.
  set (k := 1 + 9 / 10000000000).
  assert (A : is_argsort (0, 1, 2)%nat (vabs (V3 0 0 k))).
  { cbn. rewrite Rabs_R0. repeat split; auto; [lra | apply Rabs_pos]. }
  assert (N : norm3 (V3 0 0 k) = k).
  { unfold norm3. replace (dot3 (V3 0 0 k) (V3 0 0 k)) with (Rsqr k) by (unfold Rsqr; unf; ring). apply sqrt_Rsqr. unfold k; lra. }
  destruct (C30_accepted_vector_partial _ _ A) as (H & E & _ & _ & _ & _ & I).
  - rewrite N, Rabs_right; unfold k; lra.
  - exists (0, 1, 2)%nat, (V3 0 0 k), H. repeat split; auto; try apply A.
    destruct (ishomogeneousmatrix H); auto. exfalso. assert (K := proj1 I eq_refl). unf.
    rewrite Rabs_right in K; unfold k, tol in *; lra.
Qed.
Example C30_witness : is_argsort (2, 0, 1)%nat (vabs (V3 (-3 / 5) (4 / 5) 0)) /\ norm3 (V3 (-3 / 5) (4 / 5) 0) = 1.
Proof.
  split.
  - cbn. rewrite Rabs_R0, Rabs_left, Rabs_right by lra. repeat split; try lra. tauto.
  - unfold norm3. replace (dot3 _ _) with 1 by (unf; field). apply sqrt_1.
Qed.
