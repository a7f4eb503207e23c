(** C55 (plane against sphere or point) and C56 (box against sphere or point). *)
From Verif Require Import Spec_Coll Proof_Linalg Proof_SE3 Proof_Exp Proof_Exp2 Props_Angles Proof_Coll.
From Coq Require Import Lra Psatz.

(** ** C55 *)
(** Plane() normalises the coefficients and keeps the plane *)
Theorem C55_new_plane : forall n d, n <> zero3 -> exists n' d', new_plane n d = Plane n' d' /\ norm3 n' = 1 /\
  forall H x, in_plane H n d x <-> in_plane H n' d' x.
Proof.
  intros n d N. destruct (unit_ok n N) as (_ & Nu & E). assert (Z : norm3 n <> 0) by (intros Z; apply N, norm3_zero; exact Z).
  do 2 eexists. split; [reflexivity | ]. split; [exact Nu | ]. intros H x. unfold in_plane.
  set (k := norm3 n) in *. set (m := vdiv n k) in *. clearbody m k. subst n.
  split; intros (u & -> & Q); exists u; (split; [reflexivity | ]).
  - apply (Rmult_eq_reg_l k); [ | exact Z]. replace (k * (dot3 m u + d / k)) with (dot3 (vscal k m) u + d) by (clear Q N; destruct m, u; unf; field; exact Z). lra.
  - replace (dot3 (vscal k m) u + d) with (k * (dot3 m u + d / k)) by (clear Q N; destruct m, u; unf; field; exact Z). rewrite Q. ring.
Qed.

(** in_plane H n (- d): the plane n.u = d of the frame H *)
Lemma plane_run argsort H n d p r : argsort_ok argsort -> SE3 H -> norm3 n = 1 -> 0 <= r ->
  exists F, SE3 F /\ zaxis F = n /\ let u := ground_of (inv_ H) p in let c := dot3 n u - d in
    plane_sphere_ argsort H n d p r =
      Ok (c - r, set_pos F (vsub u (vscal c n)), set_pos F (vsub u (vscal (sign (c - r) * r) n))).
Proof.
  intros Ha SH Nn Hr. destruct (zaligned_ok argsort n Ha Nn) as (F & EF & SF & ZF & PF). exists F. split; [exact SF | ]. split; [exact ZF | ].
  cbn zeta. unfold plane_sphere_. rewrite (ishom_SE3 H SH), (proj2 (Reqb_true _ _) Nn), (proj2 (Rleb_true _ _) Hr).
  rewrite inv_ok' by exact SH. cbn [rbind]. rewrite pdot_ok by (apply SE3_inv; exact SH). cbn [rbind]. rewrite EF. cbn [rbind]. reflexivity.
Qed.
Lemma pos_mm4 H F : pos (mm4 H F) = vadd (mv (rot H) (pos F)) (vscal (hom F) (pos H)). Proof. destruct H, F. lin. Qed.
Lemma pos_ground H F : SE3 F -> pos (mm4 H F) = ground_of H (pos F).
Proof. intros (_ & _ & E). rewrite pos_mm4, E. unfold ground_of. destruct (pos H). generalize (mv (rot H) (pos F)). lin. Qed.
Lemma rot_mm4 H F : SE3 F -> rot (mm4 H F) = mm (rot H) (rot F).
Proof. intros (_ & E & _). destruct H as [A a b1 h1], F as [B b b2 h2]. cbn [bot] in E. subst. unf. destruct A, B, a. unf. f_equal; ring. Qed.
Lemma zcol_mm A B : zcol (mm A B) = mv A (zcol B). Proof. unfold zcol. lin. Qed.

(** What is true: the value is the signed distance to the plane n.u = d of the frame of the shape, and the two frames
    are right when seen from the frame of the shape (not from the ground), if the sphere and the plane do not touch or
    for a point.  Missing (see the refutations): ground frames, plane of the documentation, contact with penetration. *)
Theorem C55_plane_partial : forall argsort H n d p r, argsort_ok argsort -> SE3 H -> norm3 n = 1 -> 0 <= r ->
  exists s F0 F1, plane_sphere_ argsort H n d p r = Ok (s, F0, F1) /\
    let ng := mv (rot H) n in let G0 := mm4 H F0 in let G1 := mm4 H F1 in
    (forall x, in_plane H n (- d) x -> dot3 ng (vsub p x) = s + r) /\
    in_plane H n (- d) (pos G0) /\ dist (pos G0) p = Rabs (s + r) /\
    (forall x, in_plane H n (- d) x -> Rabs (s + r) <= dist x p) /\
    SE3 G0 /\ SE3 G1 /\ rot G1 = rot G0 /\ zaxis G0 = ng /\
    (0 < s \/ r = 0 -> contact_frames G0 G1 ng s /\ dist (pos G1) p = r) /\
    (0 < s -> gap_at (in_plane H n (- d)) (ball p r) s (pos G0) (pos G1)).
Proof.
  intros argsort H n d p r Ha SH Nn Hr. destruct (plane_run argsort H n d p r Ha SH Nn Hr) as (F & SF & ZF & E). cbn zeta in E.
  set (u := ground_of (inv_ H) p) in *. set (c := dot3 n u - d) in *.
  assert (Eu : p = ground_of H u) by (symmetry; apply ground_inv; exact SH).
  assert (SO := proj1 SH). assert (Dn : dot3 n n = 1) by (rewrite <- norm3_sq, Nn; ring).
  exists (c - r). do 2 eexists. split; [exact E | ]. cbn zeta. set (F0 := set_pos F (vsub u (vscal c n))). set (F1 := set_pos F (vsub u (vscal (sign (c - r) * r) n))).
  assert (S0 : SE3 F0) by apply SF. assert (S1 : SE3 F1) by apply SF. replace (c - r + r) with c by ring.
  assert (Sg : forall x, in_plane H n (- d) x -> dot3 (mv (rot H) n) (vsub p x) = c).
  { intros x (w & -> & Q). rewrite Eu. replace (vsub (ground_of H u) (ground_of H w)) with (mv (rot H) (vsub u w)) by (unfold ground_of; generalize (rot H) (pos H); lin).
    rewrite SO3_dot by exact SO. replace (dot3 n (vsub u w)) with (dot3 n u - dot3 n w) by lin. unfold c. lra. }
  assert (L : forall x, in_plane H n (- d) x -> Rabs c <= dist x p).
  { intros x Px. rewrite <- (Sg x Px), dist_sym. eapply Rle_trans; [apply cauchy | ]. rewrite norm_rot, Nn by exact SO. unfold dist. lra. }
  assert (P0 : in_plane H n (- d) (pos (mm4 H F0))).
  { rewrite pos_ground by exact S0. exists (vsub u (vscal c n)). split; [reflexivity | ]. replace (dot3 n (vsub u (vscal c n))) with (dot3 n u - c * dot3 n n) by lin. rewrite Dn. unfold c. ring. }
  assert (D0 : dist (pos (mm4 H F0)) p = Rabs c).
  { rewrite pos_ground by exact S0. rewrite Eu, dist_ground by exact SH. cbn [F0 set_pos pos]. replace (vsub u (vscal c n)) with (vadd u (vscal (- c) n)) by lin. rewrite dist_along, Rabs_Ropp by exact Nn. reflexivity. }
  assert (ZG : zaxis (mm4 H F0) = mv (rot H) n) by (unfold zaxis; rewrite rot_mm4 by exact S0; rewrite zcol_mm; f_equal; exact ZF).
  assert (RG : rot (mm4 H F1) = rot (mm4 H F0)) by (rewrite !rot_mm4 by (exact S0 || exact S1); reflexivity).
  assert (T1 : SE3 (mm4 H F0)) by (apply SE3_mm4; assumption). assert (T2 : SE3 (mm4 H F1)) by (apply SE3_mm4; assumption).
  assert (K : 0 < c - r \/ r = 0 -> contact_frames (mm4 H F0) (mm4 H F1) (mv (rot H) n) (c - r) /\ dist (pos (mm4 H F1)) p = r).
  { intros C. assert (Er : sign (c - r) * r = r) by (destruct C as [C | ->]; [rewrite sign_pos by exact C; ring | ring]).
    assert (Ep : pos F1 = vsub u (vscal r n)) by (cbn [F1 set_pos pos]; rewrite Er; reflexivity). split.
    - split; [exact T1 | ]. split; [exact T2 | ]. split; [exact RG | ]. split; [exact ZG | ]. rewrite !pos_ground by (exact S0 || exact S1). rewrite Ep. cbn [F0 set_pos pos].
      unfold ground_of. generalize (rot H) (pos H) u n c. lin.
    - rewrite pos_ground by exact S1. rewrite Eu, dist_ground, Ep by exact SH. replace (vsub u (vscal r n)) with (vadd u (vscal (- r) n)) by lin.
      rewrite dist_along, Rabs_Ropp by exact Nn. apply Rabs_right. lra. }
  split; [exact Sg | ]. split; [exact P0 | ]. split; [exact D0 | ]. split; [exact L | ].
  split; [exact T1 | ]. split; [exact T2 | ]. split; [exact RG | ]. split; [exact ZG | ]. split; [exact K | ].
  intros C. destruct (K (or_introl C)) as ((_ & _ & _ & _ & Ep) & D1). split; [exact P0 | ]. split; [unfold ball; lra | ]. split.
  - rewrite Ep, dist_sym, dist_along by (rewrite norm_rot by exact SO; exact Nn). apply Rabs_right. lra.
  - intros x y Px By. unfold ball in By. assert (Lx := L x Px). assert (T := dist_tri x y p). rewrite Rabs_right in Lx by lra. lra.
Qed.

(** Penetrating sphere: the second point is not the one nearest to the plane but the opposite one; touching sphere: its centre. *)
Theorem C55_penetration_refuted : forall argsort H n d p r s F0 F1, argsort_ok argsort -> SE3 H -> norm3 n = 1 -> 0 < r ->
  plane_sphere_ argsort H n d p r = Ok (s, F0, F1) ->
  (s < 0 -> pos F1 = vadd (pos F0) (vscal (s + 2 * r) (zaxis F0))) /\ (s = 0 -> ground_of H (pos F1) = p) /\
  (s <= 0 -> pos F1 <> vadd (pos F0) (vscal s (zaxis F0))).
Proof.
  intros argsort H n d p r s F0 F1 Ha SH Nn Hr E. destruct (plane_run argsort H n d p r Ha SH Nn (Rlt_le _ _ Hr)) as (F & SF & ZF & E'). cbn zeta in E'.
  set (u := ground_of (inv_ H) p) in *. set (c := dot3 n u - d) in *. rewrite E in E'. injection E' as Es -> ->. cbn [pos set_pos]. change (zaxis (set_pos F (vsub u (vscal c n)))) with (zaxis F). rewrite ZF.
  rewrite <- Es in *. assert (Dn : dot3 n n = 1) by (rewrite <- norm3_sq, Nn; ring).
  assert (K : forall a b, vsub u (vscal a n) = vadd (vsub u (vscal c n)) (vscal b n) -> c - a = b).
  { intros a b Q. apply (f_equal (dot3 n)) in Q. replace (dot3 n (vsub u (vscal a n))) with (dot3 n u - a * dot3 n n) in Q by lin.
    replace (dot3 n (vadd (vsub u (vscal c n)) (vscal b n))) with (dot3 n u - c * dot3 n n + b * dot3 n n) in Q by lin. rewrite Dn in Q. lra. }
  split; [ | split].
  - intros L. rewrite sign_neg by exact L. rewrite Es. generalize u n. clear. lin.
  - intros Z. rewrite Z, sign_0. replace (vsub u (vscal (0 * r) n)) with u by (generalize u n; clear; lin). apply ground_inv. exact SH.
  - intros L Q. apply K in Q. destruct (Rle_lt_or_eq_dec _ _ L) as [L' | Z]; [rewrite sign_neg in Q by exact L' | rewrite Z, sign_0 in Q]; lra.
Qed.
(** The plane is not the documented one: the distance to a x + b y + c z + d = 0 is off by 2 d. *)
Theorem C55_convention_refuted : forall argsort H n d p r s F0 F1, argsort_ok argsort -> SE3 H -> norm3 n = 1 -> 0 <= r ->
  plane_sphere_ argsort H n d p r = Ok (s, F0, F1) ->
  forall x, in_plane H n d x -> dot3 (mv (rot H) n) (vsub p x) - r = s + 2 * d.
Proof.
  intros argsort H n d p r s F0 F1 Ha SH Nn Hr E x (w & -> & Q).
  destruct (C55_plane_partial argsort H n d p r Ha SH Nn Hr) as (s' & F0' & F1' & E' & Sg & _). rewrite E in E'. injection E' as <- <- <-. cbn zeta in Sg.
  assert (Dn : dot3 n n = 1) by (rewrite <- norm3_sq, Nn; ring).
  assert (P : in_plane H n (- d) (ground_of H (vadd w (vscal (2 * d) n)))).
  { eexists. split; [reflexivity | ]. replace (dot3 n (vadd w (vscal (2 * d) n))) with (dot3 n w + 2 * d * dot3 n n) by lin. rewrite Dn. lra. }
  apply Sg in P. revert P. replace (vsub p (ground_of H (vadd w (vscal (2 * d) n)))) with (vsub (vsub p (ground_of H w)) (vscal (2 * d) (mv (rot H) n))) by (unfold ground_of; generalize (rot H) (pos H); clear; lin).
  replace (dot3 (mv (rot H) n) (vsub (vsub p (ground_of H w)) (vscal (2 * d) (mv (rot H) n)))) with (dot3 (mv (rot H) n) (vsub p (ground_of H w)) - 2 * d * dot3 (mv (rot H) n) (mv (rot H) n)) by (generalize (mv (rot H) n) (vsub p (ground_of H w)); clear; lin).
  rewrite SO3_dot, Dn by apply SH. lra.
Qed.
(** The frames are not relative to the ground: a plane whose frame is 1 higher than the ground, a point 2 above the ground; the first
    contact point is on the ground, on neither plane. *)
Theorem C55_ground_refuted : forall argsort, argsort_ok argsort ->
  let H := transl 0 1 0 in let n := V3 0 1 0 in
  exists s F0 F1, plane_sphere_ argsort H n 0 (V3 0 2 0) 0 = Ok (s, F0, F1) /\ SE3 H /\ norm3 n = 1 /\ s = 1 /\ pos F0 = zero3 /\ ~ in_plane H n 0 (pos F0).
Proof.
  intros argsort Ha H n. assert (SH : SE3 H) by apply transl_SE3. assert (Nn : norm3 n = 1) by (unfold norm3; replace (dot3 n n) with 1 by (unfold n; lin); apply sqrt_1).
  destruct (plane_run argsort H n 0 (V3 0 2 0) 0 Ha SH Nn (Rle_refl 0)) as (F & SF & ZF & E). cbn zeta in E. do 3 eexists. split; [exact E | ]. split; [exact SH | ]. split; [exact Nn | ].
  assert (Eu : ground_of (inv_ H) (V3 0 2 0) = V3 0 1 0) by (unfold ground_of, H, transl; lin). rewrite Eu.
  assert (Ec : dot3 n (V3 0 1 0) - 0 = 1) by (unfold n; lin). rewrite Ec. cbn [pos set_pos].
  assert (Ez : vsub (V3 0 1 0) (vscal 1 n) = zero3) by (unfold n; lin). rewrite Ez.
  split; [ring | ]. split; [reflexivity | ]. intros (w & Q1 & Q2). destruct w as [a b c]. unfold H, transl, n, ground_of in *. unf. injection Q1 as Q3 Q4 Q5. lra.
Qed.
(** the hypotheses of C55_plane_partial, with a proper gap *)
Example C55_witness : exists s F0 F1, plane_sphere_ argsort0 eye4 (V3 0 1 0) (-5) (V3 2 4 3) (1 / 10) = Ok (s, F0, F1) /\ s = 89 / 10 /\ pos F0 = V3 2 (-5) 3 /\ pos F1 = V3 2 (39 / 10) 3.
Proof.
  assert (Nn : norm3 (V3 0 1 0) = 1) by (unfold norm3; replace (dot3 (V3 0 1 0) (V3 0 1 0)) with 1 by lin; apply sqrt_1).
  destruct (plane_run argsort0 eye4 (V3 0 1 0) (-5) (V3 2 4 3) (1 / 10) argsort0_ok SE3_eye Nn ltac:(lra)) as (F & _ & _ & E). cbn zeta in E.
  do 3 eexists. split; [exact E | ].
  assert (Eu : ground_of (inv_ eye4) (V3 2 4 3) = V3 2 4 3) by (unfold ground_of; lin). rewrite Eu.
  assert (Ec : dot3 (V3 0 1 0) (V3 2 4 3) - -5 = 9) by lin. rewrite Ec. rewrite sign_pos by lra. cbn [pos set_pos]. split; [lra | ]. split; unf; f_equal; lra.
Qed.

(** ** C56 *)
Definition nonneg3 (u : v3) : Prop := 0 <= vx u /\ 0 <= vy u /\ 0 <= vz u.
Lemma in_box_coords H he p : SE3 H -> (in_box H he p <-> let u := ground_of (inv_ H) p in
  Rleb (Rabs (vx u)) (vx he) && Rleb (Rabs (vy u)) (vy he) && Rleb (Rabs (vz u)) (vz he) = true).
Proof.
  intros S. cbn zeta. rewrite !andb_true_iff, !Rleb_true. split.
  - intros (w & -> & A & B & C). rewrite ground_inv' by exact S. auto.
  - intros [[A B] C]. exists (ground_of (inv_ H) p). split; [symmetry; apply ground_inv; exact S | auto].
Qed.

(** centre outside the box *)
Theorem C56_outside : forall argsort H he p r, argsort_ok argsort -> SE3 H -> nonneg3 he -> 0 <= r -> ~ in_box H he p ->
  exists s F0 F1, box_sphere_ argsort H he p r = Ok (s, F0, F1) /\
    in_box H he (pos F0) /\ dist (pos F0) p = s + r /\ (forall x, in_box H he x -> s + r <= dist x p) /\
    contact_frames F0 F1 (vscal (/ dist (pos F0) p) (vsub p (pos F0))) s /\ dist (pos F1) p = r /\
    (0 <= s -> gap_at (in_box H he) (ball p r) s (pos F0) (pos F1)).
Proof.
  intros argsort H he p r Ha SH (He1 & He2 & He3) Hr No. assert (Nb := No). rewrite in_box_coords in Nb by exact SH. cbn zeta in Nb.
  unfold box_sphere_. rewrite (ishom_SE3 H SH), inv_ok' by exact SH. cbn [rbind]. rewrite pdot_ok by (apply SE3_inv; exact SH). cbn [rbind].
  set (u := ground_of (inv_ H) p) in *. apply not_true_is_false in Nb. rewrite Nb.
  assert (Eu : p = ground_of H u) by (symmetry; apply ground_inv; exact SH).
  set (f := V3 (clamp (vx he) (vx u)) (clamp (vy he) (vy u)) (clamp (vz he) (vz u))). rewrite pdot_ok by exact SH. cbn [rbind].
  set (x0 := ground_of H f).
  assert (Bx : in_box H he x0) by (exists f; split; [reflexivity | ]; cbn [f vx vy vz]; split; [ | split]; apply clamp_in; assumption).
  assert (Nz : vsub p x0 <> zero3).
  { intros Z. apply No. replace p with x0; [exact Bx | ]. destruct p, x0. unf. injection Z as Z1 Z2 Z3. f_equal; lra. }
  destruct (unit_ok _ Nz) as (-> & Nu & Ed). cbn [rbind]. set (n := vdiv (vsub p x0) (norm3 (vsub p x0))) in *.
  destruct (zaligned_ok argsort n Ha Nu) as (F & EF & SF & ZF & _). rewrite EF. cbn [rbind].
  do 3 eexists. split; [reflexivity | ]. cbn [pos set_pos]. set (l := norm3 (vsub p x0)) in *.
  assert (Dl : dist x0 p = l) by (rewrite dist_sym; reflexivity). rewrite Dl.
  assert (Lp : 0 <= l) by apply norm3_pos. replace (l - r + r) with l by ring.
  assert (Lm : forall x, in_box H he x -> l <= dist x p).
  { intros x (w & -> & A & B & C). rewrite <- Dl. unfold x0. rewrite Eu, !dist_ground by exact SH. apply dist_le.
    assert (Q1 := clamp_near _ (vx u) _ A). assert (Q2 := clamp_near _ (vy u) _ B). assert (Q3 := clamp_near _ (vz u) _ C).
    unfold dot3, vsub, f. cbn [vx vy vz]. lra. }
  assert (Enn : vscal (/ l) (vsub p x0) = n) by (unfold n, vdiv; destruct (vsub p x0); unf; f_equal; unfold Rdiv; ring).
  assert (P1 : vsub p (vscal r n) = vadd x0 (vscal (l - r) n)).
  { replace p with (vadd x0 (vsub p x0)) at 1 by (generalize x0; lin). rewrite Ed. generalize x0 n. lin. }
  assert (D1 : dist (vsub p (vscal r n)) p = r) by (replace (vsub p (vscal r n)) with (vadd p (vscal (- r) n)) by (generalize n; lin); rewrite dist_along, Rabs_Ropp by exact Nu; apply Rabs_right; lra).
  split; [exact Bx | ]. split; [reflexivity | ]. split; [exact Lm | ]. rewrite Enn. split; [ | split; [exact D1 | ]].
  - split; [exact SF | ]. split; [exact SF | ]. split; [reflexivity | ]. split; [exact ZF | exact P1].
  - intros Sp. split; [exact Bx | ]. split; [unfold ball; lra | ]. split.
    + rewrite P1, dist_sym, dist_along by exact Nu. apply Rabs_right. lra.
    + intros x y Ix By. unfold ball in By. assert (L1 := Lm x Ix). assert (T := dist_tri x y p). lra.
Qed.

(** the six faces of a box, and the coordinate axes *)
Definition eaxis (i : nat) : v3 := set_axis i 1 zero3.
Lemma axis_bound he x i : (Rleb (Rabs (vx x)) (vx he) && Rleb (Rabs (vy x)) (vy he) && Rleb (Rabs (vz x)) (vz he) = true) -> Rabs (axis i x) <= axis i he.
Proof. rewrite !andb_true_iff, !Rleb_true. intros [[A B] C]. destruct i as [ | [ | i]]; cbn [axis]; assumption. Qed.

(** centre inside the box (in_box): minus the distance to the nearest point of the surface.  The normal is an axis of the box, outwards,
    but given in the frame of the box: the contact frames are right only if the orientation of the box keeps this axis.
    Missing: the other orientations (C56_normal_refuted). *)
Theorem C56_inside_partial : forall argsort H he p r, argsort_ok argsort -> SE3 H -> nonneg3 he -> 0 <= r -> in_box H he p ->
  exists s F0 F1 n0, box_sphere_ argsort H he p r = Ok (s, F0, F1) /\
    in_box H he (pos F0) /\ ~ inside_box H he (pos F0) /\ dist (pos F0) p = - (s + r) /\
    (forall x, ~ inside_box H he x -> - (s + r) <= dist x p) /\
    (exists i, (i < 3)%nat /\ (n0 = eaxis i \/ n0 = vneg (eaxis i))) /\
    pos F0 = vadd p (vscal (- (s + r)) (mv (rot H) n0)) /\
    SE3 F0 /\ SE3 F1 /\ rot F1 = rot F0 /\ zaxis F0 = n0 /\ pos F1 = vsub p (vscal r n0) /\
    (mv (rot H) n0 = n0 -> contact_frames F0 F1 n0 s).
Proof.
  intros argsort H he p r Ha SH (He1 & He2 & He3) Hr Ib. assert (Nb := Ib). rewrite in_box_coords in Nb by exact SH. cbn zeta in Nb.
  unfold box_sphere_. rewrite (ishom_SE3 H SH), inv_ok' by exact SH. cbn [rbind]. rewrite pdot_ok by (apply SE3_inv; exact SH). cbn [rbind].
  set (u := ground_of (inv_ H) p) in *. rewrite Nb.
  assert (Eu : p = ground_of H u) by (symmetry; apply ground_inv; exact SH).
  set (faces := [vx he - vx u; vy he - vy u; vz he - vz u; vx he + vx u; vy he + vy u; vz he + vz u]).
  destruct (argmin_spec faces ltac:(discriminate)) as (Lk & Mk). set (k := argmin faces) in *. cbn [length faces] in Lk.
  assert (Hx := axis_bound he u 0 Nb). assert (Hy := axis_bound he u 1 Nb). assert (Hz := axis_bound he u 2 Nb). cbn [axis] in Hx, Hy, Hz.
  apply Rabs_le_inv' in Hx. apply Rabs_le_inv' in Hy. apply Rabs_le_inv' in Hz.
  set (m := nth k faces 0) in *.
  assert (M1 : m <= vx he - vx u /\ m <= vy he - vy u /\ m <= vz he - vz u /\ m <= vx he + vx u /\ m <= vy he + vy u /\ m <= vz he + vz u)
    by (repeat split; apply Mk; cbn; auto 8).
  set (f := if (k <? 3)%nat then set_axis k (axis k he) u else set_axis (k - 3) (- axis (k - 3) he) u).
  set (n0 := if (k <? 3)%nat then set_axis k 1 zero3 else set_axis (k - 3) (-1) zero3).
  assert (KF : f = vadd u (vscal m n0) /\ norm3 n0 = 1 /\ 0 <= m /\ (exists i, (i < 3)%nat /\ (n0 = eaxis i \/ n0 = vneg (eaxis i))) /\
     (Rabs (vx f) <= vx he /\ Rabs (vy f) <= vy he /\ Rabs (vz f) <= vz he) /\ (vx he <= Rabs (vx f) \/ vy he <= Rabs (vy f) \/ vz he <= Rabs (vz f))).
  { assert (N1 : forall n, dot3 n n = 1 -> norm3 n = 1) by (intros n Q; unfold norm3; rewrite Q; apply sqrt_1).
    assert (AB : forall a b, - b <= a <= b -> Rabs a <= b) by (intros a b Q; apply Rabs_le; lra).
    assert (AE : forall a, a <= Rabs a) by (intros a; apply Rle_abs). assert (AO : forall a, a <= Rabs (- a)) by (intros a; rewrite Rabs_Ropp; apply Rle_abs).
    clear Mk. unfold f, n0, m in *. clear f n0 m.
    destruct k as [ | [ | [ | [ | [ | [ | k]]]]]]; [ | | | | | | lia]; cbn [faces nth Nat.ltb Nat.leb set_axis axis Nat.sub] in *; unfold eaxis;
      (split; [destruct u, he; unf; f_equal; ring | ]); (split; [apply N1; lin | ]); (split; [lra | ]);
      (split; [ | split; [cbn [vx vy vz]; repeat split; apply AB; lra | cbn [vx vy vz]; auto ]]).
    - exists 0%nat. split; [lia | left; reflexivity].
    - exists 1%nat. split; [lia | left; reflexivity].
    - exists 2%nat. split; [lia | left; reflexivity].
    - exists 0%nat. split; [lia | right; cbn [set_axis]; lin].
    - exists 1%nat. split; [lia | right; cbn [set_axis]; lin].
    - exists 2%nat. split; [lia | right; cbn [set_axis]; lin]. }
  destruct KF as (Ef & Nn & Pm & Ax & Bf & Sf). clearbody f n0. rewrite pdot_ok by exact SH. cbn [rbind].
  destruct (zaligned_ok argsort n0 Ha Nn) as (F & EF & SF & ZF & _). rewrite EF. cbn [rbind].
  assert (Df : norm3 (vsub (ground_of H f) p) = m).
  { change (dist (ground_of H f) p = m). rewrite Eu, dist_ground, Ef, dist_along by (exact SH || exact Nn). apply Rabs_right. lra. }
  rewrite Df. do 3 eexists. exists n0. split; [reflexivity | ]. cbn [pos set_pos]. replace (- (- m - r + r)) with m by ring.
  assert (PF : ground_of H f = vadd p (vscal m (mv (rot H) n0))) by (rewrite Ef, Eu; unfold ground_of; generalize (rot H) (pos H); lin).
  split; [exists f; auto | ]. split; [ | split; [exact Df | split]].
  - intros (w & Ew & A & B & C). apply ground_inj in Ew; [ | exact SH]. subst w. destruct Sf as [Z | [Z | Z]]; lra.
  - intros x Nx. destruct (Rle_lt_dec m (dist x p)) as [ | L]; [assumption | exfalso]. apply Nx.
    exists (ground_of (inv_ H) x). split; [symmetry; apply ground_inv; exact SH | ]. set (w := ground_of (inv_ H) x).
    assert (Dw : dist w u = dist x p) by (unfold w, u; apply dist_ground, SE3_inv, SH).
    assert (X := dist_axis w u 0). assert (Y := dist_axis w u 1). assert (Z := dist_axis w u 2). cbn [axis] in X, Y, Z. rewrite Dw in X, Y, Z.
    apply Rabs_le_inv' in X. apply Rabs_le_inv' in Y. apply Rabs_le_inv' in Z. destruct M1 as (M1 & M2 & M3 & M4 & M5 & M6).
    repeat split; apply Rabs_def1; lra.
  - split; [exact Ax | ]. split; [exact PF | ]. split; [exact SF | ]. split; [exact SF | ]. split; [reflexivity | ]. split; [exact ZF | ]. split; [reflexivity | ].
    intros Fix_. split; [exact SF | ]. split; [exact SF | ]. split; [reflexivity | ]. split; [exact ZF | ]. cbn [pos set_pos]. rewrite PF, Fix_. generalize p n0 m. lin.
Qed.

(** A box turned by a quarter turn about z, a point inside it: the normal of the frames is tangent to the nearest face, and the second
    contact point is not along it from the first. *)
Theorem C56_normal_refuted : forall argsort, argsort_ok argsort ->
  let H := M4 (M3 0 (-1) 0 1 0 0 0 0 1) zero3 zero3 1 in let he := V3 1 1 1 in let p := V3 (1 / 2) 0 0 in
  SE3 H /\ in_box H he p /\
  exists s F0 F1, box_sphere_ argsort H he p 0 = Ok (s, F0, F1) /\ s = - (1 / 2) /\ pos F0 = V3 1 0 0 /\ zaxis F0 = V3 0 (-1) 0 /\ pos F1 = p /\
    pos F1 <> vadd (pos F0) (vscal s (zaxis F0)).
Proof.
  intros argsort Ha H he p. assert (SH : SE3 H) by (split; [split; unfold H; lin | split; reflexivity]). split; [exact SH | ].
  assert (Eu : ground_of (inv_ H) p = V3 0 (- (1 / 2)) 0) by (unfold ground_of, H, p; unf; f_equal; ring).
  assert (A0 : Rabs 0 <= 1) by (rewrite Rabs_R0; lra). assert (A1 : Rabs (- (1 / 2)) <= 1) by (rewrite Rabs_left; lra).
  assert (Ib : in_box H he p) by (exists (V3 0 (- (1 / 2)) 0); split; [rewrite <- Eu; symmetry; apply ground_inv; exact SH | cbn; auto]).
  split; [exact Ib | ]. unfold box_sphere_. rewrite (ishom_SE3 H SH), inv_ok' by exact SH. cbn [rbind]. rewrite pdot_ok by (apply SE3_inv; exact SH). cbn [rbind]. rewrite Eu. cbn [vx vy vz he].
  rewrite !(proj2 (Rleb_true _ _)) by assumption. cbn [andb].
  assert (Ei : argmin [1 - 0; 1 - - (1 / 2); 1 - 0; 1 + 0; 1 + - (1 / 2); 1 + 0] = 4%nat).
  { unfold argmin. cbn [argmin_from].
    rewrite (proj2 (Rltb_false (1 - - (1 / 2)) (1 - 0))) by lra. rewrite (proj2 (Rltb_false (1 - 0) (1 - 0))) by lra.
    rewrite (proj2 (Rltb_false (1 + 0) (1 - 0))) by lra. rewrite (proj2 (Rltb_true (1 + - (1 / 2)) (1 - 0))) by lra.
    rewrite (proj2 (Rltb_false (1 + 0) (1 + - (1 / 2)))) by lra. reflexivity. }
  rewrite Ei. cbn [Nat.ltb Nat.leb Nat.sub set_axis axis vx vy vz he zero3]. rewrite pdot_ok by exact SH. cbn [rbind].
  assert (Ef : ground_of H (V3 0 (- (1)) 0) = V3 1 0 0) by (unfold ground_of, H; unf; f_equal; ring). rewrite Ef.
  assert (Nn : norm3 (V3 0 (-1) 0) = 1) by (unfold norm3; replace (dot3 (V3 0 (-1) 0) (V3 0 (-1) 0)) with 1 by lin; apply sqrt_1).
  destruct (zaligned_ok argsort (V3 0 (-1) 0) Ha Nn) as (F & EF & SF & ZF & _). rewrite EF. cbn [rbind].
  do 3 eexists. split; [reflexivity | ]. cbn [pos set_pos].
  assert (Ed : norm3 (vsub (V3 1 0 0) p) = 1 / 2).
  { unfold norm3. replace (dot3 (vsub (V3 1 0 0) p) (vsub (V3 1 0 0) p)) with ((1 / 2) * (1 / 2)) by (unfold p; unf; field). apply sqrt_square. lra. }
  rewrite Ed. split; [ring | ]. split; [reflexivity | ]. split; [exact ZF | ]. split; [generalize p; unfold vscal; lin | ].
  rewrite (ZF : zaxis (set_pos F (V3 1 0 0)) = V3 0 (-1) 0). unfold p. unf. intros Q. injection Q as Q1 Q2 Q3. lra.
Qed.
(** the hypotheses of C56_outside: the box of the documentation *)
Example C56_witness : SE3 eye4 /\ nonneg3 (V3 (1 / 2) 1 (3 / 2)) /\ ~ in_box eye4 (V3 (1 / 2) 1 (3 / 2)) (V3 0 3 1) /\
  in_box eye4 (V3 (1 / 2) 1 (3 / 2)) (V3 (45 / 100) 0 0) /\ argsort_ok argsort0.
Proof.
  split; [apply SE3_eye | ]. split; [unfold nonneg3; cbn; lra | ]. split; [ | split; [ | apply argsort0_ok]].
  - intros ([a b c] & E & _ & B & _). unfold ground_of in E. unf. injection E as E1 E2 E3. apply Rabs_le_inv' in B. lra.
  - exists (V3 (45 / 100) 0 0). split; [unfold ground_of; unf; f_equal; ring | ]. cbn [vx vy vz]. rewrite !Rabs_right by lra. lra.
Qed.
Example C54_witness : argsort_ok argsort0 /\ V3 0 0 0 <> V3 2 2 1. Proof. split; [apply argsort0_ok | intros E; injection E; lra]. Qed.
