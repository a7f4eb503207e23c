(** C73: what a contact measures, from the shapes to the contact. *)
From Coq Require Import Lra Lia.
From Verif Require Import Spec_Con Proof_Linalg Proof_SE3 Proof_Exp Proof_Exp2 Props_Angles Proof_Coll Props_Coll Props_Coll2.
From Verif Require Import Proof_Tree Proof_World Proof_Dyn Proof_Dyn2 Props_Dyn Props_DynEx Proof_Cons Props_Con Props_Contact Props_CoMEx.
From Verif Require Import Spec_Coll.
Open Scope R_scope.

(** the points of a solid shape whose frame has pose [P] *)
Definition points (g : geom) (P : m4) : v3 -> Prop :=
  match g with
  | Point => fun x => x = pos P
  | Sphere r => ball (pos P) r
  | Box he => in_box P he
  | _ => fun _ => False
  end.
(** dimensions that are not negative *)
Definition sized (g : geom) : Prop := match g with Point => True | Sphere r => 0 <= r | Box he => nonneg3 he | _ => False end.
Lemma ball_0 p x : ball p 0 x <-> x = p.
Proof.
  unfold ball, dist. split.
  - intros H. assert (Z : norm3 (vsub x p) = 0) by (apply Rle_antisym; [exact H | apply norm3_pos]). apply norm3_zero in Z. destruct x, p. unf. injection Z as Z1 Z2 Z3. f_equal; lra.
  - intros ->. replace (vsub p p) with zero3 by lin. unfold norm3, dot3, zero3. cbn [vx vy vz]. replace (0 * 0 + 0 * 0 + 0 * 0) with 0 by ring. rewrite sqrt_0. lra.
Qed.
Lemma gap_point A p s a b : gap_at A (ball p 0) s a b -> gap_at A (fun x => x = p) s a b.
Proof. intros (H1 & H2 & H3 & H4). split; [exact H1 | ]. split; [now apply ball_0 | ]. split; [exact H3 | ]. intros x y Hx Hy. apply H4; [exact Hx | now apply ball_0]. Qed.
Lemma dist_0 x : dist x x = 0.
Proof. apply Rle_antisym; [apply (ball_0 x x); reflexivity | apply norm3_pos]. Qed.

(** Two solids (spheres, points, boxes): for the pair that [choose_solver] gives, and whatever the poses of the frames of the shapes in the current state of the world, the
    signed distance is positive if and only if the solids have no common point; it is then the distance between them, the two contact frames being at points where it is reached. *)
Theorem C73_gap : forall argsort e g sc st a b p sv P0 P1, argsort_ok argsort -> choose_solver g a b = Ok (p, sv) -> sized (g a) -> sized (g b) ->
  frame_pose e sc st (shape_frame e (fst p)) = Ok P0 -> frame_pose e sc st (shape_frame e (snd p)) = Ok P1 -> SE3 P0 -> SE3 P1 ->
  (pos P0 <> pos P1 \/ sv = box_sphere \/ sv = box_point) ->
  exists s F0 F1, collision argsort e g sc (p, sv) st = Ok (s, F0, F1) /\ SE3 F0 /\ SE3 F1 /\ rot F1 = rot F0 /\
    (0 < s <-> forall x, points (g (fst p)) P0 x -> points (g (snd p)) P1 x -> False) /\
    (0 < s -> gap_at (points (g (fst p)) P0) (points (g (snd p)) P1) s (pos F0) (pos F1) /\ pos F1 = vadd (pos F0) (vscal s (zaxis F0))).
Proof.
  intros argsort e g sc st a b p sv P0 P1 Ha Ch Sa Sb E0 E1 S0 S1 Nc.
  assert (Sp : sized (g (fst p)) /\ sized (g (snd p)) /\ solver_types sv (g (fst p)) (g (snd p))).
  { destruct (C21_others g a b) as (X & _). destruct (X p sv Ch) as ([-> | ->] & T); cbn [fst snd] in *; auto. }
  destruct Sp as (Z0 & Z1 & T). unfold collision, solve_. cbn [fst snd]. rewrite E0, E1. clear E0 E1 Ch Sa Sb.
  assert (Sph : forall r0 r1 s F0 F1, sphere_sphere_ argsort (pos P0) r0 (pos P1) r1 = Ok (s, F0, F1) -> 0 <= r0 -> 0 <= r1 -> pos P0 <> pos P1 ->
    SE3 F0 /\ SE3 F1 /\ rot F1 = rot F0 /\ (0 < s <-> forall x, ball (pos P0) r0 x -> ball (pos P1) r1 x -> False) /\ (0 < s -> gap_at (ball (pos P0) r0) (ball (pos P1) r1) s (pos F0) (pos F1) /\ pos F1 = vadd (pos F0) (vscal s (zaxis F0)))).
  { intros r0 r1 s F0 F1 E R0 R1 Np. destruct (C54_spheres argsort _ r0 _ r1 Ha Np R0 R1) as (s' & G0 & G1 & E' & _ & (C1 & C2 & C3 & C4 & C5) & _ & _ & Gp & Tc). rewrite E in E'. injection E' as <- <- <-.
    split; [exact C1 | ]. split; [exact C2 | ]. split; [exact C3 | ]. split; [ | intros Hs; split; [apply Gp; lra | rewrite C4; exact C5]]. split.
    - intros Hs x Hx Hy. assert (s <= 0) by (apply Tc; exists x; auto). lra.
    - intros Hn. destruct (Rlt_dec 0 s) as [ | N]; [assumption | ]. exfalso. destruct (proj1 Tc ltac:(lra)) as (x & Hx & Hy). exact (Hn x Hx Hy). }
  assert (Bx : forall he r1, nonneg3 he -> 0 <= r1 -> exists s F0 F1, box_sphere_ argsort P0 he (pos P1) r1 = Ok (s, F0, F1) /\ SE3 F0 /\ SE3 F1 /\ rot F1 = rot F0 /\
    (0 < s <-> forall x, in_box P0 he x -> ball (pos P1) r1 x -> False) /\ (0 < s -> gap_at (in_box P0 he) (ball (pos P1) r1) s (pos F0) (pos F1) /\ pos F1 = vadd (pos F0) (vscal s (zaxis F0)))).
  { intros he r1 Hh R1. assert (D : in_box P0 he (pos P1) \/ ~ in_box P0 he (pos P1)).
    { rewrite (in_box_coords P0 he (pos P1) S0). cbn zeta. match goal with |- ?b = true \/ _ => destruct b; [left; reflexivity | right; discriminate] end. }
    destruct D as [D | D].
    - destruct (C56_inside_partial argsort P0 he (pos P1) r1 Ha S0 Hh R1 D) as (s & F0 & F1 & n0 & E & _ & _ & Ds & _ & _ & _ & C1 & C2 & C3 & _). exists s, F0, F1.
      assert (Q : s <= 0) by (assert (X := norm3_pos (vsub (pos F0) (pos P1))); unfold dist in Ds; lra). split; [exact E | ]. split; [exact C1 | ]. split; [exact C2 | ]. split; [exact C3 | ]. split; [ | lra].
      split; [lra | ]. intros Hn. exfalso. apply (Hn (pos P1) D). unfold ball. now rewrite dist_0.
    - destruct (C56_outside argsort P0 he (pos P1) r1 Ha S0 Hh R1 D) as (s & F0 & F1 & E & I0 & Ds & Lm & (C1 & C2 & C3 & C4 & C5) & D1 & Gp). exists s, F0, F1.
      split; [exact E | ]. split; [exact C1 | ]. split; [exact C2 | ]. split; [exact C3 | ]. split; [ | intros Hs; split; [apply Gp; lra | rewrite C4; exact C5]]. split.
      + intros Hs x Hx Hy. specialize (Lm x Hx). unfold ball in Hy. lra.
      + intros Hn. destruct (Rlt_dec 0 s) as [ | N]; [assumption | ]. exfalso. apply (Hn (pos F0) I0). unfold ball. lra. }
  destruct sv, (g (fst p)) as [n d | | he | l0 q0 | r0] eqn:G0; try (destruct T); destruct (g (snd p)) as [n1 d1 | | he1 | l1 q1 | r1] eqn:G1; try (destruct T); cbn [rbind points sized] in *; try contradiction.
  1,2: destruct Nc as [Nc | [Nc | Nc]]; [ | discriminate Nc | discriminate Nc].
  - destruct (C54_spheres argsort (pos P0) r0 (pos P1) r1 Ha Nc Z0 Z1) as (s & F0 & F1 & E & _). exists s, F0, F1. exact (conj E (Sph _ _ _ _ _ E Z0 Z1 Nc)).
  - destruct (C54_spheres argsort (pos P0) r0 (pos P1) 0 Ha Nc Z0 ltac:(lra)) as (s & F0 & F1 & E & _). destruct (Sph _ _ _ _ _ E Z0 ltac:(lra) Nc) as (A1 & A2 & A3 & A4 & A5).
    exists s, F0, F1; split; [exact E | ]; split; [exact A1 | ]; split; [exact A2 | ]; split; [exact A3 | ].
    split; [rewrite A4; split; intros Hn x Hx Hy; apply (Hn x Hx); now apply ball_0 | intros Hs; destruct (A5 Hs) as (B1 & B2); split; [now apply gap_point | exact B2]].
  - exact (Bx he r1 Z0 Z1).
  - destruct (Bx he 0 Z0 ltac:(lra)) as (s & F0 & F1 & E & A1 & A2 & A3 & A4 & A5).
    exists s, F0, F1; split; [exact E | ]; split; [exact A1 | ]; split; [exact A2 | ]; split; [exact A3 | ].
    split; [rewrite A4; split; intros Hn x Hx Hy; apply (Hn x Hx); now apply ball_0 | intros Hs; destruct (A5 Hs) as (B1 & B2); split; [now apply gap_point | exact B2]].
Qed.

(** A plane and a sphere or a point: the signed distance is positive if and only if the whole sphere is strictly on the positive side of the plane n.u = d of the frame of the shape;
    it is then the distance from the plane to the sphere.  In every case the centre is at s + r above the plane. (The plane documented is n.u + d = 0: see C55_convention_refuted.) *)
Theorem C73_plane : forall argsort e g sc st a b p sv n d P0 P1, argsort_ok argsort -> choose_solver g a b = Ok (p, sv) -> g (fst p) = Plane n d -> norm3 n = 1 -> sized (g (snd p)) ->
  frame_pose e sc st (shape_frame e (fst p)) = Ok P0 -> frame_pose e sc st (shape_frame e (snd p)) = Ok P1 -> SE3 P0 -> SE3 P1 ->
  exists s F0 F1, collision argsort e g sc (p, sv) st = Ok (s, F0, F1) /\ SE3 F0 /\ SE3 F1 /\ rot F1 = rot F0 /\
    (forall x y, in_plane P0 n (- d) x -> points (g (snd p)) P1 y -> s <= dot3 (mv (rot P0) n) (vsub y x)) /\
    (forall x, in_plane P0 n (- d) x -> exists y, points (g (snd p)) P1 y /\ s = dot3 (mv (rot P0) n) (vsub y x)) /\
    (0 < s -> exists x y, gap_at (in_plane P0 n (- d)) (points (g (snd p)) P1) s x y).
Proof.
  intros argsort e g sc st a b p sv n d P0 P1 Ha Ch G0 Nn Z1 E0 E1 S0 S1.
  assert (T : solver_types sv (g (fst p)) (g (snd p))) by (destruct (C21_others g a b) as (X & _); exact (proj2 (X p sv Ch))).
  unfold collision, solve_. cbn [fst snd]. rewrite E0, E1, G0. rewrite G0 in T. clear E0 E1 Ch.
  assert (K : forall r, 0 <= r -> exists s F0 F1, plane_sphere_ argsort P0 n d (pos P1) r = Ok (s, F0, F1) /\ SE3 F0 /\ SE3 F1 /\ rot F1 = rot F0 /\
    (forall x y, in_plane P0 n (- d) x -> ball (pos P1) r y -> s <= dot3 (mv (rot P0) n) (vsub y x)) /\
    (forall x, in_plane P0 n (- d) x -> exists y, ball (pos P1) r y /\ s = dot3 (mv (rot P0) n) (vsub y x)) /\
    (0 < s -> exists x y, gap_at (in_plane P0 n (- d)) (ball (pos P1) r) s x y)).
  { intros r Hr. destruct (plane_run argsort P0 n d (pos P1) r Ha S0 Nn Hr) as (F & SF & _ & E'). destruct (C55_plane_partial argsort P0 n d (pos P1) r Ha S0 Nn Hr) as (s & F0 & F1 & E & Q). cbn zeta in E', Q.
    destruct Q as (Sg & _ & _ & _ & _ & _ & _ & _ & _ & Gp). rewrite E in E'. injection E' as Es E0 E1. exists s, F0, F1. rewrite E0, E1 in *. clear Es E0 E1.
    assert (Nr : norm3 (mv (rot P0) n) = 1) by (rewrite norm_rot by exact (proj1 S0); exact Nn).
    split; [exact E | ]. split; [apply SF | ]. split; [apply SF | ]. split; [reflexivity | ]. split; [ | split].
    - intros x y Px By. specialize (Sg x Px). assert (C := cauchy (mv (rot P0) n) (vsub y (pos P1))). rewrite Nr in C. unfold ball, dist in By.
      replace (dot3 (mv (rot P0) n) (vsub y x)) with (dot3 (mv (rot P0) n) (vsub (pos P1) x) + dot3 (mv (rot P0) n) (vsub y (pos P1))) by (generalize (mv (rot P0) n); lin).
      rewrite Sg. apply Rabs_le_inv' in C. lra.
    - intros x Px. specialize (Sg x Px). exists (vsub (pos P1) (vscal r (mv (rot P0) n))). split.
      + unfold ball. replace (vsub (pos P1) (vscal r (mv (rot P0) n))) with (vadd (pos P1) (vscal (- r) (mv (rot P0) n))) by lin. rewrite dist_along by exact Nr. rewrite Rabs_Ropp, Rabs_right by lra. lra.
      + assert (Dn : dot3 (mv (rot P0) n) (mv (rot P0) n) = 1) by (rewrite <- norm3_sq, Nr; ring).
        replace (dot3 (mv (rot P0) n) (vsub (vsub (pos P1) (vscal r (mv (rot P0) n))) x)) with (dot3 (mv (rot P0) n) (vsub (pos P1) x) - r * dot3 (mv (rot P0) n) (mv (rot P0) n)) by (generalize (mv (rot P0) n); lin).
        rewrite Sg, Dn. ring.
    - intros Hs. do 2 eexists. exact (Gp Hs). }
  destruct sv; try (destruct T); destruct (g (snd p)) as [n1 d1 | | he1 | l1 q1 | r1]; try (destruct T); cbn [rbind points sized] in *; try contradiction.
  - destruct (K r1 Z1) as (s & F0 & F1 & E & Q). exists s, F0, F1. exact (conj E Q).
  - destruct (K 0 ltac:(lra)) as (s & F0 & F1 & E & A1 & A2 & A3 & A4 & A5 & A6). exists s, F0, F1. split; [exact E | ]. split; [exact A1 | ]. split; [exact A2 | ]. split; [exact A3 | ]. split; [ | split].
    + intros x y Px Hy. apply A4; [exact Px | now apply ball_0].
    + intros x Px. destruct (A5 x Px) as (y & By & Q). exists y. split; [now apply ball_0 | exact Q].
    + intros Hs. destruct (A6 Hs) as (x & y & Q). exists x, y. now apply gap_point.
Qed.

(** From the shapes to the contact: in a world whose kinematics have just been computed, a soft finger contact (or, with the same update, any point contact) between two solid shapes
    attached to bodies of the world becomes active exactly if the solids, at the gap s between them (positive iff they have no common point), would come within the proximity
    during the step; in particular a world at rest has the contact active iff s < proximity, hence whenever the solids share a point. *)
Theorem C73_contact : forall argsort e g sc h t J v fuel st sd d E c dt a b p sv, argsort_ok argsort ->
  ready e h t -> rigid_scene e sc t J -> (height t < fuel)%nat -> world_velocity e h t J v ->
  world_update_dynamic e sc h J fuel st = Ok (sd, d) -> ce_e E = e -> ce_sc E = sc -> ce_st E = sd ->
  choose_solver g a b = Ok (p, sv) -> sized (g a) -> sized (g b) -> sf_coll c = collision argsort e g sc (p, sv) ->
  shape_body e (fst p) = sf_b0 c -> shape_body e (snd p) = sf_b1 c -> In (sf_b0 c) (bodies t) -> In (sf_b1 c) (bodies t) ->
  mov_body e (sf_m0 c) = sf_b0 c -> mov_body e (sf_m1 c) = sf_b1 c -> sf_m0 c <> sf_m1 c ->
  exists P0 P1, SE3 P0 /\ SE3 P1 /\ frame_pose e sc sd (shape_frame e (fst p)) = Ok P0 /\ frame_pose e sc sd (shape_frame e (snd p)) = Ok P1 /\
  let A0 := points (g (fst p)) P0 in let A1 := points (g (snd p)) P1 in
  ((pos P0 <> pos P1 \/ sv = box_sphere \/ sv = box_point) ->
   exists c' A s, sf_update E c dt = Ok c' /\ sf_jac E c' = Ok A /\ sf_sdist c' = s /\ (forall i, sf_force c' i = 0) /\
    (0 < s <-> forall x, A0 x -> A1 x -> False) /\ (0 < s -> exists x y, gap_at A0 A1 s x y) /\
    (sf_act c' = true <-> s + dt * mvn (w_ndof h) A v 3%nat < sf_prox c) /\
    ((forall i, (i < w_ndof h)%nat -> v i = 0) -> 0 < sf_prox c -> (exists x, A0 x /\ A1 x) -> sf_act c' = true) /\
    ((forall i, (i < w_ndof h)%nat -> v i = 0) -> 0 < sf_prox c -> (forall x y, A0 x -> A1 y -> sf_prox c <= dist x y) -> sf_act c' = false)).
Proof.
  intros argsort e g sc h t J v fuel st sd d E c dt a b p sv Ha Rd Ri F Wv U Ee Es Et Ch Za Zb Cl B0 B1 I0 I1 M0 M1 Nm.
  destruct (C39_poses e sc h t J fuel st Rd Ri F) as (sg & sd' & d' & _ & U' & HP & _). rewrite U in U'. injection U' as <- <-.
  unfold shape_body in B0, B1.
  destruct (HP (shape_frame e (fst p))) as (H0 & S0 & _ & _ & _ & E0); [rewrite B0; exact I0 | ]. destruct (HP (shape_frame e (snd p))) as (H1 & S1 & _ & _ & _ & E1); [rewrite B1; exact I1 | ].
  set (P0 := mm4 H0 (bpose sc (shape_frame e (fst p)))) in *. set (P1 := mm4 H1 (bpose sc (shape_frame e (snd p)))) in *.
  assert (SP0 : SE3 P0) by (apply SE3_mm4; [exact S0 | apply (proj1 Ri)]). assert (SP1 : SE3 P1) by (apply SE3_mm4; [exact S1 | apply (proj1 Ri)]).
  exists P0, P1. split; [exact SP0 | ]. split; [exact SP1 | ]. split; [exact E0 | ]. split; [exact E1 | ]. cbv zeta. intros Nc.
  destruct (C73_gap argsort e g sc sd a b p sv P0 P1 Ha Ch Za Zb E0 E1 SP0 SP1 Nc) as (s & F0 & F1 & Ec & SF0 & SF1 & _ & Ap & Gp).
  destruct (C53_update e sc h t J v fuel st sd d E c dt s F0 F1 Rd Ri F Wv U Ee Es Et I0 I1 M0 M1 Nm) as (c' & A & Up & _ & _ & Ja & Ac & Sd & Fz & _); [rewrite Cl; exact Ec | exact SF0 | exact SF1 | ].
  assert (V0 : (forall i, (i < w_ndof h)%nat -> v i = 0) -> mvn (w_ndof h) A v 3%nat = 0).
  { intros Z. unfold mvn. apply sumR_zero. intros i Hi. rewrite (Z i Hi). ring. }
  exists c', A, s. split; [exact Up | ]. split; [exact Ja | ]. split; [exact Sd | ]. split; [exact Fz | ]. split; [exact Ap | ].
  split; [intros Hs; do 2 eexists; exact (proj1 (Gp Hs)) | ]. split; [exact Ac | ]. split.
  - intros Z Hp (x & Hx & Hy). apply Ac. rewrite (V0 Z). destruct (Rlt_dec 0 s) as [Hs | Hs]; [ | lra]. exfalso. exact (proj1 Ap Hs x Hx Hy).
  - intros Z Hp Far. apply Bool.not_true_iff_false. rewrite Ac, (V0 Z).
    assert (Hs : 0 < s). { apply Ap. intros x Hx Hy. specialize (Far x x Hx Hy). rewrite dist_0 in Far. lra. }
    destruct (Gp Hs) as ((G1 & G2 & G3 & _) & _). specialize (Far _ _ G1 G2). lra.
Qed.

(** A cubic box on the ground and a ball at the centre of a sub-frame of a hinged body at rest, the two sharing a point: the contact is active. *)
Definition kw_e : env := Env 0 (fun _ => 1%nat) (fun m => m) (fun s => match s with O => FBody 0 | _ => FSub 7 end) (fun _ => []) (fun j => match j with O => O | S i => ndof_of (nth i kz FixedJoint) end).
Definition kw_g (s : nat) : geom := match s with O => Box (V3 1 1 1) | _ => Sphere (1 / 2) end.
Definition kw_J := ch_J kz (fun _ _ => 0) (fun _ _ => 0).
Definition kw_c : sfc := SF true 0 1 0 1 eye4 eye4 (collision argsort0 kw_e kw_g kz_sc ((0, 1)%nat, box_sphere)) false 0 (1 / 100) 1 (fun _ => 1) vzero.
Lemma kw_ready : ready kw_e (ch_h kz) (ch_t 0 1). Proof. ch_ready. Qed.
Example C73_witness : exists sd d E c', world_update_dynamic kw_e kz_sc (ch_h kz) kw_J 10 (fun _ => no_attr) = Ok (sd, d) /\ ce_st E = sd /\
  sf_update E kw_c (1 / 100) = Ok c' /\ sf_act c' = true /\ sf_sdist c' <= 0.
Proof.
  assert (Ri : rigid_scene kw_e kz_sc (ch_t 0 1) kw_J) by (exact (ch_rigid kz 1 _ _ _ kz_nofree)).
  assert (Wv : world_velocity kw_e (ch_h kz) (ch_t 0 1) kw_J (fun _ => 0)) by (intros j s d _ _ i _; reflexivity).
  destruct (world_ok _ _ _ _ kw_J 10 (fun _ => no_attr) kw_ready Ri) as (sd & d & U & P & _); [cbn; lia | ].
  set (E := CE kw_e kz_sc sd (fun _ _ => 0) (fun _ _ => mzero) (fun _ => []) (fun _ _ _ => None)).
  destruct (C73_contact argsort0 kw_e kw_g kz_sc (ch_h kz) (ch_t 0 1) kw_J (fun _ => 0) 10 (fun _ => no_attr) sd d E kw_c (1 / 100) 0 1 (0, 1)%nat box_sphere
    argsort0_ok kw_ready Ri ltac:(cbn; lia) Wv U eq_refl eq_refl eq_refl eq_refl ltac:(unfold sized, kw_g, nonneg3; cbn [vx vy vz]; lra) ltac:(unfold sized, kw_g; lra) eq_refl eq_refl eq_refl
    ltac:(cbn; auto) ltac:(cbn; auto) eq_refl eq_refl ltac:(discriminate)) as (P0 & P1 & S0 & S1 & E0 & E1 & K). cbv zeta in K.
  destruct (K (or_intror (or_introl eq_refl))) as (c' & A & s & Up & _ & Sd & _ & Ap & _ & _ & Ac & _). exists sd, d, E, c'.
  assert (X : exists x, points (kw_g 0) P0 x /\ points (kw_g 1) P1 x).
  { assert (Q0 : sd 0%nat = attr zerom6 kin0) by exact (P _ _ (path_root_nil (ch_t 0 1))).
    assert (Q1 : sd 1%nat = attr kz_M (kin_of kz_sc (ch_h kz) kw_J [1]%nat)).
    { assert (Pa : path (ch_t 0 1) 1 [(1, 0)]%nat) by (apply (path_step 0 _ 1 (ch_t 1 0) 1 []); [now left | constructor]). exact (P _ _ Pa). }
    exists zero3. split.
    - unfold frame_pose in E0. cbn [shape_frame kw_e fst frame_body] in E0. rewrite Q0 in E0. cbn [attr a_pose get rbind kin0 k_pose bpose] in E0. assert (Z : P0 = eye4) by (injection E0 as <-; change (bpose kz_sc (FBody 0)) with eye4; rewrite ?mm4_1_l; reflexivity). rewrite Z. cbn [points kw_g].
      exists zero3. split; [unfold ground_of, eye4; lin | ]. unfold zero3. cbn [vx vy vz]. rewrite Rabs_R0. lra.
    - unfold frame_pose in E1. cbn [shape_frame kw_e snd frame_body sub_body] in E1. rewrite Q1 in E1. cbn [attr a_pose get rbind bpose kz_sc ch_sc sub_bpose] in E1. injection E1 as <-. cbn [points kw_g].
      assert (Z : pos (mm4 (k_pose (kin_of kz_sc (ch_h kz) kw_J [1]%nat)) eye4) = zero3).
      { rewrite mm4_1_r. unfold kin_of. cbn [map fst fold_right]. unfold stepj. change (jframes (ch_h kz) 1) with (Some (FBody 0, FBody 1)). change (jdof (ch_h kz) 1) with (Some (0, 1)%nat).
        cbn [stepk k_pose kin0]. rewrite rel_bodies, mm4_1_l. change (Model_Joints.pose (kw_J 1%nat)) with (rotz 0). unfold rotz. rewrite cos_0, sin_0. reflexivity. }
      unfold Spec_Coll.ball. match goal with |- dist _ ?q <= _ => change q with (pos (mm4 (k_pose (kin_of kz_sc (ch_h kz) kw_J [1]%nat)) eye4)) end. rewrite Z, dist_0. lra. }
  split; [exact U | ]. split; [reflexivity | ]. split; [exact Up | ]. split; [apply Ac; [intros; reflexivity | cbn; lra | exact X] | ].
  rewrite Sd. destruct (Rlt_dec 0 s) as [Hs | ]; [exfalso | lra]. destruct X as (x & X0 & X1). exact (proj1 Ap Hs x X0 X1).
Qed.
