(** Distances in space; collision solvers. *)
From Verif Require Import Spec_Coll Proof_Linalg Proof_SE3 Proof_Exp Proof_Exp2 Props_Angles.
From Coq Require Import Lra Psatz.

Lemma norm_tri a b : norm3 (vadd a b) <= norm3 a + norm3 b.
Proof.
  assert (Na := norm3_pos a). assert (Nb := norm3_pos b). assert (Nc := norm3_pos (vadd a b)).
  apply Rsqr_incr_0_var; [ | lra]. unfold Rsqr. rewrite norm3_sq.
  replace ((norm3 a + norm3 b) * (norm3 a + norm3 b)) with (norm3 a * norm3 a + norm3 b * norm3 b + 2 * (norm3 a * norm3 b)) by ring.
  rewrite !norm3_sq. assert (C := cauchy a b). assert (D := Rle_abs (dot3 a b)).
  replace (dot3 (vadd a b) (vadd a b)) with (dot3 a a + dot3 b b + 2 * dot3 a b) by lin. lra.
Qed.
Lemma dist_sym a b : dist a b = dist b a.
Proof. unfold dist, norm3. f_equal. lin. Qed.
Lemma dist_tri a b c : dist a c <= dist a b + dist b c.
Proof. unfold dist. replace (vsub a c) with (vadd (vsub a b) (vsub b c)) by lin. apply norm_tri. Qed.
Lemma dist_pos a b : 0 <= dist a b. Proof. apply norm3_pos. Qed.
Lemma norm_0 : norm3 zero3 = 0.
Proof. unfold norm3. replace (dot3 zero3 zero3) with 0 by lin. apply sqrt_0. Qed.
Lemma dist_0 a : dist a a = 0.
Proof. unfold dist. replace (vsub a a) with zero3 by lin. apply norm_0. Qed.
Lemma dist_eq a b : dist a b = 0 -> a = b.
Proof. intros H. apply norm3_zero in H. destruct a, b. unf. injection H as H1 H2 H3. f_equal; lra. Qed.
Lemma dist_along a k n : norm3 n = 1 -> dist (vadd a (vscal k n)) a = Rabs k.
Proof. intros N. unfold dist. replace (vsub (vadd a (vscal k n)) a) with (vscal k n) by lin. rewrite norm3_scal, N. ring. Qed.
Lemma dist_along2 a k l n : norm3 n = 1 -> dist (vadd a (vscal k n)) (vadd a (vscal l n)) = Rabs (k - l).
Proof. intros N. unfold dist. replace (vsub (vadd a (vscal k n)) (vadd a (vscal l n))) with (vscal (k - l) n) by lin. rewrite norm3_scal, N. ring. Qed.

Lemma norm_rot Rm u : SO3 Rm -> norm3 (mv Rm u) = norm3 u.
Proof. intros O. unfold norm3. f_equal. apply SO3_dot. exact O. Qed.
Lemma dist_ground H u v : SE3 H -> dist (ground_of H u) (ground_of H v) = dist u v.
Proof.
  intros (O & _). unfold dist, ground_of. replace (vsub (vadd (mv (rot H) u) (pos H)) (vadd (mv (rot H) v) (pos H))) with (mv (rot H) (vsub u v)).
  - apply norm_rot, O.
  - generalize (rot H) (pos H). lin.
Qed.
(** coordinates of a ground point in a frame *)
Lemma ground_inv H x : SE3 H -> ground_of H (ground_of (inv_ H) x) = x.
Proof.
  intros (SO & _). unfold ground_of, inv_. cbn [rot pos].
  replace (vadd (mv (tr (rot H)) x) (vneg (mv (tr (rot H)) (pos H)))) with (mv (tr (rot H)) (vsub x (pos H))) by (generalize (tr (rot H)) (pos H); lin).
  rewrite <- mv_mm, (SO3_r _ SO). generalize (pos H). lin.
Qed.
Lemma ground_inv' H u : SE3 H -> ground_of (inv_ H) (ground_of H u) = u.
Proof.
  intros (SO & _). unfold ground_of, inv_. cbn [rot pos].
  replace (vadd (mv (tr (rot H)) (vadd (mv (rot H) u) (pos H))) (vneg (mv (tr (rot H)) (pos H)))) with (mv (mm (tr (rot H)) (rot H)) u) by (generalize (rot H) (pos H); lin).
  rewrite (SO3_l _ SO). lin.
Qed.
Lemma ground_inj H u v : SE3 H -> ground_of H u = ground_of H v -> u = v.
Proof. intros S E. rewrite <- (ground_inv' H u S), E. apply ground_inv'. exact S. Qed.
Lemma pdot_ok H u : SE3 H -> pdot H u = Ok (ground_of H u).
Proof. intros S. unfold pdot. rewrite (ishom_SE3 H S). reflexivity. Qed.
Lemma inv_ok' H : SE3 H -> inv H = Ok (inv_ H).
Proof. intros S. unfold inv. rewrite (ishom_SE3 H S). reflexivity. Qed.

Lemma unit_ok u : u <> zero3 -> unit_of u = Ok (vdiv u (norm3 u)) /\ norm3 (vdiv u (norm3 u)) = 1 /\ u = vscal (norm3 u) (vdiv u (norm3 u)).
Proof.
  intros N. assert (Z : norm3 u <> 0) by (intros Z; apply N, norm3_zero; exact Z).
  assert (E : u = vscal (norm3 u) (vdiv u (norm3 u))) by (unfold vdiv; destruct u as [a b c]; generalize dependent (norm3 (V3 a b c)); intros k Z; unf; f_equal; field; exact Z).
  split; [ | split; [ | exact E]].
  - unfold unit_of. destruct (Reqb (norm3 u) 0) eqn:Q; [apply Reqb_true in Q; contradiction | reflexivity].
  - assert (P := norm3_pos u). assert (X := f_equal norm3 E). rewrite norm3_scal, Rabs_right in X by lra.
    apply (Rmult_eq_reg_l (norm3 u)); [lra | exact Z].
Qed.
Lemma zaligned_ok argsort n : argsort_ok argsort -> norm3 n = 1 -> exists H, zaligned_ argsort n = Ok H /\ SE3 H /\ zaxis H = n /\ pos H = zero3.
Proof. intros A N. apply (C30_zaligned_frame _ n (A _) N). Qed.
Lemma SE3_set_pos H p : SE3 H -> SE3 (set_pos H p). Proof. intros S. exact S. Qed.
Lemma sign_pos x : 0 < x -> sign x = 1. Proof. intros H. unfold sign. rewrite (proj2 (Rltb_true 0 x) H). reflexivity. Qed.
Lemma sign_neg x : x < 0 -> sign x = -1.
Proof. intros H. unfold sign. rewrite (proj2 (Rltb_false 0 x)) by lra. rewrite (proj2 (Rltb_true x 0) H). reflexivity. Qed.
Lemma sign_0 : sign 0 = 0.
Proof. unfold sign. rewrite (proj2 (Rltb_false 0 0)) by lra. reflexivity. Qed.

(** a sort, as numpy's *)
Definition argsort0 (u : v3) : nat * nat * nat :=
  let x := vx u in let y := vy u in let z := vz u in
  if Rleb x y then if Rleb y z then (0, 1, 2)%nat else if Rleb x z then (0, 2, 1)%nat else (2, 0, 1)%nat
  else if Rleb x z then (1, 0, 2)%nat else if Rleb y z then (1, 2, 0)%nat else (2, 1, 0)%nat.
Lemma argsort0_ok : argsort_ok argsort0.
Proof.
  intros [x y z]. unfold argsort0. cbn [vx vy vz].
  destruct (Rleb x y) eqn:A; [apply Rleb_true in A | apply Rleb_false in A];
  destruct (Rleb y z) eqn:B; [apply Rleb_true in B | apply Rleb_false in B | apply Rleb_true in B | apply Rleb_false in B];
  destruct (Rleb x z) eqn:C; try apply Rleb_true in C; try apply Rleb_false in C;
  (split; [cbn; auto 8 | cbn; lra]).
Qed.

(** ** Boxes *)
Lemma Rabs_le_inv' x h : Rabs x <= h -> - h <= x <= h.
Proof. intros H. assert (A := Rle_abs x). assert (B := Rle_abs (- x)). rewrite Rabs_Ropp in B. lra. Qed.
Lemma clamp_in h x : 0 <= h -> Rabs (clamp h x) <= h.
Proof.
  intros H. unfold clamp. apply Rabs_le. split; [apply Rmax_r | ]. apply Rmax_lub; [apply Rmin_l | lra].
Qed.
Lemma clamp_id h x : Rabs x <= h -> clamp h x = x.
Proof. intros H. apply Rabs_le_inv' in H. unfold clamp. rewrite Rmin_right, Rmax_left; lra. Qed.
Lemma clamp_near h x u : Rabs u <= h -> (clamp h x - x) * (clamp h x - x) <= (u - x) * (u - x).
Proof.
  intros H. apply Rabs_le_inv' in H. unfold clamp.
  destruct (Rle_dec x h) as [L | L]; [rewrite Rmin_right by lra | rewrite Rmin_left by lra].
  - destruct (Rle_dec (- h) x) as [M | M]; [rewrite Rmax_left by lra | rewrite Rmax_right by lra].
    + replace (x - x) with 0 by ring. rewrite Rmult_0_l. apply Rle_0_sqr.
    + assert (0 <= (- h - x) * (u + h)) by (apply Rmult_le_pos; lra). assert (0 <= (u + h) * (u + h)) by apply Rle_0_sqr. nra.
  - rewrite Rmax_left by lra. assert (0 <= (x - h) * (h - u)) by (apply Rmult_le_pos; lra). assert (0 <= (h - u) * (h - u)) by apply Rle_0_sqr. nra.
Qed.
Lemma dist_le a b c d : dot3 (vsub a b) (vsub a b) <= dot3 (vsub c d) (vsub c d) -> dist a b <= dist c d.
Proof. intros H. unfold dist, norm3. apply sqrt_le_1_alt. exact H. Qed.
Lemma dist_axis a b i : Rabs (axis i a - axis i b) <= dist a b.
Proof.
  unfold dist. destruct i as [ | [ | i]]; cbn [axis].
  - replace (vx a - vx b) with (vx (vsub a b)) by lin. apply vx_norm.
  - replace (vy a - vy b) with (vy (vsub a b)) by lin. apply vy_norm.
  - replace (vz a - vz b) with (vz (vsub a b)) by lin. apply vz_norm.
Qed.
Lemma argmin_from_spec l : forall i best x, (best < i)%nat -> let k := argmin_from i best x l in
  (k = best /\ (forall y, In y l -> x <= y)) \/
  (i <= k < i + length l)%nat /\ (forall y, In y l -> nth (k - i) l 0 <= y) /\ nth (k - i) l 0 <= x.
Proof.
  induction l as [ | y l IH]; intros i best x B; cbn [argmin_from].
  - left. split; [reflexivity | intros y []].
  - destruct (Rltb y x) eqn:E.
    + apply Rltb_true in E. right. destruct (IH (S i) i y (Nat.lt_succ_diag_r i)) as [[K H] | (K & H & H')].
      * rewrite K. rewrite Nat.sub_diag. cbn [nth length]. split; [lia | ]. split; [intros z [<- | I]; [lra | auto] | lra].
      * cbn [length]. split; [lia | ]. replace (argmin_from (S i) i y l - i)%nat with (S (argmin_from (S i) i y l - S i)) by lia. cbn [nth].
        split; [intros z [<- | I]; auto | lra].
    + apply Rltb_false in E. destruct (IH (S i) best x) as [[K H] | (K & H & H')]; [lia | | ].
      * left. split; [exact K | ]. intros z [<- | I]; auto.
      * right. cbn [length]. split; [lia | ]. replace (argmin_from (S i) best x l - i)%nat with (S (argmin_from (S i) best x l - S i)) by lia. cbn [nth].
        split; [intros z [<- | I]; [lra | auto] | exact H'].
Qed.
Lemma argmin_spec l : l <> [] -> (argmin l < length l)%nat /\ forall y, In y l -> nth (argmin l) l 0 <= y.
Proof.
  destruct l as [ | x l]; [contradiction | intros _]. unfold argmin. destruct (argmin_from_spec l 1 0 x (Nat.lt_0_1)) as [[K H] | (K & H & H')].
  - rewrite K. cbn [nth length]. split; [lia | ]. intros y [<- | I]; [lra | auto].
  - cbn [length]. split; [lia | ]. destruct (argmin_from 1 0 x l) as [ | k] eqn:E; [lia | ]. rewrite Nat.sub_succ, Nat.sub_0_r in *. cbn [nth]. intros y [<- | I]; auto.
Qed.
