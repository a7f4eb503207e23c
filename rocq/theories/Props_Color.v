(** C57: hsv_to_rgb; C58: ColorGenerator. *)
From Coq Require Import Lra Lia.
From Verif Require Import Model_Color Model_Linalg.
From Verif Require Import Proof_SE3.
Open Scope R_scope.

(** ** C57 *)
Lemma floor_spec x z : IZR z <= x < IZR z + 1 -> pyfloor x = z.
Proof.
  intros H. unfold pyfloor. destruct (base_Int_part x) as (A & B). assert (C : (Int_part x < z + 1)%Z) by (apply lt_IZR; rewrite plus_IZR; lra). assert (D : (z < Int_part x + 1)%Z) by (apply lt_IZR; rewrite plus_IZR; lra). lia.
Qed.
Lemma floor_bounds x : IZR (pyfloor x) <= x < IZR (pyfloor x) + 1.
Proof. unfold pyfloor. destruct (base_Int_part x). lra. Qed.

(** the six sectors: [h/60 = 6 k + i + f] *)
Lemma hsv_cases h s v : exists k i f, h / 60 = 6 * IZR k + IZR i + f /\ (0 <= i < 6)%Z /\ 0 <= f < 1 /\
  let p := v * (1 - s) in let q := v * (1 - f * s) in let t := v * (1 - (1 - f) * s) in
  ((i = 0%Z /\ hsv_to_rgb h s v = Ok (v, t, p)) \/ (i = 1%Z /\ hsv_to_rgb h s v = Ok (q, v, p)) \/
   (i = 2%Z /\ hsv_to_rgb h s v = Ok (p, v, t)) \/ (i = 3%Z /\ hsv_to_rgb h s v = Ok (p, q, v)) \/
   (i = 4%Z /\ hsv_to_rgb h s v = Ok (t, p, v)) \/ (i = 5%Z /\ hsv_to_rgb h s v = Ok (v, p, q))).
Proof.
  set (z := pyfloor (h / 60)). exists (z / 6)%Z, (z mod 6)%Z, (h / 60 - IZR z).
  assert (Hz := Z.div_mod z 6 ltac:(lia)). assert (Hm := Z.mod_pos_bound z 6 ltac:(lia)). assert (Hf := floor_bounds (h / 60)). fold z in Hf.
  split. { assert (Q : IZR z = 6 * IZR (z / 6) + IZR (z mod 6)) by (rewrite <- mult_IZR, <- plus_IZR; f_equal; exact Hz). lra. }
  split; [exact Hm | ]. split; [lra | ]. cbn zeta. unfold hsv_to_rgb. fold z.
  assert (C : (z mod 6 = 0 \/ z mod 6 = 1 \/ z mod 6 = 2 \/ z mod 6 = 3 \/ z mod 6 = 4 \/ z mod 6 = 5)%Z) by lia.
  destruct C as [-> | [-> | [-> | [-> | [-> | ->]]]]]; cbn [Z.eqb Pos.eqb]; tauto.
Qed.

(** the result is a colour, its greatest component is [v], its least one [v (1 - s)] *)
Theorem C57_valid : forall h s v, 0 <= s <= 1 -> 0 <= v <= 1 ->
  exists r g b, hsv_to_rgb h s v = Ok (r, g, b) /\ (0 <= r <= 1 /\ 0 <= g <= 1 /\ 0 <= b <= 1) /\
    Rmax r (Rmax g b) = v /\ Rmin r (Rmin g b) = v * (1 - s).
Proof.
  intros h s v Hs Hv. destruct (hsv_cases h s v) as (k & i & f & _ & _ & Hf & C). cbn zeta in C.
  assert (B1 : 0 <= v * s <= v) by (split; nra). assert (B2 : 0 <= v * s * f <= v * s) by (split; nra).
  replace (v * (1 - s)) with (v - v * s) in C by ring. replace (v * (1 - f * s)) with (v - v * s * f) in C by ring. replace (v * (1 - (1 - f) * s)) with (v - v * s + v * s * f) in C by ring. replace (v * (1 - s)) with (v - v * s) by ring.
  revert C B2. generalize (v * s * f). revert B1. generalize (v * s). intros w B1 a C B2.
  destruct C as [(_ & ->) | [(_ & ->) | [(_ & ->) | [(_ & ->) | [(_ & ->) | (_ & ->)]]]]]; do 3 eexists; (split; [reflexivity | ]); (split; [lra | ]);
    unfold Rmax, Rmin; repeat (destruct (Rle_dec _ _)); split; lra.
Qed.
Print Assumptions C57_valid.
Theorem C57_periodic : forall h s v k, hsv_to_rgb (h + 360 * IZR k) s v = hsv_to_rgb h s v.
Proof.
  intros h s v k. assert (E : pyfloor ((h + 360 * IZR k) / 60) = (pyfloor (h / 60) + k * 6)%Z).
  { apply floor_spec. rewrite plus_IZR, mult_IZR. assert (B := floor_bounds (h / 60)). split; lra. }
  unfold hsv_to_rgb. rewrite E, Z.mod_add by lia. rewrite plus_IZR, mult_IZR.
  replace ((h + 360 * IZR k) / 60 - (IZR (pyfloor (h / 60)) + IZR k * 6)) with (h / 60 - IZR (pyfloor (h / 60))) by field. reflexivity.
Qed.
Print Assumptions C57_periodic.

(** the components given by the closed formula of the reference cited in the docstring: component [n] ([n] = 5, 3, 1 for red,
    green, blue) is [v - v s max(0, min(k, 4 - k, 1))] with [k = (n + h/60) mod 6] *)
Definition hsv_component (h s v n : R) : R :=
  let x := n + h / 60 in let k := x - 6 * IZR (pyfloor (x / 6)) in v - v * s * Rmax 0 (Rmin (Rmin k (4 - k)) 1).
Lemma hsv_component_at h s v n z r : n + h / 60 = 6 * IZR z + r -> 0 <= r < 6 -> hsv_component h s v n = v - v * s * Rmax 0 (Rmin (Rmin r (4 - r)) 1).
Proof.
  intros E B. unfold hsv_component. rewrite E, (floor_spec ((6 * IZR z + r) / 6) z) by (split; lra). replace (6 * IZR z + r - 6 * IZR z) with r by ring. reflexivity.
Qed.
Theorem C57_reference : forall h s v,
  hsv_to_rgb h s v = Ok (hsv_component h s v 5, hsv_component h s v 3, hsv_component h s v 1).
Proof.
  intros h s v. destruct (hsv_cases h s v) as (k & i & f & E & Bi & Hf & C). cbn zeta in C.
  assert (K : forall n z r m, n + IZR i + f = 6 * IZR z + r -> 0 <= r < 6 -> Rmax 0 (Rmin (Rmin r (4 - r)) 1) = m -> hsv_component h s v n = v - v * s * m).
  { intros n z r m En Br <-. apply (hsv_component_at _ _ _ _ (k + z)); [rewrite plus_IZR; lra | exact Br]. }
  Ltac sector := first [lra | unfold Rmax, Rmin; repeat (destruct (Rle_dec _ _)); lra].
  destruct C as [(-> & ->) | [(-> & ->) | [(-> & ->) | [(-> & ->) | [(-> & ->) | (-> & ->)]]]]];
  [ rewrite (K 5 0%Z (5 + f) (0)), (K 3 0%Z (3 + f) (1 - f)), (K 1 0%Z (1 + f) (1)) by sector
  | rewrite (K 5 1%Z (0 + f) (f)), (K 3 0%Z (4 + f) (0)), (K 1 0%Z (2 + f) (1)) by sector
  | rewrite (K 5 1%Z (1 + f) (1)), (K 3 0%Z (5 + f) (0)), (K 1 0%Z (3 + f) (1 - f)) by sector
  | rewrite (K 5 1%Z (2 + f) (1)), (K 3 1%Z (0 + f) (f)), (K 1 0%Z (4 + f) (0)) by sector
  | rewrite (K 5 1%Z (3 + f) (1 - f)), (K 3 1%Z (1 + f) (1)), (K 1 0%Z (5 + f) (0)) by sector
  | rewrite (K 5 1%Z (4 + f) (0)), (K 3 1%Z (2 + f) (1)), (K 1 1%Z (0 + f) (f)) by sector];
  f_equal; (f_equal; [f_equal | ]); ring.
Qed.
Print Assumptions C57_reference.
(** two hues of one turn give two colours *)
Theorem C57_injective : forall h h' s v, 0 < s <= 1 -> 0 < v <= 1 -> 0 <= h < 360 -> 0 <= h' < 360 ->
  hsv_to_rgb h s v = hsv_to_rgb h' s v -> h = h'.
Proof.
  intros h h' s v Hs Hv Hh Hh' E.
  destruct (hsv_cases h s v) as (k & i & f & Eh & Bi & Bf & C). destruct (hsv_cases h' s v) as (k' & i' & f' & Eh' & Bi' & Bf' & C'). cbn zeta in C, C'.
  assert (K0 : forall x k i f, 0 <= x < 360 -> x / 60 = 6 * IZR k + IZR i + f -> (0 <= i < 6)%Z -> 0 <= f < 1 -> k = 0%Z).
  { clear. intros x k i f Bx E Bi Bf. assert (0 <= IZR i <= 5) by (split; apply IZR_le; lia). assert (k < 1)%Z by (apply lt_IZR; lra). assert (-1 < k)%Z by (apply lt_IZR; lra). lia. }
  rewrite (K0 _ _ _ _ Hh Eh Bi Bf) in Eh. rewrite (K0 _ _ _ _ Hh' Eh' Bi' Bf') in Eh'.
  assert (W : 0 < v * s) by (apply Rmult_lt_0_compat; lra). assert (A : 0 <= v * s * f < v * s) by (split; nra). assert (A' : 0 <= v * s * f' < v * s) by (split; nra).
  assert (Q : i = i' /\ v * s * f = v * s * f').
  { replace (v * (1 - s)) with (v - v * s) in C, C' by ring. replace (v * (1 - f * s)) with (v - v * s * f) in C by ring. replace (v * (1 - (1 - f) * s)) with (v - v * s + v * s * f) in C by ring. replace (v * (1 - f' * s)) with (v - v * s * f') in C' by ring. replace (v * (1 - (1 - f') * s)) with (v - v * s + v * s * f') in C' by ring.
    clear Eh Eh' K0. revert A A' C C'. generalize (v * s * f) (v * s * f'). revert W. generalize (v * s). intros w W a a' A A' C C'.
    destruct C as [(-> & C) | [(-> & C) | [(-> & C) | [(-> & C) | [(-> & C) | (-> & C)]]]]]; rewrite C in E;
    destruct C' as [(-> & C') | [(-> & C') | [(-> & C') | [(-> & C') | [(-> & C') | (-> & C')]]]]]; rewrite C' in E;
    injection E; intros; try (exfalso; lra); split; try reflexivity; lra. }
  destruct Q as (-> & Q). assert (f = f') by (apply Rmult_eq_reg_l with (v * s); [exact Q | lra]). lra.
Qed.
Print Assumptions C57_injective.
Example C57_witness : hsv_to_rgb 360 1 1 = Ok (1, 0, 0) /\ hsv_to_rgb 360 (1 / 2) 1 = Ok (1, 1 / 2, 1 / 2) /\ hsv_to_rgb 240 1 (1 / 2) = Ok (0, 0, 1 / 2) /\ hsv_to_rgb (-90) 1 1 = Ok (1 / 2, 0, 1).
Proof.
  unfold hsv_to_rgb. rewrite (floor_spec (360 / 60) 6), (floor_spec (240 / 60) 4), (floor_spec (-90 / 60) (-2)) by lra. cbn -[Rmult Rminus IZR Rdiv].
  repeat split; repeat match goal with |- Ok _ = Ok _ => f_equal | |- (_, _) = (_, _) => f_equal end; lra.
Qed.
