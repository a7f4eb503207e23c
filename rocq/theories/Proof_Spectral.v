(** The lowest eigenvalue of a symmetric matrix bounds its quadratic form. *)
From Coq Require Import Lra Lia.
From Verif Require Import Spec_Step Proof_Dyn2 Proof_Matrix Proof_Eig.
Open Scope R_scope.

Section S.
  Variable n : nat.
  Definition dt_ (x y : vec) : R := sumR n (fun i => x i * y i).
  Definition qf (A : mat) (u : vec) : R := dt_ u (mvn n A u).
  Lemma dt_plus_l x y z : dt_ (vplus x y) z = dt_ x z + dt_ y z.
  Proof. unfold dt_. rewrite <- sumR_add. apply sumR_ext. intros. unfold vplus. ring. Qed.
  Lemma dt_mul_l k x y : dt_ (vmul k x) y = k * dt_ x y.
  Proof. unfold dt_. rewrite <- sumR_scal. apply sumR_ext. intros. unfold vmul. ring. Qed.
  Lemma dt_comm x y : dt_ x y = dt_ y x.
  Proof. unfold dt_. apply sumR_ext. intros. ring. Qed.
  Lemma dt_ext x y x' y' : veq n x x' -> veq n y y' -> dt_ x y = dt_ x' y'.
  Proof. intros H1 H2. unfold dt_. apply sumR_ext. intros i Hi. now rewrite H1, H2. Qed.
  Lemma dt_sym A x y : (forall i j, (i < n)%nat -> (j < n)%nat -> A i j = A j i) -> dt_ x (mvn n A y) = dt_ y (mvn n A x).
  Proof.
    intros H. unfold dt_, mvn. transitivity (sumR n (fun i => sumR n (fun j => A i j * x i * y j))).
    - apply sumR_ext. intros i Hi. rewrite <- sumR_scal. apply sumR_ext. intros j Hj. ring.
    - rewrite sumR_swap. apply sumR_ext. intros j Hj. rewrite <- sumR_scal. apply sumR_ext. intros i Hi. rewrite (H i j Hi Hj). ring.
  Qed.
  Lemma sum_nonneg f : (forall i, (i < n)%nat -> 0 <= f i) -> 0 <= sumR n f.
  Proof. clear. induction n as [ | m IH]; intros H; cbn [sumR]; [lra | ]. assert (0 <= f m) by (apply H; lia). assert (0 <= sumR m f) by (apply IH; intros; apply H; lia). lra. Qed.
  Lemma sum_le_one f k : (k < n)%nat -> (forall i, (i < n)%nat -> 0 <= f i) -> f k <= sumR n f.
  Proof.
    clear. induction n as [ | m IH]; intros Hk H; [lia | ]. cbn [sumR]. assert (0 <= f m) by (apply H; lia). assert (forall i, (i < m)%nat -> 0 <= f i) by (intros; apply H; lia). destruct (Nat.eq_dec k m) as [-> | N].
    - assert (0 <= sumR m f); [ | lra]. clear - H1. induction m as [ | m IH]; cbn [sumR]; [lra | ]. assert (0 <= f m) by (apply H1; lia). assert (0 <= sumR m f) by (apply IH; intros; apply H1; lia). lra.
    - assert (f k <= sumR m f) by (apply IH; [lia | auto]). lra.
  Qed.
  Lemma sum_le f g : (forall i, (i < n)%nat -> f i <= g i) -> sumR n f <= sumR n g.
  Proof. clear. induction n as [ | m IH]; intros H; cbn [sumR]; [lra | ]. assert (f m <= g m) by (apply H; lia). assert (sumR m f <= sumR m g) by (apply IH; intros; apply H; lia). lra. Qed.
  Lemma nn_nonneg u : 0 <= dt_ u u.
  Proof. apply sum_nonneg. intros i _. nra. Qed.
  Lemma nn_zero u : dt_ u u = 0 -> veq n u vzero.
  Proof. intros H i Hi. assert (X := sum_le_one (fun i => u i * u i) i Hi). cbn beta in X. unfold vzero. assert (Y : u i * u i <= 0) by (unfold dt_ in H; rewrite <- H; apply X; intros; nra). nra. Qed.
  Lemma nn_pos u : ~ veq n u vzero -> 0 < dt_ u u.
  Proof. intros N. destruct (nn_nonneg u) as [H | H]; [exact H | ]. destruct N. now apply nn_zero. Qed.
  (** the form is bounded *)
  Definition size (A : mat) : R := sumR n (fun i => sumR n (fun j => Rabs (A i j))).
  Lemma prod_le u i j : (i < n)%nat -> (j < n)%nat -> Rabs (u i * u j) <= dt_ u u.
  Proof.
    intros Hi Hj. assert (X := sum_le_one (fun i => u i * u i) i Hi). assert (Y := sum_le_one (fun i => u i * u i) j Hj). cbn beta in X, Y. specialize (X ltac:(intros; nra)). specialize (Y ltac:(intros; nra)). fold (dt_ u u) in X, Y.
    unfold Rabs. destruct (Rcase_abs _); nra.
  Qed.
  Lemma qf_double A x y : dt_ x (mvn n A y) = sumR n (fun i => sumR n (fun j => A i j * (x i * y j))).
  Proof. unfold dt_, mvn. apply sumR_ext. intros i Hi. rewrite <- sumR_scal. apply sumR_ext. intros j Hj. ring. Qed.
  Lemma qf_bound A u : - (size A * dt_ u u) <= qf A u <= size A * dt_ u u.
  Proof.
    assert (X : forall i j, (i < n)%nat -> (j < n)%nat -> - (Rabs (A i j) * dt_ u u) <= A i j * (u i * u j) <= Rabs (A i j) * dt_ u u).
    { intros i j Hi Hj. assert (P := prod_le u i j Hi Hj). assert (Q := Rabs_pos (A i j)). assert (Z : Rabs (A i j * (u i * u j)) <= Rabs (A i j) * dt_ u u) by (rewrite Rabs_mult; apply Rmult_le_compat_l; assumption).
      revert Z. generalize (A i j * (u i * u j)). intros r Z. unfold Rabs in Z at 1. destruct (Rcase_abs r); lra. }
    unfold qf. rewrite qf_double. unfold size. replace (sumR n (fun i => sumR n (fun j => Rabs (A i j))) * dt_ u u) with (sumR n (fun i => sumR n (fun j => Rabs (A i j) * dt_ u u))).
    - split.
      + rewrite <- (Rmult_1_l (sumR _ _)), <- Ropp_mult_distr_l_reverse, <- sumR_scal. apply sum_le. intros i Hi. rewrite <- sumR_scal. apply sum_le. intros j Hj. destruct (X i j Hi Hj). lra.
      + apply sum_le. intros i Hi. apply sum_le. intros j Hj. apply X; assumption.
    - rewrite Rmult_comm, <- sumR_scal. apply sumR_ext. intros i Hi. rewrite <- sumR_scal. apply sumR_ext. intros. ring.
  Qed.
  Lemma size_nonneg A : 0 <= size A.
  Proof. apply sum_nonneg. intros i _. apply sum_nonneg. intros j _. apply Rabs_pos. Qed.
  (** Cauchy-Schwarz *)
  Lemma cauchy A x y : (forall i j, (i < n)%nat -> (j < n)%nat -> A i j = A j i) -> (forall u, 0 <= qf A u) -> dt_ x (mvn n A y) * dt_ x (mvn n A y) <= qf A x * qf A y.
  Proof.
    intros Sy P. set (b := dt_ x (mvn n A y)).
    assert (E : forall s t, qf A (vplus (vmul s x) (vmul t y)) = s * s * qf A x + 2 * (s * t * b) + t * t * qf A y).
    { intros s t. unfold qf, b. rewrite (dt_ext _ (mvn n A (vplus (vmul s x) (vmul t y))) (vplus (vmul s x) (vmul t y)) (vplus (vmul s (mvn n A x)) (vmul t (mvn n A y)))); [ | intros i _; reflexivity | intros i _; rewrite mvn_plus, !mvn_mul; reflexivity].
      rewrite dt_plus_l, !dt_mul_l, !(dt_comm _ (vplus _ _)), !dt_plus_l, !dt_mul_l, !(dt_comm (mvn n A _)), (dt_sym A y x Sy). ring. }
    assert (Px := P x). assert (Py := P y). destruct Py as [Py | Py].
    - assert (Z := P (vplus (vmul (qf A y) x) (vmul (- b) y))). rewrite E in Z. assert (0 <= qf A y * (qf A x * qf A y - b * b)) by (replace (qf A y * (qf A x * qf A y - b * b)) with (qf A y * qf A y * qf A x + 2 * (qf A y * - b * b) + - b * - b * qf A y) by ring; exact Z). nra.
    - rewrite <- Py, Rmult_0_r. destruct (Req_dec b 0) as [-> | Nb]; [lra | ]. assert (Z := P (vplus (vmul 1 x) (vmul (- ((qf A x + 1) / b)) y))). rewrite E, <- Py in Z. replace (1 * - ((qf A x + 1) / b) * b) with (- (qf A x + 1)) in Z by (field; exact Nb). lra.
  Qed.
  (** the lowest eigenvalue *)
  Theorem lowest_eig A : (forall i j, (i < n)%nat -> (j < n)%nat -> A i j = A j i) -> (0 < n)%nat ->
    exists l x, ~ veq n x vzero /\ veq n (mvn n A x) (vmul l x) /\ forall u, l * dt_ u u <= qf A u.
  Proof.
    intros Sy Hn. set (E := fun l => forall u, l * dt_ u u <= qf A u).
    assert (e0 : exists u, ~ veq n u vzero). { exists (fun _ => 1). intros H. specialize (H 0%nat Hn). unfold vzero in H. lra. }
    destruct e0 as (u0 & N0). assert (P0 := nn_pos u0 N0).
    destruct (completeness E) as (l & Ub & Lb).
    { exists (qf A u0 / dt_ u0 u0). intros x Hx. specialize (Hx u0). apply Rmult_le_reg_r with (dt_ u0 u0); [exact P0 | ]. unfold Rdiv. rewrite Rmult_assoc, Rinv_l, Rmult_1_r by lra. exact Hx. }
    { exists (- size A). intros u. destruct (qf_bound A u). lra. }
    assert (El : forall u, l * dt_ u u <= qf A u).
    { intros u. destruct (nn_nonneg u) as [P | P].
      - assert (Z : l <= qf A u / dt_ u u). { apply Lb. intros x Hx. specialize (Hx u). apply Rmult_le_reg_r with (dt_ u u); [exact P | ]. unfold Rdiv. rewrite Rmult_assoc, Rinv_l, Rmult_1_r by lra. exact Hx. }
        apply Rmult_le_compat_r with (r := dt_ u u) in Z; [ | lra]. unfold Rdiv in Z. rewrite Rmult_assoc, Rinv_l, Rmult_1_r in Z by lra. exact Z.
      - rewrite <- P, Rmult_0_r. assert (Q := qf_bound A u). rewrite <- P in Q. lra. }
    set (C := mminus A (mmul l unit_mat)).
    assert (Cv : forall u i, (i < n)%nat -> mvn n C u i = mvn n A u i - l * u i) by (intros u i Hi; unfold C; rewrite mvn_mminus, mvn_mmul, mvn_unit by exact Hi; reflexivity).
    assert (Cq : forall u, qf C u = qf A u - l * dt_ u u).
    { intros u. unfold qf. rewrite (dt_ext u (mvn n C u) u (vplus (mvn n A u) (vmul (- l) u))); [ | intros i _; reflexivity | intros i Hi; rewrite Cv by exact Hi; unfold vplus, vmul; ring]. rewrite dt_comm, dt_plus_l, dt_mul_l, (dt_comm (mvn n A u)). ring. }
    assert (Cs : forall i j, (i < n)%nat -> (j < n)%nat -> C i j = C j i) by (intros i j Hi Hj; unfold C, mminus, mmul, unit_mat; rewrite (Sy i j Hi Hj), (Nat.eqb_sym i j); reflexivity).
    assert (Cp : forall u, 0 <= qf C u) by (intros u; rewrite Cq; specialize (El u); lra).
    assert (G := gauss_inv_spec n C). destruct (gauss_inv n C) as [D | ].
    - exfalso. destruct G as (G & _).
      assert (Dv : forall u, veq n (mvn n C (mvn n D u)) u).
      { intros u i Hi. rewrite <- mvn_mmn. rewrite (mvn_ext n (mmn n C D) unit_mat u u i); [apply mvn_unit; exact Hi | intros k Hk; apply G; assumption | intros k _; reflexivity]. }
      set (B := size D + 1). assert (HB : 0 < B) by (unfold B; assert (X := size_nonneg D); lra).
      assert (X : E (l + / B)).
      { intros u. assert (CS := cauchy C u (mvn n D u) Cs Cp). rewrite (dt_ext u _ u u (fun i _ => eq_refl) (Dv u)) in CS.
        assert (Q : qf C (mvn n D u) = qf D u) by (unfold qf at 1; rewrite (dt_ext _ _ (mvn n D u) u (fun i _ => eq_refl) (Dv u)); apply dt_comm). rewrite Q in CS.
        assert (Bd : qf D u <= B * dt_ u u) by (destruct (qf_bound D u); assert (Y := nn_nonneg u); unfold B; nra).
        assert (Cu := Cp u). rewrite Cq in *. assert (Y := nn_nonneg u). assert (K : dt_ u u <= B * (qf A u - l * dt_ u u)).
        { destruct Y as [Y | Y]; [ | rewrite <- Y in *; nra]. assert (dt_ u u * dt_ u u <= dt_ u u * (B * (qf A u - l * dt_ u u))); [ | nra]. 
          apply Rle_trans with ((qf A u - l * dt_ u u) * qf D u); [exact CS | ]. apply Rle_trans with ((qf A u - l * dt_ u u) * (B * dt_ u u)); [apply Rmult_le_compat_l; assumption | ]. right. ring. }
        assert (K2 : / B * dt_ u u <= qf A u - l * dt_ u u).
        { apply Rmult_le_compat_l with (r := / B) in K; [ | left; now apply Rinv_0_lt_compat]. rewrite <- Rmult_assoc, Rinv_l, Rmult_1_l in K by lra. exact K. }
        lra. }
      specialize (Ub _ X). assert (0 < / B) by now apply Rinv_0_lt_compat. lra.
    - destruct G as (x & Nx & Hx). exists l, x. split; [exact Nx | ]. split; [ | exact El]. intros i Hi. specialize (Hx i Hi). rewrite Cv in Hx by exact Hi. unfold vzero in Hx. unfold vmul. lra.
  Qed.
End S.
