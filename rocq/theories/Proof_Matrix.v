(** Linear algebra on arrays of any size: a square array is invertible or has a kernel. *)
From Verif Require Import Spec_Step Proof_Dyn Proof_Dyn2.
From Coq Require Import Lra.

Lemma mvn_ext n A A' x x' i : (forall k, (k < n)%nat -> A i k = A' i k) -> veq n x x' -> mvn n A x i = mvn n A' x' i.
Proof. intros E V. unfold mvn. apply sumR_ext. intros k L. rewrite E, V by auto. reflexivity. Qed.
Lemma mvn_plus n A x y i : mvn n A (vplus x y) i = mvn n A x i + mvn n A y i.
Proof. unfold mvn, vplus. rewrite <- sumR_add. apply sumR_ext. intros; lra. Qed.
Lemma mvn_minus n A x y i : mvn n A (vminus x y) i = mvn n A x i - mvn n A y i.
Proof.
  unfold mvn, vminus. replace (sumR n (fun k => A i k * x k) - sumR n (fun k => A i k * y k)) with (sumR n (fun k => A i k * x k) + (-1) * sumR n (fun k => A i k * y k)) by lra.
  rewrite <- sumR_scal, <- sumR_add. apply sumR_ext. intros; lra.
Qed.
Lemma mvn_mul n A k x i : mvn n A (vmul k x) i = k * mvn n A x i.
Proof. unfold mvn, vmul. rewrite <- sumR_scal. apply sumR_ext. intros; lra. Qed.
Lemma mvn_mplus n A B x i : mvn n (mplus A B) x i = mvn n A x i + mvn n B x i.
Proof. unfold mvn, mplus. rewrite <- sumR_add. apply sumR_ext. intros; lra. Qed.
Lemma mvn_mminus n A B x i : mvn n (mminus A B) x i = mvn n A x i - mvn n B x i.
Proof.
  unfold mvn, mminus. replace (sumR n (fun k => A i k * x k) - sumR n (fun k => B i k * x k)) with (sumR n (fun k => A i k * x k) + (-1) * sumR n (fun k => B i k * x k)) by lra.
  rewrite <- sumR_scal, <- sumR_add. apply sumR_ext. intros; lra.
Qed.
Lemma mvn_mmul n k A x i : mvn n (mmul k A) x i = k * mvn n A x i.
Proof. unfold mvn, mmul. rewrite <- sumR_scal. apply sumR_ext. intros; lra. Qed.
Lemma mvn_zero n A i : mvn n A vzero i = 0.
Proof. unfold mvn, vzero. apply sumR_zero. intros; lra. Qed.
Lemma mvn_mmn m n A B x i : mvn n (mmn m A B) x i = mvn m A (mvn n B x) i.
Proof.
  unfold mvn, mmn. rewrite (sumR_ext m _ (fun k => sumR n (fun l => A i k * B k l * x l))).
  - rewrite sumR_swap. apply sumR_ext. intros l L. rewrite Rmult_comm, <- sumR_scal. apply sumR_ext. intros; lra.
  - intros k L. rewrite <- sumR_scal. apply sumR_ext. intros; lra.
Qed.
Lemma sumR_single n f k : (k < n)%nat -> (forall i, (i < n)%nat -> i <> k -> f i = 0) -> sumR n f = f k.
Proof.
  induction n as [ | n IH]; intros L Z; [lia | ]. cbn [sumR]. destruct (Nat.eq_dec k n) as [-> | N].
  - rewrite sumR_zero; [lra | intros; apply Z; lia].
  - rewrite IH by (try lia; intros; apply Z; lia). rewrite (Z n) by lia. lra.
Qed.
Lemma mvn_unit n x i : (i < n)%nat -> mvn n unit_mat x i = x i.
Proof.
  intros L. unfold mvn. rewrite (sumR_single n _ i); auto.
  - unfold unit_mat. rewrite Nat.eqb_refl. lra.
  - intros k _ N. unfold unit_mat. destruct (Nat.eqb_spec i k); [congruence | lra].
Qed.

(** a finite search *)
Definition find_nz (n : nat) (x : vec) : {k | (k < n)%nat /\ x k <> 0} + {veq n x vzero}.
Proof.
  induction n as [ | n [[k [L N]] | Z]].
  - right. intros i L. lia.
  - left. exists k. auto.
  - destruct (Req_EM_T (x n) 0) as [E | N].
    + right. intros i L. destruct (Nat.eq_dec i n) as [-> | ]; [exact E | apply Z; lia].
    + left. exists n. auto.
Defined.

(** more columns than rows: a kernel vector *)
Definition wide_kernel (r : nat) : forall (c : nat) (A : mat), (r < c)%nat ->
  {x | ~ veq c x vzero /\ forall i, (i < r)%nat -> sumR c (fun k => A i k * x k) = 0}.
Proof.
  induction r as [ | r IH]; intros c A L.
  - exists (fun _ => 1). split; [ | intros; lia]. intros V. specialize (V 0%nat L). unfold vzero in V. lra.
  - destruct c as [ | c]; [lia | ].
    destruct (find_nz (S c) (A r)) as [[p [Lp Np]] | Z].
    + (* eliminate column p with row r; columns other than p are enumerated by [sk] *)
      pose (sk := fun k => if Nat.ltb k p then k else S k).
      pose (B := fun i k => A i (sk k) - A i p * (A r (sk k) / A r p)).
      destruct (IH c B) as [y [Ny Hy]]; [lia | ].
      pose (xp := - sumR c (fun k => A r (sk k) * y k) / A r p).
      pose (x := fun k => if Nat.eqb k p then xp else if Nat.ltb k p then y k else y (k - 1)%nat).
      assert (Sx : forall f, sumR (S c) (fun k => f k * x k) = f p * xp + sumR c (fun k => f (sk k) * y k)).
      { intros f. assert (Q : forall m, (m <= c)%nat -> sumR (S m) (fun k => f k * x k) =
          if Nat.leb p m then f p * xp + sumR m (fun k => f (sk k) * y k) else sumR (S m) (fun k => f (sk k) * y k)).
        { induction m as [ | m IHm]; intros Lm.
          - destruct (Nat.leb_spec p 0) as [P | P].
            + assert (p = 0)%nat by lia. subst p. cbn [sumR]. unfold x. rewrite Nat.eqb_refl. lra.
            + cbn [sumR]. unfold x, sk. destruct (Nat.eqb_spec 0 p); [lia | ]. destruct (Nat.ltb_spec 0 p); [lra | lia].
          - cbn [sumR] in *. rewrite IHm by lia. destruct (Nat.leb_spec p m) as [P | P].
            + destruct (Nat.leb_spec p (S m)); [ | lia].
              assert (Ex : x (S m) = y m). { unfold x. destruct (Nat.eqb_spec (S m) p); [lia | ]. destruct (Nat.ltb_spec (S m) p); [lia | ]. f_equal. lia. }
              assert (Es : sk m = S m). { unfold sk. destruct (Nat.ltb_spec m p); [lia | reflexivity]. }
              rewrite Ex, Es. lra.
            + destruct (Nat.leb_spec p (S m)) as [P' | P'].
              * assert (Ep : p = S m) by lia. assert (Ex : x (S m) = xp). { unfold x. rewrite Ep, Nat.eqb_refl. reflexivity. }
                rewrite Ex, <- Ep. lra.
              * assert (Ex : x (S m) = y (S m)). { unfold x. destruct (Nat.eqb_spec (S m) p); [lia | ]. destruct (Nat.ltb_spec (S m) p); [reflexivity | lia]. }
                assert (Es : sk (S m) = S m). { unfold sk. destruct (Nat.ltb_spec (S m) p); [reflexivity | lia]. }
                rewrite Ex, Es. lra. }
        rewrite (Q c) by lia. destruct (Nat.leb_spec p c); [reflexivity | lia]. }
      exists x. split.
      * intros V. apply Ny. intros k Lk. unfold vzero in *. destruct (Nat.lt_ge_cases k p) as [P | P].
        -- specialize (V k ltac:(lia)). unfold x in V. destruct (Nat.eqb_spec k p); [lia | ]. destruct (Nat.ltb_spec k p); [exact V | lia].
        -- specialize (V (S k) ltac:(lia)). unfold x in V. destruct (Nat.eqb_spec (S k) p); [lia | ].
           destruct (Nat.ltb_spec (S k) p); [lia | ]. replace (S k - 1)%nat with k in V by lia. exact V.
      * intros i Li. rewrite (Sx (A i)). destruct (Nat.eq_dec i r) as [-> | N].
        -- unfold xp. field_simplify_eq; [ | exact Np]. lra.
        -- specialize (Hy i ltac:(lia)). unfold B in Hy.
           assert (Hy' : sumR c (fun k => A i (sk k) * y k) + (- (A i p / A r p)) * sumR c (fun k => A r (sk k) * y k) = 0).
           { rewrite <- sumR_scal, <- sumR_add. rewrite <- Hy. apply sumR_ext. intros. unfold Rdiv. lra. }
           rewrite <- Hy'. unfold xp. unfold Rdiv. lra.
    + destruct (IH (S c) A) as [x [Nx Hx]]; [lia | ]. exists x. split; [exact Nx | ].
      intros i Li. destruct (Nat.eq_dec i r) as [-> | N]; [ | apply Hx; lia].
      apply sumR_zero. intros k Lk. rewrite (Z k Lk). unfold vzero. lra.
Defined.

Definition kernel_or_column (n : nat) (A : mat) (j : nat) :
  {x | veq n (mvn n A x) (fun i => if Nat.eqb i j then 1 else 0)} + {singular n A}.
Proof.
  pose (W := fun i k => if Nat.ltb k n then A i k else if Nat.eqb i j then 1 else 0).
  destruct (wide_kernel n (S n) W (Nat.lt_succ_diag_r n)) as [x [Nx Hx]].
  assert (E : forall i, (i < n)%nat -> mvn n A x i + (if Nat.eqb i j then 1 else 0) * x n = 0).
  { intros i Li. refine (eq_trans _ (Hx i Li)). cbn [sumR]. f_equal.
    - unfold mvn. apply sumR_ext. intros k Lk. unfold W. destruct (Nat.ltb_spec k n); [reflexivity | lia].
    - unfold W. rewrite Nat.ltb_irrefl. reflexivity. }
  destruct (Req_EM_T (x n) 0) as [Z | N].
  - right. exists x. split.
    + intros V. apply Nx. intros i Li. destruct (Nat.eq_dec i n) as [-> | ]; [exact Z | apply V; lia].
    + intros i Li. specialize (E i Li). rewrite Z in E. unfold vzero. lra.
  - left. exists (vmul (- / x n) x). intros i Li. rewrite mvn_mul. specialize (E i Li).
    apply (Rmult_eq_reg_l (x n)); [ | exact N]. replace (x n * (- / x n * mvn n A x i)) with (- mvn n A x i) by (field; exact N). lra.
Defined.

Lemma right_inverse_inverse n A B : ~ singular n A -> meq n (mmn n A B) unit_mat -> inverse n A B.
Proof.
  intros NS E. split; [exact E | ]. intros i j Li Lj.
  (* column j of B A - I lies in the kernel *)
  pose (z := fun k => mmn n B A k j - unit_mat k j).
  destruct (find_nz n z) as [[k [Lk Nk]] | Z].
  - exfalso. apply NS. exists z. split.
    + intros V. apply Nk. apply (V k Lk).
    + intros p Lp. change z with (vminus (fun k => mmn n B A k j) (fun k => unit_mat k j)). rewrite mvn_minus.
      assert (Q : mvn n A (fun k => mmn n B A k j) p = A p j).
      { change (fun k => mmn n B A k j) with (mvn n B (fun k => A k j)). rewrite <- mvn_mmn.
        rewrite (mvn_ext n _ unit_mat _ (fun k => A k j)) by (try intros; try apply E; auto; intros ? ?; auto).
        exact (mvn_unit n (fun k => A k j) p Lp). }
      rewrite Q. unfold mvn. rewrite (sumR_single n _ j) by (first [exact Lj | intros q _ Nq; unfold unit_mat; destruct (Nat.eqb_spec q j); [congruence | lra]]).
      unfold unit_mat, vzero. rewrite Nat.eqb_refl. lra.
  - specialize (Z i Li). unfold z, vzero in Z. lra.
Qed.

(** Gauss elimination decides: the array is singular or has an inverse *)
Definition columns (n : nat) (A : mat) (m : nat) : {B | forall i j, (i < n)%nat -> (j < m)%nat -> mmn n A B i j = unit_mat i j} + {singular n A}.
Proof.
  induction m as [ | m [[B HB] | S]].
  - left. exists mzero. intros; lia.
  - destruct (kernel_or_column n A m) as [[x Hx] | S]; [left | right; exact S].
    exists (fun i j => if Nat.eqb j m then x i else B i j). intros i j Li Lj. unfold mmn.
    destruct (Nat.eqb_spec j m) as [-> | N]; [apply (Hx i Li) | apply HB; lia].
  - right; exact S.
Defined.
Definition gauss_inv (n : nat) (A : mat) : option mat :=
  match columns n A n with inleft (exist _ B _) => Some B | inright _ => None end.

Lemma inverse_not_singular n A B : inverse n A B -> ~ singular n A.
Proof.
  intros [_ E] (x & Nx & Kx). apply Nx. intros i Li.
  assert (Q : mvn n B (mvn n A x) i = x i).
  { rewrite <- mvn_mmn. rewrite (mvn_ext n _ unit_mat _ x) by (try intros; try apply E; auto; intros ? ?; auto). apply mvn_unit. exact Li. }
  rewrite <- Q. rewrite (mvn_ext n B B _ vzero) by auto. apply mvn_zero.
Qed.

Lemma mmn_assoc n A B D i j : mmn n (mmn n A B) D i j = mmn n A (mmn n B D) i j.
Proof. exact (mvn_mmn n n A B (fun k => D k j) i). Qed.
Lemma mmn_unit_r n A i j : (j < n)%nat -> mmn n A unit_mat i j = A i j.
Proof.
  intros L. unfold mmn. rewrite (sumR_single n _ j) by (first [exact L | intros q _ N; unfold unit_mat; destruct (Nat.eqb_spec q j); [congruence | lra]]).
  unfold unit_mat. rewrite Nat.eqb_refl. lra.
Qed.
Lemma mmn_unit_l n A i j : (i < n)%nat -> mmn n unit_mat A i j = A i j.
Proof. intros L. exact (mvn_unit n (fun k => A k j) i L). Qed.
Lemma mmn_ext n A A' B B' i j : (forall k, (k < n)%nat -> A i k = A' i k) -> (forall k, (k < n)%nat -> B k j = B' k j) -> mmn n A B i j = mmn n A' B' i j.
Proof. intros E F. unfold mmn. apply sumR_ext. intros k L. rewrite E, F by auto. reflexivity. Qed.

Lemma right_inverse_injective n A B : meq n (mmn n A B) unit_mat -> ~ singular n B.
Proof.
  intros E (x & Nx & Kx). apply Nx. intros i Li.
  rewrite <- (mvn_unit n x i Li). rewrite (mvn_ext n unit_mat (mmn n A B) x x) by (intros; try (symmetry; apply E); auto; intros ? ?; auto).
  rewrite mvn_mmn. rewrite (mvn_ext n A A _ vzero) by auto. apply mvn_zero.
Qed.

(** the specification of numpy.linalg.inv is met by an implementation *)
Lemma gauss_inv_spec : inv_spec gauss_inv.
Proof.
  intros n A. unfold gauss_inv. destruct (columns n A n) as [[B HB] | S]; [ | exact S].
  assert (NB : ~ singular n B) by (eapply right_inverse_injective; exact HB).
  destruct (columns n B n) as [[D HD] | SB]; [ | contradiction].
  assert (ED : meq n A D).
  { intros i j Li Lj. rewrite <- (mmn_unit_l n D i j Li), <- (mmn_unit_r n A i j Lj).
    rewrite (mmn_ext n A A unit_mat (mmn n B D)) by (intros; auto; symmetry; apply HD; auto).
    rewrite <- mmn_assoc. apply mmn_ext; auto. }
  split; [exact HB | ]. intros i j Li Lj. rewrite <- (HD i j Li Lj). apply mmn_ext; auto.
Qed.
