(** Specification vocabulary for the constraints. *)
From Verif Require Export Model_Con Spec_Step.

(** What is assumed of numpy.linalg.  On invertible arrays, the pseudo-inverse is the inverse;
    [solve] returns a solution, and fails only on singular arrays; [eigvals] lists the eigenvalues
    (only the real ones matter here). *)
Definition pinv_spec (pinv : nat -> mat -> mat) : Prop := forall n A, ~ singular n A -> inverse n A (pinv n A).
Definition solve_spec (solve : nat -> mat -> vec -> option vec) : Prop :=
  forall n A b, match solve n A b with Some x => veq n (mvn n A x) b | None => singular n A end.
Definition eig_spec (eigvals : mat -> list (R * R)) : Prop :=
  forall B s, In (s, 0) (eigvals B) <-> exists x, ~ veq 6 x vzero /\ veq 6 (mvn 6 B x) (vmul s x).

Definition symmetric (n : nat) (A : mat) : Prop := forall i j, (i < n)%nat -> (j < n)%nat -> A i j = A j i.
(** symmetric positive definite: what the admittance of independent constraints is *)
Definition posdef (n : nat) (A : mat) : Prop :=
  symmetric n A /\ forall x, ~ veq n x vzero -> 0 < quad n x A x.
Definition diagonal (n : nat) (A : mat) : Prop := forall i j, (i < n)%nat -> (j < n)%nat -> i <> j -> A i j = 0.

(** position at the end of the step when the constraint force is incremented by [df]: the estimated
    velocity [vel] takes the previous force into account, [Y] is the admittance *)
Definition end_pos (n : nat) (pos0 vel : vec) (Y : mat) (dt : R) (df : vec) : vec :=
  fun i => pos0 i + dt * (vel i + mvn n Y df i).

(** the documented conditions (constraints.py:22-35) for each coordinate *)
Definition signorini (n : nat) (min max q f : vec) : Prop :=
  forall i, (i < n)%nat -> min i <= q i <= max i /\ (0 < f i -> q i = min i) /\ (f i < 0 -> q i = max i).

(** Soft finger contact (rows: spin about the normal, two tangential directions, normal).  Relative
    velocity at the end of the step when the force is incremented by [df] *)
Definition end_vel (vel : vec) (Y : mat) (df : vec) : vec := fun i => vel i + mvn 4 Y df i.
(** gap at the end of the step *)
Definition end_gap (sdist : R) (vel : vec) (Y : mat) (dt : R) (df : vec) : R := sdist + dt * end_vel vel Y df 3%nat.
(** the elliptic Coulomb cone *)
Definition in_cone (mu : R) (eps f : vec) : Prop :=
  sumR 3 (fun i => (f i / eps i) * (f i / eps i)) <= (mu * f 3%nat) * (mu * f 3%nat).
