(** Specification vocabulary for mass matrices. *)
From Verif Require Export Model_Mass Spec_SE3 Spec_Dyn.
From Coquelicot Require Import Coquelicot.

(** positive definite *)
Definition pd6 (M : m6) : Prop := forall u, u <> zero6 -> 0 < dot6 u (mv6 M u).
(** symmetric positive definite with a scalar translational block of mass [m] *)
Definition mass_of (m : R) (M : m6) : Prop := sym6 M /\ pd6 M /\ ll M = mscal m eye3.
(** [l] lists the eigenvalues of [M] *)
Definition eigvals_of (M : m6) (l : list R) : Prop :=
  forall x, In x l <-> exists u, u <> zero6 /\ mv6 M u = v6scal x u.
(** orthonormal eigenvectors (columns) and eigenvalues of a 3x3 matrix *)
Definition diag3 (s : v3) : m3 := M3 (vx s) 0 0 0 (vy s) 0 0 0 (vz s).
Definition eig_of (A : m3) (SR : v3 * m3) : Prop :=
  mm (tr (snd SR)) (snd SR) = eye3 /\ mm A (snd SR) = mm (snd SR) (diag3 (fst SR)).

(** [I] is the iterated integral of [f] for a in [a0,a1], b in [b0,b1], c in [c0,c1] *)
Definition integral3 (a0 a1 b0 b1 c0 c1 : R) (f : R -> R -> R -> R) (I : R) : Prop :=
  exists g h, (forall a b, is_RInt (f a b) c0 c1 (g a b)) /\ (forall a, is_RInt (g a) b0 b1 (h a)) /\ is_RInt h a0 a1 I.
(** integral over the box [-x,x] x [-y,y] x [-z,z] *)
Definition box_integral (x y z : R) (f : R -> R -> R -> R) (I : R) : Prop :=
  integral3 (- x) x (- y) y (- z) z f I.
(** integral over the cylinder of axis z, length L and radius r, in polar coordinates *)
Definition cylinder_integral (L r : R) (f : R -> R -> R -> R) (I : R) : Prop :=
  integral3 (- (L / 2)) (L / 2) 0 r 0 (2 * PI) (fun z rho th => f (rho * cos th) (rho * sin th) z * rho) I.
(** integral over the ellipsoid of radii x, y, z, in (scaled) spherical coordinates *)
Definition ellipsoid_integral (x y z : R) (f : R -> R -> R -> R) (I : R) : Prop :=
  integral3 0 1 0 PI 0 (2 * PI) (fun rho th ph =>
    f (x * rho * sin th * cos ph) (y * rho * sin th * sin ph) (z * rho * cos th) * (x * y * z * rho ^ 2 * sin th)) I.
(** volume and principal moments of inertia of a homogeneous solid of mass [m]: [Int f I] says that
    [I] is the integral of [f] over the solid *)
Definition homogeneous_inertia (Int : (R -> R -> R -> R) -> R -> Prop) (m : R) (M : m6) : Prop :=
  exists vol, 0 < vol /\ Int (fun _ _ _ => 1) vol /\
    Int (fun _ b c => m / vol * (b ^ 2 + c ^ 2)) (m00 (aa M)) /\
    Int (fun a _ c => m / vol * (a ^ 2 + c ^ 2)) (m11 (aa M)) /\
    Int (fun a b _ => m / vol * (a ^ 2 + b ^ 2)) (m22 (aa M)) /\
    Int (fun a b _ => m / vol * (- a * b)) (m01 (aa M)) /\
    Int (fun a _ c => m / vol * (- a * c)) (m02 (aa M)) /\
    Int (fun _ b c => m / vol * (- b * c)) (m12 (aa M)) /\
    (* centre of mass at the origin *)
    Int (fun a _ _ => m / vol * a) 0 /\ Int (fun _ b _ => m / vol * b) 0 /\ Int (fun _ _ c => m / vol * c) 0.
