(** Specification vocabulary for the centre of mass. *)
From Verif Require Export Model_CoM Spec_SE3 Spec_Dyn Spec_Mass Spec_Step.

(** sum of vectors over a list *)
Definition vsum {A} (f : A -> v3) (l : list A) : v3 := fold_right (fun x a => vadd (f x) a) zero3 l.
(** the bodies are massless or solid: mass [m], centre of mass [c], inertia [I0] in the body frame; eigvals and eig are right
    for the solid ones *)
Definition com_bodies (eigvals : m6 -> list R) (eig : m3 -> v3 * m3) (sc : scene) (bs : list nat) (m : nat -> R) (c : nat -> v3) (I0 : nat -> m3) : Prop :=
  forall b, In b bs -> b_mass sc b = rigid_mass (m b) (c b) (I0 b) /\ 0 <= m b /\
    (0 < m b -> tr (I0 b) = I0 b /\ mass_of (m b) (b_mass sc b) /\ eigvals_of (b_mass sc b) (eigvals (b_mass sc b)) /\
       let Ic := madd (I0 b) (mscal (m b) (mm (skew (c b)) (skew (c b)))) in eig_of Ic (eig Ic)).
