(** Specification vocabulary for shapes and collisions: sets of points of space, distances. *)
From Verif Require Export Model_Coll Spec_SE3.
From Verif Require Import Props_Angles.

(** what numpy.argsort guarantees *)
Definition argsort_ok (argsort : v3 -> nat * nat * nat) : Prop := forall u, is_argsort (argsort u) u.
Definition zaxis (H : m4) : v3 := zcol (rot H).
Definition dist (a b : v3) : R := norm3 (vsub a b).
(** ground coordinates of the point of coordinates [u] in the frame of pose [H] *)
Definition ground_of (H : m4) (u : v3) : v3 := vadd (mv (rot H) u) (pos H).

Definition ball (c : v3) (r : R) (x : v3) : Prop := dist x c <= r.
Definition in_box (H : m4) (he : v3) (x : v3) : Prop :=
  exists u, x = ground_of H u /\ Rabs (vx u) <= vx he /\ Rabs (vy u) <= vy he /\ Rabs (vz u) <= vz he.
Definition inside_box (H : m4) (he : v3) (x : v3) : Prop :=
  exists u, x = ground_of H u /\ Rabs (vx u) < vx he /\ Rabs (vy u) < vy he /\ Rabs (vz u) < vz he.
(** the plane a x + b y + c z + d = 0 of the documentation *)
Definition in_plane (H : m4) (n : v3) (d : R) (x : v3) : Prop := exists u, x = ground_of H u /\ dot3 n u + d = 0.

(** [s] is the distance between A and B, reached at [a] and [b] *)
Definition gap_at (A B : v3 -> Prop) (s : R) (a b : v3) : Prop :=
  A a /\ B b /\ dist a b = s /\ forall x y, A x -> B y -> s <= dist x y.

(** two rigid frames, of same orientation, with third axis [n], the second one [s] further along it *)
Definition contact_frames (F0 F1 : m4) (n : v3) (s : R) : Prop :=
  SE3 F0 /\ SE3 F1 /\ rot F1 = rot F0 /\ zaxis F0 = n /\ pos F1 = vadd (pos F0) (vscal s n).

(** the pairs listed in the documentation of choose_solver *)
Definition documented (a b : geom) : Prop :=
  match a, b with
  | Sphere _, (Sphere _ | Point | Plane _ _ | Box _) => True
  | (Point | Plane _ _ | Box _), Sphere _ => True
  | Point, Plane _ _ => True
  | Plane _ _, Point => True
  | _, _ => False
  end.
(** the shapes a solver asks for *)
Definition solver_types (sv : solver) (a b : geom) : Prop :=
  match sv, a, b with
  | sphere_sphere, Sphere _, Sphere _ | sphere_point, Sphere _, Point | box_sphere, Box _, Sphere _ | box_point, Box _, Point
  | plane_sphere, Plane _ _, Sphere _ | plane_point, Plane _ _, Point => True
  | _, _, _ => False
  end.
(** [a] occurs before [b] *)
Definition before {A} (l : list A) (a b : A) : Prop := exists l1 l2 l3, l = l1 ++ a :: l2 ++ b :: l3.
(** the same unordered pair *)
Definition same_pair (p q : nat * nat) : Prop := p = q \/ p = (snd q, fst q).
