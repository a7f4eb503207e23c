(** Specification vocabulary for a drawn scene. *)
From Verif Require Export Model_Draw Spec_World Spec_SE3.

(** the node [n] of the scene graph lies at [P] when the node [x] is given the transform [pz x]: [P] is the product of the
    transforms from the ground node (0) down to [n] *)
Inductive at_pose (pz : node -> m4) (g : list (nat * node)) : nat -> m4 -> Prop :=
| at_ground : at_pose pz g 0 eye4
| at_child n x P : In (n, x) g -> at_pose pz g (n_parent x) P -> at_pose pz g n (mm4 P (pz x)).

(** the numpy inverse is right on rigid motions *)
Definition inv4_spec (inv4 : m4 -> m4) : Prop := forall H K, SE3 H -> mm4 H K = eye4 -> mm4 K H = eye4 -> inv4 H = K.

(** the shapes and the bodies with an inertia, among the items drawn *)
Definition item_shapes (l : list (nat * item)) : list nat := flat_map (fun x => match snd x with IShape s _ => [s] | _ => [] end) l.
Definition item_bodies (l : list (nat * item)) : list nat := flat_map (fun x => match snd x with IInertia b _ => [b] | _ => [] end) l.
