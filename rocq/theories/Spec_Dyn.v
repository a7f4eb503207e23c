(** Specification vocabulary for a world ready for [update_dynamic]. *)
From Verif Require Export Model_Dyn Spec_World Spec_Joints Spec_SE3.

(** every frame and joint position is a rigid motion, joint sizes agree with joint classes *)
Definition rigid_scene (e : env) (sc : scene) (t : tree) (J : nat -> jstate) : Prop :=
  (forall f, SE3 (bpose sc f)) /\
  (forall j, In j (joints t) -> valid_joint (J j) /\ jndof e j = ndof_of (jt (J j))).

(** the world is the tree [t] and its joints are numbered along it (the state left by World.init) *)
Definition ready (e : env) (h : @heap R) (t : tree) : Prop :=
  rep e h t /\ root t = ground e /\ NoDup (bodies t) /\
  w_ndof h = total_ndof e (joints t) /\
  (forall l1 j l2, joints t = l1 ++ j :: l2 -> jdof h j = Some (total_ndof e l1, total_ndof e l1 + jndof e j)%nat).

(** [v] is the world velocity vector made of the joint velocities *)
Definition world_velocity (e : env) (h : @heap R) (t : tree) (J : nat -> jstate) (v : nat -> R) : Prop :=
  forall j s d, In j (joints t) -> jdof h j = Some (s, d) -> forall i, (i < jndof e j)%nat -> gvel (J j) i = v (s + i)%nat.

(** the joints between a body and the ground *)
Definition above (t : tree) (b : nat) (js : list nat) : Prop :=
  exists ps, path t b ps /\ js = map fst ps.

(** all the joints of a world move together *)
Definition world_motion (t : tree) (f : R -> nat -> jstate) (s : R) : Prop :=
  forall j, In j (joints t) -> joint_motion (jt (f s j)) (fun u => f u j) s.

(** mass matrices: symmetric, positive semi-definite *)
Definition sym6 (M : m6) : Prop := forall u v, dot6 u (mv6 M v) = dot6 v (mv6 M u).
Definition psd6 (M : m6) : Prop := forall u, 0 <= dot6 u (mv6 M u).
(** inertia of a rigid body of mass [m], inertia [I0] and centre of mass [c] in the body frame *)
Definition rigid_mass (m : R) (c : v3) (I0 : m3) : m6 :=
  M6 I0 (mscal m (skew c)) (mscal m (tr (skew c))) (mscal m eye3).

(** below joint [j] of the list (nearest to the body first) lie only joints without dof, unless
    [j] moves about or along axes fixed in both its frames *)
Definition djac_safe (ty : nat -> jtype) (js : list nat) : Prop :=
  forall l1 j l2, js = l1 ++ j :: l2 -> simple_joint (ty j) \/ forall i, In i l2 -> ndof_of (ty i) = 0%nat.

(** v' A w for (n,n) arrays *)
Definition quad (n : nat) (v : nat -> R) (A : nat -> nat -> R) (w : nat -> R) : R :=
  sumR n (fun k => sumR n (fun l => v k * A k l * w l)).
