(** Specification vocabulary for the robots. *)
From Verif Require Export Model_Robots Spec_World Spec_Mass.

(** objects that have just been created are all different and attached to nothing *)
Definition new_objects (I : ids) (h : @heap R) (e : env) : Prop :=
  (forall k l, nb I k = nb I l -> k = l) /\ (forall k l, nj I k = nj I l -> k = l) /\
  forall k, nb I k <> ground e /\ parentjoint h (nb I k) = None /\ childrenjoints h (nb I k) = [] /\ jframes h (nj I k) = None.
(** the world knows an object as it was created: the body of a subframe, the size and the velocity of a joint *)
Definition known_as (e : env) (h : @heap R) (c : created) : Prop :=
  match c with
  | CBody _ _ => True
  | CJoint j k _ v => jndof e j = ndof_of k /\ joint_gvel h j = v
  | CSub s b _ => sub_body e s = b
  | CBox s f _ => shape_frame e s = f
  end.
(** the object is as it was created, up to the configuration of the joints *)
Definition built_as (sc : scene) (J : nat -> jstate) (c : created) : Prop :=
  match c with
  | CBody b M => b_mass sc b = M
  | CJoint j k _ _ => jt (J j) = k
  | CSub s _ H => sub_bpose sc s = H
  | CBox _ _ _ => True
  end.
(** the joints are in their initial configuration *)
Definition starts_as (J : nat -> jstate) (c : created) : Prop :=
  match c with
  | CJoint j k q _ => (k = FreeJoint -> gposH (J j) = eye4) /\ forall i, (i < length q)%nat -> gpos (J j) i = nth i q 0
  | _ => True
  end.
(** a chain of joints and bodies, from the nearest to the farthest *)
Fixpoint chain (l : list (nat * nat)) : list (nat * tree) :=
  match l with [] => [] | (j, b) :: l' => [(j, Node b (chain l'))] end.
(** the position and the direction of the end of a planar chain: the k-th segment has length [l_k] and makes the angle [q_1 + ... + q_k]
    with the y axis *)
Fixpoint planar (a x y : R) (segs : list (R * R)) : R * R * R :=
  match segs with [] => (a, x, y) | (q, l) :: s => planar (a + q) (x - l * sin (a + q)) (y + l * cos (a + q)) s end.

(** the objects of the segments of a snake, numbered from [k]: a hinge, a subframe at the end of the segment, and a body with the inertia
    of a homogeneous cylinder of the given length and mass, of radius a fifth of the length, lying between the hinge and the end *)
Inductive snake_parts (I : ids) : nat -> list (R * R * R * R) -> list created -> Prop :=
| parts_nil k : snake_parts I k [] []
| parts_cons k len mass q dq segs cr : snake_parts I (S k) segs cr ->
    snake_parts I k ((len, mass, q, dq) :: segs)
      (CBody (nb I k) (rigid_mass mass (V3 0 (len / 2) 0)
          (diag3 (V3 (mass * ((len / 5) ^ 2 / 4 + len ^ 2 / 3)) (mass * (len / 5) ^ 2 / 2) (mass * ((len / 5) ^ 2 / 4 + len ^ 2 / 3)))))
       :: CJoint (nj I k) RzJoint [q] [dq] :: CSub (ns I k) (nb I k) (transl 0 len 0) :: cr).
(** the frame to which the k-th hinge is attached, the first one being [k0] attached to [f0] *)
Definition hinge_frame (I : ids) (k0 : nat) (f0 : frame) (k : nat) : frame := if Nat.eqb k k0 then f0 else FSub (ns I (pred k)).
(** the hinges and bodies numbered k, ..., k + n - 1 *)
Definition segments (I : ids) (k n : nat) : list (nat * nat) := map (fun i => (nj I i, nb I i)) (seq k n).

(** the objects of a snake: those of the segments, and for a free snake, first of all, a free joint and a cube *)
Definition snake_objects (I : ids) (is_fixed : bool) (segs : list (R * R * R * R)) (cr : list created) : Prop :=
  if is_fixed then snake_parts I 0 segs cr
  else exists len mass q dq segs' cr', segs = (len, mass, q, dq) :: segs' /\ snake_parts I 1 segs cr' /\
    cr = CBody (nb I 0) (rigid_mass mass (V3 0 0 0) (diag3 (V3 (mass * len ^ 2 / 6) (mass * len ^ 2 / 6) (mass * len ^ 2 / 6))))
         :: CJoint (nj I 0) FreeJoint [] [0; 0; 0; 0; 0; 0] :: cr'.
(** the number of the first hinge, and the number of joints *)
Definition first_hinge (is_fixed : bool) : nat := if is_fixed then 0 else 1.
Definition snake_size (is_fixed : bool) (n : nat) : nat := if is_fixed then n else S n.
(** the frame the first hinge is attached to *)
Definition snake_root (e : env) (I : ids) (is_fixed : bool) : frame := if is_fixed then FBody (ground e) else FBody (nb I 0).
(** the lengths, masses, positions and velocities of the segments *)
Definition segs_of (ls ms qs vs : list R) : list (R * R * R * R) := combine (combine (combine ls ms) qs) vs.
(** the angle of the hinge and the length of the segment, from the hinge number [k] *)
Fixpoint posture (I : ids) (J : nat -> jstate) (k : nat) (ls : list R) : list (R * R) :=
  match ls with [] => [] | l :: ls' => (gpos (J (nj I k)) 0%nat, l) :: posture I J (S k) ls' end.
(** the planar pose at (x, y), turned by [a] about z *)
Definition planar_pose (p : R * R * R) : m4 :=
  let '(a, x, y) := p in M4 (M3 (cos a) (- sin a) 0 (sin a) (cos a) 0 0 0 1) (V3 x y 0) (V3 0 0 0) 1.
