(** Specification vocabulary for the planar arm and the single solids. *)
From Verif Require Export Model_Arm Spec_Build.
Open Scope R_scope.

(** the joints of the arm: joint, parent (the ground when there is none), child *)
Definition arm_chain : list (string * option string * string) :=
  [("Shoulder", None, "Arm"); ("Elbow", Some "Arm", "Forearm"); ("Wrist", Some "Forearm", "Hand")]%string.
(** where the tip of a planar chain of three segments is, and how it is turned, when the angles are q0, q1, q2 (the segments are along y at rest) *)
Definition tip (l0 l1 l2 q0 q1 q2 : R) : m4 :=
  let a := q0 in let b := q0 + q1 in let c := q0 + q1 + q2 in
  M4 (rot (rotz c)) (V3 (- (l0 * sin a + l1 * sin b + l2 * sin c)) (l0 * cos a + l1 * cos b + l2 * cos c) 0) zero3 1.
(** half extents of a rod of the arm: a box of length l along y, l/10 wide *)
Definition rod_box (l : R) : v3 := V3 (l / 20) (l / 2) (l / 20).
(** [h'] is [h] with one more body, free to move with respect to the ground, of mass matrix [M], carrying the shape [g] *)
Definition one_more (e : env) (h h' : @heap R) (t t' : tree) (cs : list cmd) (name : option string) (M : m6) (g : bshape) : Prop :=
  exists b j x, In (MkBody b name M) cs /\ (forall c, In c cs -> match c with MkBody b' _ _ => b' = b | SetMass _ _ => False | _ => True end) /\
    In (MkJoint j None FreeJoint) cs /\ In (MkShape x None (FBody b) g) cs /\
    ~ In b (bodies t) /\ (forall b', In b' (bodies t') <-> In b' (bodies t) \/ b' = b) /\ length (bodies t') = S (length (bodies t)) /\
    In j (joints t') /\ jframes h' j = Some (FBody (ground e), FBody b) /\ jndof e j = 6%nat /\ length (joints t') = S (length (joints t)) /\
    (forall j', In j' (joints t) -> In j' (joints t') /\ jframes h' j' = jframes h j') /\ (forall j', joint_gvel h' j' = joint_gvel h j') /\
    w_ndof h' = (total_ndof e (joints t) + 6)%nat /\ reg_le h h' /\ In x (w_shapes h').
