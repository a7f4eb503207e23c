(** Specification vocabulary for the iCub. *)
From Verif Require Export Model_Icub Spec_Build.
Open Scope R_scope.

(** the skeleton: limbs are chains of (joint, body) hung on a body; a row is a joint, its parent and its child *)
Fixpoint chain (p : string) (l : list (string * string)) : list (string * string * string) :=
  match l with [] => [] | (j, c) :: l' => (j, p, c) :: chain c l' end.
Definition icub_torso : list (string * string) := [("torso_pitch", "lap_belt_1"); ("torso_roll", "lap_belt_2"); ("torso_yaw", "chest")]%string.
Definition icub_neck : list (string * string) := [("head_pitch", "neck_1"); ("head_roll", "neck_2"); ("head_yaw", "head")]%string.
Definition icub_arm (s : string) : list (string * string) :=
  [(s ++ "shoulder_pitch", s ++ "shoulder_1"); (s ++ "shoulder_roll", s ++ "shoulder_2"); (s ++ "shoulder_yaw", s ++ "arm"); (s ++ "elbow_pitch", s ++ "elbow_1");
   (s ++ "elbow_yaw", s ++ "forearm"); (s ++ "wrist_roll", s ++ "wrist_1"); (s ++ "wrist_pitch", s ++ "hand")]%string.
Definition icub_leg (s : string) : list (string * string) :=
  [(s ++ "hip_pitch", s ++ "hip_1"); (s ++ "hip_roll", s ++ "hip_2"); (s ++ "hip_yaw", s ++ "thigh"); (s ++ "knee", s ++ "shank"); (s ++ "ankle_pitch", s ++ "ankle_1"); (s ++ "ankle_roll", s ++ "foot")]%string.
Definition icub_skeleton : list (string * string * string) :=
  chain "waist" icub_torso ++ chain "chest" icub_neck ++ chain "chest" (icub_arm "l_") ++ chain "chest" (icub_arm "r_") ++ chain "waist" (icub_leg "l_") ++ chain "waist" (icub_leg "r_").
(** the bodies linked to the ground: the waist is one when the robot is free, the ground itself takes its place when it is fixed *)
Definition icub_bodies (is_fixed : bool) : list string := (if is_fixed then [] else ["waist"%string]) ++ map snd icub_skeleton.
(** the named body, or the ground for the waist of a fixed robot *)
Definition on_body (e : env) (is_fixed : bool) (cs : list cmd) (n : string) (b : nat) : Prop :=
  if is_fixed && String.eqb n "waist" then b = ground e else body_called cs "" n b.
(** a homogeneous solid centred on its frame: a box of given half extents, a cylinder of axis z, a ball *)
Definition solid (dims : list R) (m : R) : m6 :=
  match dims with [x; y; z] => box (V3 x y z) m | [l; r] => cylinder l r m | [r] => sphere r m | _ => diag6 0 0 0 0 0 0 end.
Definition solid_shape (dims : list R) : bshape :=
  match dims with [x; y; z] => ShBox (V3 x y z) | [l; r] => ShCylinder l r | [r] => ShSphere r | _ => ShPoint end.
Definition sum_list (l : list R) : R := fold_right Rplus 0 l.
(** (twice) the kinetic energy of solids fixed at [H] in a body of twist [u] *)
Definition parts_energy (parts : list (list R * R * m4)) (u : v6) : R :=
  sum_list (map (fun d => let '(dims, m, H) := d in dot6 (mv6 (adjoint_ (inv_ H)) u) (mv6 (solid dims m) (mv6 (adjoint_ (inv_ H)) u))) parts).

(** ** Kinematics *)
(** where a joint is mounted on its parent *)
Definition mount (jn : string) : m4 := match find (fun x => String.eqb (fst x) jn) joints_data with Some x => snd (fst (snd x)) | None => eye4 end.
(** from the base of a limb to the last body of the chain, for the joint angles [q] *)
Fixpoint along (q : string -> R) (l : list (string * string)) : m4 :=
  match l with [] => eye4 | (j, _) :: l' => mm4 (mm4 (mount j) (rotz (q j))) (along q l') end.
(** after an update: the pose of the body named [n], of the frame named [n] *)
Definition body_at (e : env) (fx : bool) (cs : list cmd) (sg : store) (n : string) (P : m4) : Prop :=
  (exists b, on_body e fx cs n b) /\ forall b, on_body e fx cs n b -> a_pose (sg b) = Some P.
Definition frame_placed (e : env) (sc : scene) (cs : list cmd) (sg : store) (n : string) (P : m4) : Prop :=
  (exists s, tag_called cs "" n s) /\ forall s, tag_called cs "" n s -> frame_pose e sc sg (FSub s) = Ok P.
(** [q] lists the angles of the joints *)
Definition angles (J : nat -> jstate) (cs : list cmd) (q : string -> R) : Prop := forall jn, In jn (map fst joints_data) -> forall j, joint_called cs "" jn j -> gpos (J j) 0%nat = q jn.
(** changes of sign of the coordinates *)
Definition dg (a b c : R) : m4 := M4 (diag3 (V3 a b c)) zero3 zero3 1.
(** the world [h'] (with the tree [t']) after the calls [cs] of a successful construction of the robot, in any world and whatever the orders of the dicts *)
Definition icub_world (e : env) (I : bids) (fx shp con : bool) (cs : list cmd) (fuel : nat) (h' : @heap R) (t' : tree) : Prop :=
  exists g0 h eigvals B J Sh C t, reachable 0 e g0 h /\ (forall M, sym6 M -> eigvals_of M (eigvals M)) /\ new_ids I h e /\ rep e h t /\ root t = ground e /\
    Permutation B bodies_data /\ Permutation J joints_data /\ Permutation Sh (shapes_data bodies_data) /\ Permutation C contact_data /\
    icub_script e eigvals I fx shp con B J Sh C = (cs, Ok tt) /\ (forall c, In c cs -> made e h c) /\ (length (bodies t) + length (icub_bodies fx) < fuel)%nat /\
    icub_add e eigvals I fuel fx shp con B J Sh C h = (h', Ok tt) /\ ready e h' t'.

(** trunk, head and legs, in the waist, when all the angles are zero: z is up, the robot faces -x and its left is -y *)
Definition icub_upright : list (string * m4) := [
  ("lap_belt_1", M4 (M3 0 (- 1) 0 0 0 (- 1) 1 0 0) (V3 0 0 0) (V3 0 0 0) 1);
  ("lap_belt_2", M4 (M3 0 0 1 0 (- 1) 0 1 0 0) (V3 0 0 0.032) (V3 0 0 0) 1);
  ("chest", M4 (M3 0 1 0 1 0 0 0 0 (- 1)) (V3 0 0 0.032) (V3 0 0 0) 1);
  ("neck_1", M4 (M3 (- 1) 0 0 0 0 1 0 1 0) (V3 (- 0.00231) 0 0.2253) (V3 0 0 0) 1);
  ("neck_2", M4 (M3 0 0 (- 1) 0 1 0 1 0 0) (V3 (- 0.00231) 0 0.2583) (V3 0 0 0) 1);
  ("head", M4 (M3 0 1 0 (- 1) 0 0 0 0 1) (V3 (- 0.00331) 0 0.2583) (V3 0 0 0) 1);
  ("l_hip_1", M4 (M3 1 0 0 0 0 1 0 (- 1) 0) (V3 0 (- 0.0681) (- 0.1199)) (V3 0 0 0) 1);
  ("l_hip_2", M4 (M3 0 0 (- 1) 0 (- 1) 0 (- 1) 0 0) (V3 0 (- 0.0681) (- 0.1199)) (V3 0 0 0) 1);
  ("l_thigh", M4 (M3 0 1 0 (- 1) 0 0 0 0 1) (V3 0 (- 0.0681) (- 0.1199)) (V3 0 0 0) 1);
  ("l_shank", M4 (M3 (- 1) 0 0 0 0 1 0 1 0) (V3 0 (- 0.0681) (- 0.3435)) (V3 0 0 0) 1);
  ("l_ankle_1", M4 (M3 0 (- 1) 0 0 0 (- 1) 1 0 0) (V3 0 (- 0.0681) (- 0.5565)) (V3 0 0 0) 1);
  ("l_foot", M4 (M3 0 0 (- 1) 0 1 0 1 0 0) (V3 0 (- 0.0681) (- 0.5565)) (V3 0 0 0) 1);
  ("r_hip_1", M4 (M3 1 0 0 0 0 1 0 (- 1) 0) (V3 0 0.0681 (- 0.1199)) (V3 0 0 0) 1);
  ("r_hip_2", M4 (M3 0 0 1 0 1 0 (- 1) 0 0) (V3 0 0.0681 (- 0.1199)) (V3 0 0 0) 1);
  ("r_thigh", M4 (M3 0 1 0 1 0 0 0 0 (- 1)) (V3 0 0.0681 (- 0.1199)) (V3 0 0 0) 1);
  ("r_shank", M4 (M3 (- 1) 0 0 0 0 1 0 1 0) (V3 0 0.0681 (- 0.3435)) (V3 0 0 0) 1);
  ("r_ankle_1", M4 (M3 0 (- 1) 0 0 0 (- 1) 1 0 0) (V3 0 0.0681 (- 0.5565)) (V3 0 0 0) 1);
  ("r_foot", M4 (M3 0 0 1 0 (- 1) 0 1 0 0) (V3 0 0.0681 (- 0.5565)) (V3 0 0 0) 1)]%string.
(** the sole, in the waist: its y axis is up *)
Definition sole_at (y : R) : m4 := M4 (M3 (-1) 0 0 0 0 1 0 1 0) (V3 (-0.034) y (-0.5975)) (V3 0 0 0) 1.
