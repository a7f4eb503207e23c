(** arboris/robots/icub.py.  The tables are dicts, walked in an order the language does not fix: the construction takes the four dicts as
    lists of items in the order in which they are walked. *)
From Verif Require Export Model_Build Model_Arm.
Open Scope R_scope.

(** [T_DH], icub.py:12-23 *)
Definition T_DH (d t r a : R) : m4 :=
  M4 (M3 (cos t) (- sin t * cos a) (sin t * sin a) (sin t) (cos t * cos a) (- cos t * sin a) 0 (sin a) (cos a)) (V3 (r * cos t) (r * sin t) d) (V3 0 0 0) 1.
(** [get_joint_limits], icub.py:26-67: the table in degrees, and the dict *)
Definition limits_deg : list (string * (R * R)) := [
  ("torso_pitch", ((- 22), 84));
  ("torso_roll", ((- 39), 39));
  ("torso_yaw", ((- 59), 59));
  ("head_pitch", ((- 40), 30));
  ("head_roll", ((- 70), 60));
  ("head_yaw", ((- 55), 55));
  ("l_shoulder_pitch", ((- 95), 5));
  ("l_shoulder_roll", (0, 160.8));
  ("l_shoulder_yaw", ((- 37), 100));
  ("l_elbow_pitch", (5.5, 106));
  ("l_elbow_yaw", ((- 50), 50));
  ("l_wrist_roll", ((- 65), 10));
  ("l_wrist_pitch", ((- 25), 25));
  ("r_shoulder_pitch", ((- 95), 5));
  ("r_shoulder_roll", (0, 160.8));
  ("r_shoulder_yaw", ((- 37), 100));
  ("r_elbow_pitch", (5.5, 106));
  ("r_elbow_yaw", ((- 50), 50));
  ("r_wrist_roll", ((- 65), 10));
  ("r_wrist_pitch", ((- 25), 25));
  ("l_hip_pitch", ((- 44), 132));
  ("l_hip_roll", ((- 119), 17));
  ("l_hip_yaw", ((- 79), 79));
  ("l_knee", ((- 125), 23));
  ("l_ankle_pitch", ((- 42), 21));
  ("l_ankle_roll", ((- 24), 24));
  ("r_hip_pitch", ((- 44), 132));
  ("r_hip_roll", ((- 119), 17));
  ("r_hip_yaw", ((- 79), 79));
  ("r_knee", ((- 125), 23));
  ("r_ankle_pitch", ((- 42), 21));
  ("r_ankle_roll", ((- 24), 24))]%string.
(** [get_torque_limits], icub.py:69-106 *)
Definition torque_limits : list (string * R) := [
  ("torso_pitch", 36);
  ("torso_roll", 80);
  ("torso_yaw", 80);
  ("head_pitch", 20);
  ("head_roll", 20);
  ("head_yaw", 20);
  ("l_shoulder_pitch", 84);
  ("l_shoulder_roll", 84);
  ("l_shoulder_yaw", 34);
  ("l_elbow_pitch", 20);
  ("l_elbow_yaw", 0.45);
  ("l_wrist_roll", 0.65);
  ("l_wrist_pitch", 0.65);
  ("r_shoulder_pitch", 84);
  ("r_shoulder_roll", 84);
  ("r_shoulder_yaw", 34);
  ("r_elbow_pitch", 20);
  ("r_elbow_yaw", 0.45);
  ("r_wrist_roll", 0.65);
  ("r_wrist_pitch", 0.65);
  ("l_hip_pitch", 84);
  ("l_hip_roll", 84);
  ("l_hip_yaw", 40);
  ("l_knee", 30);
  ("l_ankle_pitch", 24);
  ("l_ankle_roll", 11);
  ("r_hip_pitch", 84);
  ("r_hip_roll", 84);
  ("r_hip_yaw", 40);
  ("r_knee", 30);
  ("r_ankle_pitch", 24);
  ("r_ankle_roll", 11)]%string.
(** [get_joints_data], icub.py:108-161: joint name, parent body, pose of the joint in the parent, child body *)
Definition joints_data : list (string * (string * m4 * string)) := [
  ("torso_pitch", ("waist", mm4 (rotz (PI / 2)) (roty ((- PI) / 2)), "lap_belt_1"));
  ("torso_roll", ("lap_belt_1", T_DH 0 0 0.032 (PI / 2), "lap_belt_2"));
  ("torso_yaw", ("lap_belt_2", T_DH 0 ((- PI) / 2) 0 (PI / 2), "chest"));
  ("head_pitch", ("chest", T_DH (- 0.1933) ((- PI) / 2) 0.00231 ((- PI) / 2), "neck_1"));
  ("head_roll", ("neck_1", T_DH 0 (PI / 2) 0.033 (PI / 2), "neck_2"));
  ("head_yaw", ("neck_2", T_DH 0.001 ((- PI) / 2) 0 ((- PI) / 2), "head"));
  ("l_shoulder_pitch", ("chest", T_DH (- 0.1433) ((105 * PI) / 180) 0.0233647 ((- PI) / 2), "l_shoulder_1"));
  ("l_shoulder_roll", ("l_shoulder_1", T_DH 0.10774 (PI / 2) 0 ((- PI) / 2), "l_shoulder_2"));
  ("l_shoulder_yaw", ("l_shoulder_2", T_DH 0 ((- PI) / 2) 0 (PI / 2), "l_arm"));
  ("l_elbow_pitch", ("l_arm", T_DH 0.15228 ((75 * PI) / 180) 0 ((- PI) / 2), "l_elbow_1"));
  ("l_elbow_yaw", ("l_elbow_1", T_DH 0 0 (- 0.015) (PI / 2), "l_forearm"));
  ("l_wrist_roll", ("l_forearm", T_DH 0.1373 ((- PI) / 2) 0 (PI / 2), "l_wrist_1"));
  ("l_wrist_pitch", ("l_wrist_1", T_DH 0 (PI / 2) 0 (PI / 2), "l_hand"));
  ("r_shoulder_pitch", ("chest", T_DH (- 0.1433) (((- 105) * PI) / 180) (- 0.0233647) (PI / 2), "r_shoulder_1"));
  ("r_shoulder_roll", ("r_shoulder_1", T_DH (- 0.10774) ((- PI) / 2) 0 (PI / 2), "r_shoulder_2"));
  ("r_shoulder_yaw", ("r_shoulder_2", T_DH 0 ((- PI) / 2) 0 ((- PI) / 2), "r_arm"));
  ("r_elbow_pitch", ("r_arm", T_DH (- 0.15228) (((- 105) * PI) / 180) 0 ((- PI) / 2), "r_elbow_1"));
  ("r_elbow_yaw", ("r_elbow_1", T_DH 0 0 0.015 (PI / 2), "r_forearm"));
  ("r_wrist_roll", ("r_forearm", T_DH (- 0.1373) ((- PI) / 2) 0 (PI / 2), "r_wrist_1"));
  ("r_wrist_pitch", ("r_wrist_1", T_DH 0 (PI / 2) 0 (PI / 2), "r_hand"));
  ("l_hip_pitch", ("waist", mm4 (transl 0 (- 0.0681) (- 0.1199)) (rotx ((- PI) / 2)), "l_hip_1"));
  ("l_hip_roll", ("l_hip_1", T_DH 0 (PI / 2) 0 ((- PI) / 2), "l_hip_2"));
  ("l_hip_yaw", ("l_hip_2", T_DH 0 (PI / 2) 0 ((- PI) / 2), "l_thigh"));
  ("l_knee", ("l_thigh", T_DH (- 0.2236) ((- PI) / 2) 0 (PI / 2), "l_shank"));
  ("l_ankle_pitch", ("l_shank", T_DH 0 (PI / 2) (- 0.213) PI, "l_ankle_1"));
  ("l_ankle_roll", ("l_ankle_1", T_DH 0 0 0 ((- PI) / 2), "l_foot"));
  ("r_hip_pitch", ("waist", mm4 (transl 0 0.0681 (- 0.1199)) (rotx ((- PI) / 2)), "r_hip_1"));
  ("r_hip_roll", ("r_hip_1", T_DH 0 (PI / 2) 0 (PI / 2), "r_hip_2"));
  ("r_hip_yaw", ("r_hip_2", T_DH 0 (PI / 2) 0 (PI / 2), "r_thigh"));
  ("r_knee", ("r_thigh", T_DH 0.2236 ((- PI) / 2) 0 ((- PI) / 2), "r_shank"));
  ("r_ankle_pitch", ("r_shank", T_DH 0 (PI / 2) (- 0.213) PI, "r_ankle_1"));
  ("r_ankle_roll", ("r_ankle_1", T_DH 0 0 0 (PI / 2), "r_foot"))]%string.
(** [get_bodies_data], icub.py:163-231: body name, parts (dimensions, mass, pose) *)
Definition bodies_data : list (string * list (list R * R * m4)) := [
  ("waist", [([0.032; 0.0235; 0.057215], 0.20297, transl 0.006 0 (- 0.1))]);
  ("lap_belt_1", [([0.0315; 0.0635; 0.088], 3.623, mm4 (transl (- 0.0383) (- 0.0173) 0) (rotz ((- PI) / 4)))]);
  ("lap_belt_2", [([0.097; 0.031], 0.91179, transl 0 0 0.008)]);
  ("chest", [([0.0274; 0.04], 0.45165, transl 0 0 (- 0.0447)); ([0.036; 0.0545; 0.059], 1.8388, mm4 (transl (- 0.03) 0 (- 0.1174)) (rotz (PI / 12))); ([0.036; 0.0545; 0.059], 1.8388, mm4 (transl 0.03 0 (- 0.1174)) (rotz ((- PI) / 12)))]);
  ("neck_1", [([0.077; 0.015], 0.28252, eye4)]);
  ("neck_2", [([0.033; 0.015], 0.1, eye4)]);
  ("head", [([0.08], 0.78, transl 0 0 0.0825)]);
  ("l_shoulder_1", [([0.011; 0.031], 0.48278, transl 0 0 0.07224)]);
  ("l_shoulder_2", [([0.059; 0.03], 0.20779, eye4)]);
  ("l_arm", [([0.156; 0.026], 1.1584, transl 0 0 0.078)]);
  ("l_elbow_1", [([0.01], 0.050798, eye4)]);
  ("l_forearm", [([0.14; 0.02], 0.48774, transl 0 0 0.07)]);
  ("l_wrist_1", [([0.04; 0.01], 0.05, eye4)]);
  ("l_hand", [([0.0345; 0.0325; 0.012], 0.19099, transl 0.0345 0 0)]);
  ("r_shoulder_1", [([0.011; 0.031], 0.48278, transl 0 0 (- 0.07224))]);
  ("r_shoulder_2", [([0.059; 0.03], 0.20779, eye4)]);
  ("r_arm", [([0.156; 0.026], 1.1584, transl 0 0 (- 0.078))]);
  ("r_elbow_1", [([0.01], 0.050798, eye4)]);
  ("r_forearm", [([0.14; 0.02], 0.48774, transl 0 0 (- 0.07))]);
  ("r_wrist_1", [([0.04; 0.01], 0.05, eye4)]);
  ("r_hand", [([0.0345; 0.0325; 0.012], 0.19099, transl (- 0.0345) 0 0)]);
  ("l_hip_1", [([0.013; 0.038], 0.32708, transl 0 0 0.0375)]);
  ("l_hip_2", [([0.075; 0.031], 1.5304, eye4)]);
  ("l_thigh", [([0.224; 0.034], 1.5304, transl 0 0 (- 0.112)); ([0.077; 0.0315], 0.79206, mm4 (transl 0 0 (- 0.224)) (roty (PI / 2)))]);
  ("l_shank", [([0.213; 0.0315], 0.95262, mm4 (transl 0 (- 0.1065) 0) (rotx (PI / 2)))]);
  ("l_ankle_1", [([0.063; 0.0245], 0.14801, eye4)]);
  ("l_foot", [([0.095; 0.027], 0.59285, transl 0 0 0.0125); ([0.002; 0.027; 0.065], 0.08185, transl (- 0.039) 0 0.034)]);
  ("r_hip_1", [([0.013; 0.038], 0.32708, transl 0 0 (- 0.0375))]);
  ("r_hip_2", [([0.075; 0.031], 1.5304, eye4)]);
  ("r_thigh", [([0.224; 0.034], 1.5304, transl 0 0 0.112); ([0.077; 0.0315], 0.79206, mm4 (transl 0 0 0.224) (roty (PI / 2)))]);
  ("r_shank", [([0.213; 0.0315], 0.95262, mm4 (transl 0 (- 0.1065) 0) (rotx (PI / 2)))]);
  ("r_ankle_1", [([0.063; 0.0245], 0.14801, eye4)]);
  ("r_foot", [([0.095; 0.027], 0.59285, transl 0 0 (- 0.0125)); ([0.002; 0.027; 0.065], 0.08185, transl (- 0.039) 0 (- 0.034))])]%string.
(** [get_contact_data], icub.py:250-284: subframe name, body, dimensions, pose *)
Definition contact_data : list (string * (string * list R * m4)) := [
  ("lh1", ("l_hand", [0.012], transl 0.012 0.0205 0));
  ("lh2", ("l_hand", [0.012], transl 0.012 (- 0.0205) 0));
  ("lh3", ("l_hand", [0.012], transl 0.057 0.0205 0));
  ("lh4", ("l_hand", [0.012], transl 0.057 (- 0.0205) 0));
  ("l_hand_tip", ("l_hand", [0.012], transl 0.069 0 0));
  ("l_hand_palm", ("l_hand", [0.012], transl 0.0345 0 0));
  ("rh1", ("r_hand", [0.012], transl (- 0.012) 0.0205 0));
  ("rh2", ("r_hand", [0.012], transl (- 0.012) (- 0.0205) 0));
  ("rh3", ("r_hand", [0.012], transl (- 0.057) 0.0205 0));
  ("rh4", ("r_hand", [0.012], transl (- 0.057) (- 0.0205) 0));
  ("r_hand_tip", ("r_hand", [0.012], transl (- 0.069) 0 0));
  ("r_hand_palm", ("r_hand", [0.012], transl (- 0.0345) 0 0));
  ("lf1", ("l_foot", [0.002], transl (- 0.039) (- 0.027) (- 0.031)));
  ("lf2", ("l_foot", [0.002], transl (- 0.039) 0.027 (- 0.031)));
  ("lf3", ("l_foot", [0.002], transl (- 0.039) 0.027 0.099));
  ("lf4", ("l_foot", [0.002], transl (- 0.039) (- 0.027) 0.099));
  ("l_sole", ("l_foot", [], mm4 (transl (- 0.041) 0 0.034) (mm4 (roty ((- PI) / 2)) (rotx ((- PI) / 2)))));
  ("rf1", ("r_foot", [0.002], transl (- 0.039) (- 0.027) 0.031));
  ("rf2", ("r_foot", [0.002], transl (- 0.039) 0.027 0.031));
  ("rf3", ("r_foot", [0.002], transl (- 0.039) 0.027 (- 0.099)));
  ("rf4", ("r_foot", [0.002], transl (- 0.039) (- 0.027) (- 0.099)));
  ("r_sole", ("r_foot", [], mm4 (transl (- 0.041) 0 (- 0.034)) (mm4 (roty (PI / 2)) (rotx (PI / 2)))))]%string.
Definition get_joint_limits (in_radian : bool) : list (string * (R * R)) :=
  if in_radian then map (fun x => (fst x, (fst (snd x) * PI / 180, snd (snd x) * PI / 180))) limits_deg else limits_deg.
(** [get_bodies_shapes_data], icub.py:234-247; [bodies] is the dict of [get_bodies_data] in the order in which it is walked *)
Definition shapes_data (bodies : list (string * list (list R * R * m4))) : list (string * list (list R * m4)) :=
  map (fun x => (fst x, map (fun d => (fst (fst d), snd d)) (snd x) ++
    (if String.eqb (fst x) "head" then [([0.02], transl (- 0.034) (- 0.054) 0.0825); ([0.02], transl 0.034 (- 0.054) 0.0825)] else []))) bodies.

(** position of a name in a table *)
Fixpoint pos_of {A} (n : string) (l : list (string * A)) : nat :=
  match l with [] => 0%nat | (x, _) :: l' => if String.eqb x n then 0%nat else S (pos_of n l') end.
Fixpoint sfor {A} (l : list A) (f : A -> scr unit) : scr unit := match l with [] => sret tt | x :: l' => f x ;; sfor l' f end.
Fixpoint enum {A} (k : nat) (l : list A) : list (nat * A) := match l with [] => [] | x :: l' => (k, x) :: enum (S k) l' end.

Section M.
  Variables (e : env) (eigvals : m6 -> list R) (I : bids).
  (** icub.py:307-314: the mass matrix of a part *)
  Definition part_mass (dims : list R) (m : R) : res m6 :=
    match dims with
    | [x; y; z] => Ok (box (V3 x y z) m)
    | [l; r] => Ok (cylinder l r m)
    | [r] => Ok (sphere r m)
    | _ => Err ValueError
    end.
  Definition shape_of (dims : list R) : res bshape :=
    match dims with
    | [x; y; z] => Ok (ShBox (V3 x y z))
    | [l; r] => Ok (ShCylinder l r)
    | [r] => Ok (ShSphere r)
    | _ => Err ValueError
    end.
  (** the contact shapes: other dimensions give a point, icub.py:352-359 *)
  Definition contact_shape (dims : list R) : bshape := match shape_of dims with Ok g => g | Err _ => ShPoint end.
  (** identities: the k-th body, joint, contact of the tables is xb k, xj k, xh (200 + k); the root joint is xj 32; the frames of the joints are xs k,
      those of the contacts xs (500 + k), those of the i-th part of the k-th body xs (100 + 4k + i), xs (300 + 4k + i) when walked for the shapes (xh (4k + i)) *)
  Definition bnum (n : string) : nat := pos_of n bodies_data.
  Definition jnum (n : string) : nat := pos_of n joints_data.
  Definition cnum (n : string) : nat := pos_of n contact_data.

  (** icub.py:302-316.  [Body(name=name)] gets a zero mass and is not checked; the check of [MkBody] on it passes. *)
  Fixpoint sum_parts (k i : nat) (parts : list (list R * R * m4)) (mass : m6) : scr m6 :=
    match parts with
    | [] => sret mass
    | (dims, m, H) :: parts' =>
        scall (MkSub (xs I (100 + 4 * k + i)) (xb I k) None H) ;;
        do* M := slift (part_mass dims m) in
        do* iH := slift (inv H) in
        do* T := slift (transport eigvals M iH) in
        sum_parts k (S i) parts' (m6add mass T)
    end.
  Definition icub_body (x : string * list (list R * R * m4)) : scr unit :=
    let k := bnum (fst x) in
    scall (MkBody (xb I k) (Some (fst x)) (diag6 0 0 0 0 0 0)) ;;
    do* mass := sum_parts k 0 (snd x) (diag6 0 0 0 0 0 0) in
    scall (SetMass (xb I k) mass).
  (** the dict [bodies], icub.py:301, 319-322 *)
  Definition body_of (is_fixed : bool) (n : string) : nat := if is_fixed && String.eqb n "waist" then ground e else xb I (bnum n).
  Definition icub_root (is_fixed : bool) : scr unit :=
    if is_fixed then sret tt
    else scall (MkJoint (xj I 32) (Some "root"%string) FreeJoint) ;; scall (Link (FBody (ground e)) (xj I 32) (FBody (xb I (bnum "waist")))).
  (** icub.py:325-329 *)
  Definition icub_joint (is_fixed : bool) (x : string * (string * m4 * string)) : scr unit :=
    let '(name, (parent, Hp_l, child)) := x in let k := jnum name in
    scall (MkSub (xs I k) (body_of is_fixed parent) None Hp_l) ;;
    scall (MkJoint (xj I k) (Some name) RzJoint) ;;
    scall (Link (FSub (xs I k)) (xj I k) (FBody (body_of is_fixed child))).
  (** icub.py:332-345 *)
  Definition icub_shape (is_fixed : bool) (x : string * list (list R * m4)) : scr unit :=
    let k := bnum (fst x) in
    sfor (enum 0 (snd x)) (fun y => let '(i, (dims, H)) := y in
      scall (MkSub (xs I (300 + 4 * k + i)) (body_of is_fixed (fst x)) None H) ;;
      do* g := slift (shape_of dims) in
      scall (MkShape (xh I (4 * k + i)) (Some (fst x ++ ".body_shape")%string) (FSub (xs I (300 + 4 * k + i))) g) ;;
      scall (Reg (OShape (xh I (4 * k + i))))).
  (** icub.py:347-360 *)
  Definition icub_contact (is_fixed : bool) (x : string * (string * list R * m4)) : scr unit :=
    let '(name, (parent, dims, Hpf)) := x in let k := cnum name in
    scall (MkSub (xs I (500 + k)) (body_of is_fixed parent) (Some name) Hpf) ;;
    scall (MkShape (xh I (200 + k)) (Some name) (FSub (xs I (500 + k))) (contact_shape dims)) ;;
    scall (Reg (OShape (xh I (200 + k)))).
  (** [add], icub.py:287-363; the four dicts in the orders in which they are walked *)
  Definition icub_script (is_fixed create_shapes create_contacts : bool) (bodies : list (string * list (list R * R * m4))) (joints : list (string * (string * m4 * string)))
      (shapes : list (string * list (list R * m4))) (contacts : list (string * (string * list R * m4))) : scr unit :=
    sfor bodies icub_body ;;
    icub_root is_fixed ;;
    sfor joints (icub_joint is_fixed) ;;
    (if create_shapes then sfor shapes (icub_shape is_fixed) else sret tt) ;;
    (if create_contacts then sfor contacts (icub_contact is_fixed) else sret tt) ;;
    scall WInit.
  Definition icub_add (fuel : nat) (is_fixed create_shapes create_contacts : bool) bodies joints shapes contacts (h : @heap R) : @heap R * res unit :=
    run_scr e eigvals fuel (icub_script is_fixed create_shapes create_contacts bodies joints shapes contacts) h.
End M.
