(** Specification vocabulary for the humanoid. *)
From Verif Require Export Model_Human36 Spec_Build.
Open Scope R_scope.

(** the skeleton: joint, number of degrees of freedom, parent body (or the ground), child body *)
Definition skeleton : list (string * nat * option string * string) := [
  ("Root", 6, None, "LPT");
  ("HipR", 3, Some "LPT", "ThighR"); ("KneeR", 1, Some "ThighR", "ShankR"); ("AnkleR", 2, Some "ShankR", "FootR");
  ("HipL", 3, Some "LPT", "ThighL"); ("KneeL", 1, Some "ThighL", "ShankL"); ("AnkleL", 2, Some "ShankL", "FootL");
  ("Back", 3, Some "LPT", "UPT");
  ("Torso-ScapR", 2, Some "UPT", "ScapulaR"); ("Arm-ScapR", 3, Some "ScapulaR", "ArmR"); ("ElbowR", 2, Some "ArmR", "ForearmR"); ("WristR", 2, Some "ForearmR", "HandR");
  ("Torso-ScapL", 2, Some "UPT", "ScapulaL"); ("Arm-ScapL", 3, Some "ScapulaL", "ArmL"); ("ElbowL", 2, Some "ArmL", "ForearmL"); ("WristL", 2, Some "ForearmL", "HandL");
  ("Neck", 3, Some "UPT", "Head")]%string%nat.
(** the points of the soles, the points marked on both sides *)
Definition soles : list string := ["Right foot toe tip"; "Right foot heel"; "Right foot phalange 5"; "Right foot phalange 1";
  "Left foot toe tip"; "Left foot heel"; "Left foot phalange 5"; "Left foot phalange 1"]%string.
Definition sides : list (string * string) := [
  ("Right foot toe tip", "Left foot toe tip"); ("Right foot heel", "Left foot heel"); ("Right foot phalange 5", "Left foot phalange 5"); ("Right foot phalange 1", "Left foot phalange 1");
  ("Right foot lateral malleolus", "Left foot lateral malleolus"); ("Femoral lateral epicondyle", "Left femoral lateral epicondyle"); ("Right great trochanter", "Left great trochanter");
  ("Right iliac crest", "Left iliac crest"); ("Right acromion", "Left acromion"); ("Right humeral lateral epicondyle (radiale)", "Left humeral lateral epicondyle (radiale)");
  ("Right stylion", "Left stylion"); ("Right 3rd dactylion", "Left 3rd dactylion")]%string.
(** the two sides have the same lengths; both legs do *)
Definition same_sides (L : lengths) : Prop := forall n, L (n ++ "R")%string = L (n ++ "L")%string.
Definition leg (L : lengths) (s : string) : R := L ("yfoot" ++ s)%string + L ("ytibia" ++ s)%string + L ("yfemur" ++ s)%string.
Definition tallness (L : lengths) : R := leg L "L" + L "yvT10"%string + L "yvC7"%string + L "yhead"%string.
(** the lengths in use: those of the caller, or those of the table *)
Definition lengths_used (height : R) (o : option lengths) : lengths := match o with Some L => L | None => anat_lengths_from_height height end.
Definition mirror (P : v3) : v3 := V3 (vx P) (vy P) (- vz P).
(** the classes of the joints: rotations about z (flexion), then y, then x; both sides alike *)
Definition limb_joints : list (string * jtype) := [
  ("Hip", RzRyRxJoint); ("Knee", RzJoint); ("Ankle", RzRxJoint); ("Torso-Scap", RyRxJoint); ("Arm-Scap", RzRyRxJoint); ("Elbow", RzRyJoint); ("Wrist", RzRxJoint)]%string.
Definition articulations : list (string * jtype) :=
  [("Root", FreeJoint); ("Back", RzRyRxJoint); ("Neck", RzRyRxJoint)]%string ++
  map (fun x => (fst x ++ "R", snd x)%string) limb_joints ++ map (fun x => (fst x ++ "L", snd x)%string) limb_joints.
