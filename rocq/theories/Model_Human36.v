(** arboris/robots/human36.py.  A dict of anatomical lengths is a function from its keys (a dict without one of the keys that are read is
    not modelled). *)
From Verif Require Export Model_Build.
Open Scope R_scope.
Definition lengths := string -> R.
(** [lengths[name] = value], human36.py:108-109 *)
Definition set_len (n : string) (x : R) (L : lengths) : lengths := fun m => if String.eqb m n then x else L m.

(** [anat_lengths_from_height], human36.py:61-158; the value of the absent keys is immaterial *)
Definition anat_lengths_from_height (height : R) : lengths :=
  let yfoot := 0.0222 * height in
  let ytibia := 0.2493 * height in
  let yfemur := 0.2425 * height in
  let ysternoclav := 0.0980 * height in
  let zsternoclav := 0.5 * 0.0254 in
  let xsternoclav := 0.1052 * height in
  let yshoulder := 0.0104 * height in
  let zshoulder := 0.1295 * height - zsternoclav in
  let xshoulder := 0.0526 * height in
  let yhumerus := 0.1618 * height in
  let yforearm := 0.1544 * height in
  let yhand := 0.1091 * height in
  let xfoot := 0.1482 * height in
  let xheel := 0.0248 * height in
  fold_left (fun L x => set_len (fst x) (snd x) L)
    [("yvT10", 0.2075 * height); ("xvT10", 0.0526 * height); ("zhip", 0.1002 * height); ("yfootR", yfoot); ("ytibiaR", ytibia); ("yfemurR", yfemur);
     ("ysternoclavR", ysternoclav); ("zsternoclavR", zsternoclav); ("xsternoclavR", xsternoclav); ("yshoulderR", yshoulder); ("zshoulderR", zshoulder);
     ("xshoulderR", xshoulder); ("yhumerusR", yhumerus); ("yfootL", yfoot); ("ytibiaL", ytibia); ("yfemurL", yfemur); ("ysternoclavL", ysternoclav);
     ("zsternoclavL", zsternoclav); ("xsternoclavL", xsternoclav); ("yshoulderL", yshoulder); ("zshoulderL", zshoulder); ("xshoulderL", xshoulder);
     ("yhumerusL", yhumerus); ("yforearmR", yforearm); ("yforearmL", yforearm); ("yvC7", 0.139 * height); ("yhandR", yhand); ("yhandL", yhand);
     ("yhead", 0.1395 * height); ("xfootR", xfoot); ("xfootL", xfoot); ("xheelR", xheel); ("xheelL", xheel)]%string (fun _ => 0).
(** [height_from_anat_lengths], human36.py:160-186 *)
Definition height_from_anat_lengths (L : lengths) : res R :=
  let right_leg := L "yfootR"%string + L "ytibiaR"%string + L "yfemurR"%string in
  let left_leg := L "yfootL"%string + L "ytibiaL"%string + L "yfemurL"%string in
  if Req_EM_T left_leg right_leg then Ok (left_leg + L "yvT10"%string + L "yvC7"%string + L "yhead"%string) else Err ValueError.

Section M.
  Variables (L : lengths) (mass h : R).
  Local Notation "''' s" := (L s%string) (at level 5, s at level 0).
  Local Open Scope string_scope.
  Local Open Scope R_scope.
  Definition gyr (a b c l : R) : v3 := V3 (a * l) (b * l) (c * l).
  (** the calls of [add_body]: name, mass, com_position, gyration_radius; human36.py:242-298 *)
  Definition human_bodies : list (string * (R * v3 * v3)) := [
    ("LPT"%string, (0.275 * mass, V3 0 (0.5108 * '"yvT10") 0, gyr 0.2722 0.2628 0.226 '"yvT10"));
    ("ThighR"%string, (0.1416 * mass, V3 0 (- 0.4095 * '"yfemurR") 0, gyr 0.329 0.149 0.329 '"yfemurR"));
    ("ShankR"%string, (0.0433 * mass, V3 0 (- 0.4459 * '"ytibiaR") 0, gyr 0.255 0.103 0.249 '"ytibiaR"));
    ("FootR"%string, (0.0137 * mass, V3 (0.4415 * '"xfootR" - '"xheelR") (- '"yfootR" / 2) 0, gyr 0.124 0.257 0.245 '"xfootR"));
    ("ThighL"%string, (0.1416 * mass, V3 0 (- 0.4095 * '"yfemurL") 0, gyr 0.329 0.149 0.329 '"yfemurL"));
    ("ShankL"%string, (0.0433 * mass, V3 0 (- 0.4459 * '"ytibiaL") 0, gyr 0.255 0.103 0.249 '"ytibiaL"));
    ("FootL"%string, (0.0137 * mass, V3 (0.4415 * '"xfootL" - '"xheelL") (- '"yfootL" / 2) 0, gyr 0.124 0.257 0.245 '"xfootL"));
    ("UPT"%string, (0.1596 * mass, V3 (('"xsternoclavR" + '"xsternoclavL") / 4) (0.7001 * ('"ysternoclavR" + '"ysternoclavL") / 2) 0, gyr 0.716 0.659 0.454 '"ysternoclavR"));
    ("ScapulaR"%string, (0, V3 0 0 0, V3 0 0 0));
    ("ArmR"%string, (0.0271 * mass, V3 0 (- 0.5772 * '"yhumerusR") 0, gyr 0.285 0.158 0.269 '"yhumerusR"));
    ("ForearmR"%string, (0.0162 * mass, V3 0 (- 0.4574 * '"yforearmR") 0, gyr 0.276 0.121 0.265 '"yforearmR"));
    ("HandR"%string, (0.0061 * mass, V3 0 (- 0.3691 * '"yhandR") 0, gyr 0.235 0.184 0.288 '"yhandR"));
    ("ScapulaL"%string, (0, V3 0 0 0, V3 0 0 0));
    ("ArmL"%string, (0.0271 * mass, V3 0 (- 0.5772 * '"yhumerusL") 0, gyr 0.285 0.158 0.269 '"yhumerusL"));
    ("ForearmL"%string, (0.0162 * mass, V3 0 (- 0.4574 * '"yforearmL") 0, gyr 0.276 0.121 0.265 '"yforearmL"));
    ("HandL"%string, (0.0061 * mass, V3 0 (- 0.3691 * '"yhandL") 0, gyr 0.288 0.184 0.235 '"yhandL"));
    ("Head"%string, (0.0694 * mass, V3 0 (0.4998 * '"yhead") 0, gyr 0.303 0.261 0.315 '"yhead"))].
  (** the calls of [add_link]: body0 ([None]: the ground), transl, joint, name, body1; human36.py:308-341 *)
  Definition human_links : list (option string * v3 * jtype * string * string) := [
    (None, V3 0 ('"yfootL" + '"ytibiaL" + '"yfemurL") 0, FreeJoint, "Root", "LPT");
    (Some "LPT", V3 0 0 ('"zhip" / 2), RzRyRxJoint, "HipR", "ThighR");
    (Some "ThighR", V3 0 (- '"yfemurR") 0, RzJoint, "KneeR", "ShankR");
    (Some "ShankR", V3 0 (- '"ytibiaR") 0, RzRxJoint, "AnkleR", "FootR");
    (Some "LPT", V3 0 0 (- '"zhip" / 2), RzRyRxJoint, "HipL", "ThighL");
    (Some "ThighL", V3 0 (- '"yfemurL") 0, RzJoint, "KneeL", "ShankL");
    (Some "ShankL", V3 0 (- '"ytibiaL") 0, RzRxJoint, "AnkleL", "FootL");
    (Some "LPT", V3 (- '"xvT10") '"yvT10" 0, RzRyRxJoint, "Back", "UPT");
    (Some "UPT", V3 '"xsternoclavR" '"ysternoclavR" '"zsternoclavR", RyRxJoint, "Torso-ScapR", "ScapulaR");
    (Some "ScapulaR", V3 (- '"xshoulderR") '"yshoulderR" '"zshoulderR", RzRyRxJoint, "Arm-ScapR", "ArmR");
    (Some "ArmR", V3 0 (- '"yhumerusR") 0, RzRyJoint, "ElbowR", "ForearmR");
    (Some "ForearmR", V3 0 (- '"yforearmR") 0, RzRxJoint, "WristR", "HandR");
    (Some "UPT", V3 '"xsternoclavL" '"ysternoclavL" (- '"zsternoclavL"), RyRxJoint, "Torso-ScapL", "ScapulaL");
    (Some "ScapulaL", V3 (- '"xshoulderL") '"yshoulderL" (- '"zshoulderL"), RzRyRxJoint, "Arm-ScapL", "ArmL");
    (Some "ArmL", V3 0 (- '"yhumerusL") 0, RzRyJoint, "ElbowL", "ForearmL");
    (Some "ForearmL", V3 0 (- '"yforearmL") 0, RzRxJoint, "WristL", "HandL");
    (Some "UPT", V3 '"xvT10" '"yvC7" 0, RzRyRxJoint, "Neck", "Head")]%string.
  (** the calls of [add_tag]: name, body, position; human36.py:358-387 *)
  Definition human_tags : list (string * string * v3) := [
    ("Right foot toe tip"%string, "FootR"%string, V3 ('"xfootR" - '"xheelR" + 1 / 10000 * h) (- '"yfootR") 0);
    ("Right foot heel"%string, "FootR"%string, V3 (- '"xheelR") (- '"yfootR") 0);
    ("Right foot phalange 5"%string, "FootR"%string, V3 (0.0662 * h) (- '"yfootR") (0.0305 * h));
    ("Right foot phalange 1"%string, "FootR"%string, V3 (0.0662 * h) (- '"yfootR") (- 0.0305 * h));
    ("Right foot lateral malleolus"%string, "ShankR"%string, V3 0 (- '"ytibiaR") (0.0249 * h));
    ("Femoral lateral epicondyle"%string, "ThighR"%string, V3 0 (- '"yfemurR") (0.0290 * h));
    ("Right great trochanter"%string, "ThighR"%string, V3 0 0 (0.0941 * h - '"zhip" / 2));
    ("Right iliac crest"%string, "LPT"%string, V3 (0.0271 * h) (0.0366 * h) (0.0697 * h));
    ("Left foot toe tip"%string, "FootL"%string, V3 ('"xfootL" - '"xheelL" + 1 / 10000 * h) (- '"yfootL") 0);
    ("Left foot heel"%string, "FootL"%string, V3 (- '"xheelL") (- '"yfootL") 0);
    ("Left foot phalange 5"%string, "FootL"%string, V3 (0.0662 * h) (- '"yfootL") (- 0.0305 * h));
    ("Left foot phalange 1"%string, "FootL"%string, V3 (0.0662 * h) (- '"yfootL") (0.0305 * h));
    ("Left foot lateral malleolus"%string, "ShankL"%string, V3 0 (- '"ytibiaL") (- 0.0249 * h));
    ("Left femoral lateral epicondyle"%string, "ThighL"%string, V3 0 (- '"yfemurL") (- 0.0290 * h));
    ("Left great trochanter"%string, "ThighL"%string, V3 0 0 (- 0.0941 * h + '"zhip" / 2));
    ("Left iliac crest"%string, "LPT"%string, V3 (0.0271 * h) (0.0366 * h) (- 0.0697 * h));
    ("Substernale (Xyphoid)"%string, "UPT"%string, V3 (0.1219 * h) 0 0);
    ("Suprasternale"%string, "UPT"%string, V3 (('"xsternoclavL" + '"xsternoclavL") / 2) (('"ysternoclavL" + '"ysternoclavL") / 2) 0);
    ("Right acromion"%string, "ScapulaR"%string, V3 (- '"xshoulderR") (0.0198 * h + '"yshoulderR") '"zshoulderR");
    ("Right humeral lateral epicondyle (radiale)"%string, "ArmR"%string, V3 0 (- '"yhumerusR") (0.0211 * h));
    ("Right stylion"%string, "ForearmR"%string, V3 0 (- 0.1533 * h) (0.0331 * h));
    ("Right 3rd dactylion"%string, "HandR"%string, V3 0 (- '"yhandR") 0);
    ("Left acromion"%string, "ScapulaL"%string, V3 (- '"xshoulderL") (0.0198 * h + '"yshoulderL") (- '"zshoulderL"));
    ("Left humeral lateral epicondyle (radiale)"%string, "ArmL"%string, V3 0 (- '"yhumerusL") (- 0.0211 * h));
    ("Left stylion"%string, "ForearmL"%string, V3 0 (- 0.1533 * h) (- 0.0331 * h));
    ("Left 3rd dactylion"%string, "HandL"%string, V3 0 (- '"yhandL") 0);
    ("Cervicale"%string, "UPT"%string, V3 (- 0.0392 * 0 + '"xvT10") '"yvC7" 0);
    ("Vertex"%string, "Head"%string, V3 0 '"yhead" 0)].
End M.
(** human36.py:390-396 *)
Definition human_points : list string := ["Right foot toe tip"; "Right foot heel"; "Right foot phalange 5"; "Right foot phalange 1";
  "Left foot toe tip"; "Left foot heel"; "Left foot phalange 5"; "Left foot phalange 1"]%string.

(** the mass matrix computed by [add_body], human36.py:233-241; [H_fg] is a translation, so [inv] and [adjoint] always accept it *)
Definition add_body_mass (mass : R) (com radius : v3) : res m6 :=
  let mass_g := diag6 (mass * vx radius ^ 2) (mass * vy radius ^ 2) (mass * vz radius ^ 2) (mass * 1) (mass * 1) (mass * 1) in
  let H_fg := M4 eye3 com (V3 0 0 0) 1 in
  let* H_gf := inv H_fg in
  let* Ad := adjoint H_gf in
  Ok (mm6 (tr6 Ad) (mm6 mass_g Ad)).
(** [bodies[name]] and [tags[name]]: the first object with that name, core.py:103-111 *)
Fixpoint named {A} (n : string) (d : list (string * A)) : res A :=
  match d with [] => Err KeyError | (m, x) :: d' => if String.eqb m n then Ok x else named n d' end.
Fixpoint number {A} (k : nat) (l : list A) : list (nat * A) := match l with [] => [] | x :: l' => (k, x) :: number (S k) l' end.
Section H.
  Variables (e : env) (I : bids) (prefix : string).
  Definition pfx (n : string) : string := (prefix ++ n)%string.
  (** the bodies and the tags, in the order of their creation *)
  Definition human_dict {A} (id : nat -> nat) (l : list (string * A)) : list (string * nat) := map (fun x => (pfx (fst (snd x)), id (fst x))) (number 0 l).
  Definition body_cmds (l : list (string * (R * v3 * v3))) : res (list (list cmd)) :=
    rmapM (fun x : nat * (string * (R * v3 * v3)) => let '(k, (n, (m, c, r))) := x in let* M := add_body_mass m c r in Ok [MkBody (xb I k) (Some (pfx n)) M]) (number 0 l).
  (** [add_link], human36.py:301-306; the subframe is anonymous *)
  Definition link_cmds (dict : list (string * nat)) (l : list (option string * v3 * jtype * string * string)) : res (list (list cmd)) :=
    rmapM (fun x : nat * (option string * v3 * jtype * string * string) => let '(k, (b0, t, ty, n, b1)) := x in
      let* p := match b0 with None => Ok (ground e) | Some b => named (pfx b) dict end in
      let* c := named (pfx b1) dict in
      Ok [MkJoint (xj I k) (Some (pfx n)) ty; MkSub (xs I k) p None (transl (vx t) (vy t) (vz t)); Link (FSub (xs I k)) (xj I k) (FBody c)]) (number 0 l).
  (** [add_tag], human36.py:345-357 (no name is empty); the subframes are numbered after those of the links *)
  Definition tag_cmds (k0 : nat) (dict : list (string * nat)) (l : list (string * string * v3)) : res (list (list cmd)) :=
    rmapM (fun x : nat * (string * string * v3) => let '(k, (n, b, t)) := x in
      let* b' := named (pfx b) dict in
      Ok [MkSub (xs I k) b' (Some (pfx n)) (transl (vx t) (vy t) (vz t)); Reg (OFrame (FSub (xs I k)))]) (number k0 l).
  Definition point_cmds (tags : list (string * nat)) (l : list string) : res (list (list cmd)) :=
    rmapM (fun x : nat * string => let '(k, n) := x in
      let* s := named (pfx n) tags in
      Ok [MkShape (xh I k) (Some (pfx n)) (FSub s) ShPoint; Reg (OShape (xh I k))]) (number 0 l).
  (** [add_human36], human36.py:189-399: the calls it makes, or the exception raised before the world is touched *)
  Definition human_script (height mass : R) (anat_lengths : option lengths) : res (list cmd) :=
    let L := match anat_lengths with Some L => L | None => anat_lengths_from_height height end in
    let* h := height_from_anat_lengths L in
    let bodies := human_dict (xb I) (human_bodies L mass) in
    let nlinks := length (human_links L) in
    let tags := human_dict (fun k => xs I (nlinks + k)%nat) (map (fun x => (fst (fst x), tt)) (human_tags L h)) in
    let* c1 := body_cmds (human_bodies L mass) in
    let* c2 := link_cmds bodies (human_links L) in
    let* c3 := tag_cmds nlinks bodies (human_tags L h) in
    let* c4 := point_cmds tags human_points in
    Ok (concat c1 ++ concat c2 ++ concat c3 ++ concat c4 ++ [WInit]).
End H.
Definition add_human36 (e : env) (eigvals : m6 -> list R) (fuel : nat) (I : bids) (prefix : string) (height mass : R) (anat_lengths : option lengths)
  (h : @heap R) : @heap R * res unit :=
  match human_script e I prefix height mass anat_lengths with Err x => (h, Err x) | Ok cs => exec_all e eigvals fuel cs h end.
