(** arboris/robots/urdf/urdf_parser.py: reading and writing URDF documents, as DOM trees: the XML text itself is left to xml.dom.minidom,
    which writes (toprettyxml) the same elements with texts between them.  Warnings are not modelled ([verbose] only tells whether there are some).
    The texts are those of a document that has been read: unicode strings, here sequences of the first 256 characters. *)
From Coq Require Import Ascii.
From Verif Require Export Model_Urdf.
Open Scope R_scope.

(** An element with its local name and its attributes; a text; a comment; another node (CDATA section, processing instruction, document type) *)
Inductive xnode := XElem (name : string) (attrs : list (string * string)) (kids : list xnode) | XText | XComment | XOther.
(** [children], urdf_parser.py:45-53 *)
Definition xchildren (kids : list xnode) : list xnode := filter (fun n => match n with XText | XComment => false | _ => true end) kids.
(** [hasAttribute] and [getAttribute] of minidom: an attribute that is absent is read as an empty text *)
Fixpoint xattr (n : string) (a : list (string * string)) : option string :=
  match a with [] => None | (k, v) :: a' => if String.eqb n k then Some v else xattr n a' end.
Definition xget (n : string) (a : list (string * string)) : string := match xattr n a with Some v => v | None => ""%string end.
(** [split()] of an unicode text *)
Definition is_space (c : ascii) : bool :=
  let n := nat_of_ascii c in (Nat.leb 9 n && Nat.leb n 13) || (Nat.leb 28 n && Nat.leb n 32) || Nat.eqb n 133 || Nat.eqb n 160.
Definition push (w : string) (ws : list string) : list string := match w with EmptyString => ws | _ => w :: ws end.
Fixpoint split_aux (s : string) : string * list string :=
  match s with
  | EmptyString => (EmptyString, [])
  | String c s' => let (w, ws) := split_aux s' in if is_space c then (EmptyString, push w ws) else (String c w, ws)
  end.
Definition split (s : string) : list string := let (w, ws) := split_aux s in push w ws.
(** [" ".join(l)] *)
Fixpoint join (l : list string) : string := match l with [] => EmptyString | [w] => w | w :: l' => (w ++ " " ++ join l')%string end.
(** a text that [str] accepts, urdf_parser.py:36-37 *)
Fixpoint is_ascii (s : string) : bool := match s with EmptyString => true | String c s' => Nat.ltb (nat_of_ascii c) 128 && is_ascii s' end.

(** ** The objects *)
(** [Pose], urdf_parser.py:563-566 *)
Record xpose := XPose { p_position : option (list R); p_rotation : option (list R) }.
(** [Box], [Cylinder], [Sphere], [Mesh], urdf_parser.py:153-161, 178-182, 203-206, 225-229 *)
Inductive xgeom := XBox (dims : option (R * R * R)) | XCylinder (radius len : R) | XSphere (radius : R) | XMesh (filename : option string) (scale : option (list R)).
(** [Collision], [Material], [Visual], urdf_parser.py:55-58, 527-531, 630-634; a color is its rgba (84-86) *)
Record xcollision := XCollision { c_geometry : option xgeom; c_origin : option xpose }.
Record xmaterial := XMaterial { m_name : option string; m_color : option (R * R * R * R); m_texture : option string }.
Record xvisual := XVisual { v_geometry : option xgeom; v_material : option xmaterial; v_origin : option xpose }.
(** [Inertial], urdf_parser.py:250-261 *)
Record xinertial := XInertial { i_xx : R; i_xy : R; i_xz : R; i_yy : R; i_yz : R; i_zz : R; i_mass : R; i_origin : option xpose }.
(** [Link], urdf_parser.py:489-494 *)
Record xlink := XLink { l_name : string; l_visual : option xvisual; l_inertial : option xinertial; l_collision : option xcollision }.
(** [Dynamics] (texts), [JointCalibration], [JointLimit], [JointMimic], [SafetyController], urdf_parser.py:105-108, 409-412, 434-439, 467-471, 596-601 *)
Record xdynamics := XDynamics { d_damping : option string; d_friction : option string }.
Record xcalib := XCalib { k_rising : option R; k_falling : option R }.
Record xlimit := XLimit { x_effort : R; x_velocity : R; x_lower : option R; x_upper : option R }.
Record xmimic := XMimic { y_joint : string; y_multiplier : option R; y_offset : option R }.
Record xsafety := XSafety { s_velocity : R; s_position : option R; s_lower : option R; s_upper : option R }.
(** [Joint], urdf_parser.py:301-325 *)
Record xjoint := XJoint { j_name : string; j_parent : option string; j_child : option string; j_type : string; j_axis : option string; j_origin : option xpose;
  j_limits : option xlimit; j_dynamics : option xdynamics; j_safety : option xsafety; j_calibration : option xcalib; j_mimic : option xmimic }.
Inductive xelement := ELink (l : xlink) | EJoint (j : xjoint) | EMaterial (m : xmaterial).
(** [URDF]; the dicts as in Model_Urdf, child_map is never read; urdf_parser.py:666-675 *)
Record urdf := Urdf { u_name : string; u_elements : list xelement; u_links : list (string * xlink); u_joints : list (string * xjoint);
  u_materials : list (option string * xmaterial); u_parent_map : list (option string * (string * option string)) }.

(** a for loop whose body may raise *)
Fixpoint foldM {A B} (f : B -> A -> res B) (l : list A) (b : B) : res B := match l with [] => Ok b | a :: l' => let* b1 := f b a in foldM f l' b1 end.
Fixpoint mapM {A B} (f : A -> res B) (l : list A) : res (list B) := match l with [] => Ok [] | a :: l' => let* b := f a in let* bs := mapM f l' in Ok (b :: bs) end.

Section R.
  (** [float] of a text, None when it raises ValueError *)
  Variable num : string -> option R.
  Definition float (s : string) : res R := match num s with Some x => Ok x | None => Err ValueError end.
  Definition floats (s : string) : res (list R) := mapM float (split s).
  Definition optfloat (n : string) (a : list (string * string)) : res (option R) :=
    match xattr n a with None => Ok None | Some s => let* x := float s in Ok (Some x) end.
  Definition optfloats (n : string) (a : list (string * string)) : res (option (list R)) :=
    match xattr n a with None => Ok None | Some s => let* x := floats s in Ok (Some x) end.

  (** [Pose.parse], urdf_parser.py:568-577 *)
  Definition parse_pose (a : list (string * string)) : res xpose := let* p := optfloats "xyz" a in let* r := optfloats "rpy" a in Ok (XPose p r).
  (** [Box.parse], [Cylinder.parse], [Sphere.parse], [Mesh.parse], urdf_parser.py:163-166, 184-188, 208-211, 231-240; [Geometry.parse], 134-148 *)
  Definition parse_box (a : list (string * string)) : res xgeom :=
    let* d := floats (xget "size" a) in match d with x :: y :: z :: _ => Ok (XBox (Some (x, y, z))) | _ => Err IndexError end.
  Definition parse_cylinder (a : list (string * string)) : res xgeom := let* r := float (xget "radius" a) in let* l := float (xget "length" a) in Ok (XCylinder r l).
  Definition parse_sphere (a : list (string * string)) : res xgeom := let* r := float (xget "radius" a) in Ok (XSphere r).
  Definition parse_mesh (a : list (string * string)) : res xgeom :=
    let s := xget "scale" a in
    if String.eqb s "" then Ok (XMesh (Some (xget "filename" a)) None) else let* l := floats s in Ok (XMesh (Some (xget "filename" a)) (Some l)).
  Definition parse_geometry (kids : list xnode) : res (option xgeom) :=
    match xchildren kids with
    | [] => Err IndexError
    | XElem n a _ :: _ =>
        if String.eqb n "box" then let* g := parse_box a in Ok (Some g)
        else if String.eqb n "cylinder" then let* g := parse_cylinder a in Ok (Some g)
        else if String.eqb n "sphere" then let* g := parse_sphere a in Ok (Some g)
        else if String.eqb n "mesh" then let* g := parse_mesh a in Ok (Some g)
        else Ok None
    | _ => Ok None
    end.
  (** [Collision.parse], urdf_parser.py:60-71 *)
  Definition collision_step (c : xcollision) (n : xnode) : res xcollision :=
    match n with
    | XElem n a k =>
        if String.eqb n "geometry" then let* g := parse_geometry k in Ok (XCollision g (c_origin c))
        else if String.eqb n "origin" then let* p := parse_pose a in Ok (XCollision (c_geometry c) (Some p))
        else Ok c
    | _ => Ok c
    end.
  Definition parse_collision (k : list xnode) : res xcollision := foldM collision_step (xchildren k) (XCollision None None).
  (** [Color.parse], urdf_parser.py:88-92 *)
  Definition parse_color (a : list (string * string)) : res (R * R * R * R) :=
    let* l := floats (xget "rgba" a) in match l with [r; g; b; al] => Ok (r, g, b, al) | _ => Err ValueError end.
  (** [Material.parse], urdf_parser.py:533-547 *)
  Definition material_step (m : xmaterial) (n : xnode) : res xmaterial :=
    match n with
    | XElem n a k =>
        if String.eqb n "color" then let* c := parse_color a in Ok (XMaterial (m_name m) (Some c) (m_texture m))
        else if String.eqb n "texture" then Ok (XMaterial (m_name m) (m_color m) (Some (xget "filename" a)))
        else Ok m
    | _ => Ok m
    end.
  Definition parse_material (a : list (string * string)) (k : list xnode) : res xmaterial := foldM material_step (xchildren k) (XMaterial (xattr "name" a) None None).
  (** [Visual.parse], urdf_parser.py:636-649 *)
  Definition visual_step (v : xvisual) (n : xnode) : res xvisual :=
    match n with
    | XElem n a k =>
        if String.eqb n "geometry" then let* g := parse_geometry k in Ok (XVisual g (v_material v) (v_origin v))
        else if String.eqb n "origin" then let* p := parse_pose a in Ok (XVisual (v_geometry v) (v_material v) (Some p))
        else if String.eqb n "material" then let* m := parse_material a k in Ok (XVisual (v_geometry v) (Some m) (v_origin v))
        else Ok v
    | _ => Ok v
    end.
  Definition parse_visual (k : list xnode) : res xvisual := foldM visual_step (xchildren k) (XVisual None None None).
  (** [Inertial.parse], urdf_parser.py:263-274 *)
  Definition inertial_step (i : xinertial) (n : xnode) : res xinertial :=
    match n with
    | XElem n a k =>
        if String.eqb n "inertia" then
          let* xx := float (xget "ixx" a) in let* xy := float (xget "ixy" a) in let* xz := float (xget "ixz" a) in
          let* yy := float (xget "iyy" a) in let* yz := float (xget "iyz" a) in let* zz := float (xget "izz" a) in
          Ok (XInertial xx xy xz yy yz zz (i_mass i) (i_origin i))
        else if String.eqb n "mass" then
          let* m := float (xget "value" a) in Ok (XInertial (i_xx i) (i_xy i) (i_xz i) (i_yy i) (i_yz i) (i_zz i) m (i_origin i))
        else if String.eqb n "origin" then
          let* p := parse_pose a in Ok (XInertial (i_xx i) (i_xy i) (i_xz i) (i_yy i) (i_yz i) (i_zz i) (i_mass i) (Some p))
        else Ok i
    | _ => Ok i
    end.
  Definition parse_inertial (k : list xnode) : res xinertial := foldM inertial_step (xchildren k) (XInertial 0 0 0 0 0 0 0 None).
  (** [Link.parse], urdf_parser.py:496-509 *)
  Definition link_reads (l : xlink) (n : xnode) : res xlink :=
    match n with
    | XElem n a k =>
        if String.eqb n "visual" then let* v := parse_visual k in Ok (XLink (l_name l) (Some v) (l_inertial l) (l_collision l))
        else if String.eqb n "collision" then let* c := parse_collision k in Ok (XLink (l_name l) (l_visual l) (l_inertial l) (Some c))
        else if String.eqb n "inertial" then let* i := parse_inertial k in Ok (XLink (l_name l) (l_visual l) (Some i) (l_collision l))
        else Ok l
    | _ => Ok l
    end.
  Definition parse_link (a : list (string * string)) (k : list xnode) : res xlink := foldM link_reads (xchildren k) (XLink (xget "name" a) None None None).
  (** [Dynamics.parse], [JointCalibration.parse], [JointLimit.parse], [JointMimic.parse], [SafetyController.parse],
      urdf_parser.py:110-117, 414-421, 441-449, 473-480, 603-612 *)
  Definition parse_dynamics (a : list (string * string)) : xdynamics := XDynamics (xattr "damping" a) (xattr "friction" a).
  Definition parse_calib (a : list (string * string)) : res xcalib := let* r := optfloat "rising" a in let* f := optfloat "falling" a in Ok (XCalib r f).
  Definition parse_limit (a : list (string * string)) : res xlimit :=
    let* e := float (xget "effort" a) in let* v := float (xget "velocity" a) in let* l := optfloat "lower" a in let* u := optfloat "upper" a in Ok (XLimit e v l u).
  Definition parse_mimic (a : list (string * string)) : res xmimic :=
    let* m := optfloat "multiplier" a in let* f := optfloat "offset" a in Ok (XMimic (xget "joint" a) m f).
  Definition parse_safety (a : list (string * string)) : res xsafety :=
    let* v := float (xget "k_velocity" a) in let* l := optfloat "soft_lower_limit" a in let* u := optfloat "soft_upper_limit" a in let* p := optfloat "k_position" a in
    Ok (XSafety v p l u).
  (** [Joint.parse], urdf_parser.py:327-352 *)
  Definition joint_reads (j : xjoint) (n : xnode) : res xjoint :=
    match n, j with
    | XElem n a k, XJoint nm pa ch ty ax og li dy sa ca mi =>
        if String.eqb n "parent" then Ok (XJoint nm (Some (xget "link" a)) ch ty ax og li dy sa ca mi)
        else if String.eqb n "child" then Ok (XJoint nm pa (Some (xget "link" a)) ty ax og li dy sa ca mi)
        else if String.eqb n "axis" then Ok (XJoint nm pa ch ty (Some (xget "xyz" a)) og li dy sa ca mi)
        else if String.eqb n "origin" then let* p := parse_pose a in Ok (XJoint nm pa ch ty ax (Some p) li dy sa ca mi)
        else if String.eqb n "limit" then let* x := parse_limit a in Ok (XJoint nm pa ch ty ax og (Some x) dy sa ca mi)
        else if String.eqb n "dynamics" then Ok (XJoint nm pa ch ty ax og li (Some (parse_dynamics a)) sa ca mi)
        else if String.eqb n "safety_controller" then let* x := parse_safety a in Ok (XJoint nm pa ch ty ax og li dy (Some x) ca mi)
        else if String.eqb n "calibration" then let* x := parse_calib a in Ok (XJoint nm pa ch ty ax og li dy sa (Some x) mi)
        else if String.eqb n "mimic" then let* x := parse_mimic a in Ok (XJoint nm pa ch ty ax og li dy sa ca (Some x))
        else Ok j
    | _, _ => Ok j
    end.
  Definition parse_joint (a : list (string * string)) (k : list xnode) : res xjoint :=
    foldM joint_reads (xchildren k) (XJoint (xget "name" a) None None (xget "type" a) None None None None None None None).

  (** [URDF.add_material], [add_link], [add_joint], urdf_parser.py:720-734; a None key is possible for a material and a child *)
  Definition oeqb (a b : option string) : bool := match a, b with Some x, Some y => String.eqb x y | None, None => true | _, _ => false end.
  Definition oset {A} (k : option string) (v : A) (d : list (option string * A)) : list (option string * A) := (k, v) :: filter (fun x => negb (oeqb k (fst x))) d.
  Definition add_xelement (x : xelement) (u : urdf) : urdf :=
    match x, u with
    | ELink l, Urdf n es ls js ms pm => Urdf n (es ++ [x]) (dset (l_name l) l ls) js ms pm
    | EMaterial m, Urdf n es ls js ms pm => Urdf n (es ++ [x]) ls js (oset (m_name m) m ms) pm
    | EJoint j, Urdf n es ls js ms pm => Urdf n (es ++ [x]) ls (dset (j_name j) j js) ms (oset (j_child j) (j_name j, j_parent j) pm)
    end.
  (** [URDF.parse_xml_string], urdf_parser.py:677-701, on the nodes of the document *)
  Definition robot_reads (u : urdf) (n : xnode) : res urdf :=
    match n with
    | XElem n a k =>
        if String.eqb n "joint" then let* j := parse_joint a k in Ok (add_xelement (EJoint j) u)
        else if String.eqb n "link" then let* l := parse_link a k in Ok (add_xelement (ELink l) u)
        else if String.eqb n "material" then let* m := parse_material a k in Ok (add_xelement (EMaterial m) u)
        else Ok u
    | _ => Ok u
    end.
  Definition parse_document (doc : list xnode) : res urdf :=
    match xchildren doc with
    | [] => Err IndexError
    | XElem _ a k :: _ => foldM robot_reads (xchildren k) (Urdf (xget "name" a) [] [] [] [] [])
    | _ => Err AttributeError
    end.
End R.

Section W.
  (** [pfloat], urdf_parser.py:26-27; the format of a float keeps 12 digits *)
  Variable pf : R -> string.
  (** [set_attribute], urdf_parser.py:29-38; the attributes of an element are set once each *)
  Definition set_text (n : string) (v : option string) (a : list (string * string)) : res (list (string * string)) :=
    match v with None => Ok a | Some s => if is_ascii s then Ok (a ++ [(n, s)]) else Err ValueError end.
  Definition set_num (n : string) (v : option R) (a : list (string * string)) : list (string * string) := match v with None => a | Some x => a ++ [(n, pf x)] end.
  Definition set_nums (n : string) (v : option (list R)) (a : list (string * string)) : list (string * string) :=
    match v with None => a | Some l => a ++ [(n, join (map pf l))] end.
  (** [add], urdf_parser.py:22-24, in sequences of kids *)
  Definition add_kid {A} (f : A -> res xnode) (x : option A) : res (list xnode) := match x with None => Ok [] | Some y => let* n := f y in Ok [n] end.

  (** the [to_xml] of the classes; Pose, urdf_parser.py:579-583 *)
  Definition pose_xml (p : xpose) : res xnode := Ok (XElem "origin" (set_nums "rpy" (p_rotation p) (set_nums "xyz" (p_position p) [])) []).
  (** geometries, urdf_parser.py:168-173, 190-196, 213-218, 242-248 *)
  Definition geometry_xml (g : xgeom) : res xnode :=
    let* x := match g with
              | XBox d => Ok (XElem "box" (set_nums "size" (option_map (fun t => let '(x, y, z) := t in [x; y; z]) d) []) [])
              | XCylinder r l => Ok (XElem "cylinder" (set_num "length" (Some l) (set_num "radius" (Some r) [])) [])
              | XSphere r => Ok (XElem "sphere" (set_num "radius" (Some r) []) [])
              | XMesh f s => let* a := set_text "filename" f [] in Ok (XElem "mesh" (set_nums "scale" s a) [])
              end in
    Ok (XElem "geometry" [] [x]).
  (** Collision, urdf_parser.py:73-77 *)
  Definition collision_xml (c : xcollision) : res xnode :=
    let* g := add_kid geometry_xml (c_geometry c) in let* o := add_kid pose_xml (c_origin c) in Ok (XElem "collision" [] (g ++ o)).
  (** Color and Material, urdf_parser.py:94-97, 549-558 *)
  Definition color_xml (c : R * R * R * R) : res xnode := let '(r, g, b, al) := c in Ok (XElem "color" (set_nums "rgba" (Some [r; g; b; al]) []) []).
  Definition material_xml (m : xmaterial) : res xnode :=
    let* a := set_text "name" (m_name m) [] in let* c := add_kid color_xml (m_color m) in
    Ok (XElem "material" a (c ++ match m_texture m with None => [] | Some t => [XElem "texture" [("filename"%string, t)] []] end)).
  (** Visual, urdf_parser.py:651-656 *)
  Definition visual_xml (v : xvisual) : res xnode :=
    let* g := add_kid geometry_xml (v_geometry v) in let* o := add_kid pose_xml (v_origin v) in let* m := add_kid material_xml (v_material v) in
    Ok (XElem "visual" [] (g ++ o ++ m)).
  (** Inertial, urdf_parser.py:276-287; the order of the items of the dict does not matter *)
  Definition inertial_xml (i : xinertial) : res xnode :=
    let* o := add_kid pose_xml (i_origin i) in
    Ok (XElem "inertial" [] (XElem "mass" (set_num "value" (Some (i_mass i)) []) [] ::
      XElem "inertia" (set_num "izz" (Some (i_zz i)) (set_num "iyz" (Some (i_yz i)) (set_num "iyy" (Some (i_yy i)) (set_num "ixz" (Some (i_xz i)) (set_num "ixy" (Some (i_xy i)) (set_num "ixx" (Some (i_xx i)) [])))))) [] :: o)).
  (** Link, urdf_parser.py:511-517: its name goes through no [str] *)
  Definition link_xml (l : xlink) : res xnode :=
    let* v := add_kid visual_xml (l_visual l) in let* c := add_kid collision_xml (l_collision l) in let* i := add_kid inertial_xml (l_inertial l) in
    Ok (XElem "link" [("name"%string, l_name l)] (v ++ c ++ i)).
  (** Dynamics, JointCalibration, JointLimit, SafetyController, urdf_parser.py:119-123, 423-427, 451-457, 614-620 *)
  Definition dynamics_xml (d : xdynamics) : res xnode :=
    let* a := set_text "damping" (d_damping d) [] in let* b := set_text "friction" (d_friction d) a in Ok (XElem "dynamics" b []).
  Definition calib_xml (c : xcalib) : res xnode := Ok (XElem "calibration" (set_num "falling" (k_falling c) (set_num "rising" (k_rising c) [])) []).
  Definition limit_xml (l : xlimit) : res xnode :=
    Ok (XElem "limit" (set_num "upper" (x_upper l) (set_num "lower" (x_lower l) (set_num "velocity" (Some (x_velocity l)) (set_num "effort" (Some (x_effort l)) [])))) []).
  Definition safety_xml (s : xsafety) : res xnode :=
    Ok (XElem "safety_controller" (set_num "soft_lower_limit" (s_lower s) (set_num "soft_upper_limit" (s_upper s) (set_num "k_position" (s_position s) (set_num "k_velocity" (Some (s_velocity s)) [])))) []).
  (** [short], urdf_parser.py:40-43 *)
  Definition short (name key : string) (v : option string) : res xnode := let* a := set_text key v [] in Ok (XElem name a []).
  (** Joint, urdf_parser.py:354-367: the mimic is not written *)
  Definition joint_xml (j : xjoint) : res xnode :=
    let* a := set_text "name" (Some (j_name j)) [] in let* b := set_text "type" (Some (j_type j)) a in
    let* pa := short "parent" "link" (j_parent j) in let* ch := short "child" "link" (j_child j) in let* og := add_kid pose_xml (j_origin j) in
    let* ax := match j_axis j with None => Ok [] | Some _ => let* x := short "axis" "xyz" (j_axis j) in Ok [x] end in
    let* li := add_kid limit_xml (j_limits j) in let* dy := add_kid dynamics_xml (j_dynamics j) in let* sa := add_kid safety_xml (j_safety j) in let* ca := add_kid calib_xml (j_calibration j) in
    Ok (XElem "joint" b (pa :: ch :: og ++ ax ++ li ++ dy ++ sa ++ ca)).
  (** [URDF.to_xml], urdf_parser.py:764-774 *)
  Definition element_xml (x : xelement) : res xnode := match x with ELink l => link_xml l | EJoint j => joint_xml j | EMaterial m => material_xml m end.
  Definition to_document (u : urdf) : res xnode := let* k := mapM element_xml (u_elements u) in Ok (XElem "robot" [("name"%string, u_name u)] k).
End W.
