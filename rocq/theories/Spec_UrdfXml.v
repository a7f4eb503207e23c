(** Specification vocabulary for URDF documents. *)
From Coq Require Import Ascii.
From Verif Require Export Model_UrdfXml.
Open Scope R_scope.

(** ** Documents up to the texts and comments between the elements *)
Fixpoint bare (n : xnode) : list xnode :=
  match n with XElem m a k => [XElem m a (flat_map bare k)] | XText => [] | XComment => [] | XOther => [XOther] end.
Definition elements (l : list xnode) : list xnode := flat_map bare l.

(** ** Words of a text: [split] *)
Definition blank (c : ascii) : Prop := In (nat_of_ascii c) [9; 10; 11; 12; 13; 28; 29; 30; 31; 32; 133; 160]%nat.
Fixpoint all_chars (P : ascii -> Prop) (s : string) : Prop := match s with EmptyString => True | String c s' => P c /\ all_chars P s' end.
Definition word (w : string) : Prop := w <> ""%string /\ all_chars (fun c => ~ blank c) w.
Inductive spells : string -> list string -> Prop :=
  | spells_end : spells "" []
  | spells_blank : forall c s ws, blank c -> spells s ws -> spells (String c s) ws
  | spells_word : forall w s ws, word w -> (s = ""%string \/ exists c s', s = String c s' /\ blank c) -> spells s ws -> spells (w ++ s) (w :: ws).

(** ** What a document says *)
(** the elements called [n] among nodes, with their attributes and contents, in order; the last one *)
Definition called (n : string) (k : list xnode) : list (list (string * string) * list xnode) :=
  flat_map (fun x => match x with XElem m a k => if String.eqb m n then [(a, k)] else [] | _ => [] end) k.
Definition last_opt {A} (l : list A) : option A := hd_error (rev l).
Definition opt_rel {A B} (P : A -> B -> Prop) (a : option A) (b : option B) : Prop :=
  match a, b with None, None => True | Some x, Some y => P x y | _, _ => False end.
(** the first node that is neither a text nor a comment *)
Fixpoint first_node (k : list xnode) : option xnode := match k with [] => None | (XText | XComment) :: k' => first_node k' | n :: _ => Some n end.

Definition option_eq_dec (a b : option string) : {a = b} + {a <> b}.
Proof. decide equality. apply string_dec. Defined.

Section S.
  Variable num : string -> option R.
  Definition number (s : string) (x : R) : Prop := num s = Some x.
  Definition numbers (s : string) (l : list R) : Prop := exists ws, spells s ws /\ Forall2 number ws l.
  Definition pose_says (e : list (string * string) * list xnode) (p : xpose) : Prop :=
    opt_rel numbers (xattr "xyz" (fst e)) (p_position p) /\ opt_rel numbers (xattr "rpy" (fst e)) (p_rotation p).
  (** a shape element; a shape of an unknown kind, or something else than an element, counts for no geometry *)
  Definition shape_says (n : xnode) (g : option xgeom) : Prop :=
    match n with
    | XElem "box" a _ => exists x y z l, numbers (xget "size" a) (x :: y :: z :: l) /\ g = Some (XBox (Some (x, y, z)))
    | XElem "cylinder" a _ => exists r l, number (xget "radius" a) r /\ number (xget "length" a) l /\ g = Some (XCylinder r l)
    | XElem "sphere" a _ => exists r, number (xget "radius" a) r /\ g = Some (XSphere r)
    | XElem "mesh" a _ => exists s, g = Some (XMesh (Some (xget "filename" a)) s) /\
        ((xget "scale" a = ""%string /\ s = None) \/ (xget "scale" a <> ""%string /\ exists l, s = Some l /\ numbers (xget "scale" a) l))
    | _ => g = None
    end.
  (** a geometry element, possibly absent *)
  Definition geometry_says (e : option (list (string * string) * list xnode)) (g : option xgeom) : Prop :=
    match e with None => g = None | Some (_, k) => exists n, first_node k = Some n /\ shape_says n g end.
  Definition collision_says (e : list (string * string) * list xnode) (c : xcollision) : Prop :=
    geometry_says (last_opt (called "geometry" (snd e))) (c_geometry c) /\ opt_rel pose_says (last_opt (called "origin" (snd e))) (c_origin c).
  Definition color_says (e : list (string * string) * list xnode) (c : R * R * R * R) : Prop :=
    let '(r, g, b, al) := c in numbers (xget "rgba" (fst e)) [r; g; b; al].
  Definition material_says (e : list (string * string) * list xnode) (m : xmaterial) : Prop :=
    m_name m = xattr "name" (fst e) /\ opt_rel color_says (last_opt (called "color" (snd e))) (m_color m) /\
    opt_rel (fun x t => t = xget "filename" (fst x)) (last_opt (called "texture" (snd e))) (m_texture m).
  Definition visual_says (e : list (string * string) * list xnode) (v : xvisual) : Prop :=
    geometry_says (last_opt (called "geometry" (snd e))) (v_geometry v) /\ opt_rel pose_says (last_opt (called "origin" (snd e))) (v_origin v) /\
    opt_rel material_says (last_opt (called "material" (snd e))) (v_material v).
  (** a mass or an inertia that is absent is zero *)
  Definition inertial_says (e : list (string * string) * list xnode) (i : xinertial) : Prop :=
    match last_opt (called "mass" (snd e)) with None => i_mass i = 0 | Some (a, _) => number (xget "value" a) (i_mass i) end /\
    match last_opt (called "inertia" (snd e)) with
    | None => i_xx i = 0 /\ i_xy i = 0 /\ i_xz i = 0 /\ i_yy i = 0 /\ i_yz i = 0 /\ i_zz i = 0
    | Some (a, _) => number (xget "ixx" a) (i_xx i) /\ number (xget "ixy" a) (i_xy i) /\ number (xget "ixz" a) (i_xz i) /\
                     number (xget "iyy" a) (i_yy i) /\ number (xget "iyz" a) (i_yz i) /\ number (xget "izz" a) (i_zz i)
    end /\
    opt_rel pose_says (last_opt (called "origin" (snd e))) (i_origin i).
  Definition link_says (e : list (string * string) * list xnode) (l : xlink) : Prop :=
    l_name l = xget "name" (fst e) /\ opt_rel visual_says (last_opt (called "visual" (snd e))) (l_visual l) /\
    opt_rel collision_says (last_opt (called "collision" (snd e))) (l_collision l) /\ opt_rel inertial_says (last_opt (called "inertial" (snd e))) (l_inertial l).
  Definition limit_says (e : list (string * string) * list xnode) (x : xlimit) : Prop :=
    number (xget "effort" (fst e)) (x_effort x) /\ number (xget "velocity" (fst e)) (x_velocity x) /\
    opt_rel number (xattr "lower" (fst e)) (x_lower x) /\ opt_rel number (xattr "upper" (fst e)) (x_upper x).
  Definition safety_says (e : list (string * string) * list xnode) (x : xsafety) : Prop :=
    number (xget "k_velocity" (fst e)) (s_velocity x) /\ opt_rel number (xattr "k_position" (fst e)) (s_position x) /\
    opt_rel number (xattr "soft_lower_limit" (fst e)) (s_lower x) /\ opt_rel number (xattr "soft_upper_limit" (fst e)) (s_upper x).
  Definition joint_says (e : list (string * string) * list xnode) (j : xjoint) : Prop :=
    j_name j = xget "name" (fst e) /\ j_type j = xget "type" (fst e) /\
    opt_rel (fun x t => t = xget "link" (fst x)) (last_opt (called "parent" (snd e))) (j_parent j) /\
    opt_rel (fun x t => t = xget "link" (fst x)) (last_opt (called "child" (snd e))) (j_child j) /\
    opt_rel (fun x t => t = xget "xyz" (fst x)) (last_opt (called "axis" (snd e))) (j_axis j) /\
    opt_rel pose_says (last_opt (called "origin" (snd e))) (j_origin j) /\
    opt_rel limit_says (last_opt (called "limit" (snd e))) (j_limits j) /\
    opt_rel (fun x d => d_damping d = xattr "damping" (fst x) /\ d_friction d = xattr "friction" (fst x)) (last_opt (called "dynamics" (snd e))) (j_dynamics j) /\
    opt_rel safety_says (last_opt (called "safety_controller" (snd e))) (j_safety j) /\
    opt_rel (fun x c => opt_rel number (xattr "rising" (fst x)) (k_rising c) /\ opt_rel number (xattr "falling" (fst x)) (k_falling c)) (last_opt (called "calibration" (snd e))) (j_calibration j) /\
    opt_rel (fun x m => y_joint m = xget "joint" (fst x) /\ opt_rel number (xattr "multiplier" (fst x)) (y_multiplier m) /\ opt_rel number (xattr "offset" (fst x)) (y_offset m)) (last_opt (called "mimic" (snd e))) (j_mimic j).
  (** an element of the robot: a link, a joint or a material *)
  Definition element_says (n : xnode) (x : xelement) : Prop :=
    match n, x with
    | XElem m a k, ELink l => m = "link"%string /\ link_says (a, k) l
    | XElem m a k, EJoint j => m = "joint"%string /\ joint_says (a, k) j
    | XElem m a k, EMaterial t => m = "material"%string /\ material_says (a, k) t
    | _, _ => False
    end.
  Definition robot_nodes (k : list xnode) : list xnode :=
    filter (fun n => match n with XElem m _ _ => String.eqb m "link" || String.eqb m "joint" || String.eqb m "material" | _ => false end) k.
  (** ** Documents that can be read: every known element is well formed, wherever it is *)
  Definition ok_pose e := exists p, pose_says e p.
  Definition ok_geometry e := exists g, geometry_says (Some e) g.
  Definition ok_color e := exists c, color_says e c.
  Definition ok_mass (e : list (string * string) * list xnode) := exists m, number (xget "value" (fst e)) m.
  Definition ok_inertia (e : list (string * string) * list xnode) := forall n, In n ["ixx"; "ixy"; "ixz"; "iyy"; "iyz"; "izz"]%string -> exists x, number (xget n (fst e)) x.
  Definition ok_limit e := exists x, limit_says e x.
  Definition ok_safety e := exists x, safety_says e x.
  Definition ok_numbers (l : list string) (e : list (string * string) * list xnode) := forall n s, In n l -> xattr n (fst e) = Some s -> exists x, number s x.
  Definition ok_collision (e : list (string * string) * list xnode) := Forall ok_geometry (called "geometry" (snd e)) /\ Forall ok_pose (called "origin" (snd e)).
  Definition ok_material (e : list (string * string) * list xnode) := Forall ok_color (called "color" (snd e)).
  Definition ok_visual (e : list (string * string) * list xnode) :=
    Forall ok_geometry (called "geometry" (snd e)) /\ Forall ok_pose (called "origin" (snd e)) /\ Forall ok_material (called "material" (snd e)).
  Definition ok_inertial (e : list (string * string) * list xnode) :=
    Forall ok_mass (called "mass" (snd e)) /\ Forall ok_inertia (called "inertia" (snd e)) /\ Forall ok_pose (called "origin" (snd e)).
  Definition ok_link (e : list (string * string) * list xnode) :=
    Forall ok_visual (called "visual" (snd e)) /\ Forall ok_collision (called "collision" (snd e)) /\ Forall ok_inertial (called "inertial" (snd e)).
  Definition ok_joint (e : list (string * string) * list xnode) :=
    Forall ok_pose (called "origin" (snd e)) /\ Forall ok_limit (called "limit" (snd e)) /\ Forall ok_safety (called "safety_controller" (snd e)) /\
    Forall (ok_numbers ["rising"; "falling"]%string) (called "calibration" (snd e)) /\ Forall (ok_numbers ["multiplier"; "offset"]%string) (called "mimic" (snd e)).
  Definition ok_document (d : list xnode) : Prop := exists m a k, first_node d = Some (XElem m a k) /\
    Forall ok_link (called "link" k) /\ Forall ok_joint (called "joint" k) /\ Forall ok_material (called "material" k).
  (** the dictionaries of the robot: the last element of each name; the joint of a child is the last one that has it *)
  Definition last_such (P : xelement -> bool) (es : list xelement) : option xelement := find P (rev es).
  Record robot_says (d : list xnode) (u : urdf) : Prop := {
    rs_root : exists m a k, first_node d = Some (XElem m a k) /\ u_name u = xget "name" a /\ Forall2 element_says (robot_nodes k) (u_elements u);
    rs_links : NoDup (map fst (u_links u)) /\ forall n l, In (n, l) (u_links u) <-> last_such (fun x => match x with ELink l => String.eqb (l_name l) n | _ => false end) (u_elements u) = Some (ELink l);
    rs_joints : NoDup (map fst (u_joints u)) /\ forall n j, In (n, j) (u_joints u) <-> last_such (fun x => match x with EJoint j => String.eqb (j_name j) n | _ => false end) (u_elements u) = Some (EJoint j);
    rs_materials : NoDup (map fst (u_materials u)) /\ forall n m, In (n, m) (u_materials u) <-> last_such (fun x => match x with EMaterial m => if option_eq_dec (m_name m) n then true else false | _ => false end) (u_elements u) = Some (EMaterial m);
    rs_parent_map : NoDup (map fst (u_parent_map u)) /\ forall c n p, In (c, (n, p)) (u_parent_map u) <-> exists j, j_name j = n /\ j_parent j = p /\
      last_such (fun x => match x with EJoint j => if option_eq_dec (j_child j) c then true else false | _ => false end) (u_elements u) = Some (EJoint j) }.
End S.

(** ** Writing a robot and reading it again *)
(** a robot made with [URDF(name)], [add_link], [add_joint], [add_material] *)
Inductive made : urdf -> Prop :=
  | made_empty : forall n, made (Urdf n [] [] [] [] [])
  | made_add : forall u x, made u -> made (add_xelement x u).
Definition plain_text (s : string) : Prop := all_chars (fun c => (nat_of_ascii c < 128)%nat) s.
Definition opt_all {A} (P : A -> Prop) (o : option A) : Prop := match o with None => True | Some x => P x end.
(** the texts that are written through [str] are ASCII texts, and boxes have dimensions *)
Definition plain_geom (g : xgeom) : Prop := match g with XBox d => d <> None | XMesh f _ => opt_all plain_text f | _ => True end.
Definition plain_material (m : xmaterial) : Prop := opt_all plain_text (m_name m).
Definition plain_link (l : xlink) : Prop :=
  opt_all (fun v => opt_all plain_geom (v_geometry v) /\ opt_all plain_material (v_material v)) (l_visual l) /\ opt_all (fun c => opt_all plain_geom (c_geometry c)) (l_collision l).
Definition plain_joint (j : xjoint) : Prop :=
  plain_text (j_name j) /\ plain_text (j_type j) /\ opt_all plain_text (j_parent j) /\ opt_all plain_text (j_child j) /\ opt_all plain_text (j_axis j) /\
  opt_all (fun d => opt_all plain_text (d_damping d) /\ opt_all plain_text (d_friction d)) (j_dynamics j).
Definition plain (x : xelement) : Prop := match x with ELink l => plain_link l | EJoint j => plain_joint j | EMaterial m => plain_material m end.
(** what is read after a number is written: [rd x]; a number is written as one word *)
Definition printing (num : string -> option R) (pf : R -> string) (rd : R -> R) : Prop := forall x, word (pf x) /\ num (pf x) = Some (rd x).
Section T.
  Variable rd : R -> R.
  Definition again_pose (p : xpose) : xpose := XPose (option_map (map rd) (p_position p)) (option_map (map rd) (p_rotation p)).
  Definition text_of (o : option string) : string := match o with None => ""%string | Some s => s end.
  Definition again_geom (g : xgeom) : xgeom :=
    match g with
    | XBox d => XBox (option_map (fun t => let '(x, y, z) := t in (rd x, rd y, rd z)) d)
    | XCylinder r l => XCylinder (rd r) (rd l)
    | XSphere r => XSphere (rd r)
    | XMesh f s => XMesh (Some (text_of f)) (match s with Some [] => None | _ => option_map (map rd) s end)
    end.
  Definition again_material (m : xmaterial) : xmaterial :=
    XMaterial (m_name m) (option_map (fun c => let '(r, g, b, al) := c in (rd r, rd g, rd b, rd al)) (m_color m)) (m_texture m).
  Definition again_visual (v : xvisual) : xvisual := XVisual (option_map again_geom (v_geometry v)) (option_map again_material (v_material v)) (option_map again_pose (v_origin v)).
  Definition again_collision (c : xcollision) : xcollision := XCollision (option_map again_geom (c_geometry c)) (option_map again_pose (c_origin c)).
  Definition again_inertial (i : xinertial) : xinertial :=
    XInertial (rd (i_xx i)) (rd (i_xy i)) (rd (i_xz i)) (rd (i_yy i)) (rd (i_yz i)) (rd (i_zz i)) (rd (i_mass i)) (option_map again_pose (i_origin i)).
  Definition again_link (l : xlink) : xlink := XLink (l_name l) (option_map again_visual (l_visual l)) (option_map again_inertial (l_inertial l)) (option_map again_collision (l_collision l)).
  Definition again_limit (x : xlimit) : xlimit := XLimit (rd (x_effort x)) (rd (x_velocity x)) (option_map rd (x_lower x)) (option_map rd (x_upper x)).
  Definition again_safety (s : xsafety) : xsafety := XSafety (rd (s_velocity s)) (option_map rd (s_position s)) (option_map rd (s_lower s)) (option_map rd (s_upper s)).
  Definition again_calib (c : xcalib) : xcalib := XCalib (option_map rd (k_rising c)) (option_map rd (k_falling c)).
  (** the mimic is lost; a parent or a child that is None becomes an empty text *)
  Definition again_joint (j : xjoint) : xjoint :=
    XJoint (j_name j) (Some (text_of (j_parent j))) (Some (text_of (j_child j))) (j_type j) (j_axis j) (option_map again_pose (j_origin j)) (option_map again_limit (j_limits j))
      (j_dynamics j) (option_map again_safety (j_safety j)) (option_map again_calib (j_calibration j)) None.
  Definition again (x : xelement) : xelement := match x with ELink l => ELink (again_link l) | EJoint j => EJoint (again_joint j) | EMaterial m => EMaterial (again_material m) end.
End T.
(** nothing is lost: joints have a parent, a child and no mimic, meshes have a file and no empty scale *)
Definition full_geom (g : xgeom) : Prop := match g with XMesh f s => f <> None /\ s <> Some [] | _ => True end.
Definition full (x : xelement) : Prop :=
  match x with
  | ELink l => opt_all (fun v => opt_all full_geom (v_geometry v)) (l_visual l) /\ opt_all (fun c => opt_all full_geom (c_geometry c)) (l_collision l)
  | EJoint j => j_parent j <> None /\ j_child j <> None /\ j_mimic j = None
  | EMaterial _ => True
  end.
(** the numbers of an element *)
Definition olist {A} (o : option (list A)) : list A := match o with None => [] | Some l => l end.
Definition onum (o : option R) : list R := match o with None => [] | Some x => [x] end.
Definition pose_numbers (p : option xpose) : list R := match p with None => [] | Some p => olist (p_position p) ++ olist (p_rotation p) end.
Definition geom_numbers (g : option xgeom) : list R :=
  match g with Some (XBox (Some (x, y, z))) => [x; y; z] | Some (XCylinder r l) => [r; l] | Some (XSphere r) => [r] | Some (XMesh _ s) => olist s | _ => [] end.
Definition material_numbers (m : option xmaterial) : list R := match m with Some (XMaterial _ (Some (r, g, b, al)) _) => [r; g; b; al] | _ => [] end.
Definition numbers_of (x : xelement) : list R :=
  match x with
  | ELink l => match l_visual l with None => [] | Some v => geom_numbers (v_geometry v) ++ material_numbers (v_material v) ++ pose_numbers (v_origin v) end ++
      match l_collision l with None => [] | Some c => geom_numbers (c_geometry c) ++ pose_numbers (c_origin c) end ++
      match l_inertial l with None => [] | Some i => [i_xx i; i_xy i; i_xz i; i_yy i; i_yz i; i_zz i; i_mass i] ++ pose_numbers (i_origin i) end
  | EJoint j => pose_numbers (j_origin j) ++ match j_limits j with None => [] | Some x => [x_effort x; x_velocity x] ++ onum (x_lower x) ++ onum (x_upper x) end ++
      match j_safety j with None => [] | Some x => [s_velocity x] ++ onum (s_position x) ++ onum (s_lower x) ++ onum (s_upper x) end ++
      match j_calibration j with None => [] | Some x => onum (k_rising x) ++ onum (k_falling x) end
  | EMaterial m => material_numbers (Some m)
  end.
