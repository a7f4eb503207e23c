(** arboris/robots/urdf/__init__.py: URDFConverter as a reader of files: parseURDF, get_visual_shapes, get_collision_shapes,
    get_joint_limits, get_effort_limits, get_velocity_limits; the passage from the objects of the parser (Model_UrdfXml) to those
    of load_in_world (Model_Urdf). *)
From Verif Require Export Model_Dae Model_UrdfXml.
Open Scope R_scope.

(** [transl( *position )] and [roll_pitch_yaw_to_rotation_matrix( *rotation )] accept three numbers: any other number of them raises
    TypeError, as None does; robots/urdf/__init__.py:72-75 *)
Definition three (l : option (list R)) : option v3 := match l with Some [x; y; z] => Some (V3 x y z) | _ => None end.
Definition pose_of (p : xpose) : upose := UPose (three (p_position p)) (three (p_rotation p)).
(** the numbers of an axis, robots/urdf/__init__.py:78; the joint types, 80-114 and urdf_parser.py:292-298 *)
Definition axis_of (num : string -> option R) (s : string) : uaxis :=
  match Model_UrdfXml.split s with [a; b; c] => match num a, num b, num c with Some x, Some y, Some z => AxVec (V3 x y z) | _, _, _ => AxBad end | _ => AxWord s end.
Definition kind_of (s : string) : ukind :=
  if String.eqb s "revolute" then Revolute else if String.eqb s "prismatic" then Prismatic else if String.eqb s "fixed" then Fixed
  else if String.eqb s "floating" then Floating else if String.eqb s "continuous" then Continuous else if String.eqb s "planar" then Planar else UnknownKind.
(** the geometries as load_in_world uses them, 130-150 and 207-222; a box without dimensions is never read from a file *)
Definition geom_of (g : option xgeom) : ugeom :=
  match g with
  | Some (XBox (Some (x, y, z))) => GBox (V3 x y z) | Some (XSphere r) => GSphere r | Some (XCylinder r l) => GCylinder r l
  | Some (XMesh _ s) => GMesh (match s with Some _ => true | None => false end) | _ => GNone
  end.
Definition inertial_of (i : xinertial) : uinertial :=
  UInertial (i_mass i) (option_map pose_of (i_origin i)) (i_xx i) (i_yy i) (i_zz i) (i_xy i) (i_xz i) (i_yz i).
Definition link_of (l : xlink) : ulink := ULink (option_map inertial_of (l_inertial l)) (option_map (fun c => (geom_of (c_geometry c), option_map pose_of (c_origin c))) (l_collision l)).
(** a joint without parent or child (None) stops load_in_world with a KeyError, as an unknown name does *)
Definition joint_of (num : string -> option R) (parent child : string) (j : xjoint) : ujoint :=
  UJoint parent child (kind_of (j_type j)) (option_map (axis_of num) (j_axis j)) (option_map pose_of (j_origin j)) (option_map (fun x => (x_lower x, x_upper x)) (j_limits j)).

(** ** The converter, robots/urdf/__init__.py:158-183 *)
Record converter := Conv { cv_file : option string; cv_robot : option urdf; cv_prefix : string; cv_suffix : string }.
Section C.
  (** [URDF.load_xml_file] (urdf_parser.py:704-708); [os.path.dirname]; arboris_simple_shapes_path *)
  Variables (load : string -> res urdf) (dirname : string -> string) (simple : string).
  Definition parseURDF (f : string) (c : converter) : res converter := let* u := load f in Ok (Conv (cv_file c) (Some u) (cv_prefix c) (cv_suffix c)).
  Definition new_converter (f : option string) (prefix suffix : string) : res converter :=
    let c := Conv f None prefix suffix in match f with None => Ok c | Some s => parseURDF s c end.
  Definition named (c : converter) (n : string) : string := (cv_prefix c ++ n ++ cv_suffix c)%string.

  (** a scale: the integer 1, a number, a tuple or a list, None *)
  Inductive vscale := SOne | SNum (r : R) | SList (l : list R) | SNone.
  (** an item: its "shape", "mesh", "scale", "transform" and "frame" *)
  Record vitem := VItem { vi_shape : string; vi_mesh : string; vi_scale : vscale; vi_transform : m4; vi_frame : string }.
  (** [to_arboris] of a geometry (131-150): shape, mesh (or mesh_from_urdf: [inr]), scale; [None] for a geometry that is None (152-154);
      [obj.scale.split()] on a list raises AttributeError *)
  Definition shape_of (g : option xgeom) : res (option (string * (string + option string) * vscale)) :=
    match g with
    | None => Ok None
    | Some (XMesh f None) => Ok (Some ("mesh"%string, inr f, SOne))
    | Some (XMesh _ (Some _)) => Err AttributeError
    | Some (XBox d) => Ok (Some ("box"%string, inl (simple ++ "#simple_box_node")%string, match d with Some (x, y, z) => SList [x; y; z] | None => SNone end))
    | Some (XSphere r) => Ok (Some ("sphere"%string, inl (simple ++ "#simple_sphere_node")%string, SNum r))
    | Some (XCylinder r l) => Ok (Some ("cylinder"%string, inl (simple ++ "#simple_cylinder_node")%string, SList [r; r; l]))
    end.
  (** [to_arboris] of a visual or a collision (118-128), and the rest of the body of the loops (292-299, 313-320);
      [None["transform"] = ..] raises TypeError *)
  Definition item_of (c : converter) (dir n : string) (g : option xgeom) (o : option xpose) : res vitem :=
    let* s := shape_of g in
    let* H := to_pose (option_map pose_of o) in
    match s with
    | None => Err TypeError
    | Some (k, inl m, sc) => Ok (VItem k m sc H (named c n))
    | Some (k, inr None, sc) => Err TypeError
    | Some (k, inr (Some f), sc) => Ok (VItem k (dir ++ f)%string sc H (named c n))
    end.
  (** the loops, 285-301 and 306-322 *)
  Fixpoint items_loop (c : converter) (dir : string) (part : xlink -> option (option xgeom * option xpose)) (l : list (string * xlink)) : res (list vitem) :=
    match l with
    | [] => Ok []
    | (n, x) :: l' =>
        match part x with
        | None => items_loop c dir part l'
        | Some (g, o) => let* i := item_of c dir n g o in let* is := items_loop c dir part l' in Ok (i :: is)
        end
    end.
  Definition get_shapes (part : xlink -> option (option xgeom * option xpose)) (c : converter) : res (list vitem) :=
    match cv_file c with
    | None => Err AttributeError                                    (* os.path.dirname(None) *)
    | Some f => match cv_robot c with None => Err AttributeError | Some u => items_loop c (dirname f ++ "/")%string part (u_links u) end
    end.
  Definition visual_part (l : xlink) : option (option xgeom * option xpose) := option_map (fun v => (v_geometry v, v_origin v)) (l_visual l).
  Definition collision_part (l : xlink) : option (option xgeom * option xpose) := option_map (fun v => (c_geometry v, c_origin v)) (l_collision l).
  Definition get_visual_shapes : converter -> res (list vitem) := get_shapes visual_part.
  Definition get_collision_shapes : converter -> res (list vitem) := get_shapes collision_part.

  (** the dicts of limits, 325-366; [None.lower] raises AttributeError *)
  Definition get_joint_limits (c : converter) : res (list (string * (R * R))) :=
    match cv_robot c with
    | None => Err AttributeError
    | Some u => foldM (fun d x => match j_limits (snd x) with
                                  | None => Err AttributeError
                                  | Some (XLimit _ _ (Some lo) (Some up)) => Ok (dset (named c (fst x)) (lo, up) d)
                                  | Some _ => Ok d
                                  end) (u_joints u) []
    end.
  Definition get_limits (field : xlimit -> R) (c : converter) : res (list (string * R)) :=
    match cv_robot c with
    | None => Err AttributeError
    | Some u => foldM (fun d x => match j_limits (snd x) with None => Err AttributeError | Some l => Ok (dset (named c (fst x)) (field l) d) end) (u_joints u) []
    end.
  Definition get_effort_limits : converter -> res (list (string * R)) := get_limits x_effort.
  Definition get_velocity_limits : converter -> res (list (string * R)) := get_limits x_velocity.
End C.
(** what visu/dae_writer.py:add_shapes_to_dae does of a dict with a transform and a scale (dae_writer.py:230-241): an instance of the node of the
    mesh, below a matrix then a scale; a scale that is a number is repeated *)
Definition scale_of (s : vscale) : option v3 := match s with SOne => Some (V3 1 1 1) | SNum r => Some (V3 r r r) | SList [x; y; z] => Some (V3 x y z) | _ => None end.
Definition item_node (g : mesh) (i : vitem) : option dnode := option_map (fun s => DN None [TMat (vi_transform i); TScale s] g None None) (scale_of (vi_scale i)).
