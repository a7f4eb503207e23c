(** Specification vocabulary for the shapes and limits of an URDF robot. *)
From Verif Require Export Spec_Dae Spec_Urdf Model_UrdfShapes Spec_UrdfXml.
Open Scope R_scope.

(** the pose an origin element gives: identity without it; a position and three angles (roll, pitch, yaw) *)
Definition origin_says (o : option xpose) (H : m4) : Prop :=
  match o with
  | None => H = eye4
  | Some p => exists x y z a b c, p_position p = Some [x; y; z] /\ p_rotation p = Some [a; b; c] /\
      H = M4 (mm (mm (rot (rotz c)) (rot (roty b))) (rot (rotx a))) (V3 x y z) (V3 0 0 0) 1
  end.
(** the item of a geometry: the node of a file of meshes and a scale *)
Definition item_mesh (dir simple : string) (g : option xgeom) (shape mesh : string) (s : vscale) : Prop :=
  match g with
  | Some (XMesh (Some f) None) => shape = "mesh"%string /\ mesh = (dir ++ "/" ++ f)%string /\ s = SOne
  | Some (XBox (Some (x, y, z))) => shape = "box"%string /\ mesh = (simple ++ "#simple_box_node")%string /\ s = SList [x; y; z]
  | Some (XSphere r) => shape = "sphere"%string /\ mesh = (simple ++ "#simple_sphere_node")%string /\ s = SNum r
  | Some (XCylinder r l) => shape = "cylinder"%string /\ mesh = (simple ++ "#simple_cylinder_node")%string /\ s = SList [r; r; l]
  | _ => False
  end.
Definition item_says (c : converter) (dir simple : string) (x : string * (option xgeom * option xpose)) (i : vitem) : Prop :=
  vi_frame i = (cv_prefix c ++ fst x ++ cv_suffix c)%string /\ item_mesh dir simple (fst (snd x)) (vi_shape i) (vi_mesh i) (vi_scale i) /\ origin_says (snd (snd x)) (vi_transform i).
(** the visuals, the collisions of the links, in the order of the dict *)
Definition visuals (u : urdf) : list (string * (option xgeom * option xpose)) :=
  flat_map (fun x => match l_visual (snd x) with Some v => [(fst x, (v_geometry v, v_origin v))] | None => [] end) (u_links u).
Definition collisions (u : urdf) : list (string * (option xgeom * option xpose)) :=
  flat_map (fun x => match l_collision (snd x) with Some v => [(fst x, (c_geometry v, c_origin v))] | None => [] end) (u_links u).
(** those for which an item can be made: a known geometry, a mesh with a file and no scale, an origin that is absent or complete *)
Definition shape_ok (x : option xgeom * option xpose) : Prop :=
  match fst x with Some (XMesh f s) => f <> None /\ s = None | Some (XBox d) => d <> None | Some _ => True | None => False end /\
  match snd x with None => True | Some p => (exists x y z, p_position p = Some [x; y; z]) /\ (exists a b c, p_rotation p = Some [a; b; c]) end.
(** the solid an URDF geometry stands for, its centre at the frame [P] *)
Definition solid_of (g : xgeom) (P : m4) (x : v3) : Prop :=
  match g with
  | XSphere r => Spec_Coll.ball (pos P) r x
  | XCylinder r l => in_cylinder P l r x
  | XBox (Some (a, b, c)) => in_box P (V3 (a / 2) (b / 2) (c / 2)) x
  | _ => False
  end.
(** the mesh that the node of simple_shapes.dae holds *)
Definition mesh_named (simple m : string) (g : mesh) : Prop :=
  (m = (simple ++ "#simple_box_node")%string /\ g = MBox) \/ (m = (simple ++ "#simple_sphere_node")%string /\ g = MSphere) \/ (m = (simple ++ "#simple_cylinder_node")%string /\ g = MCylinder).

(** the elements of a document, as load_in_world sees them *)
Definition seen (num : string -> option R) (x : xelement) : list element :=
  match x with
  | ELink l => [ELinkOf (l_name l) (link_of l)]
  | EJoint j => match j_parent j, j_child j with Some p, Some c => [EJointOf (j_name j) (joint_of num p c j)] | _, _ => [] end
  | EMaterial _ => []
  end.
Definition attached (x : xelement) : Prop := match x with EJoint j => j_parent j <> None /\ j_child j <> None | _ => True end.
(** the dictionaries of links and joints of the robot, as load_in_world sees them *)
Definition robot_of (num : string -> option R) (u : urdf) : robot :=
  Robot (map (fun x => (fst x, link_of (snd x))) (u_links u))
        (map (fun x => (fst x, joint_of num (text_of (j_parent (snd x))) (text_of (j_child (snd x))) (snd x))) (u_joints u))
        (map (fun x => (text_of (fst x), (fst (snd x), text_of (snd (snd x))))) (u_parent_map u)).
(** the joints of a robot whose lower and upper limits are both given *)
Definition range_given (u : urdf) (n : string) (lo up : R) : Prop :=
  exists j x, In (n, j) (u_joints u) /\ j_limits j = Some x /\ x_lower x = Some lo /\ x_upper x = Some up.
(** the joint [n] has a limit element, of which [field] is [v] *)
Definition limit_given (u : urdf) (field : xlimit -> R) (n : string) (v : R) : Prop := exists j x, In (n, j) (u_joints u) /\ j_limits j = Some x /\ field x = v.
