(** arboris/visu/world_drawer.py:248-395: Drawer, as the scene graph it builds through its driver.
    The driver is abstract (DrawerDriver): create_transform makes a new node, add_child attaches it; the graphic attributes of the
    items (sizes, options) are not modelled.  Names are those of the objects: a node carries the frame whose name it is given. *)
From Verif Require Export Model_Color Model_Dyn.

(** what hangs below a node, besides other nodes: frame arrows, the line of a link, an inertia, a shape *)
Inductive item := IArrows | ILine (p : v3) (c : rgb) | IInertia (b : nat) (c : rgb) | IShape (s : nat) (c : rgb).
(** a transform node: the node it was added to, its pose, [is_constant], the frame whose name is passed *)
Record node := Nd { n_parent : nat; n_pose : m4; n_const : bool; n_frame : frame }.
(** keys of [transform_nodes] *)
Inductive tkey := TKJoint (j : nat) | TKMov (m : nat).
(** the Drawer: next node, nodes (the ground node is 0), [frame_nodes], [transform_nodes], items, [_color_generator] *)
Record draw := Dr { d_next : nat; d_nodes : list (nat * node); d_frames : frame -> option nat; d_moving : list (tkey * nat);
                    d_items : list (nat * item); d_colors : colors }.

(** what the drawer reads of the world *)
Record dscene := DS {
  ds_e : env; ds_nm : obj -> option string; ds_sc : scene; ds_st : store; ds_J : nat -> jstate;
  ds_known : nat -> bool;        (* the shape is a Sphere, a Point, a Cylinder, a Plane or a Box *)
  ds_inv : m4 -> m4              (* numpy.linalg.inv *)
}.

(** Frobenius norm of a (6,6) array: numpy.linalg.norm *)
Definition sq3 (a : m3) : R := m00 a * m00 a + m01 a * m01 a + m02 a * m02 a + m10 a * m10 a + m11 a * m11 a + m12 a * m12 a + m20 a * m20 a + m21 a * m21 a + m22 a * m22 a.
Definition norm66 (M : m6) : R := sqrt (sq3 (aa M) + sq3 (al M) + sq3 (la M) + sq3 (ll M)).

Definition set_frame (f : frame) (n : nat) (d : draw) : draw :=
  Dr (d_next d) (d_nodes d) (fun g => if frame_eqb g f then Some n else d_frames d g) (d_moving d) (d_items d) (d_colors d).
Definition add_item (n : nat) (i : item) (d : draw) : draw :=
  Dr (d_next d) (d_nodes d) (d_frames d) (d_moving d) ((n, i) :: d_items d) (d_colors d).
Definition set_moving (k : tkey) (n : nat) (d : draw) : draw :=
  Dr (d_next d) (d_nodes d) (d_frames d) ((k, n) :: d_moving d) (d_items d) (d_colors d).
(** [self.frame_nodes[f]] *)
Definition frame_node (f : frame) (d : draw) : res nat := match d_frames d f with Some n => Ok n | None => Err KeyError end.
(** [self._color_generator.get_color(obj)] *)
Definition draw_color (S : dscene) (o : obj) (d : draw) : res (rgb * draw) :=
  let* (c, cs) := get_color (ds_e S) (ds_nm S) o (d_colors d) in
  Ok (c, Dr (d_next d) (d_nodes d) (d_frames d) (d_moving d) (d_items d) cs).
(** [_add_frame], world_drawer.py:272-280 *)
Definition add_frame (parent : nat) (P : m4) (const : bool) (f : frame) (c : rgb) (d : draw) : nat * draw :=
  let n := d_next d in
  let d1 := Dr (S n) ((n, Nd parent P const f) :: d_nodes d) (d_frames d) (d_moving d) ((n, IArrows) :: d_items d) (d_colors d) in
  (n, if const && Rltb 0 (norm3 (pos P)) then add_item parent (ILine (pos P) c) d1 else d1).
(** [bd1.pose]; a pose that was never computed is None: the error of the driver stands for it *)
Definition body_pose (S : dscene) (b : nat) : res m4 := Model_Dyn.get (a_pose (ds_st S b)).

(** [add_link], world_drawer.py:282-354.  The arguments are evaluated from left to right: the node of [f0] is looked up before the
    colour is chosen. *)
Definition draw_link (S : dscene) (flat : bool) (f0 : frame) (j : nat) (f1 : frame) (d : draw) : res draw :=
  let bd := frame_body (ds_e S) f1 in
  match f1 with
  | FBody _ =>
      if flat then
        let* P := body_pose S bd in
        let* (c, d1) := draw_color S (OFrame f1) d in
        let (n, d2) := add_frame 0 P false f1 c d1 in
        Ok (set_frame f1 n d2)
      else
        let* n0 := frame_node f0 d in
        let* (c, d1) := draw_color S (OFrame f1) d in
        let (n, d2) := add_frame n0 (Model_Joints.pose (ds_J S j)) false f1 c d1 in
        Ok (set_moving (TKJoint j) n (set_frame f1 n d2))
  | FMov _ => Err ValueError
  | FSub _ =>
      if flat then
        let* P := body_pose S bd in
        let* (c, d1) := draw_color S (OFrame (FBody bd)) d in
        let (n, d2) := add_frame 0 P false (FBody bd) c d1 in
        let* (c', d3) := draw_color S (OFrame f1) d2 in
        let (n', d4) := add_frame n (bpose (ds_sc S) f1) true f1 c' d3 in
        Ok (set_frame f1 n' (set_frame (FBody bd) n d4))
      else
        let* n0 := frame_node f0 d in
        let* (c, d1) := draw_color S (OFrame f1) d in
        let (n, d2) := add_frame n0 (Model_Joints.pose (ds_J S j)) false f1 c d1 in
        let* (c', d3) := draw_color S (OFrame (FBody bd)) d2 in
        let (n', d4) := add_frame n (ds_inv S (bpose (ds_sc S) f1)) true (FBody bd) c' d3 in
        Ok (set_moving (TKJoint j) n (set_frame f1 n (set_frame (FBody bd) n' d4)))
  end.

(** [register], world_drawer.py:356-395, on a frame *)
Definition draw_frame (S : dscene) (flat : bool) (f : frame) (d : draw) : res draw :=
  match f with
  | FBody b =>
      let* (c, d1) := draw_color S (OFrame f) d in
      if Rltb (10 / 100000000) (norm66 (b_mass (ds_sc S) b)) then
        let* n := frame_node f d1 in Ok (add_item n (IInertia b c) d1)
      else Ok d1
  | FSub _ =>
      match d_frames d f with
      | Some _ => Ok d
      | None =>
          let* (c, d1) := draw_color S (OFrame f) d in
          let* n0 := frame_node (FBody (frame_body (ds_e S) f)) d1 in
          let (n, d2) := add_frame n0 (bpose (ds_sc S) f) true f c d1 in
          Ok (set_frame f n d2)
      end
  | FMov m =>
      match d_frames d f with
      | Some _ => Ok d
      | None =>
          let* (c, d1) := draw_color S (OFrame f) d in
          let* n0 := if flat then Ok 0%nat else frame_node (FBody (frame_body (ds_e S) f)) d1 in
          let (n, d2) := add_frame n0 (bpose (ds_sc S) f) false f c d1 in
          Ok (set_moving (TKMov m) n (set_frame f n d2))
      end
  end.
(** [register] on a shape *)
Definition draw_shape (S : dscene) (s : nat) (d : draw) : res draw :=
  let* (c, d1) := draw_color S (OShape s) d in
  if ds_known S s then
    let* n := frame_node (shape_frame (ds_e S) s) d1 in Ok (add_item n (IShape s c) d1)
  else Err ValueError.
(** one call of World.parse on the drawer; [init_parse] is world_drawer.py:268-270 *)
Definition draw_event (S : dscene) (flat : bool) (ev : event) (d : draw) : res draw :=
  match ev with
  | EInit => Ok (Dr 1 [] (fun g => if frame_eqb g (FBody (ground (ds_e S))) then Some 0%nat else None) (d_moving d) [] (d_colors d))
  | ELink f0 j f1 => draw_link S flat f0 j f1 d
  | ERegFrame f => draw_frame S flat f d
  | ERegShape s => draw_shape S s d
  | ERegConstraint _ | ERegController _ => Ok d
  end.
Fixpoint draw_events (S : dscene) (flat : bool) (evs : list event) (d : draw) : res draw :=
  match evs with [] => Ok d | ev :: evs' => let* d1 := draw_event S flat ev d in draw_events S flat evs' d1 end.
(** a new Drawer, world_drawer.py:256-266 *)
Definition new_draw (cs : colors) : draw := Dr 0 [] (fun _ => None) [] [] cs.
(** [world.parse(drawer)] *)
Definition draw_world (S : dscene) (flat : bool) (fuel : nat) (h : @heap R) (cs : colors) : res draw :=
  let* evs := parse (ds_e S) fuel h in draw_events S flat evs (new_draw cs).
