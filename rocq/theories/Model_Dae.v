(** arboris/visu/dae_writer.py and arboris/visu/visu_collada.py: the two collada drivers of the Drawer (Model_Draw), as the
    document they build.  Not modelled: the XML text (number formatting included) and the pycollada library, whose nodes, transforms
    and libraries are taken as plain data. *)
From Coq Require Import DecimalString DecimalNat.
From Verif Require Export Model_Draw Model_Coll Model_Sim.
Open Scope R_scope.

(** the transforms of a collada node, MatrixTransform and ScaleTransform; a node applies their product, the first one being the
    outermost (collada 1.4.1 specification, "node") *)
Inductive tf := TMat (H : m4) | TScale (s : v3).
Definition scale4 (s : v3) : m4 := M4 (M3 (vx s) 0 0 0 (vy s) 0 0 0 (vz s)) zero3 zero3 1.
Definition tf_mat (t : tf) : m4 := match t with TMat H => H | TScale s => scale4 s end.
Definition tfs_mat (l : list tf) : m4 := fold_right (fun t M => mm4 (tf_mat t) M) eye4 l.

(** the meshes of arboris/visu/simple_shapes.dae *)
Inductive mesh := MSphere | MBox | MCylinder | MPlane | MLine | MArrows.
(** an instance of a mesh: the id of its node (None for _get_void_node), the transforms between the node of the frame and the mesh,
    the mesh, the material (index in [v_mats]), the OpenSceneGraph description *)
Record dnode := DN { dn_id : option string; dn_tfs : list tf; dn_mesh : mesh; dn_mat : option nat; dn_desc : option string }.
(** a rigid_body of library_physics_models: sid, mass, mass_frame (translate, then the rotates: axis and angle in degrees), inertia *)
Record rigid := RB { rb_sid : string; rb_mass : R; rb_pos : v3; rb_rots : list (v3 * R); rb_inertia : v3 }.

(** the numeric options, world_drawer.py:66-96 *)
Record dopts := DO { op_arrows : R; op_point : R; op_plane : R * R; op_factor : R }.
Definition default_options (scale : R) : dopts := DO (8 / 100 * scale) (8 / 1000 * scale) (1 * scale, 1 * scale) (5 * scale).
(** dae_writer.py:319-322: [DrawerDriver.__init__(self, scale)]; [update] is the effect of [self._options.update(options)] *)
Definition driver_options (scale : R) (update : dopts -> dopts) : dopts := default_options scale.

(** the data of a driver: [_options], [_names], the colours of [_materials] in order of creation, the physics model *)
Record drv := DV { v_opt : dopts; v_names : list string; v_mats : list rgb; v_phys : list rigid }.

(** [_get_collada_node], dae_writer.py:340-354 *)
Definition decimal (i : nat) : string := NilZero.string_of_uint (Nat.to_uint i).
Definition suffixed (name : string) (i : nat) : string := (name ++ "_" ++ decimal i)%string.
Definition mem (s : string) (l : list string) : bool := existsb (String.eqb s) l.
(** the loop on [i]: [k] is the number of tries left, [cur] the current new_name *)
Fixpoint try_names (name : string) (used : list string) (i k : nat) (cur : string) : string :=
  match k with
  | O => cur
  | S k' => let new := suffixed name i in if mem new used then try_names name used (S i) k' new else new
  end.
Definition new_name (s : string) (used : list string) : string := if mem s used then try_names s used 0 100 s else s.
Definition collada_id (name : option string) (used : list string) : option string * list string :=
  match name with
  | None | Some EmptyString => (None, used)
  | Some s => let new := new_name s used in (Some new, used ++ [new])
  end.
Definition get_node (name : option string) (v : drv) : option string * drv :=
  let (i, l) := collada_id name (v_names v) in (i, DV (v_opt v) l (v_mats v) (v_phys v)).

(** [_add_new_material], dae_writer.py:366-378 *)
Definition rgb_eqb (a b : rgb) : bool := let '(x, y, z) := a in let '(x', y', z') := b in Reqb x x' && Reqb y y' && Reqb z z'.
Fixpoint color_index (c : rgb) (l : list rgb) : option nat :=
  match l with [] => None | x :: l' => if rgb_eqb x c then Some O else option_map S (color_index c l') end.
Definition material (c : rgb) (v : drv) : nat * drv :=
  match color_index c (v_mats v) with
  | Some i => (i, v)
  | None => (length (v_mats v), DV (v_opt v) (v_names v) (v_mats v ++ [c]) (v_phys v))
  end.
(** [_add_new_geometry], dae_writer.py:380-386, with the transforms and description its callers add *)
Definition geometry (name : option string) (c : rgb) (g : mesh) (l : list tf) (desc : option string) (v : drv) : dnode * drv :=
  let (i, v1) := get_node name v in
  let (m, v2) := material c v1 in
  (DN i l g (Some m) desc, v2).

(** [_set_up_axis], dae_writer.py:356-364: in the last case the message is [str + array + str], a TypeError *)
Inductive upaxis := X_UP | Y_UP | Z_UP.
Definition set_up_axis (up : v3) : res upaxis :=
  if v3eqb up (V3 1 0 0) then Ok X_UP else if v3eqb up (V3 0 1 0) then Ok Y_UP else if v3eqb up (V3 0 0 1) then Ok Z_UP else Err TypeError.

Section Driver.
  Variable argsort : v3 -> nat * nat * nat.              (* numpy.argsort, in zaligned *)
  Variables (eigvals : m6 -> list R) (eig : m3 -> v3 * m3). (* numpy.linalg *)
  Variable daenim : bool.                                (* DaenimColladaDriver, or pydaenimColladaDriver *)
  Definition described (d : string) : option string := if daenim then Some d else None.

  (** create_ellipsoid, create_box, create_cylinder: dae_writer.py:416-441, visu_collada.py:79-92 *)
  Definition create_ellipsoid (radii : v3) (c : rgb) (name : option string) (v : drv) : dnode * drv := geometry name c MSphere [TScale radii] (described "shape") v.
  Definition create_box (he : v3) (c : rgb) (name : option string) (v : drv) : dnode * drv := geometry name c MBox [TScale he] (described "shape") v.
  Definition create_cylinder (len radius : R) (c : rgb) (name : option string) (v : drv) : dnode * drv :=
    geometry name c MCylinder [TScale (V3 radius radius len)] (described "shape") v.
  (** create_sphere, create_point: world_drawer.py:130-135 (the name is not passed on) *)
  Definition create_sphere (r : R) (c : rgb) (name : option string) (v : drv) : dnode * drv := create_ellipsoid (V3 r r r) c None v.
  Definition create_point (c : rgb) (name : option string) (v : drv) : dnode * drv := create_sphere (op_point (v_opt v)) c None v.
  (** create_plane, dae_writer.py:443-455, visu_collada.py:94-97 *)
  Definition create_plane (n : v3) (d : R) (c : rgb) (name : option string) (v : drv) : res (dnode * drv) :=
    let* H := zaligned_ argsort n in
    let H1 := M4 (rot H) (vscal d n) (bot H) (hom H) in
    let (hx, hy) := op_plane (v_opt v) in
    Ok (geometry name c MPlane [TMat H1; TScale (V3 hx hy 0)] (described "shape") v).
  (** create_frame_arrows: dae_writer.py:482-483, visu_collada.py:99-112 *)
  Definition create_arrows (v : drv) : option dnode :=
    if daenim then Some (DN None [TScale (V3 (op_arrows (v_opt v)) (op_arrows (v_opt v)) (op_arrows (v_opt v)))] MArrows None None) else None.
  (** create_line: dae_writer.py:485-486, visu_collada.py:114-133 *)
  Definition create_line (a b : v3) (c : rgb) (name : option string) (v : drv) : res (option dnode * drv) :=
    if daenim then
      let u := vsub b a in
      let l := norm3 u in
      if Rltb 0 l then
        let* H := zaligned_ argsort (vdiv u l) in
        let H1 := M4 (rot H) a (bot H) (hom H) in
        let (N, v1) := geometry name c MLine [TScale (V3 l l l); TMat H1] (described "link") v in Ok (Some N, v1)
      else Err AssertionError
    else Ok (None, v).
  (** create_inertia of the base driver, dae_writer.py:457-480.  An attribute cannot be None in the XML library (the TypeError stands for its error). *)
  Definition deg (a : R) : R := a * (180 / PI).
  Definition diag_of (M : m6) : v3 := V3 (m00 (aa M)) (m11 (aa M)) (m22 (aa M)).
  Definition rigid_of (M : m6) (name : option string) : res rigid :=
    let* H := principalframe eigvals eig M in
    let* Mcom := transport eigvals M H in
    let* (z, y, x) := rotzyx_angles H in
    match name with
    | None => Err TypeError
    | Some s => Ok (RB s (m22 (ll Mcom)) (pos H) [(V3 0 0 1, deg z); (V3 0 1 0, deg y); (V3 1 0 0, deg x)] (diag_of Mcom))
    end.
  Definition create_inertia_base (M : m6) (name : option string) (v : drv) : res drv :=
    let* r := rigid_of M name in Ok (DV (v_opt v) (v_names v) (v_mats v) (v_phys v ++ [r])).
  (** create_inertia of the Daenim driver, visu_collada.py:135-157: the base is called with its default name; [name + ".inertia"];
      the description of the ellipsoid is replaced *)
  Definition create_inertia (M : m6) (c : rgb) (name : option string) (v : drv) : res (option dnode * drv) :=
    if daenim then
      let* v1 := create_inertia_base M (Some EmptyString) v in
      let* H := principalframe eigvals eig M in
      let* Mcom := transport eigvals M H in
      match name with
      | None => Err TypeError
      | Some s =>
          let (N, v2) := create_ellipsoid (vscal (op_factor (v_opt v1)) (diag_of Mcom)) c (Some (s ++ ".inertia")%string) v1 in
          Ok (Some (DN (dn_id N) (TMat H :: dn_tfs N) (dn_mesh N) (dn_mat N) (described "inertia")), v2)
      end
    else let* v1 := create_inertia_base M name v in Ok (None, v1).

  (** what the Drawer asks for a shape, world_drawer.py:379-395 *)
  Definition create_shape (g : geom) (c : rgb) (name : option string) (v : drv) : res (dnode * drv) :=
    match g with
    | Sphere r => Ok (create_sphere r c name v)
    | Point => Ok (create_point c name v)
    | Cylinder l r => Ok (create_cylinder l r c name v)
    | Plane n d => create_plane n d c name v
    | Box he => Ok (create_box he c name v)
    end.

  Variables (S : dscene) (geo : nat -> geom).
  (** the item of Model_Draw, drawn; the line of a link goes from the origin of the parent, world_drawer.py:277-279 *)
  Definition create_item (i : item) (v : drv) : res (option dnode * drv) :=
    match i with
    | IArrows => Ok (create_arrows v, v)
    | ILine p c => create_line zero3 p c (Some EmptyString) v
    | IInertia b c => create_inertia (b_mass (ds_sc S) b) c (ds_nm S (OFrame (FBody b))) v
    | IShape s c => let* (N, v1) := create_shape (geo s) c (ds_nm S (OShape s)) v in Ok (Some N, v1)
    end.

  (** The document: the vertical axis, the Drawer's scene, the ids of its transform nodes (create_transform, dae_writer.py:409-414; all carry a matrix of
      sid "matrix"), the instances below them, the driver.  The ground node has the id "ground", dae_writer.py:388-399. *)
  Record dae := Dae { da_up : upaxis; da_draw : draw; da_ids : list (nat * option string); da_items : list (nat * dnode); da_drv : drv }.
  Fixpoint number_nodes (l : list (nat * node)) (ids : list (nat * option string)) (v : drv) : list (nat * option string) * drv :=
    match l with
    | [] => (ids, v)
    | (n, x) :: l' => let (i, v1) := get_node (ds_nm S (OFrame (n_frame x))) v in number_nodes l' ((n, i) :: ids) v1
    end.
  Fixpoint draw_items (l : list (nat * item)) (its : list (nat * dnode)) (v : drv) : res (list (nat * dnode) * drv) :=
    match l with
    | [] => Ok (its, v)
    | (n, i) :: l' => let* (N, v1) := create_item i v in draw_items l' (match N with Some N => (n, N) :: its | None => its end) v1
    end.
  (** what an event added to a list that grows at its head, oldest first *)
  Definition added {A} (old new : list A) : list A := rev (firstn (length new - length old) new).
  (** One call of World.parse.  The Drawer (Model_Draw) says which nodes and items it creates; within a call every node that takes a
      name precedes the items that do.  (Should both the Drawer and the driver fail, the error given is the Drawer's.) *)
  Definition dae_event (flat : bool) (ev : event) (D : dae) : res dae :=
    let* d := draw_event S flat ev (da_draw D) in
    let (ids, v1) := number_nodes (added (d_nodes (da_draw D)) (d_nodes d)) (da_ids D) (da_drv D) in
    let* (its, v2) := draw_items (added (d_items (da_draw D)) (d_items d)) (da_items D) v1 in
    Ok (Dae (da_up D) d ids its v2).
  Fixpoint dae_events (flat : bool) (evs : list event) (D : dae) : res dae :=
    match evs with [] => Ok D | ev :: evs' => let* D1 := dae_event flat ev D in dae_events flat evs' D1 end.
  (** a new driver and a new Drawer, then [world.parse(drawer)]; [up] is world.up, given to add_ground by init_parse *)
  Definition new_drv (scale : R) (update : dopts -> dopts) : drv := DV (driver_options scale update) [] [] [].
  Definition dae_world (flat : bool) (fuel : nat) (h : @heap R) (up : v3) (cs : colors) (scale : R) (update : dopts -> dopts) : res dae :=
    let* a := set_up_axis up in
    let* evs := parse (ds_e S) fuel h in dae_events flat evs (Dae a (new_draw cs) [] [] (new_drv scale update)).
End Driver.

(** the id of node [n] of the document *)
Definition ground_id : string := "ground".
Definition node_id (D : dae) (n : nat) : option string :=
  match n with
  | O => Some ground_id
  | _ => match find (fun x => Nat.eqb (fst x) n) (da_ids D) with Some (_, i) => i | None => None end
  end.

