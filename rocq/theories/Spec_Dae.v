(** Specification vocabulary for a collada document: the points its meshes cover. *)
From Verif Require Export Model_Dae Spec_Draw Spec_Mass Spec_Coll Spec_Tree.
Open Scope R_scope.

(** the points of the meshes of simple_shapes.dae, in their own coordinates: unit ball, cube of half side 1, cylinder of radius 1
    and length 1 along z, square of half side 1 in the plane z = 0, unit segment and unit axes (the facets of the round ones are ignored) *)
Definition in_mesh (g : mesh) (u : v3) : Prop :=
  match g with
  | MSphere => norm3 u <= 1
  | MBox => Rabs (vx u) <= 1 /\ Rabs (vy u) <= 1 /\ Rabs (vz u) <= 1
  | MCylinder => sqrt (vx u * vx u + vy u * vy u) <= 1 /\ Rabs (vz u) <= 1 / 2
  | MPlane => Rabs (vx u) <= 1 /\ Rabs (vy u) <= 1 /\ vz u = 0
  | MLine => vx u = 0 /\ vy u = 0 /\ 0 <= vz u <= 1
  | MArrows => (0 <= vx u <= 1 /\ vy u = 0 /\ vz u = 0) \/ (vx u = 0 /\ 0 <= vy u <= 1 /\ vz u = 0) \/ (vx u = 0 /\ vy u = 0 /\ 0 <= vz u <= 1)
  end.
(** the points of space covered by the instance [N], its parent node lying at [P] *)
Definition covers (P : m4) (N : dnode) (x : v3) : Prop := exists u, in_mesh (dn_mesh N) u /\ x = ground_of (mm4 P (tfs_mat (dn_tfs N))) u.

(** the cylinder of axis z of the frame [P], centred on it *)
Definition in_cylinder (P : m4) (len radius : R) (x : v3) : Prop :=
  exists u, x = ground_of P u /\ sqrt (vx u * vx u + vy u * vy u) <= radius /\ Rabs (vz u) <= len / 2.
(** [e1], [e2], [n] orthonormal *)
Definition triad (e1 e2 n : v3) : Prop :=
  norm3 e1 = 1 /\ norm3 e2 = 1 /\ dot3 e1 e2 = 0 /\ dot3 e1 n = 0 /\ dot3 e2 n = 0.
(** the square of the plane n.u = d of the frame [P], of sides along [e1] and [e2], of half sides [a] and [b], centred at the foot of the origin on this plane *)
Definition in_rectangle (P : m4) (n : v3) (d : R) (e1 e2 : v3) (a b : R) (x : v3) : Prop :=
  exists s t, Rabs s <= a /\ Rabs t <= b /\ x = ground_of P (vadd (vscal d n) (vadd (vscal s e1) (vscal t e2))).
(** the segment between [a] and [b] *)
Definition segment (a b x : v3) : Prop := exists k, 0 <= k <= 1 /\ x = vadd a (vscal k (vsub b a)).
(** the ellipsoid of principal axes those of the frame [P] *)
Definition in_ellipsoid (P : m4) (radii : v3) (x : v3) : Prop :=
  exists u, norm3 u <= 1 /\ x = ground_of P (V3 (vx radii * vx u) (vy radii * vy u) (vz radii * vz u)).

(** the axes of the frame [P], over the length [a] *)
Definition on_axes (P : m4) (a : R) (x : v3) : Prop :=
  exists k, 0 <= k <= a /\ (x = ground_of P (V3 k 0 0) \/ x = ground_of P (V3 0 k 0) \/ x = ground_of P (V3 0 0 k)).

(** the instance [N] below a node at [P] covers the shape [g] of a frame of pose [P]; a point is drawn as a ball and a plane as a
    square, of the given sizes *)
Definition drawn_shape (point_radius plane_half : R) (g : geom) (P : m4) (N : dnode) : Prop :=
  match g with
  | Sphere r => forall x, covers P N x <-> ball (pos P) r x
  | Point => forall x, covers P N x <-> ball (pos P) point_radius x
  | Box he => forall x, covers P N x <-> in_box P he x
  | Cylinder l r => forall x, covers P N x <-> in_cylinder P l r x
  | Plane n d => exists e1 e2, triad e1 e2 n /\ forall x, covers P N x <-> in_rectangle P n d e1 e2 plane_half plane_half x
  end.
(** shapes as their constructors make them, with positive sizes *)
Definition sized (g : geom) : Prop :=
  match g with
  | Sphere r => 0 <= r
  | Point => True
  | Box he => 0 <= vx he /\ 0 <= vy he /\ 0 <= vz he
  | Cylinder l r => 0 <= l /\ 0 <= r
  | Plane n d => norm3 n = 1
  end.

(** what the drivers need: a vertical axis among x, y, z; unit normals and positive sizes; for each body that has a mass, the mass
    matrix of a rigid body (numpy.linalg being right on it) and a name *)
Definition up_ok (up : v3) : Prop := up = V3 1 0 0 \/ up = V3 0 1 0 \/ up = V3 0 0 1.
Definition has_inertia (eigvals : m6 -> list R) (eig : m3 -> v3 * m3) (M : m6) (m : R) (c : v3) (I0 : m3) : Prop :=
  tr I0 = I0 /\ M = rigid_mass m c I0 /\ mass_of m M /\ eigvals_of M (eigvals M) /\
  eig_of (madd I0 (mscal m (mm (skew c) (skew c)))) (eig (madd I0 (mscal m (mm (skew c) (skew c))))).
(** the shapes and bodies of the world *)
Definition has_shape (e : env) (h : @heap R) (t : tree) (s : nat) : Prop := In s (w_shapes h) /\ In (frame_body e (shape_frame e s)) (bodies t).
Definition has_body (S : dscene) (t : tree) (b : nat) : Prop := In b (bodies t) /\ 10 / 100000000 < norm66 (b_mass (ds_sc S) b).
Definition writable (eigvals : m6 -> list R) (eig : m3 -> v3 * m3) (S : dscene) (geo : nat -> geom) (h : @heap R) (t : tree) (up : v3) : Prop :=
  up_ok up /\ (forall s, has_shape (ds_e S) h t s -> sized (geo s)) /\
  (forall b, has_body S t b -> (exists m c I0, has_inertia eigvals eig (b_mass (ds_sc S) b) m c I0) /\ ds_nm S (OFrame (FBody b)) <> None).
(** the instances of the document that stand for shapes: those so described by the Daenim driver, all of them for the other one *)
Definition shape_instances (daenim : bool) (D : dae) : list (nat * dnode) :=
  filter (fun x => if daenim then match dn_desc (snd x) with Some s => String.eqb s "shape" | None => false end else true) (da_items D).
(** the instances with a description: "link" and "inertia" for the Daenim driver *)
Definition described_as (s : string) (D : dae) : list (nat * dnode) :=
  filter (fun x => match dn_desc (snd x) with Some s' => String.eqb s' s | None => false end) (da_items D).
Definition not_described (D : dae) : list (nat * dnode) := filter (fun x => match dn_desc (snd x) with Some _ => false | None => true end) (da_items D).
(** the ids of the document, the ground node excepted *)
Definition somes {A} (l : list (option A)) : list A := flat_map (fun o => match o with Some a => [a] | None => [] end) l.
Definition doc_ids (D : dae) : list string := somes (map snd (da_ids D)) ++ somes (map (fun x => dn_id (snd x)) (da_items D)).
(** what may have a name in the document: the frames but the ground, the shapes (spheres and points excepted), and for the Daenim
    driver the inertias *)
Inductive thing := TFrame (f : frame) | TShape (s : nat) | TInertia (b : nat).
Definition in_doc (S : dscene) (h : @heap R) (t : tree) (x : thing) : Prop :=
  match x with
  | TFrame f => In (frame_body (ds_e S) f) (bodies t) /\ known h f /\ f <> FBody (ground (ds_e S))
  | TShape s => has_shape (ds_e S) h t s
  | TInertia b => has_body S t b
  end.
Definition label (daenim : bool) (S : dscene) (geo : nat -> geom) (x : thing) : option string :=
  match x with
  | TFrame f => ds_nm S (OFrame f)
  | TShape s => match geo s with Sphere _ | Point => None | _ => ds_nm S (OShape s) end
  | TInertia b => if daenim then option_map (fun s => s ++ ".inertia")%string (ds_nm S (OFrame (FBody b))) else None
  end.
(** no name is given to two of them (an empty name is no name) *)
Definition distinct_names (daenim : bool) (S : dscene) (geo : nat -> geom) (h : @heap R) (t : tree) : Prop :=
  forall x y s, in_doc S h t x -> in_doc S h t y -> label daenim S geo x = Some s -> label daenim S geo y = Some s -> s <> ""%string -> x = y.
Definition nonempty (o : option string) : option string := match o with Some EmptyString => None | _ => o end.
(** the colour of an instance *)
Definition colored (D : dae) (N : dnode) (c : rgb) : Prop := exists m, dn_mat N = Some m /\ nth_error (v_mats (da_drv D)) m = Some c.

(** a world, ready for a drawing: built through the API and initialised, with rigid joints and subframes, up-to-date poses
    ([world.update_geometric()]), every shape of one of the five classes, no joint ending at a MovingSubFrame, enough recursion
    budget, a new ColorGenerator, numpy.linalg.inv right on rigid motions *)
Definition drawable_world (S : dscene) (g0 : nat -> nat -> R) (h : @heap R) (t : tree) (fuel : nat) (cs : colors) : Prop :=
  reachable 0 (ds_e S) g0 h /\ ready (ds_e S) h t /\ rigid_scene (ds_e S) (ds_sc S) t (ds_J S) /\ (height t < fuel)%nat /\
  (exists m nb, new_colors m nb = Ok cs) /\
  (forall j f0 k, In j (joints t) -> jframes h j <> Some (f0, FMov k)) /\
  (forall s, has_shape (ds_e S) h t s -> ds_known S s = true) /\
  inv4_spec (ds_inv S) /\ (exists st0, world_update_geometric (ds_e S) (ds_sc S) h (ds_J S) fuel st0 = Ok (ds_st S)).
(** node [n] of the scene lies at the pose [P] of the frame [f] (moving subframes of a flat scene excepted, see C59) *)
Definition lies_at (S : dscene) (flat : bool) (d : draw) (f : frame) (n : nat) (P : m4) : Prop :=
  d_frames d f = Some n /\ frame_pose (ds_e S) (ds_sc S) (ds_st S) f = Ok P /\
  (flat = false \/ (forall k, f <> FMov k) -> forall Q, at_pose n_pose (d_nodes d) n Q <-> Q = P).

(** rotation of [a] degrees about the unit axis [u] (Rodrigues), the matrix of a rotate element *)
Definition about (x : v3 * R) : m3 :=
  let u := fst x in let a := snd x * (PI / 180) in
  madd (madd (mscal (cos a) eye3) (mscal (sin a) (skew u)))
       (mscal (1 - cos a) (M3 (vx u * vx u) (vx u * vy u) (vx u * vz u) (vy u * vx u) (vy u * vy u) (vy u * vz u) (vz u * vx u) (vz u * vy u) (vz u * vz u))).
(** the rotation of a mass_frame: its rotate elements, in order *)
Definition frame_rot (r : rigid) : m3 := fold_right (fun x M => mm (about x) M) eye3 (rb_rots r).
