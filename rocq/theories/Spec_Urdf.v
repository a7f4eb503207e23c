(** Specification vocabulary for the URDF robots. *)
From Verif Require Export Model_Urdf Spec_World Spec_Mass Spec_Coll.
Open Scope R_scope.

(** the description is a tree: links have distinct names, each joint goes from a link to another one, no link is the child of two
    joints, there is no cycle ([rank] increases from parent to child), and there is one root; [r_parent_map] is what the parser leaves *)
Record tree_robot (rb : robot) : Prop := {
  tr_links : NoDup (map fst (r_links rb));
  tr_joints : NoDup (map fst (r_joints rb));
  tr_parent : forall n j, In (n, j) (r_joints rb) -> In (uj_parent j) (map fst (r_links rb));
  tr_child : forall n j, In (n, j) (r_joints rb) -> In (uj_child j) (map fst (r_links rb));
  tr_children : NoDup (map (fun x => uj_child (snd x)) (r_joints rb));
  tr_acyclic : exists rank : string -> nat, forall n j, In (n, j) (r_joints rb) -> (rank (uj_parent j) < rank (uj_child j))%nat;
  tr_root : exists r, In r (map fst (r_links rb)) /\ (forall n j, In (n, j) (r_joints rb) -> uj_child j <> r) /\
      forall x, In x (map fst (r_links rb)) -> x <> r -> exists n j, In (n, j) (r_joints rb) /\ uj_child j = x;
  tr_map : forall c n p, In (c, (n, p)) (r_parent_map rb) <-> exists j, In (n, j) (r_joints rb) /\ uj_child j = c /\ uj_parent j = p }.

(** the same, of a file: the list of its elements in any order *)
Definition ulinks_of (l : list element) : list (string * ulink) := flat_map (fun x => match x with ELinkOf n u => [(n, u)] | _ => [] end) l.
Definition ujoints_of (l : list element) : list (string * ujoint) := flat_map (fun x => match x with EJointOf n j => [(n, j)] | _ => [] end) l.
Record tree_file (l : list element) : Prop := {
  tf_links : NoDup (map fst (ulinks_of l));
  tf_joints : NoDup (map fst (ujoints_of l));
  tf_parent : forall n j, In (EJointOf n j) l -> exists u, In (ELinkOf (uj_parent j) u) l;
  tf_child : forall n j, In (EJointOf n j) l -> exists u, In (ELinkOf (uj_child j) u) l;
  tf_children : NoDup (map (fun x => uj_child (snd x)) (ujoints_of l));
  tf_acyclic : exists rank : string -> nat, forall n j, In (EJointOf n j) l -> (rank (uj_parent j) < rank (uj_child j))%nat;
  tf_root : exists r u, In (ELinkOf r u) l /\ (forall n j, In (EJointOf n j) l -> uj_child j <> r) /\
      forall x u, In (ELinkOf x u) l -> x <> r -> exists n j, In (EJointOf n j) l /\ uj_child j = x }.
(** the joints met from link [a] down to link [b] *)
Inductive route (rb : robot) (a : string) : string -> list (string * ujoint) -> Prop :=
  | route_nil : route rb a a []
  | route_step : forall l n j, route rb a (uj_parent j) l -> In (n, j) (r_joints rb) -> route rb a (uj_child j) (l ++ [(n, j)]).
(** the names along it, from the top *)
Definition names_along (joints links fixed : bool) (a : string) (l : list (string * ujoint)) : list string :=
  (if links then [a] else []) ++ flat_map (fun x => (if joints && (fixed || negb (is_fixed (uj_kind (snd x)))) then [fst x] else []) ++ (if links then [uj_child (snd x)] else [])) l.

(** every optional element is either present and complete or may be left out without harm *)
Definition complete_pose (p : option upose) : Prop := match p with None => True | Some p => up_xyz p <> None /\ up_rpy p <> None end.
(** the axis is one of the axes of the frame, or a unit vector clearly different from them; a revolute or prismatic joint has limits *)
Definition is_basis (v : v3) : Prop := v = V3 1 0 0 \/ v = V3 0 1 0 \/ v = V3 0 0 1.
Definition loadable_joint (j : ujoint) : Prop :=
  complete_pose (uj_origin j) /\
  match uj_kind j with
  | Revolute | Prismatic => uj_limits j <> None /\ exists v, uj_axis j = Some (AxVec v) /\ norm3 v = 1 /\
      (is_basis v \/ (allclose v (V3 1 0 0) = false /\ allclose v (V3 0 1 0) = false /\ allclose v (V3 0 0 1) = false))
  | Fixed | Floating => uj_axis j <> None /\ uj_axis j <> Some AxBad
  | _ => False
  end.
(** a box, a sphere, a cylinder *)
Definition solid (g : ugeom) : Prop := match g with GBox _ | GSphere _ | GCylinder _ _ => True | _ => False end.
(** the inertia tensor is positive definite (its diagonal and the mass being at least 1e-6) *)
Definition loadable_link (l : ulink) : Prop :=
  (match ul_inertial l with
   | None => True
   | Some i => complete_pose (ui_origin i) /\ forall u, u <> zero3 -> 0 < dot3 u (mv (M3 (Rmax (1 / 1000000) (ui_xx i)) (ui_xy i) (ui_xz i)
                 (ui_xy i) (Rmax (1 / 1000000) (ui_yy i)) (ui_yz i) (ui_xz i) (ui_yz i) (Rmax (1 / 1000000) (ui_zz i))) u)
   end) /\
  (match ul_collision l with None => True | Some (g, p) => g <> GMesh true /\ g <> GNone /\ complete_pose p end).
Definition loadable (rb : robot) : Prop :=
  tree_robot rb /\ (forall n l, In (n, l) (r_links rb) -> loadable_link l) /\ (forall n j, In (n, j) (r_joints rb) -> loadable_joint j).

(** the pose written in the file; the pose of the child link with respect to the joint origin: a rotation by [q] about the unit vector
    [v] (Rodrigues' formula), a translation along it *)
Definition origin_of (p : option upose) : m4 :=
  match p with
  | Some (UPose (Some t) (Some r)) => M4 (mm (mm (rot (rotz (vz r))) (rot (roty (vy r)))) (rot (rotx (vx r)))) t (V3 0 0 0) 1
  | _ => eye4
  end.
Definition rotation_about (v : v3) (q : R) : m4 :=
  M4 (madd eye3 (madd (mscal (sin q) (skew v)) (mscal (1 - cos q) (mm (skew v) (skew v))))) (V3 0 0 0) (V3 0 0 0) 1.
Definition urdf_motion (j : ujoint) (s : jstate) : m4 :=
  match uj_kind j, uj_axis j with
  | Revolute, Some (AxVec v) => rotation_about v (gpos s 0%nat)
  | Prismatic, Some (AxVec v) => let t := vscal (gpos s 0%nat) v in transl (vx t) (vy t) (vz t)
  | Floating, _ => gposH s
  | _, _ => eye4
  end.

(** the inertia about the centre of mass, and the mass matrix of the link about its own origin: the inertia is turned into the link
    axes and moved by the parallel axis theorem; the mass and the diagonal are at least 1e-6 *)
Definition inertia_of (i : uinertial) : m3 :=
  M3 (Rmax (1 / 1000000) (ui_xx i)) (ui_xy i) (ui_xz i) (ui_xy i) (Rmax (1 / 1000000) (ui_yy i)) (ui_yz i) (ui_xz i) (ui_yz i) (Rmax (1 / 1000000) (ui_zz i)).
Definition urdf_mass (l : ulink) : option m6 :=
  match ul_inertial l with
  | None => None
  | Some i => let A := rot (origin_of (ui_origin i)) in
              Some (rigid_mass (Rmax (1 / 1000000) (ui_mass i)) (pos (origin_of (ui_origin i)))
                (madd (mm (mm A (inertia_of i)) (tr A)) (mscal (Rmax (1 / 1000000) (ui_mass i)) (mm (skew (pos (origin_of (ui_origin i)))) (tr (skew (pos (origin_of (ui_origin i)))))))))
  end.
(** objects that have just been created are all different and attached to nothing *)
Definition unew (I : uids) (h : @heap R) (e : env) : Prop :=
  (forall k l, ub I k = ub I l -> k = l) /\ (forall k l, uj I k = uj I l -> k = l) /\ (forall k, uj I k <> uroot I) /\
  (forall k, ub I k <> ground e /\ parentjoint h (ub I k) = None /\ childrenjoints h (ub I k) = []) /\
  (forall k, jframes h (uj I k) = None) /\ jframes h (uroot I) = None.
Definition uknown (e : env) (h : @heap R) (c : ucreated) : Prop :=
  match c with
  | UBody _ _ => True
  | UJnt j k => jndof e j = ndof_of k /\ joint_gvel h j = repeat 0 (ndof_of k)
  | USub s b _ => sub_body e s = b
  | UShape s f _ => shape_frame e s = f
  | ULimits c _ _ _ => con_children e c = []
  end.
Definition ubuilt (sc : scene) (J : nat -> jstate) (c : ucreated) : Prop :=
  match c with
  | UBody b (Some M) => b_mass sc b = M
  | UJnt j k => jt (J j) = k
  | USub s _ H => sub_bpose sc s = H
  | _ => True
  end.
(** the body of the link called [n] *)
Definition body_named (rb : robot) (I : uids) (n : string) (b : nat) : Prop :=
  exists i l, nth_error (r_links rb) i = Some (n, l) /\ b = ub I i.
(** the link that is the child of no joint, the other links being children *)
Definition root_name (rb : robot) (r : string) : Prop :=
  In r (map fst (r_links rb)) /\ (forall n j, In (n, j) (r_joints rb) -> uj_child j <> r) /\ forall x, In x (map fst (r_links rb)) -> x <> r -> exists n j, In (n, j) (r_joints rb) /\ uj_child j = x.
(** the degrees of freedom of the joints of the robot *)
Definition udof (j : ujoint) : nat := match uj_kind j with Revolute | Prismatic => 1 | Floating => 6 | _ => 0 end.

(** the objects created for the robot: a body and possibly a collision shape per link (boxes are given by their half sides), a joint and
    possibly limits per joint, the root joint *)
Record urdf_objects (e : env) (I : uids) (o : options) (rb : robot) (cr : list ucreated) : Prop := {
  uo_body : forall b M, In (UBody b M) cr <-> exists i n l, nth_error (r_links rb) i = Some (n, l) /\ b = ub I i /\ M = urdf_mass l;
  uo_shape : forall s f g, In (UShape s f g) cr <-> exists i n l g0 p, nth_error (r_links rb) i = Some (n, l) /\ ul_collision l = Some (g0, p) /\ solid g0 /\
      s = ush I i /\ f = FSub (ucf I i) /\ In (USub (ucf I i) (ub I i) (origin_of p)) cr /\ g = match g0 with GBox d => GBox (vscal (1 / 2) d) | _ => g0 end;
  uo_joint : forall u ty, In (UJnt u ty) cr -> (u = uroot I /\ ty = if o_fixed_base o then FixedJoint else FreeJoint) \/
      exists k n j, nth_error (r_joints rb) k = Some (n, j) /\ u = uj I k /\ ndof_of ty = udof j;
  uo_joint' : forall k n j, nth_error (r_joints rb) k = Some (n, j) -> exists ty, In (UJnt (uj I k) ty) cr;
  uo_root : In (UJnt (uroot I) (if o_fixed_base o then FixedJoint else FreeJoint)) cr;
  uo_sub : forall s b H, In (USub s b H) cr -> (exists i n l g p, nth_error (r_links rb) i = Some (n, l) /\ ul_collision l = Some (g, p) /\ s = ucf I i /\ b = ub I i /\ H = origin_of p) \/
      (exists k n j, nth_error (r_joints rb) k = Some (n, j) /\ ((s = upf I k /\ body_named rb I (uj_parent j) b) \/ (s = ukf I k /\ body_named rb I (uj_child j) b))) \/
      (s = uinit I /\ b = ground e /\ o_H_init o = Some H);
  uo_limits : forall c u lo up, In (ULimits c u lo up) cr <-> o_save_limits o = true /\ exists k n j, nth_error (r_joints rb) k = Some (n, j) /\
      (uj_kind j = Revolute \/ uj_kind j = Prismatic) /\ uj_limits j = Some (Some lo, Some up) /\ c = ulim I k /\ u = uj I k }.
Definition uregistered (h : @heap R) (c : ucreated) : Prop :=
  match c with UShape s _ _ => In s (w_shapes h) | ULimits c _ _ _ => In c (w_constraints h) | _ => True end.
