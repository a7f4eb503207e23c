(** arboris/robots/urdf: [URDF.add_link], [add_joint], [get_root], [get_chain] (urdf_parser.py), [to_arboris] and [URDFConverter.load_in_world]
    (__init__.py).  The XML text itself is not modelled, nor the names given to the arboris objects. *)
From Verif Require Export Model_Mass Model_Dyn Model_Coll.
Open Scope R_scope.

(** ** What the parser leaves, urdf_parser.py *)
(** [Mesh] (with a scale or not), [Box], [Sphere], [Cylinder]; urdf_parser.py:152-248; [GNone]: no geometry, or one of another kind (147-148) *)
Inductive ugeom := GMesh (scaled : bool) | GNone | GBox (dims : v3) | GSphere (radius : R) | GCylinder (radius len : R).
(** [Pose]: position, rotation (roll, pitch, yaw); an attribute absent from the file stays None, urdf_parser.py:568-582 *)
Record upose := UPose { up_xyz : option v3; up_rpy : option v3 }.
(** [Inertial], urdf_parser.py:250-274 *)
Record uinertial := UInertial { ui_mass : R; ui_origin : option upose; ui_xx : R; ui_yy : R; ui_zz : R; ui_xy : R; ui_xz : R; ui_yz : R }.
(** [Link], urdf_parser.py:489-509 (the visual is not used by load_in_world) *)
Record ulink := ULink { ul_inertial : option uinertial; ul_collision : option (ugeom * option upose) }.
(** the text of an axis: three numbers, three words that are not all numbers, or something else; [Joint.joint_type] *)
Inductive uaxis := AxVec (v : v3) | AxBad | AxWord (w : string).
Inductive ukind := Revolute | Continuous | Prismatic | Floating | Planar | Fixed | UnknownKind.
(** [Joint] (elements absent from the file stay None), urdf_parser.py:301-352; [limits]: lower and upper, 434-449 *)
Record ujoint := UJoint { uj_parent : string; uj_child : string; uj_kind : ukind; uj_axis : option uaxis; uj_origin : option upose;
                          uj_limits : option (option R * option R) }.
(** [URDF]: the dicts, as the list of their items in the order in which Python iterates over them (left open): links, joints and
    parent_map (child -> joint, parent); [child_map] is never read; urdf_parser.py:666-676 *)
Record robot := Robot { r_links : list (string * ulink); r_joints : list (string * ujoint); r_parent_map : list (string * (string * string)) }.
(** dict assignment [d[k] = v] and [d[k]] *)
Definition dset {A} (k : string) (v : A) (d : list (string * A)) : list (string * A) := (k, v) :: filter (fun x => negb (String.eqb k (fst x))) d.
Fixpoint dget {A} (k : string) (d : list (string * A)) : res A :=
  match d with [] => Err KeyError | (m, v) :: d' => if String.eqb k m then Ok v else dget k d' end.
(** [URDF.add_link], [URDF.add_joint] (urdf_parser.py:724-734) and [parse_xml_string], on the elements of the file in order (680-702) *)
Inductive element := ELinkOf (name : string) (l : ulink) | EJointOf (name : string) (j : ujoint).
Definition add_element (x : element) (rb : robot) : robot :=
  match x with
  | ELinkOf n l => Robot (dset n l (r_links rb)) (r_joints rb) (r_parent_map rb)
  | EJointOf n j => Robot (r_links rb) (dset n j (r_joints rb)) (dset (uj_child j) (n, uj_parent j) (r_parent_map rb))
  end.
Definition parse_urdf (l : list element) : robot := fold_left (fun rb x => add_element x rb) l (Robot [] [] []).
(** [URDF.get_root], urdf_parser.py:755-762 *)
Definition mem (x : string) (l : list string) : bool := existsb (String.eqb x) l.
Fixpoint root_loop (pm : list string) (l : list string) (r : option string) : res (option string) :=
  match l with
  | [] => Ok r
  | x :: l' => if mem x pm then root_loop pm l' r else match r with None => root_loop pm l' (Some x) | Some _ => Err AssertionError end
  end.
Definition get_root (rb : robot) : res string :=
  let* r := root_loop (map fst (r_parent_map rb)) (map fst (r_links rb)) None in match r with Some x => Ok x | None => Err AssertionError end.
(** [URDF.get_chain], urdf_parser.py:739-753; [None]: the loop has not ended after [fuel] turns *)
Definition is_fixed (k : ukind) : bool := match k with Fixed => true | _ => false end.
Fixpoint chain_loop (fuel : nat) (rb : robot) (root : string) (joints links fixed : bool) (link : string) (chain : list string) : option (res (list string)) :=
  match fuel with
  | O => None
  | S fuel' =>
      if String.eqb link root then Some (Ok (rev chain))
      else match (let* x := dget link (r_parent_map rb) in
                  let* c1 := if joints then (if fixed then Ok (chain ++ [fst x]) else
                       let* j := dget (fst x) (r_joints rb) in Ok (if is_fixed (uj_kind j) then chain else chain ++ [fst x])) else Ok chain in
                  Ok (snd x, if links then c1 ++ [snd x] else c1)) with
           | Err y => Some (Err y)
           | Ok (parent, c2) => chain_loop fuel' rb root joints links fixed parent c2
           end
  end.
Definition get_chain (fuel : nat) (rb : robot) (root tip : string) (joints links fixed : bool) : option (res (list string)) :=
  chain_loop fuel rb root joints links fixed tip (if links then [tip] else []).

(** ** Conversions, robots/urdf/__init__.py:45-152 *)
(** [transl( *None )] and [f( *None )] raise TypeError *)
Definition to_pose (p : option upose) : res m4 :=
  match p with
  | None => Ok eye4
  | Some p => match up_xyz p with
              | None => Err TypeError
              | Some t => match up_rpy p with
                          | None => Err TypeError
                          | Some r => let H := transl (vx t) (vy t) (vz t) in Ok (M4 (rot (rotzyx (vz r) (vy r) (vx r))) (pos H) (bot H) (hom H))
                          end
              end
  end.
(** robots/urdf/__init__.py:50-70; a link without inertial gets the mass None *)
Definition clip (x : R) : R := Rmax (1 / 1000000) x.
Definition com_mass (i : uinertial) : m6 :=
  M6 (M3 (clip (ui_xx i)) (ui_xy i) (ui_xz i) (ui_xy i) (clip (ui_yy i)) (ui_yz i) (ui_xz i) (ui_yz i) (clip (ui_zz i)))
     zerom3 zerom3 (mscal (clip (ui_mass i)) eye3).
Definition to_mass (eigvals : m6 -> list R) (i : option uinertial) : res (option m6) :=
  match i with
  | None => Ok None
  | Some i => let* H := to_pose (ui_origin i) in let* Hi := inv H in let* M := transport eigvals (com_mass i) Hi in Ok (Some M)
  end.
(** numpy.allclose of two 3-vectors *)
Definition allclose1 (a b : R) : bool := Rleb (Rabs (a - b)) (1 / 100000000 + 1 / 100000 * Rabs b).
Definition allclose (u v : v3) : bool := allclose1 (vx u) (vx v) && (allclose1 (vy u) (vy v) && allclose1 (vz u) (vz v)).
(** [(axis in [lo, up]) or np.allclose(axis, v)]; allclose of a text raises TypeError *)
Definition along (a : uaxis) (lo up : string) (v : v3) : res bool :=
  match a with AxVec u => Ok (allclose u v) | AxBad => Err ValueError | AxWord w => if String.eqb w lo || String.eqb w up then Ok true else Err TypeError end.
(** [zaligned(axis)]; a text never gets here *)
Definition zaxis_of (argsort : v3 -> nat * nat * nat) (a : uaxis) : res m4 := match a with AxVec u => zaligned_ argsort u | _ => Err TypeError end.
(** the class of the joint, H_parent_child, H_child_joint; robots/urdf/__init__.py:77-116 *)
Definition to_joint (argsort : v3 -> nat * nat * nat) (j : ujoint) : res (jtype * m4 * option m4) :=
  let* H := to_pose (uj_origin j) in
  match uj_axis j with
  | None => Err AttributeError                        (* None.split() *)
  | Some AxBad => Err ValueError                      (* float(v), line 78 *)
  | Some a =>
      let oriented kx ky kz :=
        let* x := along a "x" "X" (V3 1 0 0) in if x : bool then Ok (kx, H, None) else
        let* y := along a "y" "Y" (V3 0 1 0) in if y : bool then Ok (ky, H, None) else
        let* z := along a "z" "Z" (V3 0 0 1) in if z : bool then Ok (kz, H, None) else
        let* Z := zaxis_of argsort a in Ok (kz, H, Some Z) in
      match uj_kind j with
      | Revolute => oriented RxJoint RyJoint RzJoint
      | Prismatic => oriented TxJoint TyJoint TzJoint
      | Fixed => Ok (FixedJoint, H, None)
      | Floating => Ok (FreeJoint, H, None)
      | _ => Err KeyError
      end
  end.

(** ** load_in_world, robots/urdf/__init__.py:186-279 *)
Record options := Options { o_H_init : option m4; o_fixed_base : bool; o_prefix : string; o_suffix : string; o_save_limits : bool }.
(** the objects created, as in Model_Robots; the heap knows them beforehand *)
Inductive ucreated :=
  | UBody (b : nat) (mass : option m6)
  | UJnt (j : nat) (k : jtype)
  | USub (s b : nat) (bpose : m4)
  | UShape (s : nat) (f : frame) (g : ugeom)
  | ULimits (c j : nat) (lower upper : R).
(** identities of the body, the collision frame and the shape of the i-th link; of the joint, the frames on its parent and its child and
    the limits of the k-th joint; of the root joint and of the initial frame *)
Record uids := UIds { ub : nat -> nat; ucf : nat -> nat; ush : nat -> nat; uj : nat -> nat; upf : nat -> nat; ukf : nat -> nat; ulim : nat -> nat;
                      uroot : nat; uinit : nat }.
Definition decorate (o : options) (n : string) : string := (o_prefix o ++ n ++ o_suffix o)%string.
(** Python dict from names to bodies *)
Fixpoint lookup (n : string) (d : list (string * nat)) : res nat :=
  match d with [] => Err KeyError | (m, b) :: d' => if String.eqb n m then Ok b else lookup n d' end.
Definition dict_set (n : string) (b : nat) (d : list (string * nat)) : list (string * nat) := (n, b) :: d.

Section M.
  Variables (e : env) (eigvals : m6 -> list R) (argsort : v3 -> nat * nat * nat) (fuel : nat) (I : uids) (o : options).
  Notation heap := (@heap R).

  (** [SubFrame(body, H)], core.py:1078-1121 *)
  Definition subframe (H : m4) : res m4 := if ishomogeneousmatrix H then Ok H else Err AssertionError.
  (** one link, robots/urdf/__init__.py:194-223: its body, and its collision shape if it is not a mesh *)
  Definition link_step (i : nat) (l : ulink) (h : heap) : heap * list ucreated * res unit :=
    match to_mass eigvals (ul_inertial l) with
    | Err x => (h, [], Err x)
    | Ok M =>
        let cr := [UBody (ub I i) M] in
        match ul_collision l with
        | None => (h, cr, Ok tt)
        | Some (GMesh true, p) => (h, cr, Err AttributeError)      (* obj.scale.split() on a list, line 133 *)
        | Some (g, p) =>
            match to_pose p with
            | Err x => (h, cr, Err x)
            | Ok H =>
                match g with
                | GMesh _ => (h, cr, Ok tt)
                | GNone => (h, cr, Err TypeError)                     (* collision["transform"] = .. on None, line 127 *)
                | _ => match subframe H with
                       | Err x => (h, cr, Err x)
                       | Ok H' =>
                           let cr1 := cr ++ [USub (ucf I i) (ub I i) H';
                             UShape (ush I i) (FSub (ucf I i)) (match g with GBox d => GBox (vscal (1 / 2) d) | _ => g end)] in
                           let (h1, r) := register e (OShape (ush I i)) h in (h1, cr1, r)
                       end
                end
            end
        end
    end.
  Fixpoint link_loop (i : nat) (l : list (string * ulink)) (d : list (string * nat)) (h : heap) (cr : list ucreated)
    : heap * list ucreated * res (list (string * nat)) :=
    match l with
    | [] => (h, cr, Ok d)
    | (n, x) :: l' =>
        match link_step i x h with
        | (h1, c, Err x) => (h1, cr ++ c, Err x)
        | (h1, c, Ok _) => link_loop (S i) l' (dict_set (decorate o n) (ub I i) d) h1 (cr ++ c)
        end
    end.
  (** the limits of a joint, robots/urdf/__init__.py:250-263 *)
  Definition limits_step (k : nat) (j : ujoint) (h : heap) : heap * list ucreated * res unit :=
    match o_save_limits o, uj_kind j with
    | true, Revolute | true, Prismatic =>
        match uj_limits j with
        | None => (h, [], Err AttributeError)
        | Some (Some lo, Some up) => let (h1, r) := register e (OConstraint (ulim I k)) h in (h1, [ULimits (ulim I k) (uj I k) lo up], r)
        | Some _ => (h, [], Ok tt)
        end
    | _, _ => (h, [], Ok tt)
    end.
  (** the two frames of a joint, robots/urdf/__init__.py:237-245 *)
  Definition joint_frames (k p c : nat) (H : m4) (Z : option m4) : res (frame * frame * list ucreated) :=
    match Z with
    | None => let* H0 := subframe H in Ok (FSub (upf I k), FBody c, [USub (upf I k) p H0])
    | Some Z => let* H0 := subframe (mm4 H Z) in let* H1 := subframe Z in
                Ok (FSub (upf I k), FSub (ukf I k), [USub (upf I k) p H0; USub (ukf I k) c H1])
    end.
  (** one joint, robots/urdf/__init__.py:226-263 *)
  Definition joint_step (d : list (string * nat)) (k : nat) (j : ujoint) (h : heap) : heap * list ucreated * res unit :=
    match (let* t := to_joint argsort j in let* p := lookup (uj_parent j) d in let* c := lookup (uj_child j) d in
           let '(ty, H, Z) := t in let* f := joint_frames k p c H Z in Ok (ty, f)) with
    | Err x => (h, [], Err x)
    | Ok (ty, (f0, f1, c1)) =>
        let c2 := c1 ++ [UJnt (uj I k) ty] in
        match add_link e [OFrame f0; OJoint (uj I k); OFrame f1] h with
        | (h1, Err x) => (h1, c2, Err x)
        | (h1, Ok _) => let '(h2, c3, r) := limits_step k j h1 in (h2, c2 ++ c3, r)
        end
    end.
  Fixpoint joint_loop (d : list (string * nat)) (k : nat) (l : list (string * ujoint)) (h : heap) (cr : list ucreated) : heap * list ucreated * res unit :=
    match l with
    | [] => (h, cr, Ok tt)
    | (_, x) :: l' =>
        match joint_step d k x h with
        | (h1, c, Err x) => (h1, cr ++ c, Err x)
        | (h1, c, Ok _) => joint_loop d (S k) l' h1 (cr ++ c)
        end
    end.
  (** the root, robots/urdf/__init__.py:266-279; the [init] hooks of constraints and controllers are not modelled here *)
  Definition root_step (rb : robot) (d : list (string * nat)) (h : heap) : heap * list ucreated * res unit :=
    match (let* r := get_root rb in let* b := lookup r d in
           let* f := match o_H_init o with None => Ok (FBody (ground e), []) | Some H => let* H0 := subframe H in Ok (FSub (uinit I), [USub (uinit I) (ground e) H0]) end in
           Ok (b, f)) with
    | Err x => (h, [], Err x)
    | Ok (b, (f, c1)) =>
        let c2 := c1 ++ [UJnt (uroot I) (if o_fixed_base o then FixedJoint else FreeJoint)] in
        match add_link e [OFrame f; OJoint (uroot I); OFrame (FBody b)] h with
        | (h1, Err x) => (h1, c2, Err x)
        | (h1, Ok _) => let (h2, r) := init 0 e fuel h1 in (h2, c2, r)
        end
    end.
  (** [load_in_world]; [None]: no file has been loaded *)
  Definition load_in_world (rb : option robot) (h : heap) : heap * list ucreated * res unit :=
    match rb with
    | None => (h, [], Err ValueError)
    | Some rb =>
        let '(h1, c1, r1) := link_loop 0 (r_links rb) [] h [] in
        match r1 with
        | Err x => (h1, c1, Err x)
        | Ok d =>
            let '(h2, c2, r2) := joint_loop d 0 (r_joints rb) h1 c1 in
            match r2 with
            | Err x => (h2, c2, Err x)
            | Ok _ => let '(h3, c3, r3) := root_step rb d h2 in (h3, c2 ++ c3, r3)
            end
        end
    end.
End M.
