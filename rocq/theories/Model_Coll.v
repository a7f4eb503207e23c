(** arboris/shapes.py, arboris/collisions.py, and the creation of contacts (constraints.py:262-280, 846-885). *)
From Verif Require Export Model_Con.

(** *** shapes.py *)
Inductive geom :=
  | Plane (n : v3) (d : R)            (* coeffs *)
  | Point
  | Box (half_extents : v3)
  | Cylinder (length radius : R)
  | Sphere (radius : R).
(** [x / k] for a (3,) array *)
Definition vdiv (u : v3) (k : R) : v3 := V3 (vx u / k) (vy u / k) (vz u / k).
(** Plane.__init__, shapes.py:18-31.  A null normal gives an array of nan, not modelled. *)
Definition new_plane (n : v3) (d : R) : geom := Plane (vdiv n (norm3 n)) (d / norm3 n).
(** Sphere.__init__ and Cylinder.__init__, shapes.py:83-93, 65-77 *)
Definition new_sphere (r : R) : res geom := if Rleb 0 r then Ok (Sphere r) else Err AssertionError.
Definition new_cylinder (l r : R) : res geom := if Rleb 0 r then Ok (Cylinder l r) else Err AssertionError.

(** *** choose_solver, collisions.py:17-83; [g] gives the shapes' data.  Both arguments are shapes. *)
Inductive solver := sphere_sphere | sphere_point | box_sphere | box_point | plane_sphere | plane_point.
Definition choose_solver (g : nat -> geom) (s0 s1 : nat) : res ((nat * nat) * solver) :=
  match g s0 with
  | Sphere _ =>
      match g s1 with
      | Sphere _ => Ok ((s0, s1), sphere_sphere)
      | Point => Ok ((s0, s1), sphere_point)
      | Plane _ _ => Ok ((s1, s0), plane_sphere)
      | Box _ => Ok ((s1, s0), box_sphere)
      | _ => Err NotImplementedError
      end
  | Point =>
      match g s1 with
      | Sphere _ => Ok ((s1, s0), sphere_point)
      | Plane _ _ => Ok ((s1, s0), plane_point)
      | _ => Err NotImplementedError
      end
  | Plane _ _ =>
      match g s1 with
      | Sphere _ => Ok ((s0, s1), plane_sphere)
      | Point => Ok ((s0, s1), plane_point)
      | _ => Err NotImplementedError
      end
  | Box _ =>
      match g s1 with
      | Sphere _ => Ok ((s0, s1), box_sphere)
      | Point => Ok ((s0, s1), box_point)
      | _ => Err NotImplementedError
      end
  | _ => Err NotImplementedError
  end.

(** *** get_all_contacts, constraints.py:846-885, for a class whose constructor only adds to PointContact's: the new
    contact is the pair of shapes it keeps and its solver (constraints.py:262-280) *)
Definition shape_body (e : env) (s : nat) : nat := frame_body e (shape_frame e s).
Fixpoint contacts_of (e : env) (g : nat -> geom) (s0 : nat) (l : list nat) : res (list ((nat * nat) * solver)) :=
  match l with
  | [] => Ok []
  | s1 :: l' =>
      if Nat.eqb (shape_body e s0) (shape_body e s1) then contacts_of e g s0 l'
      else match choose_solver g s0 s1 with
           | Ok c => let* cs := contacts_of e g s0 l' in Ok (c :: cs)
           | Err NotImplementedError => contacts_of e g s0 l'
           | Err x => Err x
           end
  end.
Fixpoint all_contacts (e : env) (g : nat -> geom) (l : list nat) : res (list ((nat * nat) * solver)) :=
  match l with
  | [] => Ok []
  | s0 :: l' => let* a := contacts_of e g s0 l' in let* b := all_contacts e g l' in Ok (a ++ b)
  end.
Definition get_all_contacts (e : env) (g : nat -> geom) (h : @heap R) : res (list ((nat * nat) * solver)) := all_contacts e g (w_shapes h).

(** *** the collision functions.  [argsort] is numpy's, applied by zaligned to absolute values. *)
Definition vabs_ (u : v3) : v3 := V3 (Rabs (vx u)) (Rabs (vy u)) (Rabs (vz u)).
Definition zaligned_ (argsort : v3 -> nat * nat * nat) (u : v3) : res m4 := zaligned (argsort (vabs_ u)) u.
Definition set_pos (H : m4) (p : v3) : m4 := M4 (rot H) p (bot H) (hom H).
Definition zcol_ (H : m4) : v3 := V3 (m02 (rot H)) (m12 (rot H)) (m22 (rot H)).
(** [vec / norm(vec)]: nan when the norm is null, and zaligned refuses nan *)
Definition unit_of (u : v3) : res v3 := if Reqb (norm3 u) 0 then Err AssertionError else Ok (vdiv u (norm3 u)).
(** numpy.sign *)
Definition sign (x : R) : R := if Rltb 0 x then 1 else if Rltb x 0 then -1 else 0.

(** collisions.py:177-236 *)
Definition sphere_sphere_ (argsort : v3 -> nat * nat * nat) (p_g0 : v3) (radius0 : R) (p_g1 : v3) (radius1 : R) : res (R * m4 * m4) :=
  let vec := vsub p_g1 p_g0 in
  let sdist := norm3 vec - radius0 - radius1 in
  let* normal := unit_of vec in
  let* H := zaligned_ argsort normal in
  let z := zcol_ H in
  let H_gc0 := set_pos H (vadd p_g0 (vscal radius0 z)) in
  let H_gc1 := set_pos H_gc0 (vadd (pos H_gc0) (vscal sdist z)) in
  Ok (sdist, H_gc0, H_gc1).

(** collisions.py:238-290 *)
Definition plane_sphere_ (argsort : v3 -> nat * nat * nat) (H_g0 : m4) (n : v3) (d : R) (p_g1 : v3) (radius1 : R) : res (R * m4 * m4) :=
  if ishomogeneousmatrix H_g0 then
    if Reqb (norm3 n) 1 then
      if Rleb 0 radius1 then
        let* i := inv H_g0 in
        let* p_01 := pdot i p_g1 in
        let csdist := dot3 n p_01 - d in
        let sdist := csdist - radius1 in
        let* H := zaligned_ argsort n in
        let H_gc0 := set_pos H (vsub p_01 (vscal csdist n)) in
        let H_gc1 := set_pos H_gc0 (vsub p_01 (vscal (sign sdist * radius1) n)) in
        Ok (sdist, H_gc0, H_gc1)
      else Err AssertionError
    else Err AssertionError
  else Err AssertionError.

(** numpy.argmin: index of the first smallest element (of a non-empty list) *)
Fixpoint argmin_from (i best : nat) (x : R) (l : list R) : nat :=
  match l with
  | [] => best
  | y :: l' => if Rltb y x then argmin_from (S i) i y l' else argmin_from (S i) best x l'
  end.
Definition argmin (l : list R) : nat := match l with [] => 0%nat | x :: l' => argmin_from 1 0 x l' end.

(** collisions.py:292-393 *)
Definition clamp (h x : R) : R := Rmax (Rmin h x) (- h).
Definition box_sphere_ (argsort : v3 -> nat * nat * nat) (H_g0 : m4) (he : v3) (p_g1 : v3) (radius1 : R) : res (R * m4 * m4) :=
  if ishomogeneousmatrix H_g0 then
    let* iH := inv H_g0 in
    let* p_01 := pdot iH p_g1 in
    let* (f_g, normal, sdist) :=
      if Rleb (Rabs (vx p_01)) (vx he) && Rleb (Rabs (vy p_01)) (vy he) && Rleb (Rabs (vz p_01)) (vz he) then
        let i := argmin [vx he - vx p_01; vy he - vy p_01; vz he - vz p_01; vx he + vx p_01; vy he + vy p_01; vz he + vz p_01] in
        let f_0 := if Nat.ltb i 3 then set_axis i (axis i he) p_01 else set_axis (i - 3) (- axis (i - 3) he) p_01 in
        let normal := if Nat.ltb i 3 then set_axis i 1 zero3 else set_axis (i - 3) (-1) zero3 in
        let* f_g := pdot H_g0 f_0 in
        Ok (f_g, normal, - norm3 (vsub f_g p_g1) - radius1)
      else
        let f_0 := V3 (clamp (vx he) (vx p_01)) (clamp (vy he) (vy p_01)) (clamp (vz he) (vz p_01)) in
        let* f_g := pdot H_g0 f_0 in
        let vec := vsub p_g1 f_g in
        let* normal := unit_of vec in
        Ok (f_g, normal, norm3 vec - radius1) in
    let* H := zaligned_ argsort normal in
    Ok (sdist, set_pos H f_g, set_pos H (vsub p_g1 (vscal radius1 normal)))
  else Err AssertionError.

(** the solvers, collisions.py:85-175; [P s] is [s.frame.pose] *)
Definition solve_ (argsort : v3 -> nat * nat * nat) (g : nat -> geom) (P : nat -> res m4) (c : (nat * nat) * solver) : res (R * m4 * m4) :=
  let s0 := fst (fst c) in let s1 := snd (fst c) in
  match snd c, g s0, g s1 with
  | sphere_sphere, Sphere r0, Sphere r1 => let* P0 := P s0 in let* P1 := P s1 in sphere_sphere_ argsort (pos P0) r0 (pos P1) r1
  | sphere_point, Sphere r0, Point => let* P0 := P s0 in let* P1 := P s1 in sphere_sphere_ argsort (pos P0) r0 (pos P1) 0
  | box_sphere, Box he, Sphere r1 => let* P0 := P s0 in let* P1 := P s1 in box_sphere_ argsort P0 he (pos P1) r1
  | box_point, Box he, Point => let* P0 := P s0 in let* P1 := P s1 in box_sphere_ argsort P0 he (pos P1) 0
  | plane_sphere, Plane n d, Sphere r1 => let* P0 := P s0 in let* P1 := P s1 in plane_sphere_ argsort P0 n d (pos P1) r1
  | plane_point, Plane n d, Point => let* P0 := P s0 in let* P1 := P s1 in plane_sphere_ argsort P0 n d (pos P1) 0
  | _, _, _ => Err AssertionError
  end.
(** what PointContact.update calls: the poses are read in the current state of the world *)
Definition collision (argsort : v3 -> nat * nat * nat) (e : env) (g : nat -> geom) (sc : scene) (c : (nat * nat) * solver) (st : store) : res (R * m4 * m4) :=
  solve_ argsort g (fun s => frame_pose e sc st (shape_frame e s)) c.
