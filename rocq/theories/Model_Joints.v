(** arboris/joints.py (all joint classes), arboris/rigidmotion.py, and the joint part of
    arboris/core.py:182-295.  A (6,n) array is the list of its columns given as a function of the
    column index; generalized positions and velocities are functions of the coordinate index
    (the 4x4 position of a FreeJoint is kept apart). *)
From Verif Require Export Model_Hg.

(** sums over 0..n-1 *)
Fixpoint sumR (n : nat) (f : nat -> R) : R := match n with O => 0 | S k => sumR k f + f k end.
Fixpoint sum6 (n : nat) (f : nat -> v6) : v6 := match n with O => zero6 | S k => v6add (sum6 k f) (f k) end.

(** the concrete classes of joints.py (subclasses of core.Joint) *)
Inductive jtype := FreeJoint | FixedJoint | RzRyRxJoint | RzRyJoint | RzRxJoint | RyRxJoint
  | RzJoint | RyJoint | RxJoint | TxTyTzJoint | TzJoint | TyJoint | TxJoint.

(** gposH: [gpos] of a FreeJoint; gpos: [gpos] of a LinearConfigurationSpaceJoint *)
Record jstate := JS { jt : jtype; gposH : m4; gpos : nat -> R; gvel : nat -> R }.

(** [ndof] properties, joints.py:45,87,118,166,209,249,295,364,387,414,440,465,490 *)
Definition ndof_of (k : jtype) : nat :=
  match k with FreeJoint => 6 | FixedJoint => 0 | RzRyRxJoint | TxTyTzJoint => 3
  | RzRyJoint | RzRxJoint | RyRxJoint => 2 | _ => 1 end.

(** (6,)-array from its entries, and the columns of eye(6) *)
Definition v6of (f : nat -> R) : v6 := V6 (V3 (f 0%nat) (f 1%nat) (f 2%nat)) (V3 (f 3%nat) (f 4%nat) (f 5%nat)).
Definition e6 (i : nat) : v6 := v6of (fun k => if Nat.eqb i k then 1 else 0).
(** column with angular part only *)
Definition acol (x y z : R) : v6 := V6 (V3 x y z) (V3 0 0 0).

(** [pose] properties, joints.py:48-50, 90-92, 121-123, 169-171, 212-214, 252-254, 298-312,
    367-369, 390-392, 417-419, 443-445, 468-470, 493-495 *)
Definition pose (j : jstate) : m4 :=
  let q := gpos j in
  match jt j with
  | FreeJoint => gposH j
  | FixedJoint => eye4
  | RzRyRxJoint => rotzyx (q 0%nat) (q 1%nat) (q 2%nat)
  | RzRyJoint => rotzy (q 0%nat) (q 1%nat)
  | RzRxJoint => rotzx (q 0%nat) (q 1%nat)
  | RyRxJoint => rotyx (q 0%nat) (q 1%nat)
  | RzJoint => rotz (q 0%nat)
  | RyJoint => roty (q 0%nat)
  | RxJoint => rotx (q 0%nat)
  | TxTyTzJoint => transl (q 0%nat) (q 1%nat) (q 2%nat)
  | TzJoint => transl 0 0 (q 0%nat)
  | TyJoint => transl 0 (q 0%nat) 0
  | TxJoint => transl (q 0%nat) 0 0
  end.

(** [jacobian] properties, joints.py:56-58, 98-100, 125-140, 173-186, 216-226, 256-266, 331-343,
    375-377, 398-400, 421-429, 451-453, 476-478, 501-503 *)
Definition jacobian (j : jstate) (c : nat) : v6 :=
  let q := gpos j in
  match jt j with
  | FreeJoint => e6 c
  | FixedJoint => zero6
  | RzRyRxJoint =>
      let sx := sin (q 2%nat) in let cx := cos (q 2%nat) in
      let sy := sin (q 1%nat) in let cy := cos (q 1%nat) in
      match c with O => acol (- sy) (sx * cy) (cx * cy) | 1%nat => acol 0 cx (- sx) | _ => acol 1 0 0 end
  | RzRyJoint =>
      let sy := sin (q 1%nat) in let cy := cos (q 1%nat) in
      match c with O => acol (- sy) 0 cy | _ => acol 0 1 0 end
  | RzRxJoint =>
      let sx := sin (q 1%nat) in let cx := cos (q 1%nat) in
      match c with O => acol 0 sx cx | _ => acol 1 0 0 end
  | RyRxJoint =>
      let sx := sin (q 1%nat) in let cx := cos (q 1%nat) in
      match c with O => acol 0 cx (- sx) | _ => acol 1 0 0 end
  | RzJoint => e6 2 | RyJoint => e6 1 | RxJoint => e6 0
  | TxTyTzJoint => match c with O => e6 3 | 1%nat => e6 4 | _ => e6 5 end
  | TzJoint => e6 5 | TyJoint => e6 4 | TxJoint => e6 3
  end.

(** [djacobian] properties, joints.py:60-62, 102-104, 142-156, 188-199, 228-239, 268-279, 345-357,
    379-381, 402-404, 431-433, 455-457, 480-482, 505-507 *)
Definition djacobian (j : jstate) (c : nat) : v6 :=
  let q := gpos j in
  match jt j with
  | RzRyRxJoint =>
      let sx := sin (q 2%nat) in let cx := cos (q 2%nat) in
      let sy := sin (q 1%nat) in let cy := cos (q 1%nat) in
      let dx := gvel j 2%nat in let dy := gvel j 1%nat in
      match c with
      | O => acol (- dy * cy) (dx * cx * cy - dy * sx * sy) (- dx * sx * cy - dy * cx * sy)
      | 1%nat => acol 0 (- dx * sx) (- dx * cx)
      | _ => zero6 end
  | RzRyJoint =>
      let sy := sin (q 1%nat) in let cy := cos (q 1%nat) in let dy := gvel j 1%nat in
      match c with O => acol (- dy * cy) 0 (- dy * sy) | _ => zero6 end
  | RzRxJoint =>
      let sx := sin (q 1%nat) in let cx := cos (q 1%nat) in let dx := gvel j 1%nat in
      match c with O => acol 0 (dx * cx) (- dx * sx) | _ => zero6 end
  | RyRxJoint =>
      let sx := sin (q 1%nat) in let cx := cos (q 1%nat) in let dx := gvel j 1%nat in
      match c with O => acol 0 (- dx * sx) (- dx * cx) | _ => zero6 end
  | _ => zero6
  end.

(** [twist]: core.py:244-251 (dot(jacobian, gvel)); joints.py:52-54 (FreeJoint: gvel.copy()),
    94-96 (FixedJoint: zeros(6)) *)
Definition twist (j : jstate) : v6 :=
  match jt j with
  | FreeJoint => v6of (gvel j)
  | FixedJoint => zero6
  | k => sum6 (ndof_of k) (fun c => v6scal (gvel j c) (jacobian j c))
  end.

(** [ipose]: rigidmotion.py:35-39, overridden in joints.py:314-329, 371-373, 394-396, 447-449,
    472-474, 497-499 *)
Definition ipose (j : jstate) : res m4 :=
  let q := gpos j in
  match jt j with
  | RzJoint => Ok (rotz (- q 0%nat)) | RyJoint => Ok (roty (- q 0%nat)) | RxJoint => Ok (rotx (- q 0%nat))
  | TzJoint => Ok (transl 0 0 (- q 0%nat)) | TyJoint => Ok (transl 0 (- q 0%nat) 0) | TxJoint => Ok (transl (- q 0%nat) 0 0)
  | _ => inv (pose j)
  end.
(** rigidmotion.py:51-53, 55-57 *)
Definition j_adjoint (j : jstate) : res m6 := adjoint (pose j).
Definition j_iadjoint (j : jstate) : res m6 := let* H := ipose j in adjoint H.
(** rigidmotion.py:47-49: [-dot(self.iadjoint, self.twist)] *)
Definition itwist (j : jstate) : res v6 := let* A := j_iadjoint j in Ok (v6neg (mv6 A (twist j))).
(** rigidmotion.py:59-65 *)
Definition j_adjacency (j : jstate) : m6 := adjacency (twist j).
Definition j_iadjacency (j : jstate) : res m6 := let* T := itwist j in Ok (adjacency T).
(** rigidmotion.py:67-69, 71-73 *)
Definition dadjoint (j : jstate) : res m6 := let* A := j_adjoint j in Ok (mm6 A (j_adjacency j)).
Definition idadjoint (j : jstate) : res m6 :=
  let* A := j_iadjoint j in let* B := j_iadjacency j in Ok (mm6 A B).

(** [integrate(gvel, dt)]: core.py:288-290, joints.py:64-66, 106-107 *)
Definition j_integrate (j : jstate) (v : nat -> R) (dt : R) : jstate :=
  match jt j with
  | FreeJoint => JS FreeJoint (mm4 (gposH j) (exp (v6scal dt (v6of v)))) (gpos j) v
  | FixedJoint => j
  | k => JS k (gposH j) (fun i => gpos j i + dt * v i) v
  end.
