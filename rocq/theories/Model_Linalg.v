(** Small fixed-size linear algebra: the numpy arrays of shape (3,), (3,3), (4,4), (6,),
    (6,6) used throughout arboris, over exact reals, with [numpy.dot], transposition, [+],
    [-], scalar product.  A 4x4 array is stored by blocks (rotation, position, bottom row, corner),
    a 6x6 array by 3x3 blocks, a twist by its angular and linear parts ([w,v],
    arboris/twistvector.py:2). *)
From Coq Require Export Reals Lra.
From Verif Require Export Model_Base.
Open Scope R_scope.

Record v3 := V3 { vx : R; vy : R; vz : R }.
Record m3 := M3 { m00 : R; m01 : R; m02 : R; m10 : R; m11 : R; m12 : R; m20 : R; m21 : R; m22 : R }.
Record m4 := M4 { rot : m3; pos : v3; bot : v3; hom : R }.
Record v6 := V6 { ang : v3; lin : v3 }.
Record m6 := M6 { aa : m3; al : m3; la : m3; ll : m3 }.

(** numpy.zeros, numpy.eye *)
Definition zero3 := V3 0 0 0.
Definition zerom3 := M3 0 0 0 0 0 0 0 0 0.
Definition eye3 := M3 1 0 0 0 1 0 0 0 1.
Definition eye4 := M4 eye3 zero3 zero3 1.
Definition zero6 := V6 zero3 zero3.
Definition zerom6 := M6 zerom3 zerom3 zerom3 zerom3.
Definition eye6 := M6 eye3 zerom3 zerom3 eye3.

(** elementwise operations *)
Definition vadd a b := V3 (vx a + vx b) (vy a + vy b) (vz a + vz b).
Definition vsub a b := V3 (vx a - vx b) (vy a - vy b) (vz a - vz b).
Definition vneg a := V3 (- vx a) (- vy a) (- vz a).
Definition vscal k a := V3 (k * vx a) (k * vy a) (k * vz a).
Definition madd a b := M3 (m00 a + m00 b) (m01 a + m01 b) (m02 a + m02 b) (m10 a + m10 b)
  (m11 a + m11 b) (m12 a + m12 b) (m20 a + m20 b) (m21 a + m21 b) (m22 a + m22 b).
Definition msub a b := M3 (m00 a - m00 b) (m01 a - m01 b) (m02 a - m02 b) (m10 a - m10 b)
  (m11 a - m11 b) (m12 a - m12 b) (m20 a - m20 b) (m21 a - m21 b) (m22 a - m22 b).
Definition mscal k a := M3 (k * m00 a) (k * m01 a) (k * m02 a) (k * m10 a) (k * m11 a)
  (k * m12 a) (k * m20 a) (k * m21 a) (k * m22 a).
Definition mneg a := mscal (-1) a.
Definition v6add a b := V6 (vadd (ang a) (ang b)) (vadd (lin a) (lin b)).
Definition v6sub a b := V6 (vsub (ang a) (ang b)) (vsub (lin a) (lin b)).
Definition v6neg a := V6 (vneg (ang a)) (vneg (lin a)).
Definition v6scal k a := V6 (vscal k (ang a)) (vscal k (lin a)).
Definition m6add a b := M6 (madd (aa a) (aa b)) (madd (al a) (al b)) (madd (la a) (la b)) (madd (ll a) (ll b)).
Definition m6scal k a := M6 (mscal k (aa a)) (mscal k (al a)) (mscal k (la a)) (mscal k (ll a)).
Definition m4add a b := M4 (madd (rot a) (rot b)) (vadd (pos a) (pos b)) (vadd (bot a) (bot b)) (hom a + hom b).
Definition m4scal k a := M4 (mscal k (rot a)) (vscal k (pos a)) (vscal k (bot a)) (k * hom a).

(** numpy.dot *)
Definition dot3 a b := vx a * vx b + vy a * vy b + vz a * vz b.
Definition mv a u := V3 (m00 a * vx u + m01 a * vy u + m02 a * vz u)
  (m10 a * vx u + m11 a * vy u + m12 a * vz u) (m20 a * vx u + m21 a * vy u + m22 a * vz u).
(** row vector times matrix *)
Definition vm u a := V3 (vx u * m00 a + vy u * m10 a + vz u * m20 a)
  (vx u * m01 a + vy u * m11 a + vz u * m21 a) (vx u * m02 a + vy u * m12 a + vz u * m22 a).
Definition mm a b := M3
  (m00 a * m00 b + m01 a * m10 b + m02 a * m20 b)
  (m00 a * m01 b + m01 a * m11 b + m02 a * m21 b)
  (m00 a * m02 b + m01 a * m12 b + m02 a * m22 b)
  (m10 a * m00 b + m11 a * m10 b + m12 a * m20 b)
  (m10 a * m01 b + m11 a * m11 b + m12 a * m21 b)
  (m10 a * m02 b + m11 a * m12 b + m12 a * m22 b)
  (m20 a * m00 b + m21 a * m10 b + m22 a * m20 b)
  (m20 a * m01 b + m21 a * m11 b + m22 a * m21 b)
  (m20 a * m02 b + m21 a * m12 b + m22 a * m22 b).
(** numpy.outer *)
Definition outer u v := M3 (vx u * vx v) (vx u * vy v) (vx u * vz v) (vy u * vx v) (vy u * vy v)
  (vy u * vz v) (vz u * vx v) (vz u * vy v) (vz u * vz v).
(** [.T] *)
Definition tr a := M3 (m00 a) (m10 a) (m20 a) (m01 a) (m11 a) (m21 a) (m02 a) (m12 a) (m22 a).
(** numpy.linalg.det on a 3x3 array *)
Definition det3 a := m00 a * (m11 a * m22 a - m12 a * m21 a) - m01 a * (m10 a * m22 a - m12 a * m20 a)
  + m02 a * (m10 a * m21 a - m11 a * m20 a).
(** numpy.cross, numpy.linalg.norm *)
Definition cross u v := V3 (vy u * vz v - vz u * vy v) (vz u * vx v - vx u * vz v) (vx u * vy v - vy u * vx v).
Definition norm3 u := sqrt (dot3 u u).

Definition mm4 a b := M4 (madd (mm (rot a) (rot b)) (outer (pos a) (bot b)))
  (vadd (mv (rot a) (pos b)) (vscal (hom b) (pos a)))
  (vadd (vm (bot a) (rot b)) (vscal (hom a) (bot b)))
  (dot3 (bot a) (pos b) + hom a * hom b).
Definition dot6 a b := dot3 (ang a) (ang b) + dot3 (lin a) (lin b).
Definition mv6 a u := V6 (vadd (mv (aa a) (ang u)) (mv (al a) (lin u))) (vadd (mv (la a) (ang u)) (mv (ll a) (lin u))).
Definition mm6 a b := M6 (madd (mm (aa a) (aa b)) (mm (al a) (la b))) (madd (mm (aa a) (al b)) (mm (al a) (ll b)))
  (madd (mm (la a) (aa b)) (mm (ll a) (la b))) (madd (mm (la a) (al b)) (mm (ll a) (ll b))).
Definition tr6 a := M6 (tr (aa a)) (tr (la a)) (tr (al a)) (tr (ll a)).

(** comparisons of floats *)
Definition Rleb (x y : R) : bool := if Rle_dec x y then true else false.
Definition Rltb (x y : R) : bool := if Rlt_dec x y then true else false.
Definition Reqb (x y : R) : bool := if Req_EM_T x y then true else false.
Definition v3eqb a b := Reqb (vx a) (vx b) && Reqb (vy a) (vy b) && Reqb (vz a) (vz b).
Definition m3eqb a b := v3eqb (V3 (m00 a) (m01 a) (m02 a)) (V3 (m00 b) (m01 b) (m02 b)) &&
  v3eqb (V3 (m10 a) (m11 a) (m12 a)) (V3 (m10 b) (m11 b) (m12 b)) &&
  v3eqb (V3 (m20 a) (m21 a) (m22 a)) (V3 (m20 b) (m21 b) (m22 b)).
