(** arboris/homogeneousmatrix.py, arboris/twistvector.py, arboris/adjointmatrix.py.
    Shape assertions are discharged by typing. *)
From Verif Require Export Model_Linalg.

(** homogeneousmatrix.py:11 *)
Definition tol : R := 1 / 1000000000.

(** homogeneousmatrix.py:13-33 *)
Definition transl (t_x t_y t_z : R) : m4 := M4 (M3 1 0 0 0 1 0 0 0 1) (V3 t_x t_y t_z) (V3 0 0 0) 1.

(** homogeneousmatrix.py:36-66 *)
Definition rotzyx (angle_z angle_y angle_x : R) : m4 :=
  let sz := sin angle_z in let cz := cos angle_z in
  let sy := sin angle_y in let cy := cos angle_y in
  let sx := sin angle_x in let cx := cos angle_x in
  M4 (M3 (cz * cy) (cz * sy * sx - sz * cx) (cz * sy * cx + sz * sx)
         (sz * cy) (sz * sy * sx + cz * cx) (sz * sy * cx - cz * sx)
         (- sy) (cy * sx) (cy * cx))
     (V3 0 0 0) (V3 0 0 0) 1.

(** homogeneousmatrix.py:69-96 *)
Definition rotzy (angle_z angle_y : R) : m4 :=
  let sz := sin angle_z in let cz := cos angle_z in
  let sy := sin angle_y in let cy := cos angle_y in
  M4 (M3 (cz * cy) (- sz) (cz * sy)
         (sz * cy) cz (sz * sy)
         (- sy) 0 cy)
     (V3 0 0 0) (V3 0 0 0) 1.

(** homogeneousmatrix.py:99-126 *)
Definition rotzx (angle_z angle_x : R) : m4 :=
  let sz := sin angle_z in let cz := cos angle_z in
  let sx := sin angle_x in let cx := cos angle_x in
  M4 (M3 cz (- sz * cx) (sz * sx)
         sz (cz * cx) (- cz * sx)
         0 sx cx)
     (V3 0 0 0) (V3 0 0 0) 1.

(** homogeneousmatrix.py:129-156 *)
Definition rotyx (angle_y angle_x : R) : m4 :=
  let sy := sin angle_y in let cy := cos angle_y in
  let sx := sin angle_x in let cx := cos angle_x in
  M4 (M3 cy (sy * sx) (sy * cx)
         0 cx (- sx)
         (- sy) (cy * sx) (cy * cx))
     (V3 0 0 0) (V3 0 0 0) 1.

(** homogeneousmatrix.py:158-181, 183-206, 208-231 *)
Definition rotx (angle : R) : m4 :=
  let ca := cos angle in let sa := sin angle in
  M4 (M3 1 0 0  0 ca (- sa)  0 sa ca) (V3 0 0 0) (V3 0 0 0) 1.
Definition roty (angle : R) : m4 :=
  let ca := cos angle in let sa := sin angle in
  M4 (M3 ca 0 sa  0 1 0  (- sa) 0 ca) (V3 0 0 0) (V3 0 0 0) 1.
Definition rotz (angle : R) : m4 :=
  let ca := cos angle in let sa := sin angle in
  M4 (M3 ca (- sa) 0  sa ca 0  0 0 1) (V3 0 0 0) (V3 0 0 0) 1.

(** homogeneousmatrix.py:266-277 *)
Definition ishomogeneousmatrix (H : m4) : bool :=
  Rleb (Rabs (det3 (rot H) - 1)) tol && (v3eqb (bot H) (V3 0 0 0) && Reqb (hom H) 1).

(** homogeneousmatrix.py:233-264.  [idx] is the result of [argsort(absolute(z))]: how numpy
    orders ties is left open.  [axis] reads/writes a coordinate by index. *)
Definition axis (i : nat) (u : v3) : R := match i with O => vx u | S O => vy u | _ => vz u end.
Definition set_axis (i : nat) (k : R) (u : v3) : v3 :=
  match i with O => V3 k (vy u) (vz u) | S O => V3 (vx u) k (vz u) | _ => V3 (vx u) (vy u) k end.
Definition zaligned (idx : nat * nat * nat) (vec : v3) : res m4 :=
  if Rltb (Rabs (norm3 vec - 1)) (1 / 1000000000) then
    let '(i0, i1, i2) := idx in
    let z := vec in
    let x0 := V3 1 0 0 in
    let x1 := set_axis i0 0 x0 in
    let x2 := set_axis i1 (axis i2 z) x1 in
    let x3 := set_axis i2 (- axis i1 z) x2 in
    let n := norm3 x3 in
    let x := V3 (vx x3 / n) (vy x3 / n) (vz x3 / n) in
    let y := cross z x in
    Ok (M4 (M3 (vx x) (vx y) (vx z) (vy x) (vy y) (vy z) (vz x) (vz y) (vz z)) (V3 0 0 0) (V3 0 0 0) 1)
  else Err AssertionError.

(** homogeneousmatrix.py:279-295 and 297-313 *)
Definition pdot (H : m4) (point : v3) : res v3 :=
  if ishomogeneousmatrix H then Ok (vadd (mv (rot H) point) (pos H)) else Err AssertionError.
Definition vdot (H : m4) (vec : v3) : res v3 :=
  if ishomogeneousmatrix H then Ok (mv (rot H) vec) else Err AssertionError.

(** homogeneousmatrix.py:315-345: the body after the assertion, and the function *)
Definition inv_ (H : m4) : m4 :=
  M4 (tr (rot H)) (vneg (mv (tr (rot H)) (pos H))) (V3 0 0 0) 1.
Definition inv (H : m4) : res m4 :=
  if ishomogeneousmatrix H then Ok (inv_ H) else Err AssertionError.

(** the skew matrix of a vector, homogeneousmatrix.py:380-383, twistvector.py:59-62 *)
Definition skew (p : v3) : m3 := M3 0 (- vz p) (vy p)  (vz p) 0 (- vx p)  (- vy p) (vx p) 0.

(** homogeneousmatrix.py:347-391 *)
Definition adjoint_ (H : m4) : m6 := M6 (rot H) zerom3 (mm (skew (pos H)) (rot H)) (rot H).
Definition adjoint (H : m4) : res m6 :=
  if ishomogeneousmatrix H then Ok (adjoint_ H) else Err AssertionError.
(** homogeneousmatrix.py:394-397 *)
Definition iadjoint_ (H : m4) : m6 := adjoint_ (inv_ H).
Definition iadjoint (H : m4) : res m6 := rbind (inv H) adjoint.

(** twistvector.py:10-36 *)
Definition adjacency (tw : v6) : m6 := M6 (skew (ang tw)) zerom3 (skew (lin tw)) (skew (ang tw)).

(** homogeneousmatrix.py:400-421 *)
Definition dAdjoint (Ad : m6) (T : v6) : m6 := mm6 Ad (adjacency T).

(** numpy.arctan2 (signed zeros are not distinguished) *)
Definition arctan2 (y x : R) : R :=
  if Rlt_dec 0 x then atan (y / x)
  else if Rlt_dec x 0 then (if Rle_dec 0 y then atan (y / x) + PI else atan (y / x) - PI)
  else if Rlt_dec 0 y then PI / 2 else if Rlt_dec y 0 then - (PI / 2) else 0.

(** homogeneousmatrix.py:424-455 *)
Definition rotzyx_angles (H : m4) : res (R * R * R) :=
  if ishomogeneousmatrix H then
    let h := rot H in
    if Rltb (Rabs (m00 h)) tol && Rltb (Rabs (m10 h)) tol then
      Ok (0, arctan2 (- m20 h) (m00 h), arctan2 (- m12 h) (m11 h))
    else
      let az := arctan2 (m10 h) (m00 h) in
      let sz := sin az in
      let cz := cos az in
      Ok (az, arctan2 (- m20 h) (cz * m00 h + sz * m10 h),
          arctan2 (sz * m02 h - cz * m12 h) (cz * m11 h - sz * m01 h))
  else Err AssertionError.

(** twistvector.py:38-81 ([exp_coeffs] is the if/else of lines 64-71) *)
Definition exp_coeffs (t : R) : R * R * R :=
  if Rle_dec (1 / 1000) t then ((1 - cos t) / t ^ 2, sin t / t, (t - sin t) / t ^ 3)
  else (1 / 2, 1 - t ^ 2 / 6, 1 / 6).
Definition exp (tw : v6) : m4 :=
  let w := ang tw in
  let v := lin tw in
  let wx := skew w in
  let '(cc, sc, dsc) := exp_coeffs (norm3 w) in
  let R := madd (madd eye3 (mscal sc wx)) (mscal cc (mm wx wx)) in
  let p := mv (madd (madd (mscal sc eye3) (mscal cc wx)) (mscal dsc (outer w w))) v in
  M4 R p (V3 0 0 0) 1.

(** adjointmatrix.py:32-42 *)
Definition Ad_inv (Ad : m6) : m6 := M6 (tr (aa Ad)) zerom3 (tr (la Ad)) (tr (aa Ad)).
(** adjointmatrix.py:24-29 *)
Definition isadjointmatrix (Ad : m6) : bool :=
  Reqb (det3 (aa Ad)) 1 && m3eqb (aa Ad) (ll Ad) && m3eqb (al Ad) zerom3.
