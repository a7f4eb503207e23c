(** arboris/massmatrix.py. *)
From Verif Require Export Model_Hg.

(** numpy.allclose on one entry (default tolerances) *)
Definition close1 (a b : R) : bool := Rleb (Rabs (a - b)) (1 / 100000000 + 1 / 100000 * Rabs b).
Definition close3 (a b : m3) : bool :=
  close1 (m00 a) (m00 b) && close1 (m01 a) (m01 b) && close1 (m02 a) (m02 b) &&
  close1 (m10 a) (m10 b) && close1 (m11 a) (m11 b) && close1 (m12 a) (m12 b) &&
  close1 (m20 a) (m20 b) && close1 (m21 a) (m21 b) && close1 (m22 a) (m22 b).
Definition close6 (a b : m6) : bool :=
  close3 (aa a) (aa b) && close3 (al a) (al b) && close3 (la a) (la b) && close3 (ll a) (ll b).

(** massmatrix.py:11-26.  [eigvals] is numpy.linalg.eigvals, restricted to real eigenvalues. *)
Definition ismassmatrix (eigvals : m6 -> list R) (M : m6) (semi : bool) : bool :=
  close6 M (tr6 M) && close3 (ll M) (mscal (m00 (ll M)) eye3) &&
  (if semi then forallb (fun l => Rleb 0 l) (eigvals M) else forallb (fun l => Rltb 0 l) (eigvals M)).

(** massmatrix.py:28-70 *)
Definition transport (eigvals : m6 -> list R) (M : m6) (H : m4) : res m6 :=
  if ismassmatrix eigvals M false then
    if ishomogeneousmatrix H then
      let* Ad := adjoint H in Ok (mm6 (tr6 Ad) (mm6 M Ad))
    else Err AssertionError
  else Err AssertionError.

(** massmatrix.py:73-107.  [eig] is numpy.linalg.eig: eigenvalues and matrix of eigenvectors.  [S]
    is not used afterwards. *)
Definition principalframe (eigvals : m6 -> list R) (eig : m3 -> v3 * m3) (M : m6) : res m4 :=
  if ismassmatrix eigvals M false then
    let m := m22 (ll M) in
    let rx := mscal (/ m) (al M) in
    let p := V3 (m21 rx) (m02 rx) (m10 rx) in
    let RSR := madd (aa M) (mscal m (mm rx rx)) in
    let '(Sv, R) := eig RSR in
    let R' := if Rltb (det3 R) 0 then mm R (M3 0 0 1 0 1 0 1 0 0) else R in
    Ok (M4 R' p zero3 1)
  else Err AssertionError.

(** numpy.diag of six values *)
Definition diag6 (a b c d e f : R) : m6 := M6 (M3 a 0 0 0 b 0 0 0 c) zerom3 zerom3 (M3 d 0 0 0 e 0 0 0 f).

(** massmatrix.py:109-132, 134-156, 158-180, 182-201 *)
Definition box (he : v3) (mass : R) : m6 :=
  let x := vx he in let y := vy he in let z := vz he in
  diag6 (mass / 3 * (y ^ 2 + z ^ 2)) (mass / 3 * (x ^ 2 + z ^ 2)) (mass / 3 * (x ^ 2 + y ^ 2)) mass mass mass.
Definition ellipsoid (radii : v3) (mass : R) : m6 :=
  let x := vx radii in let y := vy radii in let z := vz radii in
  diag6 (mass / 5 * (y ^ 2 + z ^ 2)) (mass / 5 * (x ^ 2 + z ^ 2)) (mass / 5 * (x ^ 2 + y ^ 2)) mass mass mass.
Definition cylinder (length radius mass : R) : m6 :=
  let Itan := mass * (radius ^ 2 / 4 + length ^ 2 / 12) in
  let Iaxe := mass * radius ^ 2 / 2 in
  diag6 Itan Itan Iaxe mass mass mass.
Definition sphere (radius mass : R) : m6 :=
  let i := 2 * mass * radius ^ 2 / 5 in diag6 i i i mass mass mass.
