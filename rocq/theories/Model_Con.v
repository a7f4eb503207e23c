(** arboris/constraints.py: JointLimits, BallAndSocketConstraint, PointContact, SoftFingerContact.
    Constraint velocities and forces are functions of the row index. *)
From Verif Require Export Model_Step.

(** entries of a (6,) array *)
Definition comp6 (i : nat) (u : v6) : R :=
  match i with
  | 0%nat => vx (ang u) | 1%nat => vy (ang u) | 2%nat => vz (ang u)
  | 3%nat => vx (lin u) | 4%nat => vy (lin u) | _ => vz (lin u)
  end.
Definition comp3 (i : nat) (u : v3) : R := match i with 0%nat => vx u | 1%nat => vy u | _ => vz u end.

(** What the constraints read: object graph, frame poses, body attributes set by
    [World.update_dynamic], joint positions; and the functions of numpy.linalg.
    [np_eigvals] lists the eigenvalues of a (6,6) array as pairs (real part, imaginary part);
    [np_solve n A b] is [None] for LinAlgError. *)
Record cenv := CE {
  ce_e : env; ce_sc : scene; ce_st : store; ce_q : nat -> nat -> R;
  np_pinv : nat -> mat -> mat;
  np_eigvals : mat -> list (R * R);
  np_solve : nat -> mat -> vec -> option vec }.

Definition existsb_n (n : nat) (p : nat -> bool) : bool := existsb p (seq 0 n).

(** *** JointLimits, constraints.py:19-93.  The None values held before [init] and the first [update]
    are not modelled. *)
Record jlim := JL { jl_on : bool; jl_joint : nat; jl_nd : nat; jl_min : vec; jl_max : vec; jl_prox : vec;
                    jl_pos0 : vec; jl_jac : mat; jl_force : vec }.
Definition jl_set_force (c : jlim) (f : vec) : jlim :=
  JL (jl_on c) (jl_joint c) (jl_nd c) (jl_min c) (jl_max c) (jl_prox c) (jl_pos0 c) (jl_jac c) f.

(** [init], constraints.py:54-56: ones at (k, start + k) *)
Definition jl_init (start : nat) (c : jlim) : jlim :=
  JL (jl_on c) (jl_joint c) (jl_nd c) (jl_min c) (jl_max c) (jl_prox c) (jl_pos0 c)
     (fun k i => if Nat.ltb k (jl_nd c) && Nat.eqb i (start + k) then 1 else 0) (jl_force c).

(** [init] for a joint that is not in the world: its [dof] is None, [arange(n)[None]] is a (1,n) array and the two
    index arrays, of shapes (nd,) and (1,n), are broadcast together: possible if nd = 1 (ones in the whole row), if
    nd = n (ones on the diagonal) or if n = 1 (ones in the only column); ValueError (IndexError with recent versions of numpy) otherwise *)
Definition jl_init_lost (n : nat) (c : jlim) : option jlim :=
  if Nat.eqb (jl_nd c) 1 || Nat.eqb (jl_nd c) n || Nat.eqb n 1 then
    Some (JL (jl_on c) (jl_joint c) (jl_nd c) (jl_min c) (jl_max c) (jl_prox c) (jl_pos0 c)
       (fun k i => if Nat.ltb k (jl_nd c) && Nat.ltb i n && (Nat.eqb (jl_nd c) 1 || Nat.eqb n 1 || Nat.eqb i k) then 1 else 0) (jl_force c))
  else None.

(** [update], constraints.py:66-68 *)
Definition jl_update (E : cenv) (c : jlim) : jlim :=
  JL (jl_on c) (jl_joint c) (jl_nd c) (jl_min c) (jl_max c) (jl_prox c) (ce_q E (jl_joint c)) (jl_jac c) vzero.
(** [is_active], constraints.py:70-72 *)
Definition jl_active (c : jlim) : bool :=
  existsb_n (jl_nd c) (fun i => Rltb (jl_pos0 c i - jl_min c i) (jl_prox c i)) ||
  existsb_n (jl_nd c) (fun i => Rltb (jl_max c i - jl_pos0 c i) (jl_prox c i)).
(** [solve], constraints.py:74-93 *)
Definition jl_solve (E : cenv) (c : jlim) (vel : vec) (Y : mat) (dt : R) : jlim * vec :=
  let n := jl_nd c in
  let pred := fun i => jl_pos0 c i + dt * (vel i - mvn n Y (jl_force c) i) in
  if existsb_n n (fun i => Rleb (pred i) (jl_min c i)) then
    let f := mvn n (np_pinv E n Y) (fun i => (jl_min c i - pred i) / dt) in
    let f1 := fun i => Rmax (f i) 0 in
    (jl_set_force c f1, vminus f1 (jl_force c))
  else if existsb_n n (fun i => Rleb (jl_max c i) (pred i)) then
    let f := mvn n (np_pinv E n Y) (fun i => (jl_max c i - pred i) / dt) in
    let f1 := fun i => Rmin (f i) 0 in
    (jl_set_force c f1, vminus f1 (jl_force c))
  else (jl_set_force c vzero, fun i => - jl_force c i).

(** [adjoint(H_01) J1 - J0] with [H_01 = inv(frame0.pose) frame1.pose]: its columns, of which the
    jacobians of constraints.py:192-195 and 411-414 keep the rows 3:6 and 2:6 *)
Definition rel_jac (e : env) (sc : scene) (st : store) (f0 f1 : frame) : res (nat -> v6) :=
  let* H0 := frame_pose e sc st f0 in
  let* iH0 := inv H0 in
  let* H1 := frame_pose e sc st f1 in
  let* Ad := adjoint (mm4 iH0 H1) in
  let* J1 := frame_jac e sc st f1 in
  let* J0 := frame_jac e sc st f0 in
  Ok (fun c => v6sub (mv6 Ad (J1 c)) (J0 c)).

(** *** BallAndSocketConstraint, constraints.py:95-241 *)
Record ball := BS { bs_on : bool; bs_f0 : frame; bs_f1 : frame; bs_pos0 : v3; bs_force : vec }.
(** [update], constraints.py:168-186; the force is kept from the previous step *)
Definition bs_update (E : cenv) (c : ball) : res ball :=
  let* H0 := frame_pose (ce_e E) (ce_sc E) (ce_st E) (bs_f0 c) in
  let* iH0 := inv H0 in
  let* H1 := frame_pose (ce_e E) (ce_sc E) (ce_st E) (bs_f1 c) in
  Ok (BS (bs_on c) (bs_f0 c) (bs_f1 c) (pos (mm4 iH0 H1)) (bs_force c)).
(** [jacobian], constraints.py:191-195 *)
Definition bs_jac (E : cenv) (c : ball) : res mat :=
  let* J := rel_jac (ce_e E) (ce_sc E) (ce_st E) (bs_f0 c) (bs_f1 c) in Ok (fun k i => comp6 (3 + k) (J i)).
(** [solve], constraints.py:239-241 *)
Definition bs_solve (E : cenv) (c : ball) (vel : vec) (Y : mat) (dt : R) : ball * vec :=
  let df := fun i => - mvn 3 (np_pinv E 3 Y) (fun k => vel k + comp3 k (bs_pos0 c) / dt) i in
  (BS (bs_on c) (bs_f0 c) (bs_f1 c) (bs_pos0 c) (fun i => bs_force c i + df i), df).

(** *** PointContact and SoftFingerContact, constraints.py:244-302, 305-843.  [sf_b0], [sf_b1]: bodies of
    the two shapes; [sf_m0], [sf_m1]: the contact's own MovingSubFrames and [sf_H0], [sf_H1] their bpose;
    [sf_coll]: the collision solver applied to the shapes, whose frames' poses are read in the store. *)
Record sfc := SF { sf_on : bool; sf_b0 : nat; sf_b1 : nat; sf_m0 : nat; sf_m1 : nat; sf_H0 : m4; sf_H1 : m4;
                   sf_coll : store -> res (R * m4 * m4); sf_act : bool; sf_sdist : R; sf_prox : R; sf_mu : R;
                   sf_eps : nat -> R; sf_force : vec }.
Definition sf_set_force (c : sfc) (f : vec) : sfc :=
  SF (sf_on c) (sf_b0 c) (sf_b1 c) (sf_m0 c) (sf_m1 c) (sf_H0 c) (sf_H1 c) (sf_coll c) (sf_act c) (sf_sdist c)
     (sf_prox c) (sf_mu c) (sf_eps c) f.
(** the scene with the current bpose of the contact's frames *)
Definition with_frames (sc : scene) (m0 m1 : nat) (H0 H1 : m4) : scene :=
  Scene (b_mass sc) (b_visc sc) (sub_bpose sc) (upd (upd (mov_bpose sc) m0 H0) m1 H1).
Definition sf_scene (E : cenv) (c : sfc) : scene := with_frames (ce_sc E) (sf_m0 c) (sf_m1 c) (sf_H0 c) (sf_H1 c).

(** MovingSubFrame.bpose setter, core.py:1168-1171 *)
Definition set_bpose (H : m4) : res m4 := if ishomogeneousmatrix H then Ok H else Err AssertionError.

(** PointContact.update, constraints.py:282-299 *)
Definition sf_update (E : cenv) (c : sfc) (dt : R) : res sfc :=
  let* (sdist, Hc0, Hc1) := sf_coll c (ce_st E) in
  let* P0 := get (a_pose (ce_st E (sf_b0 c))) in
  let* iP0 := inv P0 in
  let* P1 := get (a_pose (ce_st E (sf_b1 c))) in
  let* iP1 := inv P1 in
  let* B0 := set_bpose (mm4 iP0 Hc0) in
  let* B1 := set_bpose (mm4 iP1 Hc1) in
  let* iHc0 := inv Hc0 in
  let* Ad := adjoint (mm4 iHc0 Hc1) in
  let sc := with_frames (ce_sc E) (sf_m0 c) (sf_m1 c) B0 B1 in
  let* T1 := frame_twist (ce_e E) sc (ce_st E) (FMov (sf_m1 c)) in
  let* T0 := frame_twist (ce_e E) sc (ce_st E) (FMov (sf_m0 c)) in
  let dsdist := comp6 5 (mv6 Ad T1) - comp6 5 T0 in
  Ok (SF (sf_on c) (sf_b0 c) (sf_b1 c) (sf_m0 c) (sf_m1 c) B0 B1 (sf_coll c)
         (Rltb (sdist + dsdist * dt) (sf_prox c)) sdist (sf_prox c) (sf_mu c) (sf_eps c) vzero).

(** [jacobian], constraints.py:435-439 *)
Definition sf_jac (E : cenv) (c : sfc) : res mat :=
  let* J := rel_jac (ce_e E) (sf_scene E c) (ce_st E) (FMov (sf_m0 c)) (FMov (sf_m1 c)) in Ok (fun k i => comp6 (2 + k) (J i)).

Definition dotn (n : nat) (x y : vec) : R := sumR n (fun i => x i * y i).

(** the matrix B of constraints.py:820-832.  [Y_c], [beta] and [b] are one-dimensional arrays, so that
    [dot(Y_c, Y_c.T)], [dot(beta, b.T)], [dot(beta, beta.T)] and [dot(b, b.T)] are scalars: the first
    two are added to every entry, the last two multiply [E]. *)
Definition sf_B (Y : mat) (mu : R) (eps : vec) (alpha : vec) : mat :=
  let yn := Y 3%nat 3%nat in
  let Yc := fun i => Y i 3%nat in
  let beta := fun i => alpha i - alpha 3%nat / yn * Yc i in
  let a := mu / yn * alpha 3%nat in
  let b := fun i => mu / yn * Yc i in
  let Yh := fun i j => Y i j - dotn 3 Yc Yc / yn in
  let e2 := fun i => eps i * eps i in
  let dg := fun i j x => if Nat.eqb i j then x else 0 in
  fun i j =>
    match Nat.ltb i 3, Nat.ltb j 3 with
    | true, true => e2 i * (Yh i j + 2 / a * dotn 3 beta b)
    | true, false => dg i (j - 3)%nat (- (e2 i * (dotn 3 beta beta / (a * a))))
    | false, true => dg (i - 3)%nat j (e2 (i - 3)%nat * dotn 3 b b - 1)
    | false, false => e2 (i - 3)%nat * Yh (i - 3)%nat (j - 3)%nat
    end.

(** choice of [s], constraints.py:833-837.  When some eigenvalues are complex, [s] is a numpy complex
    with zero imaginary part; it is identified with its real part. *)
Definition min_list (l : list R) (d : R) : R := fold_left Rmin l d.
Definition sf_choose (S : list (R * R)) : R :=
  match map fst (filter (fun z => Reqb (snd z) 0 && Rleb (fst z) 0) S) with
  | [] => - 10000000000
  | x :: l => Rmax (min_list l x) (- 10000000000)
  end.

(** [solve], constraints.py:786-843.  Infinities and nans in B (when y_n = 0, mu = 0 or alpha[3] = 0) make
    [eigvals] raise LinAlgError. *)
Definition sf_solve (E : cenv) (c : sfc) (vel : vec) (Y : mat) (dt : R) : res (sfc * vec) :=
  let f := sf_force c in
  let vnf := vminus vel (mvn 4 Y f) in
  if Rltb 0 (sf_sdist c + dt * vnf 3%nat) then
    Ok (sf_set_force c vzero, fun i => - f i)
  else
    let zv := fun i => if Nat.eqb i 3 then vel i + sf_sdist c / dt else vel i in
    let df := mvn 4 (mmul (-1) (np_pinv E 4 Y)) zv in
    let f1 := vplus f df in
    if Rleb (sumR 3 (fun i => (f1 i / sf_eps c i) * (f1 i / sf_eps c i))) ((f1 3%nat * sf_mu c) * (f1 3%nat * sf_mu c)) then
      Ok (sf_set_force c f1, df)
    else
      let alpha := fun i => if Nat.eqb i 3 then vnf i + sf_sdist c / dt else vnf i in
      if Reqb (Y 3%nat 3%nat) 0 || Reqb (sf_mu c / Y 3%nat 3%nat * alpha 3%nat) 0 then Err LinAlgError
      else
        let s := sf_choose (np_eigvals E (sf_B Y (sf_mu c) (sf_eps c) alpha)) in
        let A := fun i j => Y i j - (if Nat.ltb i 3 && Nat.eqb i j then s * / (sf_eps c i * sf_eps c i) else 0) in
        match np_solve E 4 A (fun i => - alpha i) with
        | None => Err LinAlgError
        | Some f2 => Ok (sf_set_force c f2, vminus f2 f)
        end.

(** *** The constraints of a world *)
Inductive con := CJ (c : jlim) | CB (c : ball) | CS (c : sfc).
Definition con_ops (E : cenv) : cops con := Cops con
  (fun c => match c with CJ x => jl_on x | CB x => bs_on x | CS x => sf_on x end)
  (fun c dt => match c with CJ x => Ok (CJ (jl_update E x)) | CB x => rmap CB (bs_update E x) | CS x => rmap CS (sf_update E x dt) end)
  (fun c => match c with CJ x => jl_active x | CB _ => true | CS x => sf_act x end)
  (fun c => match c with CJ x => jl_nd x | CB _ => 3%nat | CS _ => 4%nat end)
  (fun c => match c with CJ x => Ok (jl_jac x) | CB x => bs_jac E x | CS x => sf_jac E x end)
  (fun c => match c with CJ x => jl_force x | CB x => bs_force x | CS x => sf_force x end)
  (fun c vel Y dt => match c with
     | CJ x => let (y, d) := jl_solve E x vel Y dt in Ok (CJ y, d)
     | CB x => let (y, d) := bs_solve E x vel Y dt in Ok (CB y, d)
     | CS x => let* (y, d) := sf_solve E x vel Y dt in Ok (CS y, d) end).
