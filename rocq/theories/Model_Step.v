(** arboris/core.py:814-1067: [World.update_controllers], [World.update_constraints] and
    [World.integrate].  A (n,) array is a function of the index, a (n,m) array a function of the two
    indices; sizes are explicit arguments of the products. *)
From Verif Require Export Model_Dyn.

Definition vec := nat -> R.
Definition mat := nat -> nat -> R.
Definition vplus (x y : vec) : vec := fun i => x i + y i.
Definition vminus (x y : vec) : vec := fun i => x i - y i.
Definition vmul (k : R) (x : vec) : vec := fun i => k * x i.
Definition vzero : vec := fun _ => 0.
Definition mplus (A B : mat) : mat := fun i j => A i j + B i j.
Definition mminus (A B : mat) : mat := fun i j => A i j - B i j.
Definition mmul (k : R) (A : mat) : mat := fun i j => k * A i j.
Definition mzero : mat := fun _ _ => 0.
Definition trans (A : mat) : mat := fun i j => A j i.
(** [dot(A, x)] and [dot(A, B)], the inner size being [n] *)
Definition mvn (n : nat) (A : mat) (x : vec) : vec := fun i => sumR n (fun k => A i k * x k).
Definition mmn (n : nat) (A B : mat) : mat := fun i j => sumR n (fun k => A i k * B k j).

(** The attributes of a world read or written by these methods: object graph and velocity arrays
    (Model_World), class and position of every joint, World._mass/_viscosity/_nleffects, _gforce,
    _impedance, _admittance, _current_time. *)
Record wst := WS { s_heap : @heap R; s_ty : nat -> jtype; s_qH : nat -> m4; s_q : nat -> nat -> R;
                   s_dyn : wdyn; s_gforce : vec; s_imp : mat; s_adm : mat; s_time : R }.
(** World._gvel *)
Definition gvel_vec (h : @heap R) : vec := fun k => nth k (world_gvel h) 0.
(** the joints' attributes *)
Definition joints_of (s : wst) : nat -> jstate := joint_state (s_heap s) (s_ty s) (s_qH s) (s_q s).

Definition set_forces (s : wst) (f : vec) (Z Y : mat) : wst :=
  WS (s_heap s) (s_ty s) (s_qH s) (s_q s) (s_dyn s) f Z Y (s_time s).

(** the loop of core.py:889-892; [ctl a dt] is what [a.update(dt)] returns or raises (a controller
    that itself changes the world is not modelled) *)
Fixpoint add_controllers (ctl : nat -> R -> res (vec * mat)) (dt : R) (l : list nat) (s : wst) : wst * res unit :=
  match l with
  | [] => (s, Ok tt)
  | a :: l' =>
      match ctl a dt with
      | Err x => (s, Err x)
      | Ok (f, Z) => add_controllers ctl dt l' (set_forces s (vplus (s_gforce s) f) (mminus (s_imp s) Z) (s_adm s))
      end
  end.

(** [World.update_controllers], core.py:886-893.  [linv n A] is [numpy.linalg.inv] of a (n,n) array,
    [None] standing for LinAlgError. *)
Definition update_controllers (linv : nat -> mat -> option mat) (ctl : nat -> R -> res (vec * mat)) (dt : R) (s : wst)
  : wst * res unit :=
  if Rlt_dec 0 dt then
    let d := s_dyn s in
    let s0 := set_forces s vzero (mplus (mplus (mmul (/ dt) (d_mass d)) (d_visc d)) (d_nle d)) (s_adm s) in
    match add_controllers ctl dt (w_controllers (s_heap s)) s0 with
    | (s1, Err x) => (s1, Err x)
    | (s1, Ok _) =>
        match linv (w_ndof (s_heap s)) (s_imp s1) with
        | None => (s1, Err LinAlgError)
        | Some Y => (set_forces s1 (s_gforce s1) (s_imp s1) Y, Ok tt)
        end
    end
  else (s, Err AssertionError).

(** [dot(self._admittance, dot(self._mass, self._gvel/dt) + gforce)], core.py:1008-1009, 1062-1063 *)
Definition next_gvel (s : wst) (dt : R) (f : vec) : vec :=
  let n := w_ndof (s_heap s) in
  mvn n (s_adm s) (vplus (mvn n (d_mass (s_dyn s)) (vmul (/ dt) (gvel_vec (s_heap s)))) f).

(** [self._gvel[:] = v], core.py:1062: written through the array shared with the joints *)
Definition write_world_gvel (h : @heap R) (v : vec) : @heap R :=
  set_dofs h (jdof h) (w_ndof h)
    (upd_arr (arr h) (w_gvel h) (map v (seq 0 (length (world_gvel h))))) (jgvel h) (w_gvel h) (next_arr h).

(** [j.integrate(self._gvel[j.dof], dt)]: core.py:288-290, joints.py:64-66, 106-107.  The velocity
    attribute of the joint becomes a view of the world array, except for a FixedJoint. *)
Definition integrate_joint (dt : R) (j : nat) (s : wst) : res wst :=
  let h := s_heap s in
  match jdof h j with
  | None => Err ValueError
  | Some (a, b) =>
      let v := fun i => nth i (read (arr h) (View (w_gvel h) a (b - a))) 0 in
      let r := j_integrate (joints_of s j) v dt in
      let g := match s_ty s j with FixedJoint => jgvel h | _ => upd (jgvel h) j (View (w_gvel h) a (b - a)) end in
      Ok (WS (set_dofs h (jdof h) (w_ndof h) (arr h) g (w_gvel h) (next_arr h))
             (s_ty s) (upd (s_qH s) j (gposH r)) (upd (s_q s) j (gpos r))
             (s_dyn s) (s_gforce s) (s_imp s) (s_adm s) (s_time s))
  end.
Fixpoint integrate_joints (dt : R) (js : list nat) (s : wst) : wst * res unit :=
  match js with
  | [] => (s, Ok tt)
  | j :: js' => match integrate_joint dt j s with Err x => (s, Err x) | Ok s1 => integrate_joints dt js' s1 end
  end.

(** [World.integrate], core.py:1061-1067 *)
Definition integrate (e : env) (fuel : nat) (dt : R) (s : wst) : wst * res unit :=
  if Rlt_dec 0 dt then
    let h1 := write_world_gvel (s_heap s) (next_gvel s dt (s_gforce s)) in
    let s1 := WS h1 (s_ty s) (s_qH s) (s_q s) (s_dyn s) (s_gforce s) (s_imp s) (s_adm s) (s_time s) in
    match iterjoints e fuel h1 with
    | Err x => (s1, Err x)
    | Ok js =>
        match integrate_joints dt js s1 with
        | (s2, Err x) => (s2, Err x)
        | (s2, Ok _) =>
            (WS (s_heap s2) (s_ty s2) (s_qH s2) (s_q s2) (s_dyn s2) (s_gforce s2) (s_imp s2) (s_adm s2) (s_time s2 + dt), Ok tt)
        end
    end
  else (s, Err AssertionError).

(** *** Constraints *)

(** The interface of core.Constraint, core.py:318-380.  [c_jac] is the [jacobian] property, its first
    argument being the row; [c_force] is [_force]; [c_solve c vel Y dt] returns the constraint with its
    new force, and the returned [dforce]. *)
Record cops (C : Type) := Cops {
  c_enabled : C -> bool;
  c_update : C -> R -> res C;
  c_active : C -> bool;
  c_ndol : C -> nat;
  c_jac : C -> res mat;
  c_force : C -> vec;
  c_solve : C -> vec -> mat -> R -> res (C * vec) }.
Arguments c_enabled {C}. Arguments c_update {C}. Arguments c_active {C}. Arguments c_ndol {C}.
Arguments c_jac {C}. Arguments c_force {C}. Arguments c_solve {C}.

Section Constraints.
  Context {C : Type} (ops : cops C).

  (** the loop of core.py:994-1002: every constraint of the world with its slice start ([c._dol]) when
      it is enabled and active *)
  Fixpoint activate (dt : R) (n : nat) (cs : list C) : res (list (C * option nat) * nat) :=
    match cs with
    | [] => Ok ([], n)
    | c :: cs' =>
        if c_enabled ops c then
          let* c1 := c_update ops c dt in
          if c_active ops c1
          then let* (l, m) := activate dt (n + c_ndol ops c1) cs' in Ok ((c1, Some n) :: l, m)
          else let* (l, m) := activate dt n cs' in Ok ((c1, None) :: l, m)
        else let* (l, m) := activate dt n cs' in Ok ((c, None) :: l, m)
    end.

  (** [jac[c._dol, :] = c.jacobian], core.py:1003-1006 *)
  Fixpoint stack (l : list (C * option nat)) (jac : mat) : res mat :=
    match l with
    | [] => Ok jac
    | (c, None) :: l' => stack l' jac
    | (c, Some a) :: l' =>
        let* A := c_jac ops c in
        stack l' (fun i => if Nat.leb a i && Nat.ltb i (a + c_ndol ops c) then A (i - a)%nat else jac i)
    end.

  (** [Constraint.gforce], core.py:352-354 *)
  Definition c_gforce (c : C) : res vec :=
    let* A := c_jac ops c in Ok (mvn (c_ndol ops c) (trans A) (c_force ops c)).

  (** [gforce += c.gforce] over the kept constraints, core.py:1004-1007, 1021-1022 *)
  Fixpoint add_gforces (l : list (C * option nat)) (f : vec) : res vec :=
    match l with
    | [] => Ok f
    | (c, None) :: l' => add_gforces l' f
    | (c, Some _) :: l' => let* g := c_gforce c in add_gforces l' (vplus f g)
    end.

  (** [x[a:]] *)
  Definition vslice (a : nat) (x : vec) : vec := fun i => x (a + i)%nat.

  (** one pass over the constraints, core.py:1014-1016 *)
  Fixpoint sweep (dt : R) (Y : mat) (l : list (C * option nat)) (vel : vec) : res (list (C * option nat) * vec) :=
    match l with
    | [] => Ok ([], vel)
    | (c, None) :: l' => let* (r, v) := sweep dt Y l' vel in Ok ((c, None) :: r, v)
    | (c, Some a) :: l' =>
        let* (c1, df) := c_solve ops c (vslice a vel) (fun i j => Y (a + i)%nat (a + j)%nat) dt in
        let* (r, v) := sweep dt Y l' (fun i => vel i + sumR (c_ndol ops c) (fun k => Y i (a + k)%nat * df k)) in
        Ok ((c1, Some a) :: r, v)
    end.

  (** [numpy.linalg.norm] of a (n,) array *)
  Definition vnorm (n : nat) (x : vec) : R := sqrt (sumR n (fun i => x i * x i)).

  (** the loop of core.py:1012-1020 with [iters] passes left, [k] already done *)
  Fixpoint relax (dt tol : R) (n : nat) (Y : mat) (iters k : nat) (l : list (C * option nat)) (vel prev : vec)
    : res (list (C * option nat) * vec) :=
    match iters with
    | O => Ok (l, vel)
    | S m =>
        let* (l1, v1) := sweep dt Y l vel in
        if Nat.ltb 0 k && (if Rlt_dec (vnorm n (vminus v1 prev)) tol then true else false)
        then Ok (l1, v1)
        else relax dt tol n Y m (S k) l1 v1 v1
    end.

  (** [World.update_constraints], core.py:993-1022; also returns the constraints (with the slices they
      were given) and the final value of the local variable [vel].  Partial effects of a call that
      raises are not modelled. *)
  Definition update_constraints (dt tol : R) (maxiters : nat) (cs : list C) (s : wst)
    : res (wst * list (C * option nat) * vec) :=
    let n := w_ndof (s_heap s) in
    if Rlt_dec 0 dt then
      let* (l, m) := activate dt 0 cs in
      let* jac := stack l mzero in
      let* f := add_gforces l (s_gforce s) in
      let vel := mvn n jac (next_gvel s dt f) in
      let Y := mmn n jac (mmn n (s_adm s) (trans jac)) in
      let* (l1, v1) := relax dt tol m Y maxiters 0 l vel vel in
      let* f1 := add_gforces l1 (s_gforce s) in
      Ok (set_forces s f1 (s_imp s) (s_adm s), l1, v1)
    else Err AssertionError.
End Constraints.
