(** Specification vocabulary for one simulation step. *)
From Verif Require Export Model_Step Spec_Dyn.

(** sums over lists *)
Fixpoint sumlist {A} (f : A -> R) (l : list A) : R := match l with [] => 0 | x :: l' => f x + sumlist f l' end.

Definition unit_mat : mat := fun i j => if Nat.eqb i j then 1 else 0.
(** equality of the entries of (n,) and (n,n) arrays *)
Definition veq (n : nat) (x y : vec) : Prop := forall i, (i < n)%nat -> x i = y i.
Definition meq (n : nat) (A B : mat) : Prop := forall i j, (i < n)%nat -> (j < n)%nat -> A i j = B i j.
(** some non zero vector of the kernel *)
Definition singular (n : nat) (A : mat) : Prop := exists x, ~ veq n x vzero /\ veq n (mvn n A x) vzero.
Definition inverse (n : nat) (A B : mat) : Prop := meq n (mmn n A B) unit_mat /\ meq n (mmn n B A) unit_mat.
(** what is assumed of numpy.linalg.inv: it returns the inverse, and fails only on singular arrays *)
Definition inv_spec (linv : nat -> mat -> option mat) : Prop :=
  forall n A, match linv n A with Some B => inverse n A B | None => singular n A end.

(** a world ready to be integrated: numbered joints, whose velocities are the slices of the world
    velocity (the state left by World.init) *)
Definition live (e : env) (h : @heap R) (t : tree) : Prop :=
  ready e h t /\ length (world_gvel h) = w_ndof h /\
  forall j s d, In j (joints t) -> jdof h j = Some (s, d) -> jgvel h j = View (w_gvel h) s (d - s).

(** a joint position update by velocity [v] during [dt] *)
Definition moved_by (j j' : jstate) (n : nat) (v : vec) (dt : R) : Prop :=
  jt j' = jt j /\
  match jt j with
  | FreeJoint => gposH j' = mm4 (gposH j) (exp (v6scal dt (v6of v)))
  | _ => forall i, (i < n)%nat -> gpos j' i = gpos j i + dt * v i
  end /\ forall i, (i < n)%nat -> gvel j' i = v i.

(** the contract of a constraint: [solve] returns the increment of the force and changes neither the
    jacobian, the size nor the activity *)
Definition increments {C} (ops : cops C) (c : C) : Prop :=
  forall vel Y dt c' df, c_solve ops c vel Y dt = Ok (c', df) ->
    c_ndol ops c' = c_ndol ops c /\ c_jac ops c' = c_jac ops c /\ c_active ops c' = c_active ops c /\
    c_enabled ops c' = c_enabled ops c /\
    forall k, (k < c_ndol ops c)%nat -> c_force ops c' k = c_force ops c k + df k.

(** the constraints that take part in the resolution, in order *)
Definition acting {C} (l : list (C * option nat)) : list C :=
  flat_map (fun x => match snd x with Some _ => [fst x] | None => [] end) l.
