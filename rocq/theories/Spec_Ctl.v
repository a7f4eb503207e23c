(** Specification vocabulary for controllers and the energy observer. *)
From Verif Require Export Model_Ctl Spec_Step Spec_Mass.

(** the coordinates controlled by a list of joints, in order: (joint, component) *)
Definition controlled (e : env) (js : list nat) : list (nat * nat) :=
  flat_map (fun j => map (pair j) (seq 0 (jndof e j))) js.
(** index of a joint coordinate in the vectors of the world *)
Definition index (h : @heap R) (x : nat * nat) : nat :=
  match jdof h (fst x) with Some (s, _) => (s + snd x)%nat | None => 0%nat end.
(** [Kp (q_d - q) + Kd (v_d - v)], row r *)
Definition pd_law (n : nat) (kp kd : mat) (qd vd q v : vec) (r : nat) : R :=
  sumR n (fun k => kp r k * (qd k - q k)) + sumR n (fun k => kd r k * (vd k - v k)).
(** all the joints have the same number of dofs *)
Definition same_ndof (e : env) (js : list nat) : Prop := forall i j, In i js -> In j js -> jndof e i = jndof e j.
