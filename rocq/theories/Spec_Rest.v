(** Specification vocabulary for robots at rest. *)
From Verif Require Export Spec_Sim Spec_World.
Open Scope R_scope.

(** no joint of the tree moves *)
Definition at_rest (h : @heap R) (t : tree) : Prop := forall j, In j (joints t) -> forall i, nth i (joint_gvel h j) 0 = 0.
(** a PD controller asked to hold the position [q], or a controller of the user that applies no force in this state *)
Definition holds (e : env) (q : nat -> nat -> R) (qH : nat -> m4) (k : kctl wview) : Prop :=
  match k with
  | KWeight _ _ => False
  | KPD c => (forall r, (r < pd_cndof c)%nat -> pd_qd c r = nth r (concat (map (fun j => map (q j) (seq 0 (jndof e j))) (pd_joints c))) 0) /\ (forall r, (r < pd_cndof c)%nat -> pd_vd c r = 0)
  | KUser f => forall v dt F Z, s_q (v_s v) = q -> s_qH (v_s v) = qH -> (forall i, nth i (world_gvel (s_heap (v_s v))) 0 = 0) -> f v dt = Ok (F, Z) -> forall i, F i = 0
  end.
(** a disabled constraint, or limits that are not near the position [q] *)
Definition quiet (q : nat -> nat -> R) (c : con) : Prop :=
  match c with
  | CJ x => jl_on x = false \/ (forall i, (i < jl_nd x)%nat -> jl_min x i + jl_prox x i <= q (jl_joint x) i <= jl_max x i - jl_prox x i)
  | CB x => bs_on x = false
  | CS x => sf_on x = false
  end.
