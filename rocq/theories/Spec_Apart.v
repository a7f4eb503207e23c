(** Specification vocabulary for robots that share a world without touching each other. *)
From Verif Require Export Spec_Sim Spec_World Spec_Dyn Spec_Step.
Open Scope R_scope.

(** no body is carried by both joints *)
Definition apart (t : tree) (i j : nat) : Prop := forall b js, above t b js -> ~ (In i js /\ In j js).
(** [P] selects whole robots: the joints between a body and the ground are all selected, or none is *)
Definition whole_robots (t : tree) (P : nat -> bool) : Prop := forall b js, above t b js -> (forall j, In j js -> P j = true) \/ (forall j, In j js -> P j = false).
(** a body of the selected robots *)
Definition own (t : tree) (P : nat -> bool) (b : nat) : Prop := exists js, above t b js /\ js <> [] /\ forall j, In j js -> P j = true.
(** [k] is the number of a degree of freedom of the selected robots *)
Definition own_dof (h : @heap R) (t : tree) (P : nat -> bool) (k : nat) : bool :=
  existsb (fun j => P j && match jdof h j with Some (s, d) => Nat.leb s k && Nat.ltb k d | None => false end) (joints t).

(** the two scenes give the same masses and viscosities to the bodies of the selected robots, and the same poses to the frames linked by their joints *)
Definition same_scene (t : tree) (P : nat -> bool) (h : @heap R) (sc sc' : scene) : Prop :=
  (forall b, own t P b -> b_mass sc' b = b_mass sc b /\ b_visc sc' b = b_visc sc b) /\
  (forall j f0 f1, In j (joints t) -> P j = true -> jframes h j = Some (f0, f1) -> bpose sc' f0 = bpose sc f0 /\ bpose sc' f1 = bpose sc f1).

(** a force and an impedance that act on the selected robots in the same way, and do not link them to the others *)
Definition local (n : nat) (D : nat -> bool) (r r' : vec * mat) : Prop :=
  (forall k, (k < n)%nat -> D k = true -> fst r' k = fst r k) /\
  (forall k l, (k < n)%nat -> (l < n)%nat -> D k = true -> D l = true -> snd r' k l = snd r k l) /\
  (forall k l, (k < n)%nat -> (l < n)%nat -> D k <> D l -> snd r k l = 0 /\ snd r' k l = 0).
(** the selected robots are in the same state in both worlds: joints, and attributes of the bodies *)
Definition same_robots (t : tree) (P : nat -> bool) (v v' : wview) : Prop :=
  (forall j, In j (joints t) -> P j = true -> joints_of (v_s v') j = joints_of (v_s v) j) /\
  (forall b, own t P b -> v_st v' b = v_st v b) /\ s_time (v_s v') = s_time (v_s v).
(** gravity; PD controllers of the selected robots (the same in both worlds), or of the others; controllers of the user that do not link the selected robots to the others *)
Definition same_ctl (e : env) (t : tree) (P : nat -> bool) (k k' : kctl wview) : Prop :=
  match k, k' with
  | KWeight g _, KWeight g' _ => g' = g
  | KPD c, KPD c' => (forall j, In j (pd_joints c) -> In j (joints t)) /\ (forall j, In j (pd_joints c') -> In j (joints t)) /\
                     ((c' = c /\ forall j, In j (pd_joints c) -> P j = true) \/ ((forall j, In j (pd_joints c) -> P j = false) /\ (forall j, In j (pd_joints c') -> P j = false)))
  | KUser f, KUser f' => forall v v' dt r r', live e (s_heap (v_s v)) t -> live e (s_heap (v_s v')) t -> same_robots t P v v' -> f v dt = Ok r -> f' v' dt = Ok r' ->
                         local (w_ndof (s_heap (v_s v))) (own_dof (s_heap (v_s v)) t P) r r'
  | _, _ => False
  end.
(** joint classes and sizes agree, no FreeJoint *)
Definition hinges (e : env) (t : tree) (ty : nat -> jtype) : Prop := forall j, In j (joints t) -> jndof e j = ndof_of (ty j) /\ ty j <> FreeJoint.
