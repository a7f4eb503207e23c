(** Specification vocabulary for interrupted simulations. *)
From Verif Require Export Spec_Sim Spec_Step Spec_World.

(** the same objects, numbered alike (the numpy arrays that hold the velocities may be others) *)
Definition one_graph (h h' : @heap R) : Prop :=
  parentjoint h' = parentjoint h /\ childrenjoints h' = childrenjoints h /\ jframes h' = jframes h /\ jdof h' = jdof h /\ w_subframes h' = w_subframes h /\
  w_shapes h' = w_shapes h /\ w_constraints h' = w_constraints h /\ w_controllers h' = w_controllers h /\ w_ndof h' = w_ndof h.
(** the same positions, velocities and time, the same poses, jacobians... of the bodies, the same data of the constraints (forces, contact frames...) *)
Definition alike (t : tree) (v v' : wview) : Prop :=
  let s := v_s v in let s' := v_s v' in
  one_graph (s_heap s) (s_heap s') /\ world_gvel (s_heap s') = world_gvel (s_heap s) /\
  (forall j, In j (joints t) -> joint_gvel (s_heap s') j = joint_gvel (s_heap s) j) /\
  s_ty s' = s_ty s /\ s_q s' = s_q s /\ s_qH s' = s_qH s /\ s_time s' = s_time s /\ v_st v' = v_st v /\ v_cs v' = v_cs v.
Definition same_world (t : tree) (w w' : world) : Prop := alike t (w_v w) (w_v w') /\ w_ctl w' = w_ctl w.
(** the matrices and forces of the last step are the same too *)
Definition same_matrices (w w' : world) : Prop :=
  s_dyn (w_s w') = s_dyn (w_s w) /\ s_gforce (w_s w') = s_gforce (w_s w) /\ s_imp (w_s w') = s_imp (w_s w) /\ s_adm (w_s w') = s_adm (w_s w).
(** a controller that reads the state of the world and its matrices World.mass, viscosity and nleffects, but not what is left by the previous step:
    World.gforce, World.admittance, or the identity of the arrays *)
Definition memoryless (t : tree) (f : wview -> R -> res (vec * mat)) : Prop :=
  forall v v' dt, alike t v v' -> s_dyn (v_s v') = s_dyn (v_s v) -> f v' dt = f v dt.
