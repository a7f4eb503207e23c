(** Specification vocabulary for robots placed elsewhere. *)
From Verif Require Export Spec_Sim Spec_SE3 Spec_World.

(** the joints of [fr] are placed elsewhere by their own position (FreeJoint.gpos) *)
Definition placed (fr : nat -> bool) (G : m4) (qH : nat -> m4) (j : nat) : m4 := if fr j then mm4 G (qH j) else qH j.
(** the other objects of the setup are the same *)
Definition with_scene (U : setup) (sc : scene) : setup :=
  SU (su_e U) sc (su_fuel U) (su_linv U) (su_pinv U) (su_eigc U) (su_solve U) (su_eigvals U) (su_eig U) (su_str_id U).
(** [sc'] is [sc] with the robot displaced by [G]: each joint of the ground is either a FreeJoint of [fr] on the ground itself (its position is displaced), or is on a
    frame of the ground which is displaced; the frames of the other bodies are not changed *)
Record displaced (e : env) (sc sc' : scene) (h : @heap R) (ty : nat -> jtype) (fr : nat -> bool) (G : m4) : Prop := {
  dp_rigid : SE3 G;
  dp_mass : b_mass sc' = b_mass sc;
  dp_visc : b_visc sc' = b_visc sc;
  dp_same : forall f, frame_body e f <> ground e -> bpose sc' f = bpose sc f;
  dp_root : forall j f0 f1, In j (childrenjoints h (ground e)) -> jframes h j = Some (f0, f1) ->
              if fr j then ty j = FreeJoint /\ f0 = FBody (ground e) else bpose sc' f0 = mm4 G (bpose sc f0);
  dp_free : forall j, fr j = true -> ty j = FreeJoint /\ In j (childrenjoints h (ground e)) }.
(** every body of the robot is displaced by [G]; jacobians, twists... are the same *)
Definition displaced_bodies (e : env) (t : tree) (G : m4) (st st' : store) : Prop := forall b, In b (bodies t) ->
  a_pose (st' b) = (if Nat.eqb b (ground e) then a_pose (st b) else option_map (mm4 G) (a_pose (st b))) /\
  a_jac (st' b) = a_jac (st b) /\ a_djac (st' b) = a_djac (st b) /\ a_twist (st' b) = a_twist (st b) /\ a_nle (st' b) = a_nle (st b).
Definition set_qH (s : wst) (qH : nat -> m4) : wst := WS (s_heap s) (s_ty s) qH (s_q s) (s_dyn s) (s_gforce s) (s_imp s) (s_adm s) (s_time s).
(** everything is the same but the positions of the joints of [fr] (and the attributes of the bodies) *)
Definition same_run (fr : nat -> bool) (G : m4) (w w' : world) : Prop :=
  w_s w' = set_qH (w_s w) (placed fr G (s_qH (w_s w))) /\ v_cs (w_v w') = v_cs (w_v w) /\ w_ctl w' = w_ctl w.
(** a controller of the user that does not look at where the robot is *)
Definition indifferent (e : env) (t : tree) (fr : nat -> bool) (G : m4) (f : wview -> R -> res (vec * mat)) : Prop :=
  forall v v' dt, v_s v' = set_qH (v_s v) (placed fr G (s_qH (v_s v))) -> v_cs v' = v_cs v -> displaced_bodies e t G (v_st v) (v_st v') -> f v' dt = f v dt.
(** a frame of the robot, or a frame of the ground displaced with it *)
Definition carried (e : env) (sc sc' : scene) (t : tree) (G : m4) (f : frame) : Prop :=
  In (frame_body e f) (bodies t) /\ (frame_body e f <> ground e \/ (f <> FBody (ground e) /\ bpose sc' f = mm4 G (bpose sc f))).
(** joint limits, and ball and sockets between carried frames *)
Definition fair_con (e : env) (sc sc' : scene) (t : tree) (G : m4) (c : con) : Prop :=
  match c with CJ _ => True | CB x => carried e sc sc' t G (bs_f0 x) /\ carried e sc sc' t G (bs_f1 x) | CS _ => False end.
(** gravity is the same seen from the displaced robot; PD controllers; indifferent user controllers *)
Definition fair_ctl (e : env) (t : tree) (fr : nat -> bool) (G : m4) (k : kctl wview) : Prop :=
  match k with
  | KWeight g _ => mv (rot G) (vscal g world_up) = vscal g world_up
  | KPD _ => True
  | KUser f => indifferent e t fr G f
  end.
