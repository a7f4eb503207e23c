(** Specification vocabulary for the error made on the derivatives of the jacobians. *)
From Verif Require Export Spec_Dyn.
Open Scope R_scope.
Definition v6suml (l : list v6) : v6 := fold_right v6add zero6 l.
(** the twist of a joint carried back through its pose instead of forth *)
Definition twist_error (j : jstate) : v6 :=
  v6sub (mv6 (adjoint_ (inv_ (Model_Joints.pose j))) (Model_Joints.twist j)) (mv6 (adjoint_ (Model_Joints.pose j)) (Model_Joints.twist j)).
(** what a vector [x] of the motion of the first frame of joint [j] (at [P0]) contributes at a frame at [P] *)
Definition joint_error (j : jstate) (P P0 : m4) (x : v6) : v6 := mv6 (adjoint_ (mm4 (inv_ P) P0)) (mv6 (adjacency (twist_error j)) x).
(** [W] is the acceleration of frame [g] that the world forgets: the sum of the contributions of the joints between its body and the ground *)
Definition lost_acceleration (e : env) (sc : scene) (h : @heap R) (t : tree) (J : nat -> jstate) (st : store) (g : frame) (W : v6) : Prop :=
  exists P js X, frame_pose e sc st g = Ok P /\ above t (frame_body e g) js /\ W = v6suml (map X js) /\
    forall j, In j js -> exists f0 f1 P0 T0, jframes h j = Some (f0, f1) /\ frame_pose e sc st f0 = Ok P0 /\ frame_twist e sc st f0 = Ok T0 /\
      X j = joint_error (J j) P P0 T0.
(** the power of the gyroscopic forces of a body: zero, but for the masses under the threshold of Body.update_dynamic *)
Definition gyro_power (m : R) (c : v3) (T : v6) : R :=
  if Rle_dec m (1 / 10000000000) then m * dot3 (lin T) (cross (ang T) (cross (ang T) c)) else 0.
