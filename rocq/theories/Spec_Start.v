(** Specification vocabulary for the starting time of a simulation. *)
From Verif Require Export Spec_Sim Spec_World.
Open Scope R_scope.

(** the same world, [d] seconds later on its clock *)
Definition later_s (d : R) (s : wst) : wst := WS (s_heap s) (s_ty s) (s_qH s) (s_q s) (s_dyn s) (s_gforce s) (s_imp s) (s_adm s) (s_time s + d).
Definition later_v (d : R) (v : wview) : wview := WV (later_s d (v_s v)) (v_st v) (v_cs v).
Definition later (d : R) (x : sim) : sim := Sim (W (later_v d (w_v (sm_w x))) (w_ctl (sm_w x))) (sm_names x) (sm_obs x).
(** a controller of the user that does not look at the clock *)
Definition blind_to_clock (d : R) (k : kctl wview) : Prop := match k with KUser f => forall v dt, f (later_v d v) dt = f v dt | _ => True end.
