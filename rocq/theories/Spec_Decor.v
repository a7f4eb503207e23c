(** Specification vocabulary for what a simulation does not look at: names, shapes and frames registered in the world. *)
From Verif Require Export Spec_Sim Spec_World.
Open Scope R_scope.

(** the same world, in which the frames [F] and the shapes [S] are registered *)
Definition decor_h (F : list frame) (Sh : list nat) (h : @heap R) : @heap R := set_registered h F Sh (w_constraints h) (w_controllers h).
Definition decor_s (F : list frame) (Sh : list nat) (s : wst) : wst := WS (decor_h F Sh (s_heap s)) (s_ty s) (s_qH s) (s_q s) (s_dyn s) (s_gforce s) (s_imp s) (s_adm s) (s_time s).
Definition decor_v (F : list frame) (Sh : list nat) (v : wview) : wview := WV (decor_s F Sh (v_s v)) (v_st v) (v_cs v).
Definition decorated (F : list frame) (Sh : list nat) N (x : sim) : sim := Sim (W (decor_v F Sh (w_v (sm_w x))) (w_ctl (sm_w x))) N (sm_obs x).
(** a controller of the user that does not look at the registered frames and shapes *)
Definition blind_to_decor (F : list frame) (Sh : list nat) (k : kctl wview) : Prop := match k with KUser f => forall v dt, f (decor_v F Sh v) dt = f v dt | _ => True end.
