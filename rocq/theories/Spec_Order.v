(** Specification vocabulary for the order of registration of the controllers. *)
From Verif Require Export Spec_Sim Spec_World.
From Coq Require Export Permutation.
Open Scope R_scope.

(** the same world, whose controllers were registered in the order [l] *)
Definition with_controllers (l : list nat) (h : @heap R) : @heap R := set_registered h (w_subframes h) (w_shapes h) (w_constraints h) l.
Definition reordered_s (l : list nat) (s : wst) : wst := WS (with_controllers l (s_heap s)) (s_ty s) (s_qH s) (s_q s) (s_dyn s) (s_gforce s) (s_imp s) (s_adm s) (s_time s).
Definition reordered_v (l : list nat) (v : wview) : wview := WV (reordered_s l (v_s v)) (v_st v) (v_cs v).
Definition reordered (l : list nat) (x : sim) : sim := Sim (W (reordered_v l (w_v (sm_w x))) (w_ctl (sm_w x))) (sm_names x) (sm_obs x).
(** a controller of the user that does not look at the list of the controllers *)
Definition blind_to_order (l : list nat) (k : kctl wview) : Prop := match k with KUser f => forall v dt, f (reordered_v l v) dt = f v dt | _ => True end.
