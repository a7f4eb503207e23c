(** Specification vocabulary for disabled constraints. *)
From Verif Require Export Spec_Sim Spec_World.
Open Scope R_scope.

(** the constraints that are enabled, and the contacts (whose frames a user may see) *)
Definition kept (c : con) : bool := match c with CJ x => jl_on x | CB x => bs_on x | CS _ => true end.
(** the same world without its disabled joint limits and ball and socket constraints *)
Definition without_v (v : wview) : wview := WV (v_s v) (v_st v) (filter kept (v_cs v)).
Definition without (x : sim) : sim := Sim (W (without_v (w_v (sm_w x))) (w_ctl (sm_w x))) (sm_names x) (sm_obs x).
(** a controller of the user that does not look at the disabled constraints *)
Definition blind_to_disabled (k : kctl wview) : Prop := match k with KUser f => forall v dt, f (without_v v) dt = f v dt | _ => True end.
