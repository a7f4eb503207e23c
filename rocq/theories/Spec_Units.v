(** Specification vocabulary for the unit of mass: the same world described with another unit of mass (then of force and inertia). *)
From Verif Require Export Spec_Sim Spec_World Spec_Step.
Open Scope R_scope.

Definition m6scal (c : R) (M : m6) : m6 := M6 (mscal c (aa M)) (mscal c (al M)) (mscal c (la M)) (mscal c (ll M)).
(** the masses and viscosities of the bodies, [c] times greater *)
Definition heavy_scene (c : R) (sc : scene) : scene := Scene (fun b => m6scal c (b_mass sc b)) (fun b => m6scal c (b_visc sc b)) (sub_bpose sc) (mov_bpose sc).
Definition heavy_setup (c : R) (U : setup) : setup := SU (su_e U) (heavy_scene c (su_sc U)) (su_fuel U) (su_linv U) (su_pinv U) (su_eigc U) (su_solve U) (su_eigvals U) (su_eig U) (su_str_id U).
(** the matrices of the world and the forces, [c] times greater; the admittance is [c] times smaller; same joints, same positions and velocities *)
Definition heavy_dyn (c : R) (d : wdyn) : wdyn := WD (mmul c (d_mass d)) (mmul c (d_visc d)) (mmul c (d_nle d)).
Definition heavy_s (c : R) (s : wst) : wst := WS (s_heap s) (s_ty s) (s_qH s) (s_q s) (heavy_dyn c (s_dyn s)) (vmul c (s_gforce s)) (mmul c (s_imp s)) (mmul (/ c) (s_adm s)) (s_time s).
Definition heavy_attr (c : R) (a : bodyattr) : bodyattr := BA (a_pose a) (a_jac a) (a_djac a) (a_twist a) (option_map (m6scal c) (a_nle a)).
(** the forces of the constraints, [c] times greater (contacts are excluded below) *)
Definition heavy_con (c : R) (x : con) : con := match x with CJ j => CJ (jl_set_force j (vmul c (jl_force j))) | CB b => CB (BS (bs_on b) (bs_f0 b) (bs_f1 b) (bs_pos0 b) (vmul c (bs_force b))) | CS s => CS s end.
Definition heavy_v (c : R) (v : wview) : wview := WV (heavy_s c (v_s v)) (fun b => heavy_attr c (v_st v b)) (map (heavy_con c) (v_cs v)).
Definition no_contact (x : con) : Prop := match x with CS _ => False | _ => True end.
(** what is assumed of numpy.linalg.pinv: the pseudo-inverse of A / c is c times that of A *)
Definition pinv_scales (c : R) (pinv : nat -> mat -> mat) : Prop := forall n A, pinv n (mmul (/ c) A) = mmul c (pinv n A).
(** the gains of a PD controller, and the forces and impedances of a controller of the user, [c] times greater *)
Definition heavy_ctl (c : R) (k : kctl wview) : kctl wview :=
  match k with
  | KWeight g o => KWeight g (option_map (fun w => WC (wc_bodies w) (wc_dtwist w) (mmul c (wc_imp w))) o)
  | KPD p => KPD (PD (pd_joints p) (pd_cndof p) (pd_map p) (mmul c (pd_kp p)) (mmul c (pd_kd p)) (pd_qd p) (pd_vd p))
  | KUser f => KUser (fun v dt => rmap (fun r => (vmul c (fst r), mmul c (snd r))) (f (heavy_v (/ c) v) dt))
  end.
Definition heavy (c : R) (x : sim) : sim := Sim (W (heavy_v c (w_v (sm_w x))) (fun a => heavy_ctl c (w_ctl (sm_w x) a))) (sm_names x) (sm_obs x).
(** no body is lighter than the limit of Body.update_dynamic in one of the units only *)
Definition not_tiny (c : R) (sc : scene) : Prop := forall b, let m := m22 (ll (b_mass sc b)) in m <= 1 / 10000000000 <-> c * m <= 1 / 10000000000.
(** an (n,n) array has no other entries *)
Definition tidy (linv : nat -> mat -> option mat) : Prop := forall n A Y i j, linv n A = Some Y -> (n <= i \/ n <= j)%nat -> Y i j = 0.
