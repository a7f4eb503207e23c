(** C101: a robot moves the same way wherever it stands. *)
From Coq Require Import Lra Lia FunctionalExtensionality.
From Verif Require Import Spec_Move Proof_Linalg Proof_SE3 Proof_Tree Proof_World Proof_World2 Proof_World3 Proof_World4 Proof_Dofs Proof_Step Proof_Move Proof_Move2 Spec_Resume Proof_Sim Proof_Sim2 Proof_Sim3 Props_Dyn Props_Step Proof_Resume Proof_Resume2 Proof_Move3.
From Verif Require Import Props_World Props_Sim Props_Resume.
Open Scope R_scope.

(** [C101] Two worlds with the same bodies, joints, state, controllers and constraints, the second robot being displaced by the rigid motion [G] (the frames of the ground its joints are on,
    or the position of its free root joint), simulated on the same timeline: same outcome (the same exception too), same joint positions, velocities, time, mass matrix, forces... at the
    end, the positions of the displaced free joints being [G] times those of the first; every body of the robot is displaced by [G], with the same jacobian and twist.
    With gravity, [G] must keep the vertical direction. *)
Theorem C101_moved : forall U O sc' fr G g0 t timeline x x' y r, let h := s_heap (w_s (sm_w x)) in
  reachable 0 (su_e U) g0 h -> rep (su_e U) h t -> root t = ground (su_e U) ->
  displaced (su_e U) (su_sc U) sc' h (s_ty (w_s (sm_w x))) fr G ->
  Forall (fair_con (su_e U) (su_sc U) sc' t G) (v_cs (w_v (sm_w x))) ->
  (forall a, In a (w_controllers h) -> fair_ctl (su_e U) t fr G (w_ctl (sm_w x) a)) ->
  same_run fr G (sm_w x) (sm_w x') ->
  simulate U O timeline (IterList []) x = (y, r) ->
  exists y', simulate (with_scene U sc') O timeline (IterList []) x' = (y', r) /\ same_run fr G (sm_w y) (sm_w y') /\
    (r = Ok tt -> (2 <= length timeline)%nat -> displaced_bodies (su_e U) t G (v_st (w_v (sm_w y))) (v_st (w_v (sm_w y')))).
Proof.
  intros U O sc' fr G g0 t timeline x x' y r h Re Rt Er D Fc Fk Sr E.
  destruct timeline as [ | t0 ts]; [cbn in E; injection E as <- <-; exists x'; split; [reflexivity | split; [exact Sr | discriminate]] | ].
  assert (ND : NoDup (bodies t)) by (destruct (forest_subtree (su_e U) h (ground (su_e U)) (reachable_forest 0 (su_e U) g0 _ Re)) as (t1 & R1 & E1 & N1); assert (t1 = t) as <- by (apply (rep_unique (su_e U) h); auto; congruence); exact N1).
  apply same_run_eq in Sr. set (st' := v_st (w_v (sm_w x'))) in *.
  rewrite simulate_alone in E |- *.
  assert (Ew : set_time (sm_w x') t0 = mvw fr G st' (set_time (sm_w x) t0)) by (rewrite Sr; reflexivity). rewrite Ew.
  destruct (init_moved U sc' fr G t Er (set_time (sm_w x) t0) st' Rt D Fc Fk) as [Ei Gd]. rewrite Ei.
  destruct (world_init U (set_time (sm_w x) t0)) as [w1 [[] | z]]; cbn [fst snd bind_] in *.
  - destruct (loop_moved U sc' fr G t Er ND O (t0 :: ts) ts (set_w x w1) (set_w x' (mvw fr G st' w1)) st' (Gd eq_refl) eq_refl) as (y' & st1 & L1 & L2 & L3). rewrite E in L1, L2, L3. cbn [fst snd] in L1, L2, L3.
    exists y'. split; [exact L1 | ]. rewrite L2. split; [apply same_run_eq; reflexivity | ]. intros Hr Hl. apply L3; [exact Hr | intros ->; cbn in Hl; lia].
  - injection E as <- <-. eexists. split; [reflexivity | ]. split; [apply same_run_eq; reflexivity | discriminate].
Qed.

(** *** a body sliding vertically on a frame of the ground, with gravity; turned and placed elsewhere *)
From Verif Require Import Spec_Sim Spec_Step Proof_Joints Proof_Dyn Proof_Dyn2 Proof_Matrix Props_Mass Proof_Ctl Props_Weight Props_Energy Props_DynEx Props_EnergyEx Props_Sim3 Props_Sim4.
Definition my_ops : list (@op R) := [AddLink (FSub 0) 1 (FBody 1); Init; Register (OController 0)]%nat.
Definition my_h : @heap R := run 0 (ch_e ky) 10 my_ops (fresh (ch_e ky) (fun _ _ => 1)).
Definition my_x : sim := Sim (W (WV (WS my_h (s_ty (w_s (sm_w sy_x))) (fun _ => eye4) (fun _ _ => 0) wdyn0 vzero mzero mzero 0) (fun _ => no_attr) [])
                                (fun _ => KWeight (- (981 / 100)) None)) (fun _ => None) (fun _ => MUser (VNum 0)).
Lemma my_rep : rep (ch_e ky) my_h (ch_t 0 1).
Proof.
  repeat (constructor; [reflexivity | ]; constructor;
      [split; [split; [do 2 eexists; split; [reflexivity | split; reflexivity] | reflexivity] | cbn [snd]] | constructor]); constructor; [reflexivity | constructor].
Qed.
Lemma my_reachable : reachable 0 (ch_e ky) (fun _ _ => 1) my_h.
Proof.
  unfold my_h, my_ops. unfold run. cbn [fold_left]. constructor; [ | exact Logic.I]. constructor; [ | exact Logic.I]. constructor; [constructor | ]. cbn [admissible].
  intros B. cbn [frame_body] in B. inversion B as [ | ? ? ? ? ? Ij]; subst. cbn in Ij. contradiction.
Qed.
Lemma my_dyn h J st st' d : ready (ch_e ky) h (ch_t 0 1) -> jframes h 1%nat = Some (FSub 0, FBody 1) -> jt (J 1%nat) = TyJoint ->
  world_update_dynamic (ch_e ky) (ch_sc ky_m) h J 10 st = Ok (st', d) ->
  d_mass d 0%nat 0%nat = 1 /\ d_visc d 0%nat 0%nat = 1 /\ d_nle d 0%nat 0%nat = 0.
Proof.
  intros Rd Fj Tj E0.
  assert (Ri : rigid_scene (ch_e ky) (ch_sc ky_m) (ch_t 0 1) J).
  { split; [intros [b | b | b]; apply SE3_eye | ]. intros j Ij. cbn in Ij. destruct Ij as [<- | []]. split; [intros E; rewrite Tj in E; discriminate | rewrite Tj; reflexivity]. }
  destruct (world_ok _ _ _ _ J 10 st Rd Ri) as (sd & d' & E & P & _ & Md & Vd & Nd); [cbn; lia | ]. rewrite E0 in E. injection E as <- <-.
  assert (S1 := P _ _ ky_path). cbn [map fst] in S1.
  assert (Dj : jdof h 1%nat = Some (0, 1)%nat) by (destruct Rd as (_ & _ & _ & _ & D); exact (D [] 1%nat [] eq_refl)).
  assert (K : kin_of (ch_sc ky_m) h J [1]%nat = stepk (ch_sc ky_m) h (J 1%nat) (0, 1)%nat (FSub 0) (FBody 1) kin0).
  { unfold kin_of. cbn [fold_right]. unfold stepj. rewrite Fj, Dj. reflexivity. }
  assert (Kj : k_jac (kin_of (ch_sc ky_m) h J [1]%nat) 0%nat = ey).
  { rewrite K. cbn [stepk k_jac kin0 fst snd bpose]. rewrite adjoint_eye, mv6_zero6, v6add_0_l. unfold slice_col. cbn [Nat.leb Nat.ltb andb Nat.sub]. rewrite mv6_1. unfold jacobian. rewrite Tj. reflexivity. }
  assert (Kd : k_djac (kin_of (ch_sc ky_m) h J [1]%nat) 0%nat = zero6).
  { rewrite K. cbn [stepk k_djac k_jac kin0 fst snd bpose]. rewrite adjoint_eye, !mv6_zero6, !v6add_0_l. unfold slice_col. cbn [Nat.leb Nat.ltb andb Nat.sub]. rewrite mv6_1. unfold djacobian. rewrite Tj. reflexivity. }
  rewrite Md, Vd, Nd. change (tl (bodies (ch_t 0 1))) with [1]%nat. cbn [suml map fold_right].
  rewrite (kin_at_attr _ _ _ _ S1). unfold congr. rewrite Kj, Kd. cbn [ch_sc b_mass b_visc]. change (ky_m 1) with wm.
  assert (T : ang (k_twist (kin_of (ch_sc ky_m) h J [1]%nat)) = zero3).
  { rewrite K. cbn [stepk k_twist kin0 bpose]. rewrite adjoint_eye, mv6_zero6, v6add_0_l, mv6_1. rewrite twist_sum.
    unfold jacobian. rewrite Tj. cbn [ndof_of sum6]. unfold e6, v6of. cbn [Nat.eqb]. generalize (gvel (J 1%nat) 0%nat). clear. intros z. unf. f_equal; ring. }
  split; [unfold ey, wm, rigid_mass; unf; ring | ]. split; [unfold ey, eye6; unf; ring | ].
  unfold body_nle. rewrite T. generalize (if Rle_dec (m22 (ll wm)) (1 / 10000000000) then zerom3 else mscal (/ m22 (ll wm)) (al wm)). intros [r1 r2 r3 r4 r5 r6 r7 r8 r9]. unfold ey, wm, rigid_mass. unf. ring.
Qed.
Lemma my_progress : forall U O x, su_e U = ch_e ky -> su_sc U = ch_sc ky_m -> su_fuel U = 10%nat -> inv_spec (su_linv U) ->
  s_heap (w_s (sm_w x)) = my_h -> s_ty (w_s (sm_w x)) = s_ty (w_s (sm_w sy_x)) -> v_cs (w_v (sm_w x)) = [] -> w_ctl (sm_w x) 0%nat = KWeight (- (981 / 100)) None ->
  forall t0 ts, Spec_Sim.increasing (t0 :: ts) -> exists y, simulate U O (t0 :: ts) (IterList []) x = (y, Ok tt).
Proof.
  intros U O x Ue Us Uf Ul Xh Xt Xc Xw t0 ts Inc.
  destruct (C18_progress U O t0 ts [] x (fun _ _ => 1) (ch_t 0 1)) as (y & [E | (_ & h' & J & st & st' & d & dt & So & Lv & Tj & Pd & E & Sg)]).
  - rewrite Ue, Xh. exact my_reachable.
  - rewrite Ue, Xh. exact my_rep.
  - rewrite Ue. reflexivity.
  - rewrite Uf. cbn. lia.
  - exact Ul.
  - rewrite Us. intros [b | b | b]; apply SE3_eye.
  - rewrite Ue, Xt. intros j Ij. cbn in Ij. destruct Ij as [<- | []]. split; [reflexivity | discriminate].
  - exact Xc.
  - rewrite Xh. repeat constructor. intros [].
  - rewrite Xh. intros a [<- | []]. rewrite Xw. eauto.
  - constructor.
  - intros i [].
  - exact Inc.
  - exists y. exact E.
  - exfalso. rewrite Ue, Us, Uf, Xt in *. destruct So as (_ & Sj & _). rewrite Xh in Sj.
    destruct (my_dyn h' J st st' d (proj1 Lv) (ltac:(rewrite Sj; reflexivity)) (Tj 1%nat) E) as (M1 & V1 & N1).
    assert (Nd : w_ndof h' = 1%nat) by (rewrite (proj1 (proj2 (proj2 (proj2 (proj1 Lv))))); reflexivity). rewrite Nd in Sg.
    destruct Sg as (v & Nv & Kv). apply Nv. intros i Hi. assert (i = 0)%nat as -> by lia. specialize (Kv 0%nat ltac:(lia)). unfold mvn, mplus, mmul, vzero in *. cbn [sumR] in Kv. rewrite M1, V1, N1 in Kv.
    assert (0 < / dt) by (apply Rinv_0_lt_compat; exact Pd). nra.
Qed.
Definition my_G : m4 := M4 (M3 0 0 1 0 1 0 (-1) 0 0) (V3 1 2 3) zero3 1.
Lemma my_G_rigid : SE3 my_G.
Proof. unfold my_G, SE3, SO3, det3. cbn [rot pos bot hom]. repeat split; try (unf; f_equal; ring); unf; ring. Qed.
Definition my_sc : scene := Scene ky_m (fun _ => eye6) (fun k => match k with O => my_G | _ => eye4 end) (fun _ => eye4).
Lemma my_displaced : displaced (ch_e ky) (ch_sc ky_m) my_sc my_h (s_ty (w_s (sm_w my_x))) (fun _ => false) my_G.
Proof.
  constructor; try reflexivity.
  - exact my_G_rigid.
  - intros [b | k | k] N; try reflexivity. exfalso. apply N. reflexivity.
  - intros j f0 f1 Ij Ef. cbn in Ij. destruct Ij as [<- | []]. cbn in Ef. injection Ef as <- <-. cbn [bpose my_sc ch_sc sub_bpose]. symmetry. apply mm4_1_r.
  - intros j Ej. discriminate.
Qed.
Example C101_witness : exists y y', simulate sy_U sy_O [0; 1 / 2; 1] (IterList []) my_x = (y, Ok tt) /\ simulate (with_scene sy_U my_sc) sy_O [0; 1 / 2; 1] (IterList []) my_x = (y', Ok tt) /\
  same_run (fun _ => false) my_G (sm_w y) (sm_w y') /\ displaced_bodies (ch_e ky) (ch_t 0 1) my_G (v_st (w_v (sm_w y))) (v_st (w_v (sm_w y'))).
Proof.
  destruct (my_progress sy_U sy_O my_x eq_refl eq_refl eq_refl gauss_inv_spec eq_refl eq_refl eq_refl eq_refl 0 [1 / 2; 1]) as (y & E); [intros k Hk; cbn in Hk; destruct k as [ | [ | k]]; cbn; lra || lia | ].
  destruct (C101_moved sy_U sy_O my_sc (fun _ => false) my_G (fun _ _ => 1) (ch_t 0 1) [0; 1 / 2; 1] my_x my_x y (Ok tt) my_reachable my_rep eq_refl my_displaced) as (y' & E' & Sr & Db).
  - constructor.
  - intros a _. cbn [my_x sm_w w_ctl fair_ctl]. unfold my_G, world_up. cbn [rot]. unf. f_equal; ring.
  - repeat split.
  - exact E.
  - exists y, y'. split; [exact E | ]. split; [exact E' | ]. split; [exact Sr | ]. apply Db; [reflexivity | cbn; lia].
Qed.
(** the root joint may be a FreeJoint, displaced by its position *)
Example C101_witness_free : let h := ch_h [FreeJoint] in
  displaced (ch_e [FreeJoint]) (ch_sc ky_m) (ch_sc ky_m) h (fun j => match j with 1%nat => FreeJoint | _ => FixedJoint end) (Nat.eqb 1) my_G /\ placed (Nat.eqb 1) my_G (fun _ => eye4) 1 = my_G.
Proof.
  split; [constructor; try reflexivity | ].
  - exact my_G_rigid.
  - intros j f0 f1 Ij Ef. cbn in Ij. destruct Ij as [<- | []]. cbn in Ef. injection Ef as <- <-. split; reflexivity.
  - intros j Ej. apply Nat.eqb_eq in Ej. subst j. split; [reflexivity | left; reflexivity].
  - cbn. apply mm4_1_r.
Qed.
