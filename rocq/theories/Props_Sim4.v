(** C18-C20: a simulation that meets the hypotheses; loggers and duplicated names. *)
From Verif Require Import Spec_Sim Spec_Step Proof_Sim2 Proof_Sim5 Proof_Sim6 Proof_Tree Proof_World Proof_Linalg Proof_SE3 Proof_Joints Proof_Dyn Proof_Dyn2 Proof_Matrix Proof_Step.
From Verif Require Import Props_World Props_Dyn Props_DynEx Props_Mass Props_Step Proof_Ctl Props_Weight Props_Energy Props_EnergyEx Props_Sim Props_Sim2 Props_Sim3.
From Coq Require Import Lra.

(** In a flat log (poses of the bodies), two bodies with the same name are not refused (for any duplicated names), and only one
    of them is logged: no pose of the other is ever saved.  (In a non flat log, duplicated names are refused.) *)
Theorem C20_flat_duplicates_refuted : forall U v o tl nm bs b b' s,
  iterbodies (su_e U) (su_fuel U) (s_heap (v_s v)) = Ok bs -> In b bs -> In b' bs -> b <> b' ->
  nm (id_frame (FBody b)) = Some s -> nm (id_frame (FBody b')) = Some s ->
  lo_flat o = true -> lo_transforms o = true -> lo_state o = false ->
  exists nm' g, log_init U v o tl nm = (nm', Ok g) /\
    exists b0, (b0 = b \/ b0 = b') /\ forall key, ~ In (key, TBody b0) (lg_what g).
Proof.
  intros U v o tl nm bs b b' s Eb Ib Ib' Nb N N' Fl Tr St.
  unfold log_init, log_state_init. rewrite St.
  assert (Ex : exists nm' d, log_what_init U (s_heap (v_s v)) o nm = (nm', Ok d)).
  { unfold log_what_init. rewrite Tr, Fl, Eb. unfold name_all_elements. cbn [consume map check_names nodup length Nat.eqb]. unfold check_names. cbn. eexists. eexists. reflexivity. }
  destruct Ex as (nm' & d & E). rewrite E. eexists. eexists. split; [reflexivity | ]. cbn [lg_what].
  destruct (log_what_ok _ _ _ _ _ _ E Tr) as (Nd & _ & _ & C & _). assert (K := log_what_keeps _ _ _ _ _ _ E).
  assert (Q : forall a k, (a = b \/ a = b') -> In (k, TBody a) d -> k = s).
  { intros a k Ha Hin. destruct (C _ _ Hin) as (f & L & <-). inversion L; subst. destruct Ha as [-> | ->]; [apply (name_of_keeps _ _ _ _ K N) | apply (name_of_keeps _ _ _ _ K N')]. }
  destruct (Classical_Prop.classic (In (s, TBody b) d)) as [Y | Y].
  - exists b'. split; [now right | ]. intros key Hin. assert (key = s) as -> by (eapply Q; [right; reflexivity | exact Hin]).
    apply Nb. assert (X : (s, TBody b) = (s, TBody b')).
    { eapply nodup_map_inj; [exact Nd | exact Y | exact Hin | reflexivity]. }
    congruence.
  - exists b. split; [now left | ]. intros key Hin. apply Y. assert (key = s) as -> by (eapply Q; [left; reflexivity | exact Hin]). exact Hin.
Qed.

(** ** A simulation *)
(** the world of Props_EnergyEx, with a WeightController *)
Definition sy_ops := ch_ops ky ++ [Register (OController 0)].
Definition sy_h : @heap R := run 0 (ch_e ky) 10 sy_ops (fresh (ch_e ky) (fun _ _ => 1)).
Definition sy_U : setup := SU (ch_e ky) (ch_sc ky_m) 10 gauss_inv (fun _ _ => mzero) (fun _ => []) (fun _ _ _ => None) ky_eigvals ky_eig (fun _ => EmptyString).
Definition sy_names (nm : names) : sim :=
  Sim (W (WV (WS sy_h (fun j => match j with O => FixedJoint | S i => nth i ky FixedJoint end) (fun _ => eye4) (fun _ _ => 0) wdyn0 vzero mzero mzero 0) (fun _ => no_attr) [])
         (fun _ => KWeight (- (981 / 100)) None)) nm (fun _ => MUser (VNum 0)).
Definition sy_x := sy_names (fun _ => None).
(** records the position of the joint and the pose of the body *)
Definition sy_O (i : nat) : okind := match i with O => record_gpos 1 | _ => record_pose sy_U (FBody 1) end.

Lemma sy_rep : rep (ch_e ky) sy_h (ch_t 0 1).
Proof.
  repeat (constructor; [reflexivity | ]; constructor;
      [split; [split; [do 2 eexists; split; [reflexivity | split; reflexivity] | reflexivity] | cbn [snd]] | constructor]); constructor; [reflexivity | constructor].
Qed.
Lemma sy_reachable : reachable 0 (ch_e ky) (fun _ _ => 1) sy_h.
Proof.
  unfold sy_h, sy_ops, ch_ops. cbn [map seq length ky app]. unfold run. cbn [fold_left].
  constructor; [ | exact Logic.I]. constructor; [ | exact Logic.I]. constructor; [constructor | ]. cbn [admissible].
  intros B. cbn [frame_body] in B. inversion B as [ | ? ? ? ? ? Ij]; subst. cbn in Ij. contradiction.
Qed.

(** whatever the position and velocity, the inertia is 1, the viscosity 1, no nonlinear effects *)
Lemma sy_dyn h J st st' d : ready (ch_e ky) h (ch_t 0 1) -> jframes h 1%nat = Some (FBody 0, FBody 1) -> jt (J 1%nat) = TyJoint ->
  world_update_dynamic (ch_e ky) (ch_sc ky_m) h J 10 st = Ok (st', d) ->
  d_mass d 0%nat 0%nat = 1 /\ d_visc d 0%nat 0%nat = 1 /\ d_nle d 0%nat 0%nat = 0.
Proof.
  intros Rd Fj Tj E0.
  assert (Ri : rigid_scene (ch_e ky) (ch_sc ky_m) (ch_t 0 1) J).
  { split; [intros [b | b | b]; apply SE3_eye | ]. intros j Ij. cbn in Ij. destruct Ij as [<- | []]. split; [intros E; rewrite Tj in E; discriminate | rewrite Tj; reflexivity]. }
  destruct (world_ok _ _ _ _ J 10 st Rd Ri) as (sd & d' & E & P & _ & Md & Vd & Nd); [cbn; lia | ]. rewrite E0 in E. injection E as <- <-.
  assert (S1 := P _ _ ky_path). cbn [map fst] in S1.
  assert (Dj : jdof h 1%nat = Some (0, 1)%nat) by (destruct Rd as (_ & _ & _ & _ & D); exact (D [] 1%nat [] eq_refl)).
  assert (K : kin_of (ch_sc ky_m) h J [1]%nat = stepk (ch_sc ky_m) h (J 1%nat) (0, 1)%nat (FBody 0) (FBody 1) kin0).
  { unfold kin_of. cbn [fold_right]. unfold stepj. rewrite Fj, Dj. reflexivity. }
  assert (Kj : k_jac (kin_of (ch_sc ky_m) h J [1]%nat) 0%nat = ey).
  { rewrite K. cbn [stepk k_jac kin0 fst snd bpose]. rewrite adjoint_eye, mv6_zero6, v6add_0_l. unfold slice_col. cbn [Nat.leb Nat.ltb andb Nat.sub]. rewrite mv6_1. unfold jacobian. rewrite Tj. reflexivity. }
  assert (Kd : k_djac (kin_of (ch_sc ky_m) h J [1]%nat) 0%nat = zero6).
  { rewrite K. cbn [stepk k_djac k_jac kin0 fst snd bpose]. rewrite adjoint_eye, !mv6_zero6, !v6add_0_l. unfold slice_col. cbn [Nat.leb Nat.ltb andb Nat.sub]. rewrite mv6_1. unfold djacobian. rewrite Tj. reflexivity. }
  rewrite Md, Vd, Nd. change (tl (bodies (ch_t 0 1))) with [1]%nat. cbn [suml map fold_right].
  rewrite (kin_at_attr _ _ _ _ S1). unfold congr. rewrite Kj, Kd. cbn [ch_sc b_mass b_visc]. change (ky_m 1) with wm.
  assert (T : ang (k_twist (kin_of (ch_sc ky_m) h J [1]%nat)) = zero3).
  { rewrite K. cbn [stepk k_twist kin0 bpose]. rewrite adjoint_eye, mv6_zero6, v6add_0_l, mv6_1. rewrite twist_sum.
    unfold jacobian. rewrite Tj. cbn [ndof_of sum6]. unfold e6, v6of. cbn [Nat.eqb]. generalize (gvel (J 1%nat) 0%nat). clear. intros z. unf. f_equal; ring. }
  split; [unfold ey, wm, rigid_mass; unf; ring | ]. split; [unfold ey, eye6; unf; ring | ].
  unfold body_nle. rewrite T. generalize (if Rle_dec (m22 (ll wm)) (1 / 10000000000) then zerom3 else mscal (/ m22 (ll wm)) (al wm)). intros [r1 r2 r3 r4 r5 r6 r7 r8 r9]. unfold ey, wm, rigid_mass. unf. ring.
Qed.

(** every timeline is simulated without exception *)
Lemma sy_progress : forall U O x, su_e U = ch_e ky -> su_sc U = ch_sc ky_m -> su_fuel U = 10%nat -> inv_spec (su_linv U) ->
  s_heap (w_s (sm_w x)) = sy_h -> s_ty (w_s (sm_w x)) = s_ty (w_s (sm_w sy_x)) -> v_cs (w_v (sm_w x)) = [] -> w_ctl (sm_w x) 0%nat = KWeight (- (981 / 100)) None ->
  forall t0 ts obs, NoDup obs -> (forall i, In i obs -> calm (ch_t 0 1) (O i)) -> increasing (t0 :: ts) ->
  exists y, simulate U O (t0 :: ts) (IterList obs) x = (y, Ok tt).
Proof.
  intros U O x Ue Us Uf Ul Xh Xt Xc Xw t0 ts obs No Ho Inc.
  destruct (C18_progress U O t0 ts obs x (fun _ _ => 1) (ch_t 0 1)) as (y & [E | (_ & h' & J & st & st' & d & dt & So & Lv & Tj & Pd & E & Sg)]).
  - rewrite Ue, Xh. exact sy_reachable.
  - rewrite Ue, Xh. exact sy_rep.
  - rewrite Ue. reflexivity.
  - rewrite Uf. cbn. lia.
  - exact Ul.
  - rewrite Us. intros [b | b | b]; apply SE3_eye.
  - rewrite Ue, Xt. intros j Ij. cbn in Ij. destruct Ij as [<- | []]. split; [reflexivity | discriminate].
  - exact Xc.
  - rewrite Xh. repeat constructor. intros [].
  - rewrite Xh. intros a [<- | []]. rewrite Xw. eauto.
  - exact No.
  - exact Ho.
  - exact Inc.
  - exists y. exact E.
  - exfalso. rewrite Ue, Us, Uf, Xt in *. destruct So as (_ & Sj & _). rewrite Xh in Sj.
    destruct (sy_dyn h' J st st' d (proj1 Lv) (ltac:(rewrite Sj; reflexivity)) (Tj 1%nat) E) as (M1 & V1 & N1).
    assert (Nd : w_ndof h' = 1%nat) by (rewrite (proj1 (proj2 (proj2 (proj2 (proj1 Lv))))); reflexivity). rewrite Nd in Sg.
    destruct Sg as (v & Nv & Kv). apply Nv. intros i Hi. assert (i = 0)%nat as -> by lia. specialize (Kv 0%nat ltac:(lia)). unfold mvn, mplus, mmul, vzero in *. cbn [sumR] in Kv. rewrite M1, V1, N1 in Kv.
    assert (0 < / dt) by (apply Rinv_0_lt_compat; exact Pd). nra.
Qed.
Lemma sy_calm i : calm (ch_t 0 1) (sy_O i).
Proof.
  destruct i as [ | i]; cbn; (split; [intros; eexists; reflexivity | ]); intros c v Po; [eexists; reflexivity | ].
  unfold frame_pose. cbn. destruct (Po 1%nat (ltac:(cbn; auto))) as (H & A & SH & -> & _). cbn. eexists. reflexivity.
Qed.
(** C18_progress, C18_schedule, C20_recorders: a complete simulation of three times, with two recorders *)
Example C18_C20_witness : exists y r, simulate sy_U sy_O [0; 1 / 2; 1] (IterList [0; 1]%nat) sy_x = (y, Ok tt) /\ now y = 1 /\
  sm_obs y 1%nat = MRec r /\ length (rc_record r) = 2%nat /\
  forall k, (k < 2)%nat -> exists v H, at_step sy_U sy_O 0 [1 / 2; 1] [0; 1]%nat sy_x k v /\ now v = nth k [0; 1 / 2; 1] 0 /\
    frame_pose (ch_e ky) (ch_sc ky_m) (v_st (w_v (sm_w v))) (FBody 1) = Ok H /\ nth_error (rc_record r) k = Some (Some (VMat H)).
Proof.
  assert (No : NoDup [0; 1]%nat) by (repeat constructor; cbn; intuition discriminate).
  destruct (sy_progress sy_U sy_O sy_x eq_refl eq_refl eq_refl gauss_inv_spec eq_refl eq_refl eq_refl eq_refl 0 [1 / 2; 1] [0; 1]%nat No) as (y & E).
  - intros i _. apply sy_calm.
  - intros k Hk. cbn in Hk. destruct k as [ | [ | k]]; cbn; lra || lia.
  - destruct (C20_recorders sy_U sy_O 0 [1 / 2; 1] [0; 1]%nat sy_x y 1%nat no_com _ No ltac:(cbn; auto) eq_refl E) as (r & x1 & E1 & E2 & _ & _ & E3).
    exists y, r. split; [exact E | ]. split; [exact (proj1 (proj2 (C18_schedule sy_U sy_O 0 [1 / 2; 1] [0; 1]%nat sy_x y)) E) | ]. split; [exact E1 | ]. split; [exact E2 | ].
    intros k Hk. destruct (E3 k Hk) as (v & d & A1 & A2 & A3 & A4). exists v. cbn beta in A3.
    unfold rmap in A3. cbn [su_e sy_U] in A3. destruct (frame_pose (ch_e ky) (scene_of sy_U (w_v (sm_w v))) (v_st (w_v (sm_w v))) (FBody 1)) as [H | ] eqn:EF; [ | discriminate]. injection A3 as <-.
    exists H. split; [exact A1 | ]. split; [exact A2 | ]. split; [exact EF | exact A4].
Qed.
