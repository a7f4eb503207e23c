(** C103: robots that share a world without touching each other do not interact. *)
From Coq Require Import Lra Lia FunctionalExtensionality.
From Verif Require Import Spec_Apart Proof_Linalg Proof_SE3 Proof_Tree Proof_World Proof_World2 Proof_World3 Proof_World4 Proof_Dofs Proof_Dyn Proof_Dyn2 Proof_Matrix Proof_Step Proof_Ctl Proof_Apart Proof_Apart2 Proof_Apart3 Proof_Sim Proof_Sim2 Proof_Sim3 Props_World Props_Weight Props_Step Props_Sim Props_Sim3 Props_Resume.
Open Scope R_scope.

(** [C103] The mass, viscosity and nonlinear effects matrices have null entries between the degrees of freedom of two joints that carry no common body. *)
Theorem C103_branches : forall e sc h t J fuel st i j s a s' a', ready e h t -> rigid_scene e sc t J -> (height t < fuel)%nat ->
  In i (joints t) -> In j (joints t) -> apart t i j -> jdof h i = Some (s, a) -> jdof h j = Some (s', a') ->
  exists st' d, world_update_dynamic e sc h J fuel st = Ok (st', d) /\ forall k l, (s <= k < a)%nat -> (s' <= l < a')%nat ->
    d_mass d k l = 0 /\ d_mass d l k = 0 /\ d_visc d k l = 0 /\ d_visc d l k = 0 /\ d_nle d k l = 0 /\ d_nle d l k = 0.
Proof.
  intros e sc h t J fuel st i j s a s' a' Rd Ri Hf Ii Ij Ap Di Dj. destruct (world_ok e sc h t J fuel st Rd Ri Hf) as (st' & d & E & Hp & _ & Hm & Hv & Hn). exists st', d. split; [exact E | ]. intros k l Hk Hl.
  assert (Z : forall b, In b (tl (bodies t)) -> (k_jac (kin_at st' b) k = zero6 /\ k_djac (kin_at st' b) k = zero6) \/ (k_jac (kin_at st' b) l = zero6 /\ k_djac (kin_at st' b) l = zero6)).
  { intros b Ib. destruct (body_path t b Ib) as (ps & Pb). rewrite (kin_at_attr st' b _ _ (Hp b ps Pb)).
    destruct (in_dec Nat.eq_dec i (map fst ps)) as [Hi | Hi]; [ | left; exact (col_zero e sc h t J i s a b ps k Rd Ii Di Hk Pb Hi)].
    right. apply (col_zero e sc h t J j s' a' b ps l Rd Ij Dj Hl Pb). intros Hj. exact (Ap b (map fst ps) (ex_intro _ ps (conj Pb eq_refl)) (conj Hi Hj)). }
  rewrite !Hm, !Hv, !Hn. repeat split; apply suml_zero; intros b Ib; unfold congr; (destruct (Z b Ib) as [[A B] | [A B]]; rewrite ?A, ?B, ?mv6_zero6, ?v6add_zz; first [apply dot6_zl | apply dot6_zr]).
Qed.

(** each robot that stands on the ground is a selection; its joints are apart from the others *)
Theorem C103_robot : forall t k P, NoDup (joints t) -> In k (kids t) -> (forall j, P j = true <-> j = fst k \/ In j (joints (snd k))) ->
  whole_robots t P /\ forall i j, In i (joints t) -> In j (joints t) -> P i = true -> P j = false -> apart t i j.
Proof.
  intros [b0 ks] [j0 s0] P ND Ik Hp. cbn [kids fst snd] in *. rewrite joints_eq in ND.
  assert (W : whole_robots (Node b0 ks) P).
  { intros b js (ps & Pb & ->). inversion Pb as [ | b1 ks1 j s x ps' Is Ps]; subst; [left; intros j [] | ].
    assert (Hin : forall i, In i (map fst (ps' ++ [(j, b0)])) -> In i (j :: joints s)).
    { intros i Hi. rewrite map_app in Hi. apply in_app_or in Hi. destruct Hi as [Hi | [<- | []]]; [right; apply (proj2 (path_in _ _ _ Ps)); exact Hi | left; reflexivity]. }
    destruct (Nat.eq_dec j j0) as [-> | Nj].
    - left. intros i Hi. apply Hp. assert (s = s0) as ->.
      { clear - ND Is Ik. induction ks as [ | [x y] ks IH]; [contradiction | ]. cbn [flat_map fst snd] in ND. cbn [app] in ND. inversion ND as [ | ? ? Nx ND']; subst. apply NoDup_app_iff in ND'. destruct ND' as (_ & ND' & Dis).
        destruct Is as [Is | Is], Ik as [Ik | Ik]; try congruence.
        - injection Is as -> ->. exfalso. apply Nx. apply in_or_app. right. apply in_flat_map. exists (j0, s0). split; [exact Ik | left; reflexivity].
        - injection Ik as -> ->. exfalso. apply Nx. apply in_or_app. right. apply in_flat_map. exists (j0, s). split; [exact Is | left; reflexivity].
        - apply IH; assumption. }
      destruct (Hin i Hi) as [<- | H]; auto.
    - right. intros i Hi. destruct (P i) eqn:Ei; [exfalso | reflexivity]. apply Hp in Ei. apply Hin in Hi.
      assert (Hi0 : In i (j0 :: joints s0)) by (destruct Ei as [-> | Ei]; [left; reflexivity | right; exact Ei]).
      clear - ND Is Ik Nj Hi Hi0. induction ks as [ | [x y] ks IH]; [contradiction | ]. change (flat_map (fun jt => fst jt :: joints (snd jt)) ((x, y) :: ks)) with ((x :: joints y) ++ flat_map (fun jt => fst jt :: joints (snd jt)) ks) in ND. apply NoDup_app_iff in ND. destruct ND as (_ & ND & Dis).
      destruct Is as [Is | Is], Ik as [Ik | Ik].
      + congruence.
      + injection Is as -> ->. apply (Dis i Hi). apply in_flat_map. exists (j0, s0). split; [exact Ik | exact Hi0].
      + injection Ik as -> ->. apply (Dis i Hi0). apply in_flat_map. exists (j, s). split; [exact Is | exact Hi].
      + apply IH; assumption. }
  split; [exact W | ]. intros i j _ _ Pi Pj b js Ab [Hi Hj]. destruct (W b js Ab) as [A | A]; [rewrite (A j Hj) in Pj | rewrite (A i Hi) in Pi]; discriminate.
Qed.

(** *** the controllers after [init] *)
Lemma ctl_init_pair U U' t P h0 h h' k k' c c' : su_e U' = su_e U -> ready (su_e U) h0 t -> ready (su_e U) h t -> ready (su_e U) h' t -> (height t < su_fuel U)%nat -> (height t < su_fuel U')%nat ->
  same_ctl (su_e U) t P k k' -> ctl_init U h k = Ok c -> ctl_init U' h' k' = Ok c' -> same_ctl (su_e U) t P c c' /\ begun (su_sc U) h0 t c /\ begun (su_sc U') h0 t c'.
Proof.
  intros Ee R0 R1 R2 F1 F2 Sm E1 E2.
  assert (B : forall (x : @heap R) fuel, ready (su_e U) x t -> (height t < fuel)%nat -> iter_descendant_bodies (su_e U) fuel x (ground (su_e U)) = Ok (tl (bodies t))).
  { intros x fuel (Rp & Er & _) Hf. rewrite <- Er, (iter_bodies_ok (su_e U) x t Rp fuel Hf), bodies_tail. reflexivity. }
  assert (G : forall (x : @heap R) l, ready (su_e U) x t -> (forall j, In j l -> In j (joints t)) -> rconcat (dof_range x) l = rconcat (dof_range h0) l).
  { intros x l Rx. induction l as [ | j l IH]; intros H; cbn [rconcat]; [reflexivity | ]. rewrite IH by (intros i Hi; apply H; right; exact Hi). unfold dof_range. rewrite (same_dof (su_e U) h0 x t j R0 Rx (H j (or_introl eq_refl))). reflexivity. }
  destruct k as [g x | x | f], k' as [g' x' | x' | f']; cbn [same_ctl] in Sm; try contradiction; cbn [ctl_init] in E1, E2.
  - subst g'. unfold wc_init in E1, E2. rewrite Ee in E2. rewrite B in E1, E2 by assumption. cbn [rbind] in E1, E2. injection E1 as <-. injection E2 as <-. cbn [same_ctl begun]. auto.
  - unfold pd_init in E1, E2. destruct Sm as (I1 & I2 & Sm). rewrite (G h _ R1 I1) in E1. rewrite (G h' _ R2 I2) in E2. destruct (rconcat (dof_range h0) (pd_joints x)) as [m | ] eqn:M1; [ | discriminate]. destruct (rconcat (dof_range h0) (pd_joints x')) as [m' | ] eqn:M2; [ | discriminate].
    cbn [rbind rmap] in E1, E2. injection E1 as <-. injection E2 as <-. cbn [same_ctl begun pd_joints]. unfold pd_mapped. cbn [pd_joints pd_map]. split; [ | split; assumption]. split; [exact I1 | ]. split; [exact I2 | ].
    destruct Sm as [[-> Hj] | Hj]; [left | right; exact Hj]. split; [congruence | exact Hj].
  - injection E1 as <-. injection E2 as <-. cbn [begun]. auto.
Qed.
Lemma ctl_inits_pair U U' t P h0 h h' : su_e U' = su_e U -> ready (su_e U) h0 t -> ready (su_e U) h t -> ready (su_e U) h' t -> (height t < su_fuel U)%nat -> (height t < su_fuel U')%nat ->
  forall l k k' r r', ctl_inits U h l k = Ok r -> ctl_inits U' h' l k' = Ok r' -> forall a, (forall b, In b l -> same_ctl (su_e U) t P (k b) (k' b)) -> same_ctl (su_e U) t P (k a) (k' a) ->
    same_ctl (su_e U) t P (r a) (r' a) /\ (In a l \/ (begun (su_sc U) h0 t (k a) /\ begun (su_sc U') h0 t (k' a)) -> begun (su_sc U) h0 t (r a) /\ begun (su_sc U') h0 t (r' a)).
Proof.
  intros Ee R0 R1 R2 F1 F2. induction l as [ | b l IH]; intros k k' r r' E1 E2 a Hl Ha; cbn [ctl_inits] in E1, E2; [injection E1 as <-; injection E2 as <-; split; [exact Ha | intros [[] | H]; exact H] | ].
  destruct (ctl_init U h (k b)) as [c | ] eqn:C1; [ | discriminate]. destruct (ctl_init U' h' (k' b)) as [c' | ] eqn:C2; [ | discriminate]. cbn [rbind] in E1, E2.
  destruct (ctl_init_pair U U' t P h0 h h' _ _ _ _ Ee R0 R1 R2 F1 F2 (Hl b (or_introl eq_refl)) C1 C2) as (Sm & S1 & S2).
  assert (X : forall x, same_ctl (su_e U) t P (k x) (k' x) -> same_ctl (su_e U) t P (upd k b c x) (upd k' b c' x)) by (intros x Hx; unfold upd; destruct (Nat.eqb x b); assumption).
  destruct (IH _ _ _ _ E1 E2 a) as [Y1 Y2]; [intros x Hx; apply X, Hl; right; exact Hx | apply X; exact Ha | ]. split; [exact Y1 | ]. intros H. apply Y2.
  unfold upd. destruct (Nat.eqb_spec a b) as [-> | N]; [right; split; assumption | ]. destruct H as [[-> | H] | H]; [congruence | left; exact H | right; exact H].
Qed.

(** [C103] The joints selected by [P] are those of whole robots.  In the second world these robots are the same (masses of their bodies, frames, controllers) and in the same state (positions
    and velocities of their joints), but the other robots are whatever (classes, masses, frames, gains, positions, velocities).  Under gravity, PD and local controllers, without constraints
    and without FreeJoint, if both simulations end, the selected robots moved in the same way. *)
Theorem C103_alone : forall U U' O O' g0 g0' t P t0 ts x x' y y', let s := w_s (sm_w x) in let s' := w_s (sm_w x') in let h := s_heap s in let h' := s_heap s' in let e := su_e U in
  su_e U' = e -> inv_spec (su_linv U) -> inv_spec (su_linv U') -> reachable 0 e g0 h -> reachable 0 e g0' h' -> rep e h t -> rep e h' t -> root t = ground e ->
  jframes h' = jframes h -> w_controllers h' = w_controllers h ->
  (forall f, SE3 (bpose (su_sc U) f)) -> (forall f, SE3 (bpose (su_sc U') f)) -> hinges e t (s_ty s) -> hinges e t (s_ty s') ->
  v_cs (w_v (sm_w x)) = [] -> v_cs (w_v (sm_w x')) = [] ->
  whole_robots t P -> same_scene t P h (su_sc U) (su_sc U') -> (forall a, In a (w_controllers h) -> same_ctl e t P (w_ctl (sm_w x) a) (w_ctl (sm_w x') a)) ->
  (forall j, In j (joints t) -> P j = true -> joints_of s' j = joints_of s j) ->
  simulate U O (t0 :: ts) (IterList []) x = (y, Ok tt) -> simulate U' O' (t0 :: ts) (IterList []) x' = (y', Ok tt) ->
  now y' = now y /\ forall j, In j (joints t) -> P j = true -> joints_of (w_s (sm_w y')) j = joints_of (w_s (sm_w y)) j.
Proof.
  intros U U' O O' g0 g0' t P t0 ts x x' y y' s s' h h' e Ee I1 I2 Re1 Re2 Rp1 Rp2 Er Ef Ec B1 B2 T1 T2 C1 C2 Wh Sc Sk Sj E1 E2. rewrite simulate_alone in E1, E2.
  unfold world_init in E1, E2. change (s_heap (w_s (set_time (sm_w x) t0))) with h in E1. change (s_heap (w_s (set_time (sm_w x') t0))) with h' in E2. rewrite Ee in E2. fold e in E1.
  destruct (Model_World.init 0 e (su_fuel U) h) as [h1 [[] | z]] eqn:Ei1; [ | discriminate]. destruct (Model_World.init 0 e (su_fuel U') h') as [h1' [[] | z]] eqn:Ei2; [ | discriminate].
  cbv zeta in E1, E2. change (v_cs (w_v (set_time (sm_w x) t0))) with (v_cs (w_v (sm_w x))) in E1. change (v_cs (w_v (set_time (sm_w x') t0))) with (v_cs (w_v (sm_w x'))) in E2. rewrite C1 in E1. rewrite C2 in E2. cbn [rmapM] in E1, E2.
  destruct (ctl_inits U h1 (w_controllers h1) _) as [k | z] eqn:Ek1; [ | discriminate]. destruct (ctl_inits U' h1' (w_controllers h1') _) as [k' | z] eqn:Ek2; [ | discriminate]. cbn [bind_] in E1, E2.
  assert (Live : forall g1 (x1 : @heap R) fuel x2, reachable 0 e g1 x1 -> rep e x1 t -> Model_World.init 0 e fuel x1 = (x2, Ok tt) -> live e x2 t /\ (height t < fuel)%nat /\ (forall j, joint_gvel x2 j = joint_gvel x1 j) /\ jframes x2 = jframes x1 /\ w_controllers x2 = w_controllers x1).
  { intros g1 x1 fuel x2 Re Rp Ei. assert (Fo := reachable_forest 0 e g1 _ Re). assert (Vi := reachable_vinv 0 e g1 _ Re). destruct (init_fuel 0 e _ _ _ Fo Vi Ei) as (t1 & Rt1 & Er1 & ND & Hf). assert (t1 = t) as -> by (apply (rep_unique e x1); auto; congruence).
    destruct (C45_reachable e g1 x1 Re) as (t2 & Rt2 & Er2 & L). assert (t2 = t) as -> by (apply (rep_unique e x1); auto; congruence). destruct (L fuel Hf) as (x3 & E3 & Lv). rewrite Ei in E3. injection E3 as <-.
    split; [exact Lv | ]. split; [exact Hf | ]. split; [exact (init_keeps_gvel 0 e x1 t fuel x2 Vi Rp Er ND Hf Ei) | ].
    unfold Model_World.init in Ei. destruct (iterjoints _ _ _); [ | discriminate]. destruct (assign_dofs _ _ _ _) as [n d]. destruct (copy_gvels _ _ _ _ _) as [[a1 g2] | ]; [ | discriminate]. injection Ei as <-. split; reflexivity. }
  destruct (Live g0 h _ h1 Re1 Rp1 Ei1) as (L1 & F1 & V1 & G1 & K1). destruct (Live g0' h' _ h1' Re2 Rp2 Ei2) as (L2 & F2 & V2 & G2 & K2).
  assert (Sc1 : same_scene t P h1 (su_sc U) (su_sc U')) by (destruct Sc as [X Y]; split; [exact X | rewrite G1; exact Y]).
  match type of E1 with sim_loop _ _ _ ?a = _ => set (x1 := a) in E1 end. match type of E2 with sim_loop _ _ _ ?a = _ => set (x1' := a) in E2 end.
  assert (T : twin U U' t P h1 (sm_w x1) (sm_w x1')).
  { constructor; cbn [x1 x1' set_w sm_w w_s w_v v_s v_cs w_ctl s_heap s_ty s_time]; try assumption; try reflexivity; try congruence.
    - intros j Ij Pj. specialize (Sj j Ij Pj). injection Sj as X1 X2 X3 X4. unfold joints_of, joint_state. cbn [s_heap s_ty s_qH s_q]. change (s_ty (w_s (set_time (sm_w x) t0))) with (s_ty s). change (s_ty (w_s (set_time (sm_w x') t0))) with (s_ty s').
      change (s_qH (w_s (set_time (sm_w x) t0))) with (s_qH s). change (s_qH (w_s (set_time (sm_w x') t0))) with (s_qH s'). change (s_q (w_s (set_time (sm_w x) t0))) with (s_q s). change (s_q (w_s (set_time (sm_w x') t0))) with (s_q s'). rewrite V1, V2, X1, X2, X3. f_equal. exact X4.
    - intros a Ia. rewrite K1 in Ia. rewrite K1 in Ek1. rewrite K2, Ec in Ek2.
      destruct (ctl_inits_pair U U' t P h1 h1 h1' Ee (proj1 L1) (proj1 L1) (proj1 L2) F1 F2 _ _ _ _ _ Ek1 Ek2 a Sk (Sk a Ia)) as [Y1 Y2]. destruct (Y2 (or_introl Ia)). auto. }
  destruct (twin_loop U U' O O' t P h1 Ee I1 I2 F1 F2 B1 B2 Wh (proj1 L1) Sc1 _ _ ts x1 x1' y y' T E1 E2) as [a1 a2 a3 a4 a5 a6 a7 a8 a9 a10 a11 a12]. split; [exact a11 | exact a10].
Qed.
