(** C63 without restriction. *)
From Coq Require Import Lra Lia.
From Verif Require Import Spec_Defect Spec_Ctl Proof_Tree Proof_World Proof_Dofs Proof_Linalg Proof_Deriv Proof_SE3 Proof_Joints Proof_Dyn Proof_Dyn2 Proof_Matrix Proof_Step Proof_Mass Proof_Defect.
From Verif Require Import Props_World Props_Dyn Props_DynEx Props_Mass Props_Step Proof_Ctl Props_Weight Props_Energy Props_Defect.
Open Scope R_scope.

(** The balance of the mechanical energy recorded by EnergyMonitor under WeightController(-9.81), in every world: viscous dissipation, and
    the power of the accelerations that djacobian loses (and of the gyroscopic forces lost under the threshold on the masses). *)
Theorem C63_energy_balance : forall eigvals eig e sc h t f s fuel st (St : R -> store) (D : R -> wdyn) (x : R -> wst) (v : R -> nat -> R) a m c I0,
  ready e h t -> rigid_scene e sc t (f s) -> world_motion t f s -> (height t < fuel)%nat ->
  (forall u, world_update_dynamic e sc h (f u) fuel st = Ok (St u, D u)) -> world_velocity e h t (f s) (v s) ->
  (forall k, (k < w_ndof h)%nat -> derivable_pt_lim (fun u => v u k) s (a k)) ->
  (forall u, same_tree e h t (x u) /\ s_dyn (x u) = D u /\ forall k, (k < w_ndof h)%nat -> gvel_vec (s_heap (x u)) k = v u k) ->
  solids eigvals eig sc t m c I0 ->
  exists o w gforce (E : R -> R) T W,
    em_init eigvals eig e sc fuel h = Ok o /\
    wc_init e sc fuel h (- (981 / 100)) = Ok w /\ wc_update sc (St s) w = Ok (gforce, mzero) /\
    (forall u o', em_com o' = em_com o -> exists o'', em_update e sc fuel (x u) (St u) o' = Ok o'' /\ em_mech o'' = em_mech o' ++ [E u] /\ em_com o'' = em_com o) /\
    (forall b, In b (bodies t) -> frame_twist e sc (St s) (FBody b) = Ok (T b) /\ lost_acceleration e sc h t (f s) (St s) (FBody b) (W b)) /\
    ((forall k, (k < w_ndof h)%nat -> sumR (w_ndof h) (fun l => d_mass (D s) k l * a l) +
        sumR (w_ndof h) (fun l => (d_nle (D s) k l + d_visc (D s) k l) * v s l) = gforce k) ->
     derivable_pt_lim E s (- quad (w_ndof h) (v s) (d_visc (D s)) (v s) +
       sumlist (fun b => dot6 (T b) (mv6 (b_mass sc b) (W b)) - gyro_power (m b) (c b) (T b)) (tl (bodies t)))).
Proof.
  intros eigvals eig e sc h t f s fuel st St D x v a m c I0 Rd Ri Mo F U Wv Dv Hx So.
  destruct (C47_gravity_energy eigvals eig e sc h t f s fuel st St D (v s) m c I0 Rd Ri Mo F U Wv So) as (o & w & gf & Ep & Eo & Up & Ew & Eu & DE).
  assert (Ms : forall b, In b (tl (bodies t)) -> tr (I0 b) = I0 b /\ b_mass sc b = rigid_mass (m b) (c b) (I0 b)) by (intros b Ib; destruct (So b Ib) as (E & TI & _); auto).
  destruct (C80_world e sc h t f s (v s) fuel st St D m c I0 Rd Ri Mo F U Wv Ms) as (_ & T & W & _ & HTW & _).
  exists o, w, gf, (fun u => quad (w_ndof h) (v u) (d_mass (D u)) (v u) / 2 + Ep u), T, W.
  split; [exact Eo | ]. split; [exact Ew | ]. split; [exact Eu | ]. split; [ | split; [exact HTW | ]].
  - intros u o' Ec. destruct (Hx u) as (Sx & Dx & Gx). destruct (Up u (x u) o' Sx Ec) as (K & E & EK). eexists. split; [exact E | ]. split; [ | reflexivity].
    cbn [em_mech]. do 3 f_equal. rewrite EK, Dx. f_equal. unfold quad. apply sumR_ext. intros k Hk. apply sumR_ext. intros l Hl. rewrite !Gx by auto. reflexivity.
  - intros Eq. destruct (C80_power e sc h t f s v a gf fuel st St D m c I0 Rd Ri Mo F U Wv Dv Eq Ms) as (T' & W' & HTW' & X).
    eapply dconv; [apply (Dplus (fun u => quad (w_ndof h) (v u) (d_mass (D u)) (v u) / 2)); [exact X | exact DE] | ].
    replace (sumR (w_ndof h) (fun k => gf k * v s k)) with (sumR (w_ndof h) (fun k => v s k * gf k)) by (apply sumR_ext; intros; ring).
    assert (Es : suml (fun b => dot6 (T' b) (mv6 (b_mass sc b) (W' b)) - gyro_power (m b) (c b) (T' b)) (tl (bodies t)) =
                 sumlist (fun b => dot6 (T b) (mv6 (b_mass sc b) (W b)) - gyro_power (m b) (c b) (T b)) (tl (bodies t))); [ | rewrite Es; lra].
    assert (Q : forall l, (forall b, In b l -> In b (bodies t)) -> suml (fun b => dot6 (T' b) (mv6 (b_mass sc b) (W' b)) - gyro_power (m b) (c b) (T' b)) l =
                 sumlist (fun b => dot6 (T b) (mv6 (b_mass sc b) (W b)) - gyro_power (m b) (c b) (T b)) l); [ | apply Q; intros b Ib; rewrite bodies_tail in *; right; exact Ib].
    induction l as [ | b l IH]; intros I; [reflexivity | ]. cbn [suml sumlist]. rewrite IH by (intros; apply I; now right).
    destruct (HTW b (I b (or_introl eq_refl))) as (E1 & L1). destruct (HTW' b (I b (or_introl eq_refl))) as (E2 & L2). rewrite E1 in E2. injection E2 as <-.
    rewrite (lost_fun e sc h t _ _ _ _ _ (proj1 (proj2 (proj2 Rd))) L1 L2). reflexivity.
Qed.
