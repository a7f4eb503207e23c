(** C47, C61: the energy observer. *)
From Verif Require Import Spec_Ctl Proof_Tree Proof_World Proof_Dofs Proof_Linalg Proof_Deriv Proof_SE3 Proof_Joints Proof_Dyn Proof_Dyn2 Proof_Matrix Proof_Step Proof_Mass.
From Verif Require Import Props_World Props_Dyn Props_DynEx Props_Mass Props_Step Proof_Ctl Props_Weight.
From Coq Require Import Lra.

(** ** EnergyMonitor.init *)
Lemma em_scan_ok eigvals eig sc (c : nat -> v3) bs :
  (forall b, In b bs -> exists H, principalframe eigvals eig (b_mass sc b) = Ok H /\ pos H = c b /\ hom H = 1) ->
  forall com, exists com', em_scan eigvals eig sc bs com = Ok com' /\
    (forall b, In b bs \/ com b = Some (c b, 1) -> com' b = Some (c b, 1)).
Proof.
  induction bs as [ | b bs IH]; intros Hb com.
  - exists com. split; [reflexivity | ]. intros b [[] | E]; exact E.
  - destruct (Hb b (or_introl eq_refl)) as (H & E & Ep & Eh). cbn [em_scan]. rewrite E. cbn [rbind].
    destruct (IH (fun x I => Hb x (or_intror I)) (upd com b (Some (pos H, hom H)))) as (com' & E' & Hc). exists com'. split; [exact E' | ].
    intros x Hx. apply Hc. unfold upd. destruct (Nat.eqb_spec x b) as [-> | N]; [right; rewrite Ep, Eh; reflexivity | ].
    destruct Hx as [[-> | I] | I]; [contradiction | now left | now right].
Qed.
Lemma em_scan_err eigvals eig sc bs b : In b bs -> ismassmatrix eigvals (b_mass sc b) false = false ->
  forall com, em_scan eigvals eig sc bs com = Err AssertionError.
Proof.
  intros I F. induction bs as [ | x bs IH]; [destruct I | ]. intros com. cbn [em_scan]. unfold principalframe.
  destruct (ismassmatrix eigvals (b_mass sc x) false) eqn:E; [ | reflexivity].
  destruct (eig _) as [Sv Rm]. cbn [rbind]. apply IH. destruct I as [-> | I]; [congruence | exact I].
Qed.
Lemma em_height_ok sc st com (P : nat -> m4) (c : nat -> v3) bs :
  (forall b, In b bs -> a_pose (st b) = Some (P b) /\ com b = Some (c b, 1)) ->
  forall acc, em_height sc st com bs acc = Ok (acc + sumlist (fun b => m00 (ll (b_mass sc b)) * dot3 (point_at (P b) (c b)) world_up) bs).
Proof.
  induction bs as [ | b bs IH]; intros H acc; [cbn; rewrite Rplus_0_r; reflexivity | ].
  cbn [em_height sumlist]. destruct (H b (or_introl eq_refl)) as [-> ->]. cbn [Model_Dyn.get rbind]. rewrite IH by (intros; apply H; now right). f_equal.
  rewrite Rplus_assoc. do 2 f_equal. unfold point_at. do 3 f_equal. destruct (pos (P b)). unf. f_equal; ring.
Qed.

(** the bodies below the ground are rigid with masses [m], centres of mass [c], and [eigvals], [eig] are
    right about them *)
Definition solids (eigvals : m6 -> list R) (eig : m3 -> v3 * m3) (sc : scene) (t : tree) (m : nat -> R) (c : nat -> v3) (I0 : nat -> m3) : Prop :=
  forall b, In b (tl (bodies t)) -> b_mass sc b = rigid_mass (m b) (c b) (I0 b) /\ tr (I0 b) = I0 b /\ mass_of (m b) (b_mass sc b) /\
    eigvals_of (b_mass sc b) (eigvals (b_mass sc b)) /\
    let Ic := madd (I0 b) (mscal (m b) (mm (skew (c b)) (skew (c b)))) in eig_of Ic (eig Ic).
(** the world in state [w] is the world [h] at another time *)
Definition same_tree (e : env) (h : @heap R) (t : tree) (w : wst) : Prop :=
  rep e (s_heap w) t /\ w_ndof (s_heap w) = w_ndof h.

Lemma mass_pos m M : mass_of m M -> 0 < m.
Proof.
  intros (_ & Pd & L). assert (X := Pd (V6 zero3 (V3 1 0 0))).
  assert (N : V6 zero3 (V3 1 0 0) <> zero6) by (intros Z; injection Z as Z; lra). specialize (X N).
  destruct M as [A B C D]. cbn [ll] in L. subst D. revert X. destruct A, B, C. unf. lra.
Qed.
Lemma em_init_ok eigvals eig e sc h t fuel m c I0 : ready e h t -> (height t < fuel)%nat -> solids eigvals eig sc t m c I0 ->
  exists com, em_init eigvals eig e sc fuel h = Ok (EM [] [] [] [] com) /\ forall b, In b (tl (bodies t)) -> com b = Some (c b, 1).
Proof.
  intros Rd F So. assert (Fd := proj1 (C09_descendants R e h t fuel (proj1 Rd) F)). rewrite (proj1 (proj2 Rd)) in Fd.
  unfold em_init. rewrite Fd. cbn [rbind].
  destruct (em_scan_ok eigvals eig sc c (tl (bodies t))) with (com := fun _ : nat => @None (v3 * R)) as (com & E & Hc).
  - intros b Ib. destruct (So b Ib) as (EM & TI & Mm & Ev & Eg). cbn zeta in Eg. rewrite EM in Mm, Ev.
    destruct (C38_principalframe eigvals eig (m b) (c b) (I0 b) TI Mm Ev Eg) as (H & _ & _ & EH & SH & EP & _).
    exists H. rewrite EM. split; [exact EH | ]. split; [exact EP | apply SH].
  - exists com. rewrite E. split; [reflexivity | ]. intros b Ib. apply Hc. now left.
Qed.

(** ** C47 *)
(** EnergyMonitor.init succeeds; whatever was recorded before, EnergyMonitor.update appends one value to each
    list, and the power of the controller made by WeightController(-9.81) is minus the derivative of the
    potential energy it appends. *)
Theorem C47_gravity_energy : forall eigvals eig e sc h t f s fuel st (St : R -> store) (D : R -> wdyn) v m c I0,
  ready e h t -> rigid_scene e sc t (f s) -> world_motion t f s -> (height t < fuel)%nat ->
  (forall u, world_update_dynamic e sc h (f u) fuel st = Ok (St u, D u)) -> world_velocity e h t (f s) v ->
  solids eigvals eig sc t m c I0 ->
  exists o w gforce (Ep : R -> R),
    em_init eigvals eig e sc fuel h = Ok o /\
    (forall u x o', same_tree e h t x -> em_com o' = em_com o -> exists Ec, em_update e sc fuel x (St u) o' =
       Ok (EM (em_time o' ++ [s_time x]) (em_kin o' ++ [Ec]) (em_pot o' ++ [Ep u]) (em_mech o' ++ [Ec + Ep u]) (em_com o)) /\
       Ec = quad (w_ndof h) (gvel_vec (s_heap x)) (d_mass (s_dyn x)) (gvel_vec (s_heap x)) / 2) /\
    wc_init e sc fuel h (- (981 / 100)) = Ok w /\ wc_update sc (St s) w = Ok (gforce, mzero) /\
    derivable_pt_lim Ep s (- sumR (w_ndof h) (fun k => gforce k * v k)).
Proof.
  intros eigvals eig e sc h t f s fuel st St D v m c I0 Rd Ri Mo F U Wv So.
  destruct (em_init_ok eigvals eig e sc h t fuel m c I0 Rd F So) as (com & Ei & Hc).
  destruct (C47_weight_is_conservative e sc h t f s fuel st St D v (- (981 / 100)) m c I0 Rd Ri Mo F U Wv) as (w & gf & P & Ew & Eu & HP & DE).
  { intros b Ib. destruct (So b Ib) as (EM & _ & Mm & _). split; [exact EM | ]. apply Rlt_le, (mass_pos _ _ Mm). }
  exists (EM [] [] [] [] com), w, gf, (fun u => sumlist (fun b => m b * dot3 (point_at (P u b) (c b)) world_up) (tl (bodies t)) * (981 / 100)).
  split; [exact Ei | ]. split; [ | split; [exact Ew | split; [exact Eu | ]]].
  - intros u x o' [Rx Nx] Ec. eexists. split; [ | reflexivity]. unfold em_update.
    assert (Fd := proj1 (C09_descendants R e (s_heap x) t fuel Rx F)). rewrite (proj1 (proj2 Rd)) in Fd. rewrite Fd. cbn [rbind].
    rewrite (em_height_ok sc (St u) (em_com o') (P u) c).
    2:{ intros b Ib. split; [apply HP; exact Ib | rewrite Ec; apply Hc; exact Ib]. }
    cbn [rbind]. rewrite Rplus_0_l. cbn [em_com] in *. rewrite Nx, Ec.
    assert (E1 : sumlist (fun b => m00 (ll (b_mass sc b)) * dot3 (point_at (P u b) (c b)) world_up) (tl (bodies t)) =
                 sumlist (fun b => m b * dot3 (point_at (P u b) (c b)) world_up) (tl (bodies t))).
    { apply sumlist_ext. intros b Ib. destruct (So b Ib) as (-> & _). f_equal. unfold rigid_mass. cbn. ring. }
    assert (E2 : sumR (w_ndof h) (fun k => gvel_vec (s_heap x) k * mvn (w_ndof h) (d_mass (s_dyn x)) (gvel_vec (s_heap x)) k) =
                 quad (w_ndof h) (gvel_vec (s_heap x)) (d_mass (s_dyn x)) (gvel_vec (s_heap x))).
    { unfold quad. apply sumR_ext. intros k _. unfold mvn. rewrite <- sumR_scal. apply sumR_ext. intros l _. ring. }
    rewrite E1, E2. reflexivity.
  - eapply dconv; [ | reflexivity]. eapply dext; [ | exact DE]. intros u. cbv beta. rewrite Rmult_comm, <- sumlist_scal. apply sumlist_ext. intros b _. ring.
Qed.

(** ** C63: energy balance.  Motions of the tree obeying the equation of motion of the matrices the world
    computes, under WeightController(-9.81): the mechanical energy that EnergyMonitor records decreases at the rate
    of the viscous dissipation, and is constant to first order in a world without viscosity. *)
Theorem C63_energy_balance_partial : forall eigvals eig e sc h t f s fuel st (St : R -> store) (D : R -> wdyn) (x : R -> wst) (v : R -> nat -> R) a m c I0,
  ready e h t -> rigid_scene e sc t (f s) -> world_motion t f s -> (height t < fuel)%nat ->
  (forall u, world_update_dynamic e sc h (f u) fuel st = Ok (St u, D u)) -> world_velocity e h t (f s) (v s) ->
  (forall k, (k < w_ndof h)%nat -> derivable_pt_lim (fun u => v u k) s (a k)) ->
  (forall u, same_tree e h t (x u) /\ s_dyn (x u) = D u /\ forall k, (k < w_ndof h)%nat -> gvel_vec (s_heap (x u)) k = v u k) ->
  solids eigvals eig sc t m c I0 -> (forall b, In b (tl (bodies t)) -> 1 / 10000000000 < m b) ->
  (* missing: without this the claim is false (C44) *)
  (forall b js, In b (tl (bodies t)) -> above t b js -> djac_safe (fun j => jt (f s j)) js) ->
  exists o w gforce (E : R -> R),
    em_init eigvals eig e sc fuel h = Ok o /\
    wc_init e sc fuel h (- (981 / 100)) = Ok w /\ wc_update sc (St s) w = Ok (gforce, mzero) /\
    (forall u o', em_com o' = em_com o -> exists o'', em_update e sc fuel (x u) (St u) o' = Ok o'' /\ em_mech o'' = em_mech o' ++ [E u] /\ em_com o'' = em_com o) /\
    ((forall k, (k < w_ndof h)%nat -> sumR (w_ndof h) (fun l => d_mass (D s) k l * a l) +
        sumR (w_ndof h) (fun l => (d_nle (D s) k l + d_visc (D s) k l) * v s l) = gforce k) ->
     derivable_pt_lim E s (- quad (w_ndof h) (v s) (d_visc (D s)) (v s))).
Proof.
  intros eigvals eig e sc h t f s fuel st St D x v a m c I0 Rd Ri Mo F U Wv Dv Hx So Hm Sf.
  destruct (C47_gravity_energy eigvals eig e sc h t f s fuel st St D (v s) m c I0 Rd Ri Mo F U Wv So) as (o & w & gf & Ep & Eo & Up & Ew & Eu & DE).
  exists o, w, gf, (fun u => quad (w_ndof h) (v u) (d_mass (D u)) (v u) / 2 + Ep u).
  split; [exact Eo | ]. split; [exact Ew | ]. split; [exact Eu | ]. split.
  - intros u o' Ec. destruct (Hx u) as (Sx & Dx & Gx). destruct (Up u (x u) o' Sx Ec) as (K & E & EK). eexists. split; [exact E | ]. split; [ | reflexivity].
    cbn [em_mech]. do 3 f_equal. rewrite EK, Dx. f_equal. unfold quad. apply sumR_ext. intros k Hk. apply sumR_ext. intros l Hl. rewrite !Gx by auto. reflexivity.
  - intros Eq. assert (X := C80_power_partial e sc h t f s v a gf fuel st St D Rd Ri Mo F U Wv Dv Eq). 
    assert (Y := X (fun b Ib => match So b Ib with conj E (conj TI _) => ex_intro _ (m b) (ex_intro _ (c b) (ex_intro _ (I0 b) (conj (or_introl (Hm b Ib)) (conj TI E)))) end) Sf).
    eapply dconv; [apply (Dplus (fun u => quad (w_ndof h) (v u) (d_mass (D u)) (v u) / 2)); [exact Y | exact DE] | ].
    replace (sumR (w_ndof h) (fun k => gf k * v s k)) with (sumR (w_ndof h) (fun k => v s k * gf k)) by (apply sumR_ext; intros; ring). lra.
Qed.

(** ** C61 *)
(** positive semi-definite matrices are positive definite or singular *)
Lemma psd_kernel M u : sym6 M -> psd6 M -> dot6 u (mv6 M u) = 0 -> mv6 M u = zero6.
Proof.
  intros Sy Ps Z. set (w := mv6 M u).
  assert (Q : forall a, 0 <= 2 * a * dot6 w w + a ^ 2 * dot6 w (mv6 M w)).
  { intros a. assert (X := Ps (v6add u (v6scal a w))). replace (2 * a * dot6 w w + a ^ 2 * dot6 w (mv6 M w)) with (dot6 (v6add u (v6scal a w)) (mv6 M (v6add u (v6scal a w)))); [exact X | ].
    replace (mv6 M (v6add u (v6scal a w))) with (v6add w (v6scal a (mv6 M w))) by (unfold w; destruct M as [[] [] [] []], u as [[] []]; unf; entries; ring).
    assert (E := Sy u w). fold w in E.
    replace (dot6 (v6add u (v6scal a w)) (v6add w (v6scal a (mv6 M w)))) with (dot6 u w + a * dot6 u (mv6 M w) + a * dot6 w w + a ^ 2 * dot6 w (mv6 M w)).
    2:{ generalize (mv6 M w) w u. clear. intros [[] []] [[] []] [[] []]. unf. ring. }
    rewrite E. fold w in Z. rewrite Z. ring. }
  assert (N : dot6 w w <= 0).
  { assert (P0 := Ps w). destruct (Rle_lt_dec (dot6 w w) 0) as [ | L]; [assumption | exfalso].
    set (A := dot6 w w) in *. set (B := dot6 w (mv6 M w)) in *.
    assert (X := Q (- (A / (B + 1)))). assert (B1 : 0 < B + 1) by lra.
    assert (T : 0 < A / (B + 1)) by (apply Rdiv_lt_0_compat; lra). set (r := A / (B + 1)) in *.
    assert (E : r * (B + 1) = A) by (unfold r; field; lra).
    assert (Y : 2 * - r * A + (- r) ^ 2 * B = - r * (r * B + 2 * r)) by (rewrite <- E; ring). rewrite Y in X.
    assert (0 <= r * B) by (apply Rmult_le_pos; lra). assert (0 < r * (r * B + 2 * r)) by (apply Rmult_lt_0_compat; lra). lra. }
  clearbody w. destruct w as [[a1 a2 a3] [b1 b2 b3]]. clear Q. revert N. unf. intros N.
  assert (Q := Rle_0_sqr). assert (Q1 := Q a1). assert (Q2 := Q a2). assert (Q3 := Q a3). assert (Q4 := Q b1). assert (Q5 := Q b2). assert (Q6 := Q b3). unfold Rsqr in *.
  assert (S0 : forall y, y * y <= 0 -> y = 0) by (intros y Hy; apply Rsqr_0_uniq; unfold Rsqr; specialize (Q y); unfold Rsqr in Q; lra).
  f_equal; f_equal; apply S0; lra.
Qed.
Lemma singular_rejected eigvals M u : eigvals_of M (eigvals M) -> u <> zero6 -> mv6 M u = zero6 -> ismassmatrix eigvals M false = false.
Proof.
  intros Ev N Z. unfold ismassmatrix. apply andb_false_iff. right.
  destruct (forallb (fun l => Rltb 0 l) (eigvals M)) eqn:E; [exfalso | reflexivity].
  assert (X : In 0 (eigvals M)) by (apply Ev; exists u; split; [exact N | ]; rewrite Z; destruct u as [[] []]; unf; entries; ring).
  apply (proj1 (forallb_forall _ _) E) in X. apply Rltb_true in X. lra.
Qed.

(** EnergyMonitor.init raises exactly for the worlds with a body whose mass matrix, although accepted by Body(),
    is not positive definite *)
Theorem C61_energymonitor_massless_refuted : forall eigvals eig e sc h t fuel m c I0,
  ready e h t -> (height t < fuel)%nat ->
  (forall b, In b (tl (bodies t)) -> b_mass sc b = rigid_mass (m b) (c b) (I0 b) /\ tr (I0 b) = I0 b /\ psd6 (b_mass sc b) /\
     eigvals_of (b_mass sc b) (eigvals (b_mass sc b))) ->
  (* such masses are all accepted by Body() *)
  (forall b, In b (tl (bodies t)) -> ismassmatrix eigvals (b_mass sc b) true = true) /\
  ((forall b, In b (tl (bodies t)) -> pd6 (b_mass sc b)) -> exists o, em_init eigvals eig e sc fuel h = Ok o) /\
  (~ (forall b, In b (tl (bodies t)) -> pd6 (b_mass sc b)) -> em_init eigvals eig e sc fuel h = Err AssertionError).
Proof.
  intros eigvals eig e sc h t fuel m c I0 Rd F Hb.
  assert (Sy : forall b, In b (tl (bodies t)) -> sym6 (b_mass sc b)).
  { intros b Ib. destruct (Hb b Ib) as (-> & TI & _). destruct (I0 b) as [i1 i2 i3 i4 i5 i6 i7 i8 i9]. unfold tr in TI. cbn in TI. injection TI as E1 E2 E3 E4 E5 E6.
    intros u w. destruct u as [[] []], w as [[] []], (c b). unfold rigid_mass. unf. subst. ring. }
  assert (Fd := proj1 (C09_descendants R e h t fuel (proj1 Rd) F)). rewrite (proj1 (proj2 Rd)) in Fd.
  assert (Cl : forall b, In b (tl (bodies t)) -> close6 (b_mass sc b) (tr6 (b_mass sc b)) && close3 (ll (b_mass sc b)) (mscal (m00 (ll (b_mass sc b))) eye3) = true).
  { intros b Ib. destruct (Hb b Ib) as (-> & TI & _).
    assert (C1 : forall y z : R, y = z -> close1 y z = true) by (intros y z ->; unfold close1; apply Rleb_true; rewrite Rminus_diag_eq, Rabs_R0 by reflexivity; assert (T := Rabs_pos z); lra).
    assert (C3 : forall y z : m3, y = z -> close3 y z = true) by (intros y z ->; unfold close3; rewrite !C1 by reflexivity; reflexivity).
    apply andb_true_intro. split.
    - unfold close6. rewrite !C3; [reflexivity | | | | ]; unfold rigid_mass, tr6; cbn [aa al la ll]; [lin | lin | lin | symmetry; exact TI].
    - apply C3. unfold rigid_mass. cbn [ll]. unf. f_equal; ring. }
  split; [ | split].
  - intros b Ib. destruct (Hb b Ib) as (EM & TI & Ps & Ev). unfold ismassmatrix. rewrite (Cl b Ib). cbn [andb]. apply forallb_forall. intros l Il.
    apply Ev in Il. destruct Il as (u & N & E). apply Rleb_true.
    assert (X := Ps u). rewrite E in X.
    assert (Y : dot6 u (v6scal l u) = l * dot6 u u) by (destruct u as [[] []]; unf; ring). rewrite Y in X.
    assert (P : 0 < dot6 u u).
    { destruct u as [[a1 a2 a3] [b1 b2 b3]]. assert (Q := Rle_0_sqr). 
      assert (Q1 := Q a1). assert (Q2 := Q a2). assert (Q3 := Q a3). assert (Q4 := Q b1). assert (Q5 := Q b2). assert (Q6 := Q b3). unfold Rsqr in *.
      destruct (Rle_lt_dec (dot6 (V6 (V3 a1 a2 a3) (V3 b1 b2 b3)) (V6 (V3 a1 a2 a3) (V3 b1 b2 b3))) 0) as [L | ]; [exfalso | assumption]. apply N. revert L. clear -Q Q1 Q2 Q3 Q4 Q5 Q6. unf. intros L.
      assert (S0 : forall y, y * y <= 0 -> y = 0) by (intros y Hy; apply Rsqr_0_uniq; unfold Rsqr; specialize (Q y); lra).
      f_equal; f_equal; apply S0; lra. }
    apply (Rmult_le_reg_r (dot6 u u)); [exact P | lra].
  - intros Pd. unfold em_init. rewrite Fd. cbn [rbind].
    destruct (em_scan_ok eigvals eig sc c (tl (bodies t))) with (com := fun _ : nat => @None (v3 * R)) as (com & E & _).
    + intros b Ib. destruct (Hb b Ib) as (EM & TI & Ps & Ev).
      assert (Mm : mass_of (m b) (b_mass sc b)) by (split; [apply Sy; exact Ib | split; [apply Pd; exact Ib | rewrite EM; reflexivity]]).
      assert (Ac : ismassmatrix eigvals (b_mass sc b) false = true).
      { unfold ismassmatrix. rewrite (Cl b Ib). cbn [andb]. apply forallb_forall. intros l Il. apply Ev in Il. destruct Il as (u & N & Eu). apply Rltb_true.
        assert (X := Pd b Ib u N). rewrite Eu in X. assert (Y : dot6 u (v6scal l u) = l * dot6 u u) by (destruct u as [[] []]; unf; ring). rewrite Y in X.
        assert (Q : 0 <= dot6 u u) by (destruct u as [[a1 a2 a3] [b1 b2 b3]]; unf; assert (Q := Rle_0_sqr); unfold Rsqr in Q; assert (Q1 := Q a1); assert (Q2 := Q a2); assert (Q3 := Q a3); assert (Q4 := Q b1); assert (Q5 := Q b2); assert (Q6 := Q b3); lra).
        destruct (Rle_lt_dec l 0) as [L | L]; [exfalso | exact L]. assert (Z : (- l) * dot6 u u >= 0) by (apply Rle_ge, Rmult_le_pos; lra). lra. }
      unfold principalframe. rewrite Ac. destruct (eig _) as [Sv Rm]. eexists. split; [reflexivity | ]. cbn [pos hom]. split; [ | reflexivity].
      assert (Hm := mass_pos _ _ Mm). rewrite EM. unfold rigid_mass. destruct (c b) as [c1 c2 c3]. unf. f_equal; field; lra.
    + rewrite E. eexists. reflexivity.
  - intros Npd. unfold em_init. rewrite Fd. cbn [rbind].
    assert (X : exists b, In b (tl (bodies t)) /\ ismassmatrix eigvals (b_mass sc b) false = false).
    { destruct (existsb (fun b => negb (ismassmatrix eigvals (b_mass sc b) false)) (tl (bodies t))) eqn:E.
      - apply existsb_exists in E. destruct E as (b & Ib & E). exists b. split; [exact Ib | ]. destruct (ismassmatrix _ _ _); [discriminate | reflexivity].
      - exfalso. apply Npd. intros b Ib u N. destruct (Hb b Ib) as (EM & TI & Ps & Ev).
        destruct (Rle_lt_or_eq_dec _ _ (Ps u)) as [ | Z]; [assumption | exfalso]. symmetry in Z.
        assert (K := singular_rejected eigvals _ u Ev N (psd_kernel _ u (Sy b Ib) Ps Z)).
        assert (existsb (fun b => negb (ismassmatrix eigvals (b_mass sc b) false)) (tl (bodies t)) = true); [ | congruence].
        apply existsb_exists. exists b. split; [exact Ib | ]. rewrite K. reflexivity. }
    destruct X as (b & Ib & Eb). rewrite (em_scan_err eigvals eig sc _ b Ib Eb). reflexivity.
Qed.
