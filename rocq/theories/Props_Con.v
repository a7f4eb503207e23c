(** C48-C53: the constraint classes. *)
From Verif Require Import Spec_Con Proof_Tree Proof_World Proof_Linalg Proof_Deriv Proof_SE3 Proof_Dyn Proof_Dyn2 Proof_Matrix Proof_Step Proof_Con Proof_Cons.
From Verif Require Import Props_Dyn Props_DynEx Props_Step.
From Coq Require Import Lra.

(** ** C49 *)
(** Every class of the library: whatever the state, velocity, admittance and step, [solve] returns the
    difference between the new and the previous force. *)
Theorem C49_solve_returns_increment : forall E c vel Y dt c' df, c_solve (con_ops E) c vel Y dt = Ok (c', df) ->
  forall k, (k < c_ndol (con_ops E) c)%nat -> df k = c_force (con_ops E) c' k - c_force (con_ops E) c k.
Proof. intros E c vel Y dt c' df H k L. destruct (con_increments E c vel Y dt c' df H) as (_ & _ & _ & _ & I). rewrite (I k L). lra. Qed.

(** ** C48 for the library's constraints: the hypothesis of C48_solver_velocities always holds. *)
Theorem C48_library : forall E dt tol maxiters cs s s' l vel, let ops := con_ops E in
  update_constraints ops dt tol maxiters cs s = Ok (s', l, vel) ->
  (forall i, s_gforce s' i = s_gforce s i +
     sumlist (fun c => match c_jac ops c with Ok A => sumR (c_ndol ops c) (fun k => A k i * c_force ops c k) | Err _ => 0 end) (acting l)) /\
  (forall c a, In (c, Some a) l -> exists A, c_jac ops c = Ok A /\ forall k, (k < c_ndol ops c)%nat ->
     vel (a + k)%nat = mvn (w_ndof (s_heap s)) A (next_gvel s' dt (s_gforce s')) k).
Proof.
  intros E dt tol maxiters cs s s' l vel ops H.
  destruct (C48_solver_velocities con ops dt tol maxiters cs s s' l vel (con_increments E) H) as (_ & F & V & _). auto.
Qed.

(** ** C50 *)
Lemma jl_end n p f f' vel Y dt i :
  end_pos n p vel Y dt (vminus f' f) i = p i + dt * (vel i - mvn n Y f i) + dt * mvn n Y f' i.
Proof. unfold end_pos. rewrite mvn_minus. lra. Qed.

(** Whatever the admittance, the force pushes away from the limit that is treated. *)
Theorem C50_force_signs : forall E c vel Y dt c' df, jl_solve E c vel Y dt = (c', df) ->
  (forall i, (i < jl_nd c)%nat -> 0 <= jl_force c' i) \/ (forall i, (i < jl_nd c)%nat -> jl_force c' i <= 0).
Proof.
  intros E c vel Y dt c' df H. unfold jl_solve in H. repeat match type of H with context [if ?b then _ else _] => destruct b end; injection H as <- <-; cbn [jl_force jl_set_force].
  - left. intros. apply Rmax_r. - right. intros. apply Rmin_r. - left. intros. unfold vzero. lra.
Qed.

(** Coordinates that do not influence each other, not predicted beyond limits on both sides at once:
    the documented conditions hold. *)
Theorem C50_limits_partial : forall E c vel Y dt c' df, pinv_spec (np_pinv E) -> 0 < dt ->
  let n := jl_nd c in
  let free := end_pos n (jl_pos0 c) vel Y dt (vminus vzero (jl_force c)) in   (* without constraint force *)
  diagonal n Y -> (forall i, (i < n)%nat -> 0 < Y i i) ->
  (forall i, (i < n)%nat -> jl_min c i <= jl_max c i) ->
  (forall i j, (i < n)%nat -> (j < n)%nat -> free i <= jl_min c i -> free j <= jl_max c j) ->
  jl_solve E c vel Y dt = (c', df) ->
  signorini n (jl_min c) (jl_max c) (end_pos n (jl_pos0 c) vel Y dt df) (jl_force c').
Proof.
  intros E c vel Y dt c' df Hp Pd n free Dg Pos Mm Two H.
  assert (Iv := Hp n Y (diag_not_singular n Y Dg Pos)).
  assert (Fr : forall i, (i < n)%nat -> free i = jl_pos0 c i + dt * (vel i - mvn n Y (jl_force c) i)).
  { intros i L. unfold free. rewrite jl_end. rewrite mvn_zero. lra. }
  unfold jl_solve in H. cbv zeta in H. change (jl_nd c) with n in H.
  pose (pred := fun i => jl_pos0 c i + dt * (vel i - mvn n Y (jl_force c) i)).
  assert (Y1 : forall b i, (i < n)%nat -> mvn n (np_pinv E n Y) b i = b i / Y i i).
  { intros b i L. assert (Q := inverse_apply n Y _ b Iv i L). rewrite diag_mvn in Q by auto. specialize (Pos i L). rewrite <- Q. field. lra. }
  match type of H with (if ?x then _ else _) = _ => destruct x eqn:E1 end;
  [ | match type of H with (if ?x then _ else _) = _ => destruct x eqn:E2 end].
  - injection H as <- <-. apply existsb_n_true in E1. destruct E1 as (i0 & L0 & B0). apply Rleb_true in B0.
    intros i L. rewrite jl_end. change (jl_pos0 c i + dt * (vel i - mvn n Y (jl_force c) i)) with (pred i). cbn [jl_force jl_set_force].
    specialize (Two i0 i L0 L). rewrite !Fr in Two by auto. change (pred i0 <= jl_min c i0 -> pred i <= jl_max c i) in Two. change (pred i0 <= jl_min c i0) in B0. specialize (Two B0). specialize (Mm i L). specialize (Pos i L).
    rewrite diag_mvn by auto. rewrite Y1 by auto. change (jl_pos0 c i + dt * (vel i - mvn n Y (jl_force c) i)) with (pred i).
    destruct (Rle_dec (pred i) (jl_min c i)) as [G | G].
    + rewrite Rmax_left by (repeat apply Rmult_le_pos; try lra; left; apply Rinv_0_lt_compat; lra).
      replace (pred i + dt * (Y i i * ((jl_min c i - pred i) / dt / Y i i))) with (jl_min c i) by (field; lra).
      repeat split; try lra. intros Q. exfalso. assert (0 <= (jl_min c i - pred i) / dt / Y i i) by (repeat apply Rmult_le_pos; try lra; left; apply Rinv_0_lt_compat; lra). lra.
    + assert (Z : (jl_min c i - pred i) / dt / Y i i <= 0).
      { unfold Rdiv. rewrite Rmult_assoc. assert (0 < / dt * / Y i i) by (apply Rmult_lt_0_compat; apply Rinv_0_lt_compat; lra).
        assert (0 <= (pred i - jl_min c i) * (/ dt * / Y i i)) by (apply Rmult_le_pos; lra). lra. }
      rewrite Rmax_right by exact Z. repeat split; lra.
  - injection H as <- <-. intros i L. rewrite jl_end. change (jl_pos0 c i + dt * (vel i - mvn n Y (jl_force c) i)) with (pred i). cbn [jl_force jl_set_force].
    assert (B := existsb_n_false n _ E1 i L). cbv beta in B. change (Rleb (pred i) (jl_min c i) = false) in B. assert (G0 : jl_min c i < pred i).
    { destruct (Rlt_dec (jl_min c i) (pred i)); auto. assert (Rleb (pred i) (jl_min c i) = true) by (apply Rleb_true; lra). congruence. }
    specialize (Mm i L). specialize (Pos i L). rewrite diag_mvn by auto. rewrite Y1 by auto. change (jl_pos0 c i + dt * (vel i - mvn n Y (jl_force c) i)) with (pred i).
    destruct (Rle_dec (jl_max c i) (pred i)) as [G | G].
    + assert (Z : (jl_max c i - pred i) / dt / Y i i <= 0).
      { unfold Rdiv. rewrite Rmult_assoc. assert (0 < / dt * / Y i i) by (apply Rmult_lt_0_compat; apply Rinv_0_lt_compat; lra).
        assert (0 <= (pred i - jl_max c i) * (/ dt * / Y i i)) by (apply Rmult_le_pos; lra). lra. }
      rewrite Rmin_left by exact Z. replace (pred i + dt * (Y i i * ((jl_max c i - pred i) / dt / Y i i))) with (jl_max c i) by (field; lra).
      repeat split; lra.
    + assert (Z : 0 <= (jl_max c i - pred i) / dt / Y i i) by (repeat apply Rmult_le_pos; try lra; left; apply Rinv_0_lt_compat; lra).
      rewrite Rmin_right by exact Z. repeat split; lra.
  - injection H as <- <-. intros i L.
    replace (end_pos n (jl_pos0 c) vel Y dt (fun i0 => - jl_force c i0) i) with (end_pos n (jl_pos0 c) vel Y dt (vminus vzero (jl_force c)) i).
    2:{ unfold end_pos. f_equal. f_equal. f_equal. apply mvn_ext; auto. intros k _. unfold vminus, vzero. lra. }
    change (end_pos n (jl_pos0 c) vel Y dt (vminus vzero (jl_force c)) i) with (free i). rewrite Fr by exact L. change (jl_pos0 c i + dt * (vel i - mvn n Y (jl_force c) i)) with (pred i). cbn [jl_force jl_set_force]. unfold vzero.
    assert (B1 := existsb_n_false n _ E1 i L). assert (B2 := existsb_n_false n _ E2 i L). change (Rleb (pred i) (jl_min c i) = false) in B1. change (Rleb (jl_max c i) (pred i) = false) in B2.
    destruct (Rle_dec (pred i) (jl_min c i)) as [G | G]; [apply Rleb_true in G; congruence | ].
    destruct (Rle_dec (jl_max c i) (pred i)) as [G' | G']; [apply Rleb_true in G'; congruence | ]. repeat split; lra.
Qed.

(** Joints with one degree of freedom: the documented conditions hold without restriction. *)
Theorem C50_one_dof : forall E c vel Y dt c' df, pinv_spec (np_pinv E) -> 0 < dt -> jl_nd c = 1%nat ->
  0 < Y 0%nat 0%nat -> jl_min c 0%nat <= jl_max c 0%nat -> jl_solve E c vel Y dt = (c', df) ->
  signorini 1 (jl_min c) (jl_max c) (end_pos 1 (jl_pos0 c) vel Y dt df) (jl_force c').
Proof.
  intros E c vel Y dt c' df Hp Pd N Pos Mm H. rewrite <- N.
  apply (C50_limits_partial E c vel Y dt c' df Hp Pd); auto; rewrite N.
  - intros i j Li Lj. lia.
  - intros i L. assert (i = 0)%nat by lia. subst. exact Pos.
  - intros i L. assert (i = 0)%nat by lia. subst. exact Mm.
  - intros i j Li Lj. assert (i = 0)%nat by lia. assert (j = 0)%nat by lia. subst. intros; lra.
Qed.

(** With coupled coordinates one call of [solve] can push a coordinate that was within its limits out
    of them. *)
Definition jl_ex (max : vec) (pos0 : vec) : jlim := JL true 0 2 vzero max vzero pos0 mzero vzero.
Theorem C50_coupled_refuted : exists c vel Y dt, 0 < dt /\ posdef (jl_nd c) Y /\
  (forall i, (i < jl_nd c)%nat -> jl_min c i < jl_max c i) /\
  (forall i, (i < jl_nd c)%nat -> jl_min c i <= jl_pos0 c i <= jl_max c i) /\
  forall E c' df, pinv_spec (np_pinv E) -> jl_solve E c vel Y dt = (c', df) ->
    exists i, (i < jl_nd c)%nat /\ jl_max c i < end_pos (jl_nd c) (jl_pos0 c) vel Y dt df i /\ 0 < jl_force c' i.
Proof.
  exists (jl_ex (fun i => if Nat.eqb i 0 then 5 else 20) (fun i => if Nat.eqb i 0 then 0 else 10)), (fun i => if Nat.eqb i 0 then -1 else 0), (fun i j => if Nat.eqb i j then 1 else 1/2), 1.
  cbn [jl_nd jl_ex jl_min jl_max jl_pos0]. set (Y := fun i j : nat => if Nat.eqb i j then 1 else 1/2).
  assert (PD : posdef 2 Y).
  { split; [intros [ | [ | i]] [ | [ | j]] Li Lj; try lia; reflexivity | ]. intros x Nx. unfold quad, Y. cbn.
    destruct (Req_dec (x 0%nat) 0) as [Z0 | Z0].
    - assert (x 1%nat <> 0). { intros Z1. apply Nx. intros [ | [ | i]] L; try lia; auto. }
      rewrite Z0. assert (0 < x 1%nat * x 1%nat) by (apply Rsqr_pos_lt; auto). lra.
    - assert (P0 : 0 < x 0%nat * x 0%nat) by (apply Rsqr_pos_lt; auto).
      assert (P1 : 0 <= (x 1%nat + / 2 * x 0%nat) * (x 1%nat + / 2 * x 0%nat)) by apply Rle_0_sqr. lra. }
  split; [lra | ]. split; [exact PD | ].
  split; [intros [ | [ | i]] L; try lia; cbn; unfold vzero; lra | ].
  split; [intros [ | [ | i]] L; try lia; cbn; unfold vzero; lra | ].
  intros E c' df Hp H. assert (Iv := Hp 2%nat Y (posdef_not_singular 2 Y PD)).
  unfold jl_solve in H. cbn [jl_nd jl_ex jl_min jl_max jl_pos0 jl_force] in H. cbv zeta in H.
  destruct (existsb_n 2 _) eqn:E1.
  2:{ exfalso. assert (B := existsb_n_false 2 _ E1 0%nat ltac:(lia)). cbv beta in B. rewrite mvn_zero in B. cbn [Nat.eqb] in B. unfold vzero in B.
      assert (Rleb (0 + 1 * (-1 - 0)) 0 = true) by (apply Rleb_true; lra). congruence. }
  injection H as <- <-. exists 0%nat. split; [lia | ].
  assert (S : veq 2 (mvn 2 (np_pinv E 2 Y) (fun i => (vzero i - ((if Nat.eqb i 0 then 0 else 10) + 1 * ((if Nat.eqb i 0 then -1 else 0) - mvn 2 Y vzero i))) / 1))
                    (fun i => if Nat.eqb i 0 then 8 else - 14)).
  { apply (inverse_solution 2 Y _ _ _ Iv). intros i L. rewrite mvn_zero. unfold mvn, Y, vzero. destruct i as [ | [ | i]]; try lia; cbn; lra. }
  unfold end_pos. rewrite mvn_minus, mvn_zero. cbn [jl_force jl_set_force].
  match goal with |- context [mvn 2 Y ?g 0%nat] => rewrite (mvn_ext 2 Y Y g (fun i => if Nat.eqb i 0 then 8 else 0)) end;
  [ | auto | intros i L; cbv beta; rewrite S by exact L; destruct i as [ | [ | i]]; try lia; cbn [Nat.eqb]; [rewrite Rmax_left; lra | rewrite Rmax_right; lra]].
  rewrite S by lia. unfold mvn, Y. cbn. split; [lra | ]. rewrite Rmax_left; lra.
Qed.

(** One coordinate predicted below its minimum hides another one predicted above its maximum, even
    with a diagonal admittance. *)
Theorem C50_two_sided_refuted : exists c vel dt, 0 < dt /\
  (forall i, (i < jl_nd c)%nat -> jl_min c i < jl_max c i) /\
  (forall i, (i < jl_nd c)%nat -> jl_min c i <= jl_pos0 c i <= jl_max c i) /\
  forall E c' df, pinv_spec (np_pinv E) -> jl_solve E c vel unit_mat dt = (c', df) ->
    exists i, (i < jl_nd c)%nat /\ jl_max c i < end_pos (jl_nd c) (jl_pos0 c) vel unit_mat dt df i /\ jl_force c' i = 0.
Proof.
  exists (jl_ex (fun _ => 1) (fun _ => 1 / 2)), (fun i => if Nat.eqb i 0 then -1 else 1), 1.
  cbn [jl_nd jl_ex jl_min jl_max jl_pos0]. split; [lra | ]. split; [intros; unfold vzero; lra | ]. split; [intros; unfold vzero; lra | ].
  intros E c' df Hp H.
  assert (Iv : inverse 2 unit_mat (np_pinv E 2 unit_mat)).
  { apply Hp, diag_not_singular. - intros i j _ _ N. unfold unit_mat. destruct (Nat.eqb_spec i j); [contradiction | reflexivity]. - intros i _. unfold unit_mat. rewrite Nat.eqb_refl. lra. }
  unfold jl_solve in H. cbn [jl_nd jl_ex jl_min jl_max jl_pos0 jl_force] in H. cbv zeta in H.
  destruct (existsb_n 2 _) eqn:E1.
  2:{ exfalso. assert (B := existsb_n_false 2 _ E1 0%nat ltac:(lia)). cbv beta in B. rewrite mvn_zero in B. cbn [Nat.eqb] in B. unfold vzero in B.
      assert (Rleb (1 / 2 + 1 * (-1 - 0)) 0 = true) by (apply Rleb_true; lra). congruence. }
  injection H as <- <-. exists 1%nat. split; [lia | ].
  unfold end_pos. rewrite mvn_minus, mvn_zero, mvn_unit by lia. cbn [jl_force jl_set_force].
  set (g := fun i : nat => (vzero i - (1 / 2 + 1 * ((if Nat.eqb i 0 then -1 else 1) - mvn 2 unit_mat vzero i))) / 1).
  assert (S : mvn 2 (np_pinv E 2 unit_mat) g 1%nat = g 1%nat) by (rewrite <- (mvn_unit 2 (mvn 2 (np_pinv E 2 unit_mat) g) 1 ltac:(lia)); apply inverse_apply; auto).
  rewrite S. unfold g. rewrite mvn_zero. unfold vzero. cbn [Nat.eqb]. rewrite Rmax_right by lra. lra.
Qed.

(** a 1-dof joint hitting its lower limit *)
Example C50_witness : pinv_spec gauss_pinv /\
  let c := JL true 0 1 vzero (fun _ => 1) vzero (fun _ => 1 / 2) mzero vzero in
  forall E, pinv_spec (np_pinv E) -> forall c' df, jl_solve E c (fun _ => -1) unit_mat 1 = (c', df) ->
    jl_force c' 0%nat = 1 / 2.
Proof.
  split; [exact gauss_pinv_spec | ]. cbn zeta. set (c := JL _ _ _ _ _ _ _ _ _). intros E Hp c' df H.
  destruct (C50_one_dof E c (fun _ => -1) unit_mat 1 c' df Hp ltac:(lra) eq_refl) with (i := 0%nat) as (B & P1 & P2).
  - unfold unit_mat. cbn. lra. - cbn [c jl_min jl_max]. unfold vzero. lra. - exact H. - lia.
  - assert (I : df 0%nat = jl_force c' 0%nat).
    { destruct (con_increments E (CJ c) (fun _ => -1) unit_mat 1 (CJ c') df) as (_ & _ & _ & _ & I); [cbn [c_solve con_ops]; rewrite H; reflexivity | ].
      specialize (I 0%nat ltac:(cbn; lia)). cbn [c_force con_ops jl_force c] in I. unfold vzero in I. lra. }
    unfold end_pos in B, P1, P2. rewrite mvn_unit in B, P1, P2 by lia. rewrite I in *. cbn [c jl_pos0 jl_min jl_max] in *. unfold vzero in *. lra.
Qed.

(** ** C51 *)
(** One call of [solve] brings the estimated gap at the end of the step to zero. *)
Theorem C51_gap_closed : forall E c vel Y dt c' df, pinv_spec (np_pinv E) -> 0 < dt -> ~ singular 3 Y ->
  bs_solve E c vel Y dt = (c', df) ->
  forall k, (k < 3)%nat -> end_pos 3 (fun i => comp3 i (bs_pos0 c)) vel Y dt df k = 0.
Proof.
  intros E c vel Y dt c' df Hp Pd NS H k L. unfold bs_solve in H. injection H as <- <-. unfold end_pos.
  set (z := fun k => vel k + comp3 k (bs_pos0 c) / dt).
  rewrite (mvn_ext 3 Y Y _ (vmul (-1) (mvn 3 (np_pinv E 3 Y) z))) by (auto; intros i _; unfold vmul; lra).
  rewrite mvn_mul, (inverse_apply 3 Y _ z (Hp 3%nat Y NS) k L). unfold z. field. lra.
Qed.

(** The velocity seen by [solve] (the constraint jacobian times the world velocity) along any motion of
    any world: with p01 the position error computed by [update] and w the angular velocity of frame 1
    relative to frame 0, it is p01' - w x p01. *)
Theorem C51_velocity_partial : forall e sc h t f s fuel st (St : R -> store) (D : R -> wdyn) v q pinv eig solve c,
  ready e h t -> rigid_scene e sc t (f s) -> world_motion t f s -> (height t < fuel)%nat ->
  (forall u, world_update_dynamic e sc h (f u) fuel st = Ok (St u, D u)) -> world_velocity e h t (f s) v ->
  In (frame_body e (bs_f0 c)) (bodies t) -> In (frame_body e (bs_f1 c)) (bodies t) ->
  let E u := CE e sc (St u) q pinv eig solve in
  exists P0 P1 p w A,
    (forall u, frame_pose e sc (St u) (bs_f0 c) = Ok (P0 u) /\ frame_pose e sc (St u) (bs_f1 c) = Ok (P1 u)) /\
    (forall u, exists c', bs_update (E u) c = Ok c' /\ bs_pos0 c' = p u /\ p u = pos (mm4 (inv_ (P0 u)) (P1 u))) /\
    dm3 (fun u => rot (mm4 (inv_ (P0 u)) (P1 u))) s (mm (skew w) (rot (mm4 (inv_ (P0 s)) (P1 s)))) /\
    bs_jac (E s) c = Ok A /\
    (let vel := mvn (w_ndof h) A v in
     dv3 p s (vadd (V3 (vel 0%nat) (vel 1%nat) (vel 2%nat)) (cross w (p s))) /\
     (p s = zero3 -> dv3 p s (V3 (vel 0%nat) (vel 1%nat) (vel 2%nat)))) /\
    exists J, rel_jac e sc (St s) (bs_f0 c) (bs_f1 c) = Ok J /\ w = ang (sum6 (w_ndof h) (fun i => v6scal (v i) (J i))).
Proof.
  intros e sc h t f s fuel st St D v q pinv eig solve c Rd Ri Mo F U Wv I0 I1 E.
  destruct (rel_jac_ok e sc h t (f s) v fuel st (St s) (D s) _ _ Rd Ri F Wv (U s) I0 I1) as (P0' & P1' & T0' & T1' & J & _ & _ & Ep0 & Ep1 & ET0 & ET1 & EJ & Q).
  destruct (C41_pose_derivative e sc h t f s fuel st St D Rd Ri Mo F U _ I0) as (P0 & T0 & HP0 & HT0 & D0).
  destruct (C41_pose_derivative e sc h t f s fuel st St D Rd Ri Mo F U _ I1) as (P1 & T1 & HP1 & HT1 & D1).
  rewrite HT0 in ET0. injection ET0 as <-. rewrite HT1 in ET1. injection ET1 as <-. rewrite (HP0 s) in Ep0. injection Ep0 as <-. rewrite (HP1 s) in Ep1. injection Ep1 as <-.
  assert (S3 : forall u g, In (frame_body e g) (bodies t) -> forall P, frame_pose e sc (St u) g = Ok P -> SE3 P).
  { intros u g Ig P EP. assert (Ru := rigid_motion e sc t f s u Ri Mo).
    destruct (C39_poses e sc h t (f u) fuel st Rd Ru F) as (sg & sd' & d' & _ & U' & HP & _). rewrite U in U'. injection U' as <- <-.
    destruct (HP g Ig) as (H & SH & _ & _ & _ & EH). rewrite EP in EH. injection EH as ->. apply SE3_mm4; auto. apply Ri. }
  assert (SP0 : forall u, SE3 (P0 u)) by (intros u; eapply S3; [exact I0 | apply HP0]).
  assert (SP1 : forall u, SE3 (P1 u)) by (intros u; eapply S3; [exact I1 | apply HP1]).
  assert (DH := relative_deriv P0 P1 s T0 T1 SP0 SP1 D0 D1). cbv zeta in DH. cbv beta in DH. rewrite <- Q in DH.
  set (T := sum6 (w_ndof h) (fun c0 => v6scal (v c0) (J c0))) in *.
  assert (SH : SE3 (mm4 (inv_ (P0 s)) (P1 s))) by (apply SE3_mm4; auto; apply SE3_inv; auto).
  set (A := fun k i => comp6 (3 + k) (J i)).
  assert (EA : forall k, mvn (w_ndof h) A v k = comp6 (3 + k) T). { intros k. unfold T. rewrite comp6_sum. reflexivity. }
  destruct DH as (DR & Dp & _ & _).
  assert (Dp' : dv3 (fun u => pos (mm4 (inv_ (P0 u)) (P1 u))) s (vadd (lin T) (cross (ang T) (pos (mm4 (inv_ (P0 s)) (P1 s)))))).
  { match type of Dp with dv3 _ _ ?x => replace (vadd (lin T) (cross (ang T) (pos (mm4 (inv_ (P0 s)) (P1 s))))) with x; [exact Dp | ] end.
    rewrite (SE3_eta _ SH). generalize (rot (mm4 (inv_ (P0 s)) (P1 s))) (pos (mm4 (inv_ (P0 s)) (P1 s))). clear. generalize T. lin. }
  exists P0, P1, (fun u => pos (mm4 (inv_ (P0 u)) (P1 u))), (ang T), A.
  split; [auto | ]. split.
  { intros u. eexists. split; [ | split; [ | reflexivity]].
    - unfold bs_update, E. cbn [ce_e ce_sc ce_st]. rewrite HP0. cbn [rbind]. rewrite inv_ok by auto. cbn [rbind]. rewrite HP1. reflexivity.
    - reflexivity. }
  split.
  { match type of DR with dm3 _ _ ?x => replace (mm (skew (ang T)) (rot (mm4 (inv_ (P0 s)) (P1 s)))) with x; [exact DR | ] end.
    rewrite (SE3_eta _ SH). generalize (rot (mm4 (inv_ (P0 s)) (P1 s))) (pos (mm4 (inv_ (P0 s)) (P1 s))). clear. generalize T. lin. }
  split. { unfold bs_jac, E. cbn [ce_e ce_sc ce_st]. rewrite EJ. reflexivity. }
  split.
  - cbn zeta. rewrite !EA. replace (V3 (comp6 (3 + 0) T) (comp6 (3 + 1) T) (comp6 (3 + 2) T)) with (lin T) by (clear; generalize T; lin).
    split; [exact Dp' | ]. intros Z. rewrite Z in Dp'. replace (vadd (lin T) (cross (ang T) zero3)) with (lin T) in Dp' by (clear; generalize T; lin). exact Dp'.
  - exists J. split; [exact EJ | reflexivity].
Qed.

(** A body turning about its z axis and a point fixed on the ground, 1 m away: the error p01 moves at
    1 m/s in the body frame, the velocity seen by the constraint is zero. *)
Definition kz := [RzJoint].
Lemma kz_ready : ready (ch_e kz) (ch_h kz) (ch_t 0 1). Proof. ch_ready. Qed.
Lemma kz_nofree : Forall (fun k => k <> FreeJoint) kz. Proof. repeat constructor; discriminate. Qed.
Definition kz_sc : scene := Scene (fun _ => eye6) (fun _ => eye6) (fun _ => transl 1 0 0) (fun _ => eye4).
Lemma kz_rigid u : rigid_scene (ch_e kz) kz_sc (ch_t 0 1) (mv_f kz u).
Proof. split; [intros [b | b | b]; [apply SE3_eye | apply transl_SE3 | apply SE3_eye] | ]. apply (ch_rigid kz 1 (fun _ => eye6) (mv_q u) (fun _ _ => 1) kz_nofree). Qed.
Lemma kz_world : exists St D, forall u,
  world_update_dynamic (ch_e kz) kz_sc (ch_h kz) (mv_f kz u) 10 (fun _ => no_attr) = Ok (St u, D u) /\
  St u 1%nat = attr eye6 (kin_of kz_sc (ch_h kz) (mv_f kz u) [1]%nat) /\ St u 0%nat = attr eye6 kin0.
Proof.
  assert (X : forall u, exists sd d, world_update_dynamic (ch_e kz) kz_sc (ch_h kz) (mv_f kz u) 10 (fun _ => no_attr) = Ok (sd, d) /\
     sd 1%nat = attr eye6 (kin_of kz_sc (ch_h kz) (mv_f kz u) [1]%nat) /\ sd 0%nat = attr eye6 kin0).
  { intros u. destruct (world_ok _ _ _ _ (mv_f kz u) 10 (fun _ => no_attr) kz_ready (kz_rigid u)) as (sd & d & E & P & _); [cbn; lia | ].
    exists sd, d. split; auto. split.
    - assert (Pa : path (ch_t 0 1) 1 [(1, 0)]%nat) by (apply (path_step 0 _ 1 (ch_t 1 0) 1 []); [now left | constructor]).
      exact (P _ _ Pa).
    - exact (P _ _ (path_root_nil (ch_t 0 1))). }
  set (w := fun u => world_update_dynamic (ch_e kz) kz_sc (ch_h kz) (mv_f kz u) 10 (fun _ => no_attr)) in *.
  exists (fun u => match w u with Ok x => fst x | Err _ => fun _ => no_attr end), (fun u => match w u with Ok x => snd x | Err _ => wdyn0 end).
  intros u. destruct (X u) as (sd & d & E & Y). fold (w u) in E. fold (w u). rewrite E. auto.
Qed.
Lemma kz_jac u : k_jac (kin_of kz_sc (ch_h kz) (mv_f kz u) [1]%nat) 0%nat = e6 2.
Proof.
  unfold kin_of. cbn [fold_right]. unfold stepj. change (jframes (ch_h kz) 1) with (Some (FBody 0, FBody 1)). change (jdof (ch_h kz) 1) with (Some (0, 1)%nat).
  cbn [stepk k_jac kin0 fst snd bpose]. rewrite adjoint_eye, mv6_zero6, v6add_0_l. unfold slice_col. cbn [Nat.leb Nat.ltb andb Nat.sub]. apply mv6_1.
Qed.
Lemma kz_pose u : k_pose (kin_of kz_sc (ch_h kz) (mv_f kz u) [1]%nat) = rotz u.
Proof.
  unfold kin_of. cbn [fold_right]. unfold stepj. change (jframes (ch_h kz) 1) with (Some (FBody 0, FBody 1)). change (jdof (ch_h kz) 1) with (Some (0, 1)%nat).
  cbn [stepk k_pose kin0]. rewrite rel_bodies, mm4_1_l. reflexivity.
Qed.

Theorem C51_velocity_refuted : exists e sc h t f s fuel st (St : R -> store) (D : R -> wdyn) v f0 f1,
  ready e h t /\ rigid_scene e sc t (f s) /\ world_motion t f s /\ (height t < fuel)%nat /\
  (forall u, world_update_dynamic e sc h (f u) fuel st = Ok (St u, D u)) /\ world_velocity e h t (f s) v /\
  In (frame_body e f0) (bodies t) /\ In (frame_body e f1) (bodies t) /\
  forall q pinv eig solve force, let E u := CE e sc (St u) q pinv eig solve in
    let c := BS true f0 f1 zero3 force in
    exists p A, (forall u, exists c', bs_update (E u) c = Ok c' /\ bs_pos0 c' = p u) /\ bs_jac (E s) c = Ok A /\
      (forall k, (k < 3)%nat -> mvn (w_ndof h) A v k = 0) /\ dv3 p s (V3 0 (-1) 0).
Proof.
  destruct kz_world as (St & D & W).
  assert (Mo : world_motion (ch_t 0 1) (mv_f kz) 0) by (apply mv_motion, kz_nofree).
  assert (Wv : world_velocity (ch_e kz) (ch_h kz) (ch_t 0 1) (mv_f kz 0) (fun _ => 1)) by (intros j s d _ _ i _; reflexivity).
  exists (ch_e kz), kz_sc, (ch_h kz), (ch_t 0 1), (mv_f kz), 0, 10%nat, (fun _ => no_attr), St, D, (fun _ => 1), (FBody 1), (FSub 0).
  split; [exact kz_ready | ]. split; [apply kz_rigid | ]. split; [exact Mo | ]. split; [cbn; lia | ].
  split; [intros u; apply W | ]. split; [exact Wv | ]. split; [cbn; auto | ]. split; [cbn; auto | ].
  intros q pinv eig solve force E c.
  destruct (C51_velocity_partial (ch_e kz) kz_sc (ch_h kz) (ch_t 0 1) (mv_f kz) 0 10 (fun _ => no_attr) St D (fun _ => 1) q pinv eig solve c)
    as (P0 & P1 & p & w & A & HP & Hp & _ & HA & [Dp _] & J & HJ & Hw).
  { exact kz_ready. } { apply kz_rigid. } { exact Mo. } { cbn; lia. } { intros u; apply W. } { exact Wv. } { cbn; auto. } { cbn; auto. }
  change (w_ndof (ch_h kz)) with 1%nat in *.
  assert (EP0 : P0 0 = rotz 0).
  { destruct (HP 0) as [H0 _]. unfold frame_pose in H0. cbn [c bs_f0 frame_body] in H0. rewrite (proj1 (proj2 (W 0))) in H0. cbn [attr a_pose get rbind] in H0. rewrite kz_pose in H0. congruence. }
  assert (EP1 : P1 0 = transl 1 0 0).
  { destruct (HP 0) as [_ H1]. cbn [c bs_f1] in H1. unfold frame_pose in H1. change (frame_body (ch_e kz) (FSub 0)) with 0%nat in H1. rewrite (proj2 (proj2 (W 0))) in H1. cbn [attr a_pose get rbind kin0 k_pose bpose kz_sc sub_bpose] in H1. rewrite mm4_1_l in H1. congruence. }
  assert (R0 : rotz 0 = eye4) by (unfold rotz; rewrite sin_0, cos_0; unfold eye4, eye3; f_equal; f_equal; lra).
  assert (EJ : J 0%nat = v6neg (e6 2)).
  { unfold rel_jac in HJ. destruct (HP 0) as [H0 H1]. cbn [c bs_f0 bs_f1] in *. rewrite H0, H1, EP0, EP1 in HJ. cbn [rbind] in HJ. rewrite inv_ok in HJ by apply rotz_SE3. cbn [rbind] in HJ.
    rewrite adjoint_ok in HJ by (apply SE3_mm4; [apply SE3_inv, rotz_SE3 | apply transl_SE3]). cbn [rbind] in HJ.
    unfold frame_jac in HJ. change (frame_body (ch_e kz) (FSub 0)) with 0%nat in HJ. rewrite (proj1 (proj2 (W 0))), (proj2 (proj2 (W 0))) in HJ. cbn [bpose kz_sc sub_bpose] in HJ.
    rewrite iadjoint_ok in HJ by apply transl_SE3. cbn [rbind get attr a_jac kin0 k_jac] in HJ. injection HJ as <-. cbv beta. rewrite !mv6_zero6, v6add_0_l, adjoint_eye. unfold slice_col. cbn [Nat.leb Nat.ltb andb Nat.sub]. rewrite mv6_1. change (jacobian (mv_f kz 0 1) 0) with (e6 2). unfold e6, v6of. cbn [Nat.eqb]. lin. }
  assert (Ew : w = V3 0 0 (-1)). { rewrite Hw. cbn [sum6]. rewrite EJ. unfold e6, v6of. cbn [Nat.eqb]. lin. }
  assert (Ep : p 0 = V3 1 0 0). { destruct (Hp 0) as (c' & _ & _ & ->). rewrite EP0, EP1, R0, inv_eye, mm4_1_l. reflexivity. }
  assert (EA : forall k, (k < 3)%nat -> mvn 1 A (fun _ => 1) k = 0).
  { intros k L. unfold bs_jac in HA. cbn [ce_e ce_sc ce_st] in HA. rewrite HJ in HA. injection HA as <-. unfold mvn. cbn [sumR]. rewrite EJ. unfold e6, v6of. destruct k as [ | [ | [ | k]]]; try lia; cbn; lra. }
  exists p, A. split; [intros u; destruct (Hp u) as (c' & H1 & H2 & _); exists c'; split; [exact H1 | exact H2] | ]. split; [exact HA | ]. split; [exact EA | ].
  cbv zeta in Dp. rewrite !EA, Ew, Ep in Dp by lia. match type of Dp with dv3 _ _ ?x => replace x with (V3 0 (-1) 0) in Dp by lin end. exact Dp.
Qed.
