(** C52: SoftFingerContact.solve. *)
From Verif Require Import Spec_Con Proof_Linalg Proof_SE3 Proof_Dyn Proof_Dyn2 Proof_Matrix Proof_Step Proof_Con Proof_Cons Proof_Eig.
From Coq Require Import Lra FunctionalExtensionality.

(** without contact force, the contact velocity is the estimated one minus the effect of the previous force *)
Definition free_gap (c : sfc) (vel : vec) (Y : mat) (dt : R) : R := end_gap (sf_sdist c) vel Y dt (vmul (-1) (sf_force c)).
Lemma free_gap_eq c vel Y dt : free_gap c vel Y dt = sf_sdist c + dt * vminus vel (mvn 4 Y (sf_force c)) 3%nat.
Proof. unfold free_gap, end_gap, end_vel. rewrite mvn_mul. unfold vminus. f_equal. f_equal. lra. Qed.

(** No contact predicted: no force. *)
Theorem C52_no_contact : forall E c vel Y dt, 0 < free_gap c vel Y dt ->
  exists c' df, sf_solve E c vel Y dt = Ok (c', df) /\ (forall i, sf_force c' i = 0) /\ forall i, df i = - sf_force c i.
Proof.
  intros E c vel Y dt G. rewrite free_gap_eq in G. unfold sf_solve. cbn zeta.
  rewrite (proj2 (Rltb_true _ _)) by exact G. do 2 eexists. split; [reflexivity | ]. split; reflexivity.
Qed.

(** what an accepted contact looks like *)
Lemma sf_contact E c vel Y dt c' df : pinv_spec (np_pinv E) -> solve_spec (np_solve E) -> 0 < dt -> ~ singular 4 Y ->
  ~ 0 < free_gap c vel Y dt -> sf_solve E c vel Y dt = Ok (c', df) ->
  veq 4 df (vminus (sf_force c') (sf_force c)) /\
  ((veq 4 (end_vel vel Y df) (fun i => if Nat.eqb i 3 then - sf_sdist c / dt else 0) /\ in_cone (sf_mu c) (sf_eps c) (sf_force c')) \/
   (exists s, s <= 0 /\ veq 4 (end_vel vel Y df) (fun i => if Nat.eqb i 3 then - sf_sdist c / dt else s * / (sf_eps c i * sf_eps c i) * sf_force c' i))).
Proof.
  intros Hp Hs Pd NS G H. rewrite free_gap_eq in G. unfold sf_solve in H. cbn zeta in H.
  destruct (Rltb _ _) eqn:B; [apply Rltb_true in B; contradiction | ]. clear B.
  match type of H with (if Rleb ?a ?b then _ else _) = _ => destruct (Rleb a b) eqn:B end.
  - injection H as <- <-. cbn [sf_force sf_set_force]. split; [intros i L; unfold vminus, vplus; lra | ]. left. split.
    + intros i L. unfold end_vel. set (zv := fun i : nat => if Nat.eqb i 3 then vel i + sf_sdist c / dt else vel i).
      rewrite (mvn_ext 4 Y Y _ (vmul (-1) (mvn 4 (np_pinv E 4 Y) zv))) by (auto; intros p _; rewrite mvn_mmul; reflexivity).
      rewrite mvn_mul, (inverse_apply 4 Y _ zv (Hp 4%nat Y NS) i L). unfold zv. destruct (Nat.eqb i 3); lra.
    + apply Rleb_true in B. unfold in_cone. rewrite (Rmult_comm (sf_mu c)). exact B.
  - destruct (_ || _); [discriminate | ].
    match type of H with context [np_solve E 4 ?A ?b] => assert (Q := Hs 4%nat A b); destruct (np_solve E 4 A b) as [f2 | ] end; [ | discriminate].
    injection H as <- <-. cbn [sf_force sf_set_force]. split; [intros i L; reflexivity | ]. right.
    match type of Q with context [sf_choose ?l] => assert (Ns := sf_choose_neg l); set (s := sf_choose l) in * end.
    exists s. split; [exact Ns | ]. intros i L. specialize (Q i L). cbv beta in Q. unfold end_vel. rewrite mvn_minus.
    assert (Q' : mvn 4 Y f2 i - (if Nat.ltb i 3 then s * / (sf_eps c i * sf_eps c i) * f2 i else 0) = - (if Nat.eqb i 3 then vminus vel (mvn 4 Y (sf_force c)) i + sf_sdist c / dt else vminus vel (mvn 4 Y (sf_force c)) i)).
    { rewrite <- Q. clear. unfold mvn. destruct i as [ | [ | [ | i]]]; cbn; ring. }
    unfold vminus in Q'. destruct i as [ | [ | [ | [ | i]]]]; try lia; cbn [Nat.ltb Nat.leb Nat.eqb] in *; lra.
Qed.

(** Contact: the gap at the end of the step is exactly zero; sliding or sticking, the relative
    tangential velocity is a non positive multiple of the friction force (scaled by the squared
    eccentricities), so that friction never produces energy. *)
Theorem C52_persistence_dissipation : forall E c vel Y dt c' df, pinv_spec (np_pinv E) -> solve_spec (np_solve E) ->
  0 < dt -> ~ singular 4 Y -> ~ 0 < free_gap c vel Y dt -> sf_solve E c vel Y dt = Ok (c', df) ->
  end_gap (sf_sdist c) vel Y dt df = 0 /\
  (exists s, s <= 0 /\ forall i, (i < 3)%nat -> end_vel vel Y df i = s * (sf_force c' i / (sf_eps c i * sf_eps c i))) /\
  sumR 3 (fun i => end_vel vel Y df i * sf_force c' i) <= 0.
Proof.
  intros E c vel Y dt c' df Hp Hs Pd NS G H.
  destruct (sf_contact E c vel Y dt c' df Hp Hs Pd NS G H) as (_ & D).
  assert (X : end_vel vel Y df 3%nat = - sf_sdist c / dt /\
    exists s, s <= 0 /\ forall i, (i < 3)%nat -> end_vel vel Y df i = s * (sf_force c' i / (sf_eps c i * sf_eps c i))).
  { destruct D as [[V _] | (s & Ns & V)]; (split; [apply (V 3%nat); lia | ]).
    - exists 0. split; [lra | ]. intros i L. rewrite (V i) by lia. destruct (Nat.eqb_spec i 3); [lia | lra].
    - exists s. split; [exact Ns | ]. intros i L. rewrite (V i) by lia. destruct (Nat.eqb_spec i 3); [lia | ]. unfold Rdiv. ring. }
  destruct X as [Vn (s & Ns & V)]. split; [ | split; [exists s; auto | ]].
  - unfold end_gap. rewrite Vn. field. lra.
  - rewrite (sumR_ext 3 _ (fun i => s * (sf_force c' i * sf_force c' i * / (sf_eps c i * sf_eps c i)))) by (intros i L; rewrite V by exact L; unfold Rdiv; ring).
    rewrite sumR_scal. assert (0 <= sumR 3 (fun i => sf_force c' i * sf_force c' i * / (sf_eps c i * sf_eps c i))).
    { assert (forall i, 0 <= sf_force c' i * sf_force c' i * / (sf_eps c i * sf_eps c i)).
      { intros i. apply Rmult_le_pos; [apply Rle_0_sqr | ]. destruct (Req_dec (sf_eps c i) 0) as [Z | Z].
        - rewrite Z, Rmult_0_l, Rinv_0. lra. - left. apply Rinv_0_lt_compat. apply Rsqr_pos_lt. exact Z. }
      cbn [sumR]. assert (H0' := H0 0%nat). assert (H1' := H0 1%nat). assert (H2' := H0 2%nat). lra. }
    assert (0 <= - s * sumR 3 (fun i => sf_force c' i * sf_force c' i * / (sf_eps c i * sf_eps c i))) by (apply Rmult_le_pos; lra). lra.
Qed.

(** Unit eccentricities. *)
Definition finger (b : bool) (coll : store -> res (R * m4 * m4)) (mu eps : R) (f : vec) : sfc :=
  SF b 0 0 0 0 eye4 eye4 coll true 0 1 mu (fun _ => eps) f.
(** coupling [k] between the first row and the normal *)
Definition Yk (y k : R) : mat := fun i j =>
  match i, j with
  | 0%nat, 0%nat => y | 1%nat, 1%nat => 1 | 2%nat, 2%nat => 1 | 3%nat, 3%nat => 1
  | 0%nat, 3%nat => k | 3%nat, 0%nat => k | _, _ => 0 end.
Lemma Yk_posdef y k : k * k < y -> posdef 4 (Yk y k).
Proof.
  intros K. split; [intros [ | [ | [ | [ | i]]]] [ | [ | [ | [ | j]]]] Li Lj; try lia; reflexivity | ].
  intros x Nx. unfold quad. cbn.
  assert (Q : 0 < (y - k * k) * (x 0%nat * x 0%nat) + x 1%nat * x 1%nat + x 2%nat * x 2%nat + (k * x 0%nat + x 3%nat) * (k * x 0%nat + x 3%nat)).
  { assert (A := Rle_0_sqr). unfold Rsqr in A. assert (A1 := A (x 1%nat)). assert (A2 := A (x 2%nat)). assert (A3 := A (k * x 0%nat + x 3%nat)).
    destruct (Req_dec (x 0%nat) 0) as [Z0 | Z0].
    - rewrite Z0 in *. destruct (Req_dec (x 1%nat) 0) as [Z1 | Z1]; [ | assert (P := Rsqr_pos_lt _ Z1); unfold Rsqr in P; lra].
      destruct (Req_dec (x 2%nat) 0) as [Z2 | Z2]; [ | assert (P := Rsqr_pos_lt _ Z2); unfold Rsqr in P; lra].
      destruct (Req_dec (x 3%nat) 0) as [Z3 | Z3]; [ | assert (P := Rsqr_pos_lt _ Z3); unfold Rsqr in P; lra].
      exfalso. apply Nx. intros [ | [ | [ | [ | i]]]] L; try lia; auto.
    - assert (P := Rsqr_pos_lt _ Z0). unfold Rsqr in P. assert (0 < (y - k * k) * (x 0%nat * x 0%nat)) by (apply Rmult_lt_0_compat; lra). lra. }
  lra.
Qed.

(** The normal force can be attractive: two bodies in contact, without approaching, pull each other. *)
Theorem C52_attractive_refuted : exists c vel Y dt, 0 < dt /\ posdef 4 Y /\ 0 < sf_mu c /\ (forall i, 0 < sf_eps c i) /\
  sf_sdist c = 0 /\ free_gap c vel Y dt = 0 /\
  forall E, pinv_spec (np_pinv E) -> exists c' df, sf_solve E c vel Y dt = Ok (c', df) /\ sf_force c' 3%nat = -2.
Proof.
  set (c := finger true (fun _ => Err ValueError) 1 1 vzero).
  set (vel := fun i : nat => if Nat.eqb i 0 then -1 else 0).
  assert (PD : posdef 4 (Yk 5 2)) by (apply Yk_posdef; lra).
  assert (FG : free_gap c vel (Yk 5 2) 1 = 0). { rewrite free_gap_eq. unfold vminus, c, finger. cbn [sf_force sf_sdist]. rewrite mvn_zero. unfold vel. cbn [Nat.eqb]. lra. }
  exists c, vel, (Yk 5 2), 1. split; [lra | ]. split; [exact PD | ]. split; [cbn; lra | ]. split; [intros; cbn; lra | ]. split; [reflexivity | ]. split; [exact FG | ].
  intros E Hp. assert (Iv := Hp 4%nat _ (posdef_not_singular 4 _ PD)).
  unfold sf_solve. cbn zeta. rewrite (proj2 (Rltb_false _ _)) by (rewrite <- free_gap_eq, FG; lra).
  assert (S : veq 4 (mvn 4 (np_pinv E 4 (Yk 5 2)) (fun i => if Nat.eqb i 3 then vel i + sf_sdist c / 1 else vel i)) (fun i => match i with 0%nat => -1 | 3%nat => 2 | _ => 0 end)).
  { apply (inverse_solution 4 _ _ _ _ Iv). intros i L. unfold mvn, vel, c. destruct i as [ | [ | [ | [ | i]]]]; try lia; cbn; lra. }
  assert (F : forall i, (i < 4)%nat -> vplus (sf_force c) (mvn 4 (mmul (-1) (np_pinv E 4 (Yk 5 2))) (fun i => if Nat.eqb i 3 then vel i + sf_sdist c / 1 else vel i)) i = match i with 0%nat => 1 | 3%nat => -2 | _ => 0 end).
  { intros i L. unfold vplus. rewrite mvn_mmul, (S i L). unfold c. cbn [sf_force finger]. unfold vzero. destruct i as [ | [ | [ | [ | i]]]]; lra. }
  rewrite (proj2 (Rleb_true _ _)).
  - do 2 eexists. split; [reflexivity | ]. cbn [sf_force sf_set_force]. rewrite F by lia. lra.
  - rewrite (sumR_ext 3 _ (fun i => match i with 0%nat => 1 | _ => 0 end)).
    + rewrite F by lia. unfold c. cbn. lra.
    + intros i L. rewrite F by lia. unfold c. cbn [sf_eps finger]. destruct i as [ | [ | [ | i]]]; try lia; lra.
Qed.

(** A frictionless contact (or one whose normal impulse would vanish) cannot slide: [solve] raises
    LinAlgError as soon as a tangential force would be needed to stick. *)
Theorem C52_frictionless_refuted : forall E c vel Y dt, pinv_spec (np_pinv E) -> 0 < dt -> ~ singular 4 Y ->
  sf_mu c = 0 -> (forall i, sf_eps c i <> 0) -> ~ 0 < free_gap c vel Y dt ->
  (forall f, veq 4 (end_vel vel Y (vminus f (sf_force c))) (fun i => if Nat.eqb i 3 then - sf_sdist c / dt else 0) -> exists i, (i < 3)%nat /\ f i <> 0) ->
  sf_solve E c vel Y dt = Err LinAlgError.
Proof.
  intros E c vel Y dt Hp Pd NS Mu Ep G NF. rewrite free_gap_eq in G. unfold sf_solve. cbn zeta.
  destruct (Rltb _ _) eqn:B; [apply Rltb_true in B; contradiction | ]. clear B.
  match goal with |- (if Rleb ?a ?b then _ else _) = _ => destruct (Rleb a b) eqn:B end.
  - exfalso. apply Rleb_true in B. rewrite Mu in B.
    match type of B with context [vplus (sf_force c) ?d] => set (df := d) in *; set (f := vplus (sf_force c) df) in * end.
    destruct (NF f) as (i & Li & Ni).
    { intros i L. unfold end_vel. set (zv := fun i : nat => if Nat.eqb i 3 then vel i + sf_sdist c / dt else vel i).
      rewrite (mvn_ext 4 Y Y _ (vmul (-1) (mvn 4 (np_pinv E 4 Y) zv))).
      - rewrite mvn_mul, (inverse_apply 4 Y _ zv (Hp 4%nat Y NS) i L). unfold zv. destruct (Nat.eqb i 3); lra.
      - auto.
      - intros p _. unfold vminus, f, vplus, vmul, df. rewrite mvn_mmul. fold zv. ring. }
    assert (A : forall k, 0 <= f k / sf_eps c k * (f k / sf_eps c k)) by (intros; apply Rle_0_sqr).
    assert (A0 := A 0%nat). assert (A1 := A 1%nat). assert (A2 := A 2%nat).
    assert (P : 0 < f i / sf_eps c i * (f i / sf_eps c i)).
    { apply Rsqr_pos_lt. intros Z. apply Ni. replace (f i) with (f i / sf_eps c i * sf_eps c i) by (field; auto). rewrite Z. ring. }
    cbn [sumR] in B. destruct i as [ | [ | [ | i]]]; try lia; lra.
  - rewrite Mu. unfold Rdiv. rewrite !Rmult_0_l. replace (Reqb 0 0) with true by (symmetry; apply Reqb_true; reflexivity). rewrite orb_true_r. reflexivity.
Qed.

Example C52_frictionless_witness : forall E, pinv_spec (np_pinv E) ->
  sf_solve E (finger true (fun _ => Err ValueError) 0 1 vzero) (fun i => if Nat.eqb i 1 then 1 else if Nat.eqb i 3 then -1 else 0) (Yk 1 0) 1 = Err LinAlgError.
Proof.
  intros E Hp. apply C52_frictionless_refuted; auto; try lra.
  - apply posdef_not_singular, Yk_posdef. lra.
  - intros i. cbn. lra.
  - rewrite free_gap_eq. unfold vminus. cbn [sf_force finger sf_sdist]. rewrite mvn_zero. cbn [Nat.eqb]. lra.
  - intros f Hf. exists 1%nat. split; [lia | ]. specialize (Hf 1%nat ltac:(lia)). unfold end_vel, mvn, vminus, vzero in Hf. cbn in Hf. lra.
Qed.

(** When the tangential and normal directions are coupled, the sliding force leaves the cone. *)
Definition cone_vel : vec := fun i => match i with 0%nat => - (13 / 5) | 3%nat => -1 | _ => 0 end.
Lemma two_zero a b c k d e : a * d = b * e -> c * e = k * d -> 0 < a * c - b * k -> 0 < c -> d = 0 /\ e = 0.
Proof.
  intros H1 H2 P C. assert (Z : (a * c - b * k) * d = 0).
  { replace ((a * c - b * k) * d) with (c * (a * d) - b * (k * d)) by ring. rewrite H1, <- H2. ring. }
  destruct (Rmult_integral _ _ Z) as [ | D]; [lra | ]. subst d. rewrite Rmult_0_r in H2. destruct (Rmult_integral _ _ H2); [lra | auto].
Qed.
Lemma cone_B_eig s x : s < - (3 / 5) -> veq 6 (mvn 6 (sf_B (Yk 1 (3 / 5)) 1 (fun _ => 1) cone_vel) x) (vmul s x) -> veq 6 x vzero.
Proof.
  intros Hs H.
  assert (H0 := H 0%nat ltac:(lia)). assert (H1 := H 1%nat ltac:(lia)). assert (H2 := H 2%nat ltac:(lia)).
  assert (H3 := H 3%nat ltac:(lia)). assert (H4 := H 4%nat ltac:(lia)). assert (H5 := H 5%nat ltac:(lia)). clear H.
  unfold mvn, sf_B, vmul, dotn, cone_vel in *. cbn in H0, H1, H2, H3, H4, H5. unfold Yk in *. 
  set (p0 := x 0%nat) in *. set (p1 := x 1%nat) in *. set (p2 := x 2%nat) in *. set (q0 := x 3%nat) in *. set (q1 := x 4%nat) in *. set (q2 := x 5%nat) in *.
  field_simplify in H0. field_simplify in H1. field_simplify in H2. field_simplify in H3. field_simplify in H4. field_simplify in H5.
  assert (P1 : 0 < (1 - s) * (1 - s) - 4 * (16 / 25)).
  { assert (0 < (- (3 / 5) - s) * (1 - s + 8 / 5)) by (apply Rmult_lt_0_compat; lra). lra. }
  assert (P2 : 0 < (178 / 25 - s) * (- (2 / 25) - s) - 4 * (16 / 25)).
  { assert (0 < (178 / 25 - s - 193 / 25) * (- (2 / 25) - s)) by (apply Rmult_lt_0_compat; lra). lra. }
  destruct (two_zero (1 - s) 4 (1 - s) (16 / 25) (p0 - p1) (q0 - q1)) as [Dp Dq]; [lra | lra | exact P1 | lra | ].
  destruct (two_zero (1 - s) 4 (1 - s) (16 / 25) (p0 - p2) (q0 - q2)) as [Dp' Dq']; [lra | lra | exact P1 | lra | ].
  assert (E1 : p1 = p0) by lra. assert (E2 : p2 = p0) by lra. assert (E3 : q1 = q0) by lra. assert (E4 : q2 = q0) by lra.
  rewrite E1, E2, E3, E4 in *.
  destruct (two_zero (178 / 25 - s) 4 (- (2 / 25) - s) (16 / 25) p0 q0) as [Z0 Z1]; [lra | lra | exact P2 | lra | ].
  intros [ | [ | [ | [ | [ | [ | i]]]]]] L; try lia; unfold vzero; fold p0 p1 p2 q0 q1 q2; lra.
Qed.
Lemma cone_s E : eig_spec (np_eigvals E) -> sf_choose (np_eigvals E (sf_B (Yk 1 (3 / 5)) 1 (fun _ => 1) cone_vel)) = - (3 / 5).
Proof.
  intros Hs. apply sf_choose_min; try lra.
  - apply Hs. exists (fun i => match i with 0%nat => 8 | 1%nat => -8 | 3%nat => 16 / 5 | 4%nat => - (16 / 5) | _ => 0 end). split.
    + intros V. specialize (V 0%nat ltac:(lia)). unfold vzero in V. cbn in V. lra.
    + intros i L. unfold mvn, sf_B, vmul, dotn, cone_vel, Yk. destruct i as [ | [ | [ | [ | [ | [ | i]]]]]]; try lia; cbn; field.
  - intros s Is _. destruct (Rle_dec (- (3 / 5)) s) as [ | N]; auto. exfalso. apply Hs in Is. destruct Is as (x & Nx & Ex).
    apply Nx, (cone_B_eig s); [lra | exact Ex].
Qed.
Theorem C52_cone_refuted : exists c vel Y dt, 0 < dt /\ posdef 4 Y /\ 0 < sf_mu c /\ (forall i, 0 < sf_eps c i) /\
  sf_sdist c = 0 /\ ~ 0 < free_gap c vel Y dt /\
  (exists E, pinv_spec (np_pinv E) /\ solve_spec (np_solve E) /\ eig_spec (np_eigvals E)) /\
  forall E, pinv_spec (np_pinv E) -> solve_spec (np_solve E) -> eig_spec (np_eigvals E) ->
    exists c' df, sf_solve E c vel Y dt = Ok (c', df) /\ ~ in_cone (sf_mu c) (sf_eps c) (sf_force c').
Proof.
  set (c := finger true (fun _ => Err ValueError) 1 1 vzero). set (Y := Yk 1 (3 / 5)).
  assert (PD : posdef 4 Y) by (apply Yk_posdef; lra).
  exists c, cone_vel, Y, 1. split; [lra | ]. split; [exact PD | ]. split; [cbn; lra | ]. split; [intros; cbn; lra | ]. split; [reflexivity | ].
  assert (FG : ~ 0 < free_gap c cone_vel Y 1). { rewrite free_gap_eq. unfold vminus. unfold c. cbn [finger sf_force sf_sdist]. rewrite mvn_zero. unfold cone_vel. lra. }
  split; [exact FG | ]. split.
  { destruct eig_spec_satisfiable as [ev He]. exists (CE (Env 0 (fun _ => 0%nat) (fun _ => 0%nat) (fun _ => FBody 0) (fun _ => []) (fun _ => 0%nat)) (Scene (fun _ => eye6) (fun _ => eye6) (fun _ => eye4) (fun _ => eye4)) (fun _ => no_attr) (fun _ _ => 0) gauss_pinv ev gauss_solve).
    split; [exact gauss_pinv_spec | ]. split; [exact gauss_solve_spec | exact He]. }
  intros E Hp Hs He. assert (Iv := Hp 4%nat _ (posdef_not_singular 4 _ PD)).
  unfold sf_solve. cbn zeta. rewrite (proj2 (Rltb_false _ _)) by (rewrite <- free_gap_eq; lra).
  assert (S : veq 4 (mvn 4 (np_pinv E 4 Y) (fun i => if Nat.eqb i 3 then cone_vel i + sf_sdist c / 1 else cone_vel i)) (fun i => match i with 0%nat => - (25 / 8) | 3%nat => 7 / 8 | _ => 0 end)).
  { apply (inverse_solution 4 _ _ _ _ Iv). intros i L. unfold mvn, Y, c, cone_vel. destruct i as [ | [ | [ | [ | i]]]]; try lia; cbn; lra. }
  assert (F : forall i, (i < 4)%nat -> vplus (sf_force c) (mvn 4 (mmul (-1) (np_pinv E 4 Y)) (fun i => if Nat.eqb i 3 then cone_vel i + sf_sdist c / 1 else cone_vel i)) i = match i with 0%nat => 25 / 8 | 3%nat => - (7 / 8) | _ => 0 end).
  { intros i L. unfold vplus. rewrite mvn_mmul, (S i L). unfold c. cbn [sf_force finger]. unfold vzero. destruct i as [ | [ | [ | [ | i]]]]; lra. }
  match goal with |- context [if Rleb ?a ?b then _ else _] => replace (Rleb a b) with false end.
  2:{ symmetry. apply Rleb_false. rewrite F by lia. cbn [sumR]. rewrite !F by lia. unfold c. cbn [sf_eps sf_mu finger]. lra. }
  assert (Al : forall i, vminus cone_vel (mvn 4 Y (sf_force c)) i = cone_vel i). { intros i. unfold vminus, c. cbn [sf_force finger]. rewrite mvn_zero. lra. }
  match goal with |- context [sf_B _ _ _ ?a] => set (alpha := a) end.
  assert (Ea : forall i, alpha i = cone_vel i). { intros i. unfold alpha. rewrite Al. unfold c. cbn [sf_sdist finger]. destruct (Nat.eqb i 3); lra. }
  assert (EB : sf_B Y (sf_mu c) (sf_eps c) alpha = sf_B Y 1 (fun _ => 1) cone_vel).
  { assert (alpha = cone_vel). { apply functional_extensionality. exact Ea. } rewrite H. reflexivity. }
  assert (Cs := cone_s E He). fold Y in Cs. rewrite EB, Cs. match goal with |- context [Reqb (sf_mu c / Y 3%nat 3%nat * ?a) 0] => change a with (alpha 3%nat) end. rewrite Ea. change (Y 3%nat 3%nat) with 1. change (cone_vel 3%nat) with (-1). change (sf_mu c) with 1.
  replace (Reqb 1 0) with false by (symmetry; apply not_true_is_false; intros Q; apply Reqb_true in Q; lra).
  replace (Reqb (1 / 1 * -1) 0) with false by (symmetry; apply not_true_is_false; intros Q; apply Reqb_true in Q; lra).
  cbn [orb].
  match goal with |- context [np_solve E 4 ?A ?b] => change b with (fun i => - alpha i) end.
  match goal with |- context [np_solve E 4 ?A ?b] => assert (Q := Hs 4%nat A b); destruct (np_solve E 4 A b) as [f2 | ] end.
  - do 2 eexists. split; [reflexivity | ]. cbn [sf_force sf_set_force].
    assert (Q0 := Q 0%nat ltac:(lia)). assert (Q1 := Q 1%nat ltac:(lia)). assert (Q2 := Q 2%nat ltac:(lia)). assert (Q3 := Q 3%nat ltac:(lia)). clear Q.
    cbv beta in Q0, Q1, Q2, Q3. rewrite Ea in Q0, Q1, Q2, Q3. unfold mvn, Y, c, cone_vel in Q0, Q1, Q2, Q3. cbn in Q0, Q1, Q2, Q3. rewrite Rmult_1_r, Rinv_1 in *.
    assert (f2 3%nat = 1 / 31) by lra. assert (f2 0%nat = 50 / 31) by lra. assert (f2 1%nat = 0) by lra. assert (f2 2%nat = 0) by lra.
    unfold in_cone, c. cbn [sf_mu sf_eps finger sumR]. intros Cn. rewrite H, H0, H1, H2 in Cn. lra.
  - exfalso. destruct Q as (x & Nx & Kx). apply Nx.
    assert (Q0 := Kx 0%nat ltac:(lia)). assert (Q1 := Kx 1%nat ltac:(lia)). assert (Q2 := Kx 2%nat ltac:(lia)). assert (Q3 := Kx 3%nat ltac:(lia)).
    unfold mvn, Y, c, vzero in Q0, Q1, Q2, Q3. cbn in Q0, Q1, Q2, Q3. rewrite Rmult_1_r, Rinv_1 in *.
    intros [ | [ | [ | [ | i]]]] L; try lia; unfold vzero; lra.
Qed.

(** Decoupled, isotropic contacts (equal admittance in the three tangential rows, no coupling with the
    normal, equal eccentricities): the force is in the cone and never attractive, unless the exact
    sliding parameter falls under the bound -1e10 that the code imposes. *)
Definition decoupled (y yn : R) (Y : mat) : Prop := forall i j, (i < 4)%nat -> (j < 4)%nat ->
  Y i j = if Nat.eqb i j then (if Nat.eqb i 3 then yn else y) else 0.

Section Iso.
  Variables (Y : mat) (y yn mu eps : R) (ep al : vec).
  Hypothesis (HY : decoupled y yn Y) (Hy : 0 < y) (Hyn : 0 < yn) (He : 0 < eps) (Hep : forall i, (i < 3)%nat -> ep i = eps).
  Let a := mu / yn * al 3%nat.
  Let n2 := dotn 3 al al.
  Hypothesis (Ha : a <> 0).

  Lemma iso_B i j : (i < 6)%nat -> (j < 6)%nat -> sf_B Y mu ep al i j =
    if Nat.eqb i j then eps * eps * y
    else if Nat.ltb i 3 && Nat.eqb (i + 3) j then - (eps * eps * (n2 / (a * a)))
    else if Nat.eqb i (j + 3) then -1 else 0.
  Proof.
    intros Li Lj. unfold sf_B, dotn, n2, a, dotn. cbn [sumR]. cbn zeta.
    assert (Z : forall p, (p < 3)%nat -> Y p 3%nat = 0) by (intros p L; rewrite HY by lia; destruct p as [ | [ | [ | p]]]; try lia; reflexivity).
    assert (Yn : Y 3%nat 3%nat = yn) by (rewrite HY by lia; reflexivity).
    rewrite !(Z 0%nat), !(Z 1%nat), !(Z 2%nat), Yn by lia.
    assert (Ya : forall p q, (p < 3)%nat -> (q < 3)%nat -> Y p q = if Nat.eqb p q then y else 0).
    { intros p q Lp Lq. rewrite HY by lia. destruct (Nat.eqb_spec p 3); [lia | reflexivity]. }
    assert (yn <> 0) by lra. assert (a <> 0) by exact Ha.
    assert (mu <> 0). { intros E0. apply Ha. unfold a. rewrite E0. unfold Rdiv. ring. }
    assert (al 3%nat <> 0). { intros E0. apply Ha. unfold a. rewrite E0. ring. }
    destruct i as [ | [ | [ | [ | [ | [ | i]]]]]]; try lia; destruct j as [ | [ | [ | [ | [ | [ | j]]]]]]; try lia;
      cbn [Nat.ltb Nat.leb Nat.eqb Nat.sub Nat.add andb]; rewrite ?Ya, ?Hep by lia; cbn [Nat.eqb]; try (field; auto).
  Qed.

  Let r := eps * sqrt n2 / Rabs a.
  Lemma iso_r2 : r * r = eps * eps * (n2 / (a * a)).
  Proof.
    assert (P : 0 <= n2). { unfold n2, dotn. cbn [sumR]. assert (A := Rle_0_sqr). unfold Rsqr in A. assert (A0 := A (al 0%nat)). assert (A1 := A (al 1%nat)). assert (A2 := A (al 2%nat)). lra. }
    assert (S := sqrt_sqrt n2 P). assert (Q : Rabs a * Rabs a = a * a) by (rewrite <- Rabs_mult; apply Rabs_right, Rle_ge, Rle_0_sqr).
    unfold r. replace (eps * sqrt n2 / Rabs a * (eps * sqrt n2 / Rabs a)) with (eps * eps * (sqrt n2 * sqrt n2) / (Rabs a * Rabs a)).
    - rewrite S, Q. unfold Rdiv. ring.
    - field. apply Rabs_no_R0, Ha.
  Qed.
  Lemma iso_r_pos : 0 <= r.
  Proof. unfold r. apply Rmult_le_pos; [apply Rmult_le_pos; [lra | apply sqrt_pos] | left; apply Rinv_0_lt_compat, Rabs_pos_lt, Ha]. Qed.

  Lemma iso_rows x : forall i, (i < 3)%nat ->
    mvn 6 (sf_B Y mu ep al) x i = eps * eps * y * x i - r * r * x (i + 3)%nat /\
    mvn 6 (sf_B Y mu ep al) x (i + 3)%nat = - x i + eps * eps * y * x (i + 3)%nat.
  Proof.
    intros i L. rewrite iso_r2. unfold mvn.
    assert (G : forall p, (p < 6)%nat -> sumR 6 (fun k => sf_B Y mu ep al p k * x k) = sumR 6 (fun k => (if Nat.eqb p k then eps * eps * y else if Nat.ltb p 3 && Nat.eqb (p + 3) k then - (eps * eps * (n2 / (a * a))) else if Nat.eqb p (k + 3) then -1 else 0) * x k)).
    { intros p Lp. apply sumR_ext. intros k Lk. rewrite iso_B by auto. reflexivity. }
    rewrite !G by lia. destruct i as [ | [ | [ | i]]]; try lia; cbn; split; ring.
  Qed.

  Lemma iso_choose E : eig_spec (np_eigvals E) -> eps * eps * y <= r -> - 10000000000 <= eps * eps * y - r ->
    sf_choose (np_eigvals E (sf_B Y mu ep al)) = eps * eps * y - r.
  Proof.
    intros Es Hr Hb. apply sf_choose_min; try lra.
    - apply Es. exists (fun i => match i with 0%nat => r | 3%nat => 1 | _ => 0 end). split.
      + intros V. specialize (V 3%nat ltac:(lia)). unfold vzero in V. lra.
      + set (x := fun i : nat => match i with 0%nat => r | 3%nat => 1 | _ => 0 end).
        assert (G : forall i, (i < 3)%nat -> mvn 6 (sf_B Y mu ep al) x i = vmul (eps * eps * y - r) x i /\ mvn 6 (sf_B Y mu ep al) x (i + 3)%nat = vmul (eps * eps * y - r) x (i + 3)%nat).
        { intros i L. destruct (iso_rows x i L) as [E1 E2]. rewrite E1, E2. unfold vmul. destruct i as [ | [ | [ | i]]]; try lia; cbn; split; ring. }
        intros i L. destruct (Nat.lt_ge_cases i 3) as [L3 | L3]; [apply (G i L3) | ]. replace i with ((i - 3) + 3)%nat by lia. apply (G (i - 3)%nat). lia.
    - intros s Is _. apply Es in Is. destruct Is as (x & Nx & Ex). destruct (Rle_dec (eps * eps * y - r) s) as [ | N]; auto. exfalso. apply Nx.
      assert (G : forall i, (i < 3)%nat -> x i = 0 /\ x (i + 3)%nat = 0).
      { intros i L. destruct (iso_rows x i L) as [E1 E2]. rewrite Ex in E1 by lia. rewrite Ex in E2 by lia. unfold vmul in E1, E2. assert (R0 := iso_r_pos).
        apply (two_zero (eps * eps * y - s) (r * r) (eps * eps * y - s) 1); [lra | lra | | lra].
        assert (0 < (eps * eps * y - s - r) * (eps * eps * y - s + r)) by (apply Rmult_lt_0_compat; lra). lra. }
      intros i L. unfold vzero. destruct (Nat.lt_ge_cases i 3) as [L3 | L3]; [apply (G i L3) | ]. replace i with ((i - 3) + 3)%nat by lia. apply (G (i - 3)%nat). lia.
  Qed.
End Iso.

Theorem C52_cone_partial : forall E c vel Y dt y yn eps c' df,
  pinv_spec (np_pinv E) -> solve_spec (np_solve E) -> eig_spec (np_eigvals E) ->
  0 < dt -> 0 < y -> 0 < yn -> decoupled y yn Y -> 0 < eps -> (forall i, (i < 3)%nat -> sf_eps c i = eps) -> 0 <= sf_mu c ->
  ~ 0 < free_gap c vel Y dt ->
  let w := end_vel vel Y (vmul (-1) (sf_force c)) in         (* velocity without contact force *)
  (* the exact sliding parameter is above the bound *)
  eps * sqrt (sumR 3 (fun i => w i * w i)) * yn <= (eps * eps * y + 10000000000) * (sf_mu c * - (w 3%nat + sf_sdist c / dt)) ->
  sf_solve E c vel Y dt = Ok (c', df) ->
  in_cone (sf_mu c) (sf_eps c) (sf_force c') /\ 0 <= sf_force c' 3%nat.
Proof.
  intros E c vel Y dt y yn eps c' df Hp Hs Hg Pd Py Pyn HY Pe Hep Pmu G w Bd H.
  assert (NS : ~ singular 4 Y).
  { intros (x & Nx & Kx). apply Nx. intros i L. specialize (Kx i L). unfold vzero in *. unfold mvn in Kx.
    rewrite (sumR_single 4 _ i L) in Kx. - rewrite HY in Kx by auto. rewrite Nat.eqb_refl in Kx. destruct (Rmult_integral _ _ Kx) as [Z | Z]; auto. destruct (Nat.eqb i 3); lra.
    - intros k Lk N. rewrite HY by auto. destruct (Nat.eqb_spec i k); [congruence | ring]. }
  assert (Nf : forall f, mvn 4 Y f 3%nat = yn * f 3%nat).
  { intros f. unfold mvn. cbn [sumR]. rewrite !HY by lia. cbn. ring. }
  assert (Al : w 3%nat + sf_sdist c / dt <= 0).
  { assert (Q : dt * (w 3%nat + sf_sdist c / dt) <= 0). { unfold free_gap, end_gap in G. fold w in G. replace (dt * (w 3%nat + sf_sdist c / dt)) with (sf_sdist c + dt * w 3%nat) by (field; lra). lra. }
    destruct (Rle_dec (w 3%nat + sf_sdist c / dt) 0) as [ | N]; auto. exfalso. assert (0 < dt * (w 3%nat + sf_sdist c / dt)) by (apply Rmult_lt_0_compat; lra). lra. }
  destruct (sf_contact E c vel Y dt c' df Hp Hs Pd NS G H) as (Ed & D).
  assert (V3 : end_vel vel Y df 3%nat = - sf_sdist c / dt) by (destruct D as [[V _] | (s & _ & V)]; apply (V 3%nat); lia).
  assert (Fn : yn * sf_force c' 3%nat = - (w 3%nat + sf_sdist c / dt)).
  { assert (Q : end_vel vel Y df 3%nat = w 3%nat + mvn 4 Y (sf_force c') 3%nat).
    { unfold end_vel, w, end_vel. rewrite (mvn_ext 4 Y Y df (vminus (sf_force c') (sf_force c))) by auto. rewrite mvn_minus, mvn_mul. lra. }
    rewrite Q, Nf in V3. lra. }
  assert (Pn : 0 <= sf_force c' 3%nat).
  { destruct (Rle_dec 0 (sf_force c' 3%nat)) as [ | N]; auto. exfalso. assert (0 < yn * (- sf_force c' 3%nat)) by (apply Rmult_lt_0_compat; lra). lra. }
  split; [ | exact Pn].
  destruct D as [[_ Cn] | _]; [exact Cn | ].
  (* which branch was taken *)
  rewrite free_gap_eq in G. unfold sf_solve in H. cbn zeta in H.
  destruct (Rltb _ _) eqn:B; [apply Rltb_true in B; contradiction | ]. clear B.
  match type of H with (if Rleb ?p ?q then _ else _) = _ => destruct (Rleb p q) eqn:B end.
  { injection H as <- <-. apply Rleb_true in B. unfold in_cone. cbn [sf_force sf_set_force]. rewrite (Rmult_comm (sf_mu c)). exact B. }
  match type of H with context [sf_B _ _ _ ?x] => set (al := x) in * end.
  assert (Ew : forall i, al i = if Nat.eqb i 3 then w i + sf_sdist c / dt else w i).
  { intros i. unfold al, w, end_vel, vminus. rewrite mvn_mul. destruct (Nat.eqb i 3); lra. }
  match type of H with (if ?p || Reqb ?q 0 then _ else _) = _ => change q with (sf_mu c / Y 3%nat 3%nat * al 3%nat) in H end.
  destruct (Reqb (Y 3%nat 3%nat) 0 || Reqb (sf_mu c / Y 3%nat 3%nat * al 3%nat) 0) eqn:Bz; [discriminate | ].
  apply orb_false_elim in Bz. destruct Bz as [_ Bz]. assert (Yn : Y 3%nat 3%nat = yn) by (rewrite HY by lia; reflexivity). rewrite Yn in Bz.
  assert (Na : sf_mu c / yn * al 3%nat <> 0) by (intros Z; apply Reqb_true in Z; congruence). clear Bz.
  set (a := sf_mu c / yn * al 3%nat) in *. set (n2 := dotn 3 al al).
  assert (Al3 : al 3%nat = w 3%nat + sf_sdist c / dt) by (rewrite Ew; reflexivity).
  assert (En2 : n2 = sumR 3 (fun i => w i * w i)) by (unfold n2, dotn; apply sumR_ext; intros i L; rewrite !Ew; destruct (Nat.eqb_spec i 3); [lia | reflexivity]).
  assert (Pmu' : 0 < sf_mu c). { destruct Pmu as [ | Z]; auto. exfalso. apply Na. unfold a. rewrite <- Z. unfold Rdiv. ring. }
  assert (Nal : al 3%nat < 0). { rewrite Al3. destruct Al as [ | Z]; auto. exfalso. apply Na. unfold a. rewrite Al3, Z. ring. }
  assert (Aa : Rabs a = sf_mu c * - al 3%nat / yn). { unfold a. rewrite Rabs_left. - field. lra. - assert (0 < sf_mu c / yn * - al 3%nat) by (apply Rmult_lt_0_compat; [apply Rmult_lt_0_compat; [lra | apply Rinv_0_lt_compat; lra] | lra]). lra. }
  assert (Pa : 0 < Rabs a) by (apply Rabs_pos_lt; exact Na).
  set (r := eps * sqrt n2 / Rabs a).
  assert (Rb : - 10000000000 <= eps * eps * y - r).
  { assert (Q : r <= eps * eps * y + 10000000000).
    { apply (Rmult_le_reg_r (Rabs a)); [exact Pa | ]. unfold r. replace (eps * sqrt n2 / Rabs a * Rabs a) with (eps * sqrt n2) by (field; lra).
      rewrite Aa. apply (Rmult_le_reg_r yn); [exact Pyn | ]. replace ((eps * eps * y + 10000000000) * (sf_mu c * - al 3%nat / yn) * yn) with ((eps * eps * y + 10000000000) * (sf_mu c * - al 3%nat)) by (field; lra).
      rewrite En2, Al3. exact Bd. }
    lra. }
  assert (Hr : r * r = eps * eps * (n2 / (a * a))) by (apply iso_r2; auto).
  assert (R0 : 0 <= r) by (apply Rmult_le_pos; [apply Rmult_le_pos; [lra | apply sqrt_pos] | left; apply Rinv_0_lt_compat; exact Pa]).
  assert (Ra : eps * eps * y <= r).
  { (* sticking was refused *)
    apply Rleb_false in B. destruct (Rle_dec (eps * eps * y) r) as [ | N]; auto. exfalso.
    set (df0 := mvn 4 (mmul (-1) (np_pinv E 4 Y)) (fun i : nat => if Nat.eqb i 3 then vel i + sf_sdist c / dt else vel i)) in *.
    assert (F0 : forall i, (i < 4)%nat -> (if Nat.eqb i 3 then yn else y) * vplus (sf_force c) df0 i = - al i).
    { intros i L. assert (Q : forall f, mvn 4 Y f i = (if Nat.eqb i 3 then yn else y) * f i).
      { intros f. unfold mvn. rewrite (sumR_single 4 _ i L). - rewrite HY by auto. rewrite Nat.eqb_refl. reflexivity. - intros k Lk Nk. rewrite HY by auto. destruct (Nat.eqb_spec i k); [congruence | ring]. }
      rewrite <- Q. rewrite mvn_plus.
      assert (Qd : mvn 4 Y df0 i = - (if Nat.eqb i 3 then vel i + sf_sdist c / dt else vel i)).
      { unfold df0. rewrite (mvn_ext 4 Y Y _ (vmul (-1) (mvn 4 (np_pinv E 4 Y) (fun i : nat => if Nat.eqb i 3 then vel i + sf_sdist c / dt else vel i)))) by (auto; intros p _; rewrite mvn_mmul; reflexivity).
        rewrite mvn_mul, (inverse_apply 4 Y _ _ (Hp 4%nat Y NS) i L). lra. }
      rewrite Qd. unfold al, vminus. destruct (Nat.eqb i 3); lra. }
    set (f1 := vplus (sf_force c) df0) in *.
    assert (F3 := F0 3%nat ltac:(lia)). cbn [Nat.eqb] in F3.
    assert (Sm : sumR 3 (fun i => f1 i / sf_eps c i * (f1 i / sf_eps c i)) = n2 / (eps * eps * (y * y))).
    { unfold n2, dotn. cbn [sumR]. rewrite !Hep by lia. assert (K : forall i, (i < 3)%nat -> f1 i = - al i / y).
      { intros i L. specialize (F0 i ltac:(lia)). destruct (Nat.eqb_spec i 3); [lia | ]. apply (Rmult_eq_reg_l y); [ | lra]. rewrite F0. field. lra. }
      rewrite !K by lia. field. lra. }
    rewrite Sm in B. assert (Qn : f1 3%nat * sf_mu c * (f1 3%nat * sf_mu c) = a * a).
    { assert (K : f1 3%nat = - al 3%nat / yn) by (apply (Rmult_eq_reg_l yn); [rewrite F3; field; lra | lra]). rewrite K. unfold a. field. lra. }
    rewrite Qn in B.
    assert (Pa2 : 0 < a * a) by (apply Rsqr_pos_lt; exact Na).
    assert (P4 : 0 < eps * eps * (y * y)) by (repeat apply Rmult_lt_0_compat; lra).
    assert (B' : a * a * (eps * eps * (y * y)) < n2).
    { replace n2 with (n2 / (eps * eps * (y * y)) * (eps * eps * (y * y))) by (field; lra). apply Rmult_lt_compat_r; auto. }
    assert (N2 : n2 = r * r * (a * a) / (eps * eps)). { rewrite Hr. field. split; [exact Na | lra]. }
    assert (N3 : r * r < eps * eps * y * (eps * eps * y)).
    { assert (0 < (eps * eps * y - r) * (eps * eps * y + r)) by (apply Rmult_lt_0_compat; assert (0 < eps * eps * y) by (repeat apply Rmult_lt_0_compat; lra); lra). lra. }
    assert (N4 : r * r * (a * a) / (eps * eps) < eps * eps * y * (eps * eps * y) * (a * a) / (eps * eps)).
    { apply Rmult_lt_compat_r; [apply Rinv_0_lt_compat, Rsqr_pos_lt; lra | ]. apply Rmult_lt_compat_r; auto. }
    replace (eps * eps * y * (eps * eps * y) * (a * a) / (eps * eps)) with (a * a * (eps * eps * (y * y))) in N4 by (field; lra). lra. }
  rewrite (iso_choose Y y yn (sf_mu c) eps (sf_eps c) al HY Pyn Pe Hep Na E Hg Ra Rb) in H.
  fold a n2 in H. fold r in H.
  match type of H with context [np_solve E 4 ?A ?b] => assert (Q := Hs 4%nat A b); destruct (np_solve E 4 A b) as [f2 | ] end; [ | discriminate].
  injection H as <- <-. cbn [sf_force sf_set_force] in *.
  assert (Er : forall i, (i < 3)%nat -> r * f2 i = - (eps * eps * al i)).
  { intros i L. specialize (Q i ltac:(lia)). cbv beta in Q. unfold mvn in Q.
    rewrite (sumR_single 4 _ i) in Q; [ | lia | ].
    - rewrite Nat.eqb_refl, HY, Nat.eqb_refl, (Hep i L) in Q by lia. replace (Nat.ltb i 3) with true in Q by (symmetry; apply Nat.ltb_lt; lia).
      destruct (Nat.eqb_spec i 3); [lia | ]. cbn [andb] in Q.
      replace (r * f2 i) with (eps * eps * ((y - (eps * eps * y - r) * / (eps * eps)) * f2 i)) by (field; lra). rewrite Q. unfold al, mvn. destruct (Nat.eqb_spec i 3); [lia | ring].
    - intros k Lk Nk. rewrite HY by lia. destruct (Nat.eqb_spec i k); [congruence | ]. rewrite andb_false_r. ring. }
  unfold in_cone.
  assert (Pr : 0 < r) by (assert (0 < eps * eps * y) by (repeat apply Rmult_lt_0_compat; lra); lra).
  assert (Sm : sumR 3 (fun i => f2 i / sf_eps c i * (f2 i / sf_eps c i)) = eps * eps * n2 / (r * r)).
  { unfold n2, dotn. cbn [sumR]. rewrite !Hep by lia. assert (K : forall i, (i < 3)%nat -> f2 i = - (eps * eps * al i) / r).
    { intros i L. apply (Rmult_eq_reg_l r); [ | lra]. rewrite (Er i L). field. lra. }
    rewrite !K by lia. field. lra. }
  assert (Kn : f2 3%nat = - al 3%nat / yn) by (apply (Rmult_eq_reg_l yn); [rewrite Fn, Al3; field; lra | lra]).
  assert (Kq : sf_mu c * f2 3%nat * (sf_mu c * f2 3%nat) = a * a) by (rewrite Kn; unfold a; field; lra).
  rewrite Sm, Kq, Hr. right. assert (n2 <> 0). { intros Z. unfold r in Pr. rewrite Z, sqrt_0 in Pr. unfold Rdiv in Pr. rewrite Rmult_0_r, Rmult_0_l in Pr. lra. }
  field. repeat split; auto; lra.
Qed.

(** For a positive definite admittance, [solve] fails only when friction or the normal impulse vanishes. *)
Theorem C52_defined : forall E c vel Y dt, solve_spec (np_solve E) -> posdef 4 Y ->
  sf_mu c * (end_vel vel Y (vmul (-1) (sf_force c)) 3%nat + sf_sdist c / dt) <> 0 ->
  exists c' df, sf_solve E c vel Y dt = Ok (c', df).
Proof.
  intros E c vel Y dt Hs PD Na. unfold sf_solve. cbn zeta. destruct (Rltb _ _); [eauto | ]. destruct (Rleb _ _); [eauto | ].
  assert (Yn : 0 < Y 3%nat 3%nat).
  { assert (Q := proj2 PD (fun i => if Nat.eqb i 3 then 1 else 0)). unfold quad in Q. cbn in Q.
    assert (N : ~ veq 4 (fun i : nat => if Nat.eqb i 3 then 1 else 0) vzero) by (intros V; specialize (V 3%nat ltac:(lia)); unfold vzero in V; cbn in V; lra).
    specialize (Q N). lra. }
  match goal with |- context [Reqb (sf_mu c / Y 3%nat 3%nat * ?a) 0] => assert (Ea : a = end_vel vel Y (vmul (-1) (sf_force c)) 3%nat + sf_sdist c / dt) end.
  { unfold end_vel, vminus. rewrite mvn_mul. cbn [Nat.eqb]. lra. }
  rewrite Ea. replace (Reqb (Y 3%nat 3%nat) 0) with false by (symmetry; apply not_true_is_false; intros Q; apply Reqb_true in Q; lra).
  match goal with |- context [Reqb ?x 0] => replace (Reqb x 0) with false end.
  2:{ symmetry; apply not_true_is_false; intros Q; apply Reqb_true in Q. apply Na.
      revert Q. generalize (end_vel vel Y (vmul (-1) (sf_force c)) 3%nat + sf_sdist c / dt) as z. intros z Q.
      replace (sf_mu c * z) with (Y 3%nat 3%nat * (sf_mu c / Y 3%nat 3%nat * z)) by (field; lra). rewrite Q. ring. }
  cbn [orb].
  match goal with |- context [np_solve E 4 ?A ?b] => assert (Q := Hs 4%nat A b); destruct (np_solve E 4 A b) as [f2 | ] end; [eauto | ].
  exfalso. revert Q. apply posdef_not_singular.
  match goal with |- context [sf_choose ?l] => assert (Ns := sf_choose_neg l); set (s := sf_choose l) in * end. clearbody s.
  destruct PD as [Sy P]. split.
  - intros i j Li Lj. rewrite (Sy i j Li Lj). destruct (Nat.eqb_spec i j) as [-> | ]; [rewrite Nat.eqb_refl; reflexivity | ].
    destruct (Nat.eqb_spec j i) as [-> | ]; [congruence | ]. rewrite !andb_false_r. reflexivity.
  - intros x Nx. specialize (P x Nx).
    assert (Z : forall i, 0 <= - (s * / (sf_eps c i * sf_eps c i))).
    { intros i. assert (0 <= / (sf_eps c i * sf_eps c i)).
      { destruct (Req_dec (sf_eps c i) 0) as [Z | Z]; [rewrite Z, Rmult_0_l, Rinv_0; lra | left; apply Rinv_0_lt_compat; apply (Rsqr_pos_lt _ Z)]. }
      assert (0 <= - s * / (sf_eps c i * sf_eps c i)) by (apply Rmult_le_pos; lra). lra. }
    unfold quad in *. cbn in *.
    assert (W : forall i, 0 <= - (s * / (sf_eps c i * sf_eps c i)) * (x i * x i)) by (intros i; apply Rmult_le_pos; [apply Z | apply Rle_0_sqr]).
    assert (W0 := W 0%nat). assert (W1 := W 1%nat). assert (W2 := W 2%nat). lra.
Qed.

(** a sliding contact meeting the hypotheses of the theorems above *)
Example C52_witness : let c := finger true (fun _ => Err ValueError) 1 1 vzero in
  let vel := fun i : nat => if Nat.eqb i 1 then 3 else if Nat.eqb i 3 then -1 else 0 in
  decoupled 1 1 (Yk 1 0) /\ posdef 4 (Yk 1 0) /\ ~ 0 < free_gap c vel (Yk 1 0) 1 /\
  forall E, pinv_spec (np_pinv E) -> solve_spec (np_solve E) -> eig_spec (np_eigvals E) -> exists c' df,
    sf_solve E c vel (Yk 1 0) 1 = Ok (c', df) /\ in_cone 1 (fun _ => 1) (sf_force c') /\ sf_force c' 3%nat = 1 /\
    sf_force c' 1%nat < 0.
Proof.
  cbn zeta. set (c := finger _ _ _ _ _). set (vel := fun i : nat => if Nat.eqb i 1 then 3 else if Nat.eqb i 3 then -1 else 0).
  assert (DC : decoupled 1 1 (Yk 1 0)) by (intros [ | [ | [ | [ | i]]]] [ | [ | [ | [ | j]]]] Li Lj; try lia; reflexivity).
  assert (PD : posdef 4 (Yk 1 0)) by (apply Yk_posdef; lra).
  assert (Ew : forall i, end_vel vel (Yk 1 0) (vmul (-1) (sf_force c)) i = vel i) by (intros i; unfold end_vel; rewrite mvn_mul; unfold c; cbn [sf_force finger]; rewrite mvn_zero; ring).
  assert (FG : ~ 0 < free_gap c vel (Yk 1 0) 1) by (unfold free_gap, end_gap; rewrite Ew; unfold c, vel; cbn; lra).
  split; [exact DC | ]. split; [exact PD | ]. split; [exact FG | ]. intros E Hp Hs He.
  destruct (C52_defined E c vel (Yk 1 0) 1 Hs PD) as (c' & df & Ok').
  { rewrite Ew. unfold c, vel. cbn. lra. }
  exists c', df. split; [exact Ok' | ].
  destruct (C52_cone_partial E c vel (Yk 1 0) 1 1 1 1 c' df Hp Hs He) as [Cn Pn]; auto; try lra.
  { unfold c. cbn. lra. }
  { rewrite Ew. rewrite (sumR_ext 3 _ (fun i => vel i * vel i)) by (intros; rewrite Ew; reflexivity). unfold vel, c. cbn.
    replace (0 + 0 * 0 + 3 * 3 + 0 * 0) with (3 * 3) by ring. rewrite sqrt_square; lra. }
  split; [exact Cn | ].
  destruct (sf_contact E c vel (Yk 1 0) 1 c' df Hp Hs ltac:(lra) (posdef_not_singular 4 _ PD) FG Ok') as (Ed & D).
  assert (V : forall i, (i < 4)%nat -> end_vel vel (Yk 1 0) df i = vel i + sf_force c' i).
  { intros i L. unfold end_vel. rewrite (mvn_ext 4 (Yk 1 0) (Yk 1 0) df (sf_force c')).
    - f_equal. unfold mvn. destruct i as [ | [ | [ | [ | i]]]]; try lia; cbn; ring.
    - auto. - intros k L'. rewrite Ed by auto. unfold vminus, c. cbn [sf_force finger]. unfold vzero. ring. }
  destruct D as [[D _] | (s & Ns & D)].
  - assert (D3 := D 3%nat ltac:(lia)). assert (D1 := D 1%nat ltac:(lia)). rewrite V in D3, D1 by lia. unfold vel, c in D3, D1. cbn in D3, D1. split; lra.
  - assert (D3 := D 3%nat ltac:(lia)). assert (D1 := D 1%nat ltac:(lia)). rewrite V in D3, D1 by lia. unfold vel, c in D3, D1. cbn in D3, D1. split; [lra | ].
    rewrite Rmult_1_r, Rinv_1 in D1. destruct (Rlt_dec (sf_force c' 1%nat) 0) as [ | N]; auto. exfalso.
    assert (0 <= - s * sf_force c' 1%nat) by (apply Rmult_le_pos; lra). lra.
Qed.
