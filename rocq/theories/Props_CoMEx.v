(** C64: a pendulum, whose centre of mass is not at the origin of its body. *)
From Verif Require Import Spec_CoM Proof_Tree Proof_World Proof_Dofs Proof_Linalg Proof_Deriv Proof_SE3 Proof_Joints Proof_Dyn Proof_Dyn2 Proof_Matrix Proof_Step Proof_Mass.
From Verif Require Import Props_World Props_Dyn Props_DynEx Props_Mass Props_Step Proof_Ctl Props_Weight Props_Energy Props_CoM.
From Coq Require Import Lra.

Definition kz := [RzJoint].
Lemma kz_ready : ready (ch_e kz) (ch_h kz) (ch_t 0 1). Proof. ch_ready. Qed.
Lemma kz_nofree : Forall (fun k => k <> FreeJoint) kz. Proof. repeat constructor; discriminate. Qed.
Definition kz_I := M3 2 0 0 0 5 0 0 0 5.
Definition kz_M : m6 := rigid_mass 2 (V3 1 0 0) kz_I.
Definition kz_sc := ch_sc (fun b => match b with O => zerom6 | _ => kz_M end).
Definition kz_m (b : nat) : R := match b with O => 0 | _ => 2 end.
Definition kz_c (b : nat) : v3 := V3 1 0 0.
Definition kz_i (b : nat) : m3 := match b with O => zerom3 | _ => kz_I end.
Definition kz_f (u : R) : nat -> jstate := ch_J kz (fun _ _ => u) (fun _ _ => 1).
Definition kz_eigvals (_ : m6) : list R := [1; 2; 6].
Definition kz_eig (_ : m3) : v3 * m3 := (V3 2 3 3, eye3).
Definition kz_upd u := world_update_dynamic (ch_e kz) kz_sc (ch_h kz) (kz_f u) 10 (fun _ => no_attr).
Definition kz_St u : store := match kz_upd u with Ok x => fst x | Err _ => fun _ => no_attr end.
Definition kz_D u : wdyn := match kz_upd u with Ok x => snd x | Err _ => wdyn0 end.

Lemma kz_rigid u : rigid_scene (ch_e kz) kz_sc (ch_t 0 1) (kz_f u).
Proof. apply ch_rigid. exact kz_nofree. Qed.
Lemma kz_Upd u : kz_upd u = Ok (kz_St u, kz_D u).
Proof.
  destruct (world_ok _ _ _ _ (kz_f u) 10 (fun _ => no_attr) kz_ready (kz_rigid u)) as (sd & d & E & _); [cbn; lia | ]. fold (kz_upd u) in E. unfold kz_St, kz_D. rewrite E. reflexivity.
Qed.
Lemma kz_motion s : world_motion (ch_t 0 1) kz_f s.
Proof.
  intros j Ij. assert (N : jt (kz_f s j) <> FreeJoint) by (cbn in Ij; destruct Ij as [<- | []]; discriminate).
  split; [intros s'; split; [reflexivity | intros E; contradiction (N E)] | ]. split; [intros E; contradiction (N E) | ]. intros _ i _. cbn [kz_f ch_J gpos gvel]. apply Did.
Qed.
Lemma kz_mass : mass_of 2 kz_M.
Proof.
  split; [ | split].
  - intros [[a1 a2 a3] [b1 b2 b3]] [[c1 c2 c3] [d1 d2 d3]]. unfold kz_M, rigid_mass, kz_I. unf. ring.
  - intros [[a1 a2 a3] [b1 b2 b3]] N. unfold kz_M, rigid_mass, kz_I. 
    assert (Q : dot6 (V6 (V3 a1 a2 a3) (V3 b1 b2 b3)) (mv6 (M6 (M3 2 0 0 0 5 0 0 0 5) (mscal 2 (skew (V3 1 0 0))) (mscal 2 (tr (skew (V3 1 0 0)))) (mscal 2 eye3)) (V6 (V3 a1 a2 a3) (V3 b1 b2 b3)))
       = 2 * (a1 * a1) + 3 * (a2 * a2) + 3 * (a3 * a3) + 2 * (b1 * b1) + 2 * ((b3 - a2) * (b3 - a2)) + 2 * ((b2 + a3) * (b2 + a3))) by (unf; ring).
    rewrite Q. assert (Sq : forall x, 0 <= x * x) by (intros; nra). assert (A1 := Sq a1). assert (A2 := Sq a2). assert (A3 := Sq a3). assert (A4 := Sq b1). assert (A5 := Sq (b3 - a2)). assert (A6 := Sq (b2 + a3)).
    destruct (Rlt_dec 0 (2 * (a1 * a1) + 3 * (a2 * a2) + 3 * (a3 * a3) + 2 * (b1 * b1) + 2 * ((b3 - a2) * (b3 - a2)) + 2 * ((b2 + a3) * (b2 + a3)))) as [ | L]; [assumption | exfalso]. apply N.
    assert (Zr : forall x, x * x = 0 -> x = 0) by (intros x Hx; destruct (Rmult_integral _ _ Hx); auto).
    assert (a1 = 0) by (apply Zr; lra). assert (a2 = 0) by (apply Zr; lra). assert (a3 = 0) by (apply Zr; lra). assert (b1 = 0) by (apply Zr; lra).
    assert (b3 - a2 = 0) by (apply Zr; lra). assert (b2 + a3 = 0) by (apply Zr; lra). unfold zero6, zero3. f_equal; f_equal; lra.
  - reflexivity.
Qed.
Lemma kz_eigs : eigvals_of kz_M (kz_eigvals kz_M).
Proof.
  intros x. unfold kz_eigvals, kz_M, rigid_mass, kz_I. split.
  - intros [<- | [<- | [<- | []]]].
    + exists (V6 (V3 0 1 0) (V3 0 0 2)). split; [intros E; injection E; lra | lin].
    + exists (V6 (V3 1 0 0) zero3). split; [intros E; injection E; lra | lin].
    + exists (V6 (V3 0 2 0) (V3 0 0 (-1))). split; [intros E; injection E; lra | lin].
  - intros ([[a1 a2 a3] [b1 b2 b3]] & N & E). unf. injection E as E1 E2 E3 E4 E5 E6.
    destruct (Req_dec x 1) as [-> | X1]; [cbn; auto | ]. destruct (Req_dec x 2) as [-> | X2]; [cbn; auto | ]. destruct (Req_dec x 6) as [-> | X3]; [cbn; auto | ].
    exfalso. apply N. assert (Z : forall k a, x <> k -> (x - k) * a = 0 -> a = 0) by (intros k a K Q; apply Rmult_integral in Q; lra).
    assert (a1 = 0) by (apply (Z 2); lra). assert (b1 = 0) by (apply (Z 2); lra).
    assert (a2 = 0). { apply (Z 1); [exact X1 | ]. apply (Z 6); [exact X3 | ]. nra. }
    assert (a3 = 0). { apply (Z 1); [exact X1 | ]. apply (Z 6); [exact X3 | ]. nra. }
    assert (b2 = 0) by (apply (Z 2); lra). assert (b3 = 0) by (apply (Z 2); lra). unfold zero6, zero3. f_equal; f_equal; lra.
Qed.
Lemma kz_bodies : com_bodies kz_eigvals kz_eig kz_sc [0; 1]%nat kz_m kz_c kz_i.
Proof.
  intros b [<- | [<- | []]]; cbn [kz_sc ch_sc b_mass kz_m kz_i].
  - split; [unfold rigid_mass, kz_c; lin | ]. split; [lra | ]. intros; lra.
  - split; [reflexivity | ]. split; [lra | ]. intros _. split; [reflexivity | ]. split; [exact kz_mass | ]. split; [exact kz_eigs | ]. split; cbn [fst snd kz_eig]; unfold diag3, kz_I, kz_c; lin.
Qed.
Lemma kz_path : path (ch_t 0 1) 1 [(1, 0)]%nat.
Proof. apply (path_step 0 _ 1 (ch_t 1 0) 1 []); [now left | constructor]. Qed.
Lemma kz_kin u : kin_of kz_sc (ch_h kz) (kz_f u) [1]%nat = stepk kz_sc (ch_h kz) (kz_f u 1%nat) (0, 1)%nat (FBody 0) (FBody 1) kin0.
Proof. unfold kin_of. cbn [fold_right]. unfold stepj. change (jframes (ch_h kz) 1) with (Some (FBody 0, FBody 1)). change (jdof (ch_h kz) 1) with (Some (0, 1)%nat). reflexivity. Qed.
Lemma kz_store u : frame_jac (ch_e kz) kz_sc (kz_St u) (FBody 1) = Ok (k_jac (kin_of kz_sc (ch_h kz) (kz_f u) [1]%nat)) /\
  frame_twist (ch_e kz) kz_sc (kz_St u) (FBody 1) = Ok (k_twist (kin_of kz_sc (ch_h kz) (kz_f u) [1]%nat)) /\
  k_jac (kin_of kz_sc (ch_h kz) (kz_f u) [1]%nat) 0%nat = V6 (V3 0 0 1) zero3 /\ ang (k_twist (kin_of kz_sc (ch_h kz) (kz_f u) [1]%nat)) = V3 0 0 1.
Proof.
  destruct (world_ok _ _ _ _ (kz_f u) 10 (fun _ => no_attr) kz_ready (kz_rigid u)) as (sd & d & E & P & _); [cbn; lia | ]. fold (kz_upd u) in E. rewrite kz_Upd in E. injection E as <- <-.
  assert (S1 := P _ _ kz_path). cbn [map fst] in S1. cbn [frame_jac frame_twist]. rewrite S1. cbn [attr a_jac a_twist Model_Dyn.get]. split; [reflexivity | ]. split; [reflexivity | ].
  rewrite kz_kin. split.
  - cbn [stepk k_jac kin0 fst snd bpose]. rewrite adjoint_eye, mv6_zero6, v6add_0_l. unfold slice_col. cbn [Nat.leb Nat.ltb andb Nat.sub]. rewrite mv6_1. reflexivity.
  - cbn [stepk k_twist kin0 bpose]. rewrite adjoint_eye, mv6_zero6, v6add_0_l, mv6_1. rewrite twist_sum. unfold kz_f, ch_J, jacobian, kz. cbn [nth jt gvel ndof_of sum6]. unfold e6, v6of. cbn [Nat.eqb]. unf. f_equal; ring.
Qed.
Lemma kz_safe s b js : In b [0; 1]%nat -> above (ch_t 0 1) b js -> djac_safe (fun j => jt (kz_f s j)) js.
Proof.
  intros Ib (ps & P & ->) l1 j l2 El. left. cbn [ch_t] in P. inversion P as [ | ? ? j' s' ? ps' Ij P' E1 E2]; subst; [destruct l1; discriminate | ].
  destruct Ij as [Ij | []]. injection Ij as <- <-. inversion P' as [ | ? ? j'' s'' ? ps'' Ij' P'' E3 E4]; subst; [ | destruct Ij']. cbn in El.
  destruct l1 as [ | ? l1]; [injection El as <- _; exact Logic.I | injection El as _ El; destruct l1; discriminate].
Qed.

(** the hypotheses of C64 are met by a rotating pendulum (the ground is in the list of bodies too), and the
    derivative of the jacobian reported is not the one of the jacobian *)
Theorem C79_djacobian_refuted : let bs := [0; 1]%nat in
  ready (ch_e kz) (ch_h kz) (ch_t 0 1) /\ rigid_scene (ch_e kz) kz_sc (ch_t 0 1) (kz_f 0) /\ world_motion (ch_t 0 1) kz_f 0 /\
  (forall u, world_update_dynamic (ch_e kz) kz_sc (ch_h kz) (kz_f u) 10 (fun _ => no_attr) = Ok (kz_St u, kz_D u)) /\
  world_velocity (ch_e kz) (ch_h kz) (ch_t 0 1) (kz_f 0) (fun _ => 1) /\
  (forall b, In b bs -> In b (bodies (ch_t 0 1))) /\ com_bodies kz_eigvals kz_eig kz_sc bs kz_m kz_c kz_i /\ 0 < sumlist kz_m bs /\
  (forall b js, In b bs -> above (ch_t 0 1) b js -> djac_safe (fun j => jt (kz_f 0 j)) js) /\
  exists cd a, com_init kz_eigvals kz_eig kz_sc bs = Ok cd /\ (forall u, com_update true (kz_St u) cd = Ok (a u)) /\
    ~ dv3 (fun u => cm_jac (a u) 0%nat) 0 (cm_djac (a 0) 0%nat).
Proof.
  intros bs. assert (Hb : forall b, In b bs -> In b (bodies (ch_t 0 1))) by (intros b Ib; cbn in *; tauto).
  assert (Hp : 0 < sumlist kz_m bs) by (cbn; lra).
  split; [exact kz_ready | ]. split; [apply kz_rigid | ]. split; [apply kz_motion | ]. split; [exact kz_Upd | ]. split; [intros j s d _ _ i _; reflexivity | ]. split; [exact Hb | ]. split; [exact kz_bodies | ]. split; [exact Hp | ]. split; [apply kz_safe | ].
  destruct (C79_djacobian_error kz_eigvals kz_eig (ch_e kz) kz_sc (ch_h kz) (ch_t 0 1) kz_f 0 10 (fun _ => no_attr) kz_St kz_D bs kz_m kz_c kz_i kz_ready (kz_rigid 0) (kz_motion 0) ltac:(cbn; lia) kz_Upd Hb kz_bodies Hp (kz_safe 0)) as (cd & a & P & T & J & Ei & Eu & Ep & Dk).
  exists cd, a. split; [exact Ei | ]. split; [exact Eu | ]. intros Dj. specialize (Dk 0%nat). cbn zeta in Dk.
  assert (SP : SE3 (P 1%nat)).
  { destruct (C39_poses (ch_e kz) kz_sc (ch_h kz) (ch_t 0 1) (kz_f 0) 10 (fun _ => no_attr) kz_ready (kz_rigid 0) ltac:(cbn; lia)) as (sg & sd' & d' & _ & Ed' & HH & _). assert (E0 := kz_Upd 0). unfold kz_upd in E0. rewrite E0 in Ed'. injection Ed' as <- <-.
    destruct (HH (FBody 1) ltac:(cbn; auto)) as (H & SH & _ & EH & _). destruct (Ep 1%nat ltac:(cbn; auto)) as (EP & _). unfold frame_pose in EP. cbn [frame_body] in EP, EH. rewrite EH in EP. cbn in EP. injection EP as <-. exact SH. }
  destruct (kz_store 0) as (S1 & S2 & S3 & S4). destruct (Ep 1%nat ltac:(cbn; auto)) as (_ & ET & EJ). rewrite S2 in ET. rewrite S1 in EJ.
  assert (EJ0 : ang (J 1%nat 0%nat) = V3 0 0 1) by (replace (J 1%nat) with (k_jac (kin_of kz_sc (ch_h kz) (kz_f 0) [1%nat])) by congruence; rewrite S3; reflexivity).
  assert (ET0 : ang (T 1%nat) = V3 0 0 1) by (replace (T 1%nat) with (k_twist (kin_of kz_sc (ch_h kz) (kz_f 0) [1%nat])) by congruence; exact S4).
  unfold bs, vsum in Dk. cbn [fold_right] in Dk. rewrite EJ0, ET0 in Dk. cbn [kz_m kz_c] in Dk.
  set (d := cm_djac (a 0) 0%nat) in *. clearbody d.
  match type of Dk with dv3 _ _ (vadd d ?x) => assert (X : x = vneg (mv (rot (P 1%nat)) (V3 1 0 0))) end.
  { generalize (rot (P 0%nat)) (rot (P 1%nat)) (ang (J 0%nat 0%nat)) (ang (T 0%nat)). cbn [sumlist kz_m]. unfold kz_c. intros [] [] [] []. unf. f_equal; field. }
  rewrite X in Dk. destruct Dj as (D1 & D2 & D3), Dk as (K1 & K2 & K3).
  assert (Q1 := uniqueness_limite _ _ _ _ D1 K1). assert (Q2 := uniqueness_limite _ _ _ _ D2 K2). assert (Q3 := uniqueness_limite _ _ _ _ D3 K3).
  assert (Z : mv (rot (P 1%nat)) (V3 1 0 0) = zero3).
  { revert Q1 Q2 Q3. generalize (mv (rot (P 1%nat)) (V3 1 0 0)). clear. destruct d as [d1 d2 d3]. intros [x y z]. unf. intros. f_equal; lra. }
  destruct SP as ((Or & _) & _). assert (Y : mv (mm (tr (rot (P 1%nat))) (rot (P 1%nat))) (V3 1 0 0) = zero3).
  { rewrite mv_mm, Z. clear. generalize (rot (P 1%nat)). lin. }
  rewrite Or in Y. revert Y. clear. unf. intros Y. injection Y. lra.
Qed.
