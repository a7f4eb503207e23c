(** C63 fails: a world whose energy is not balanced. *)
From Coq Require Import Lra Lia FunctionalExtensionality.
From Verif Require Import Spec_Defect Spec_Ctl Proof_Tree Proof_World Proof_Dofs Proof_Linalg Proof_Deriv Proof_SE3 Proof_Joints Proof_Dyn Proof_Dyn2 Proof_Matrix Proof_Step Proof_Mass Proof_Defect.
From Verif Require Import Props_World Props_Dyn Props_DynEx Props_Mass Props_Step Proof_Ctl Props_Weight Props_Energy Props_EnergyEx Props_Defect Props_Defect2.
Open Scope R_scope.

Lemma Ok_eq {A} (x y : A) : Ok x = Ok y -> x = y.
Proof. congruence. Qed.
Lemma v6_dec0 (u : v6) : u = zero6 \/ u <> zero6.
Proof.
  destruct u as [[a b c] [d e f]]. destruct (Req_dec a 0), (Req_dec b 0), (Req_dec c 0), (Req_dec d 0), (Req_dec e 0), (Req_dec f 0); subst; try (right; intros E; injection E; intros; subst; congruence). left. reflexivity.
Qed.

(** two bodies: a hinge, then a joint with two axes; they start with the speeds 1, 1, 1 and the accelerations [a] *)
Definition lz_i (j i : nat) : nat := match j with 2%nat => Datatypes.S i | _ => 0%nat end.
Definition lz_q (a : nat -> R) (u : R) (j i : nat) : R := mv_q 0 j i + u + a (lz_i j i) * (u * u / 2).
Definition lz_v (a : nat -> R) (u : R) (k : nat) : R := 1 + a k * u.
Definition lz_f (a : nat -> R) (u : R) : nat -> jstate := ch_J k12 (lz_q a u) (fun j i => lz_v a u (lz_i j i)).
Notation lz_upd a u := (world_update_dynamic (ch_e k12) (ch_sc ky_m) (ch_h k12) (lz_f a u) 10 (fun _ => no_attr)).
Definition lz_St a u : store := match lz_upd a u with Ok x => fst x | Err _ => fun _ => no_attr end.
Definition lz_D a u : wdyn := match lz_upd a u with Ok x => snd x | Err _ => wdyn0 end.
(** the world at time u: its velocities have been written in the array of the velocities *)
Definition with_vel (h : @heap R) (l : list R) : @heap R := set_dofs h (jdof h) (w_ndof h) (upd_arr (arr h) (w_gvel h) l) (jgvel h) (w_gvel h) (next_arr h).
Lemma with_vel_ok e h t l : rep e h t -> rep e (with_vel h l) t /\ w_ndof (with_vel h l) = w_ndof h /\ world_gvel (with_vel h l) = l.
Proof.
  intros Rt. split; [now apply rep_set_dofs | ]. split; [reflexivity | ]. unfold world_gvel, with_vel. cbn [set_dofs arr w_gvel]. unfold upd_arr.
  replace (aid_eqb (w_gvel h) (w_gvel h)) with true; [reflexivity | ]. destruct (w_gvel h); cbn; now rewrite Nat.eqb_refl.
Qed.
Definition lz_x a (u : R) : wst := WS (with_vel (ch_h k12) [lz_v a u 0; lz_v a u 1; lz_v a u 2]) (fun j => jt (lz_f a u j)) (fun _ => eye4) (lz_q a u) (lz_D a u) vzero mzero mzero u.

Lemma lz_0 a : lz_f a 0 = mv_f k12 0.
Proof.
  unfold lz_f, mv_f. f_equal; apply functional_extensionality; intros j; apply functional_extensionality; intros i; unfold lz_q, lz_v; field.
Qed.
Lemma lz_world a u : lz_upd a u = Ok (lz_St a u, lz_D a u) /\
  forall x ps, path (ch_t 0 2) x ps -> lz_St a u x = attr wm (kin_of (ch_sc ky_m) (ch_h k12) (lz_f a u) (map fst ps)).
Proof.
  destruct (world_ok _ _ _ _ (lz_f a u) 10 (fun _ => no_attr) k12_ready (ch_rigid k12 2 ky_m (lz_q a u) (fun j i => lz_v a u (lz_i j i)) k12_nofree)) as (sd & d & E & P & _); [cbn; lia | ].
  assert (E' : lz_upd a u = Ok (sd, d)) by exact E. unfold lz_St, lz_D. rewrite E'.
  split; [reflexivity | ]. intros x ps Pa. exact (P x ps Pa).
Qed.
Lemma lz_run a u : world_update_dynamic (ch_e k12) (ch_sc ky_m) (ch_h k12) (lz_f a u) 10 (fun _ => no_attr) = Ok (lz_St a u, lz_D a u).
Proof. exact (proj1 (lz_world a u)). Qed.
Lemma lz_motion a : world_motion (ch_t 0 2) (lz_f a) 0.
Proof.
  intros j Ij. assert (N : jt (lz_f a 0 j) <> FreeJoint).
  { cbn in Ij. destruct Ij as [<- | [<- | []]]; discriminate. }
  split; [intros s; split; [reflexivity | intros E; contradiction (N E)] | ].
  split; [intros E; contradiction (N E) | ]. intros _ i _. cbn [lz_f ch_J gpos gvel]. unfold lz_q, lz_v.
  eapply dconv; [apply (Dplus (fun u => mv_q 0 j i + u) (fun u => a (lz_i j i) * (u * u / 2))); [apply Dplus; [apply Dconst | apply Did] | apply Dscal; eapply dext with (f := fun u => / 2 * (u * u)); [intros; field | ]; apply Dscal, (Dmult (fun u => u) (fun u => u)); apply Did] | ].
  cbv beta. field.
Qed.
Lemma lz_tree a u : same_tree (ch_e k12) (ch_h k12) (ch_t 0 2) (lz_x a u).
Proof. destruct (with_vel_ok (ch_e k12) (ch_h k12) (ch_t 0 2) [lz_v a u 0; lz_v a u 1; lz_v a u 2] (proj1 k12_ready)) as (A & B & _). split; [exact A | exact B]. Qed.
Lemma lz_vel a u k : (k < 3)%nat -> gvel_vec (s_heap (lz_x a u)) k = lz_v a u k.
Proof.
  intros H. unfold gvel_vec. cbn [lz_x s_heap]. rewrite (proj2 (proj2 (with_vel_ok (ch_e k12) (ch_h k12) (ch_t 0 2) _ (proj1 k12_ready)))).
  destruct k as [ | [ | [ | k]]]; [reflexivity | reflexivity | reflexivity | lia].
Qed.
Lemma lz_solids : solids ky_eigvals ky_eig (ch_sc ky_m) (ch_t 0 2) (fun _ => 1) (fun _ => zero3) (fun _ => M3 2 0 0 0 3 0 0 0 4).
Proof.
  intros b _. split; [reflexivity | ]. split; [reflexivity | ]. split; [exact wm_mass | ]. split; [exact wm_eig | ].
  split; cbn [fst snd ky_eig]; unfold diag3; lin.
Qed.

Lemma kin_sc m m' h J js : kin_of (ch_sc m) h J js = kin_of (ch_sc m') h J js.
Proof. induction js as [ | j js IH]; [reflexivity | ]. unfold kin_of in *. cbn [fold_right]. rewrite IH. reflexivity. Qed.
(** the speeds *)
Lemma lz_jac1 : k_jac (kin_of (ch_sc ky_m) (ch_h k12) (mv_f k12 0) [1]%nat) 0%nat = e6 2.
Proof. rewrite (kin_sc ky_m ce_m). apply ce_jac_1. Qed.
Lemma lz_jac2 c : k_jac (kin_of (ch_sc ky_m) (ch_h k12) (mv_f k12 0) [2; 1]%nat) c =
  match c with 0%nat | 1%nat => acol (- sin (PI / 4 + 0)) 0 (cos (PI / 4 + 0)) | 2%nat => acol 0 1 0 | _ => zero6 end.
Proof. rewrite (kin_sc ky_m ce_m). apply ce_jac. Qed.
Lemma lz_path1 : path (ch_t 0 2) 1 [(1, 0)]%nat.
Proof. apply (path_step 0 _ 1 (ch_t 1 1) 1 []); [now left | constructor]. Qed.
Lemma lz_jac1_0 c : (0 < c)%nat -> k_jac (kin_of (ch_sc ky_m) (ch_h k12) (mv_f k12 0) [1]%nat) c = zero6.
Proof.
  intros Hc. rewrite (kin_sc ky_m ce_m).
  rewrite ce_k1. cbn [stepk k_jac kin0 fst snd bpose]. rewrite adjoint_eye, mv6_zero6, v6add_0_l. unfold slice_col.
  replace (c <? 1)%nat with false by (symmetry; apply Nat.ltb_ge; lia). rewrite andb_false_r. reflexivity.
Qed.
Lemma lz_St1 a : lz_St a 0 1%nat = attr wm (kin_of (ch_sc ky_m) (ch_h k12) (mv_f k12 0) [1]%nat).
Proof. rewrite <- (lz_0 a). exact (proj2 (lz_world a 0) _ _ lz_path1). Qed.
Lemma lz_St2 a : lz_St a 0 2%nat = attr wm (kin_of (ch_sc ky_m) (ch_h k12) (mv_f k12 0) [2; 1]%nat).
Proof. rewrite <- (lz_0 a). exact (proj2 (lz_world a 0) _ _ ce_path). Qed.

Lemma solve3 (A B : mat) (b : nat -> R) : meq 3%nat (mmn 3%nat A B) unit_mat -> forall k, (k < 3)%nat -> sumR 3%nat (fun l => A k l * sumR 3%nat (fun j => B l j * b j)) = b k.
Proof.
  intros HI k Hk. assert (E : sumR 3%nat (fun l => A k l * sumR 3%nat (fun j => B l j * b j)) = sumR 3%nat (fun j => mmn 3%nat A B k j * b j)).
  { unfold mmn. cbn [sumR]. ring. }
  rewrite E. rewrite (sumR_ext 3%nat _ (fun j => unit_mat k j * b j)) by (intros j Hj; rewrite HI by lia; reflexivity).
  unfold unit_mat. destruct k as [ | [ | [ | k]]]; [ | | | lia]; cbn; ring.
Qed.
Lemma quad3_0 (A : mat) (x : nat -> R) : veq 3%nat (mvn 3%nat A x) vzero -> quad 3%nat x A x = 0.
Proof.
  intros Z. unfold quad. rewrite (sumR_ext 3%nat _ (fun k => x k * mvn 3%nat A x k)).
  - rewrite (sumR_ext 3%nat _ (fun _ => 0)); [cbn; ring | ]. intros k Hk. rewrite (Z k Hk). unfold vzero. ring.
  - intros k Hk. unfold mvn. rewrite <- sumR_scal. apply sumR_ext. intros; ring.
Qed.
(** the accelerations exist *)
Lemma lz_solve (b : nat -> R) : exists a : nat -> R, forall k, (k < 3)%nat -> sumR 3%nat (fun l => d_mass (lz_D (fun _ => 0) 0) k l * a l) = b k.
Proof.
  assert (HI := gauss_inv_spec 3%nat (d_mass (lz_D (fun _ => 0) 0))). destruct (gauss_inv 3%nat _) as [B | ].
  - destruct HI as (HI & _). exists (fun l => sumR 3%nat (fun j => B l j * b j)). exact (solve3 _ _ b HI).
  - exfalso. destruct HI as (x & Nz & Z). apply Nz.
    destruct (C43_mass_matrix (ch_e k12) (ch_sc ky_m) (ch_h k12) (ch_t 0 2) (lz_f (fun _ => 0) 0) 10 (fun _ => no_attr) k12_ready (ch_rigid k12 2 ky_m _ _ k12_nofree) ltac:(cbn; lia)) as (sd & d & E & _ & _ & Df & _).
    { intros b' _. destruct wm_mass as (Q1 & Q2 & _). split; [exact Q1 | ]. intros u. cbn [ch_sc b_mass]. unfold ky_m. destruct (v6_dec0 u) as [-> | N]; [rewrite mv6_zero6; unf; lra | left; apply Q2; exact N]. }
    assert (E' : lz_upd (fun _ => 0) 0 = Ok (sd, d)) by exact E. rewrite (proj1 (lz_world _ _)) in E'. injection E' as <- <-. change (w_ndof (ch_h k12)) with 3%nat in Df.
    assert (Q0 := quad3_0 _ _ Z).
    assert (Dw : forall u, dot6 u (mv6 wm u) = 0 -> u = zero6).
    { intros u Hu. destruct (v6_dec0 u) as [-> | N]; [reflexivity | ]. destruct wm_mass as (_ & Q2 & _). specialize (Q2 u N). lra. }
    assert (D1 := Df x 1%nat _ Q0 (or_introl eq_refl) Dw (f_equal a_jac (lz_St1 _))). assert (D2 := Df x 2%nat _ Q0 (or_intror (or_introl eq_refl)) Dw (f_equal a_jac (lz_St2 _))).
    cbn [sum6] in D1, D2. rewrite lz_jac1, !lz_jac1_0 in D1 by lia. rewrite !lz_jac2 in D2.
    assert (P1 := proj1 sc_pos). apply (f_equal ang) in D1, D2. unfold acol, e6, v6of in D1, D2. cbn [Nat.eqb] in D1. revert D1 D2. unf. intros D1 D2. injection D1 as _ _ D1. injection D2 as D2a D2b _.
    assert (X0 : x 0%nat = 0) by lra. rewrite X0 in D2a.
    assert (X1 : x 1%nat = 0). { assert (Q : x 1%nat * sin (PI / 4 + 0) = 0) by lra. apply Rmult_integral in Q. destruct Q; [assumption | lra]. }
    assert (X2 : x 2%nat = 0) by lra.
    intros k Hk. unfold vzero. destruct k as [ | [ | [ | k]]]; [assumption | assumption | assumption | lia].
Qed.
Lemma lz_pose1 : SE3 (k_pose (kin_of (ch_sc ky_m) (ch_h k12) (mv_f k12 0) [1]%nat)).
Proof. rewrite <- (lz_0 (fun _ => 0)). exact (kin_SE3 (ch_e k12) (ch_sc ky_m) (ch_h k12) (ch_t 0 2) (lz_f (fun _ => 0)) 0 k12_ready (proj1 (ch_rigid k12 2 ky_m (lz_q (fun _ => 0) 0) (fun j i => 1) k12_nofree)) (lz_motion _) 0 _ _ lz_path1). Qed.
Lemma lz_pose2 : k_pose (kin_of (ch_sc ky_m) (ch_h k12) (mv_f k12 0) [2; 1]%nat) = mm4 (k_pose (kin_of (ch_sc ky_m) (ch_h k12) (mv_f k12 0) [1]%nat)) (Model_Joints.pose (mv_f k12 0 2%nat)).
Proof. rewrite !(kin_sc ky_m ce_m). rewrite ce_k2. cbn [stepk k_pose]. rewrite rel_bodies. reflexivity. Qed.
Lemma lz_tw js : (forall j, In j js -> j = 1 \/ j = 2)%nat -> k_twist (kin_of (ch_sc ky_m) (ch_h k12) (mv_f k12 0) js) = sum6 3 (fun c => v6scal 1 (k_jac (kin_of (ch_sc ky_m) (ch_h k12) (mv_f k12 0) js) c)).
Proof.
  intros H. apply (kin_twist (ch_e k12) (ch_sc ky_m) (ch_h k12) (ch_t 0 2) (mv_f k12 0) (fun _ => 1) k12_ready (ch_rigid k12 2 ky_m _ _ k12_nofree)).
  - intros j s d _ _ i _. reflexivity.
  - intros j J. destruct (H j J) as [-> | ->]; cbn; auto.
Qed.
Lemma lz_tw1 : k_twist (kin_of (ch_sc ky_m) (ch_h k12) (mv_f k12 0) [1]%nat) = e6 2.
Proof. rewrite lz_tw by (intros j [<- | []]; auto). cbn [sum6]. rewrite lz_jac1, !lz_jac1_0 by lia. unfold e6, v6of. cbn [Nat.eqb]. lin. Qed.
Lemma lz_tw2 : k_twist (kin_of (ch_sc ky_m) (ch_h k12) (mv_f k12 0) [2; 1]%nat) = acol (- (2 * sin (PI / 4 + 0))) 1 (2 * cos (PI / 4 + 0)).
Proof. rewrite lz_tw by (intros j [<- | [<- | []]]; auto). cbn [sum6]. rewrite !lz_jac2. unfold acol. lin. Qed.
Lemma error_0 j P P0 : joint_error j P P0 zero6 = zero6.
Proof. unfold joint_error. rewrite !mv6_zero6. reflexivity. Qed.
Lemma lz_error P1 : SE3 P1 -> joint_error (mv_f k12 0 2%nat) (mm4 P1 (Model_Joints.pose (mv_f k12 0 2%nat))) P1 (e6 2) = acol 0 (2 * sin (PI / 4 + 0) * cos (PI / 4 + 0)) 0.
Proof.
  intros S1. unfold joint_error. assert (Sp : SE3 (Model_Joints.pose (mv_f k12 0 2%nat))) by (apply pose_SE3; intros E; discriminate).
  rewrite inv_mm4 by assumption. rewrite <- mm4_assoc, inv_l, mm4_1_r by assumption.
  unfold twist_error. rewrite twist_sum. unfold mv_f, ch_J, Model_Joints.pose, k12, rotzy, jacobian, e6, v6of, acol. cbn [nth jt gpos gvel ndof_of sum6 mv_q Nat.eqb]. cbv zeta. rewrite sin_0, cos_0.
  assert (Q := sin2_cos2 (PI / 4 + 0)). unfold Rsqr in Q. set (s := sin _) in *. set (d := cos _) in *. clearbody s d.
  unf. f_equal; f_equal; ring.
Qed.

Lemma lz_js1 js : above (ch_t 0 2) 1 js -> js = [1]%nat.
Proof. intros (ps & P & ->). rewrite (path_fun _ _ _ lz_path1 (proj1 (proj2 (proj2 k12_ready))) _ P). reflexivity. Qed.
Lemma lz_js2 js : above (ch_t 0 2) 2 js -> js = [2; 1]%nat.
Proof. intros (ps & P & ->). rewrite (path_fun _ _ _ ce_path (proj1 (proj2 (proj2 k12_ready))) _ P). reflexivity. Qed.
Lemma lz_upd0 a : lz_St a 0 = lz_St (fun _ => 0) 0 /\ lz_D a 0 = lz_D (fun _ => 0) 0.
Proof. unfold lz_St, lz_D. rewrite !lz_0. auto. Qed.
Lemma lz_path0 : path (ch_t 0 2) 0 []. Proof. constructor. Qed.
Lemma lz_St0 a : lz_St a 0 0%nat = attr wm kin0.
Proof. rewrite (proj2 (lz_world a 0) _ _ lz_path0). reflexivity. Qed.
Lemma tw_body e sc (st : store) b T m k : st b = attr m k -> frame_twist e sc st (FBody b) = Ok T -> T = k_twist k.
Proof. intros E H. unfold frame_twist in H. rewrite E in H. cbn [attr a_twist Model_Dyn.get] in H. apply Ok_eq in H. now symmetry. Qed.
Lemma ps_body e sc (st : store) b P m k : st b = attr m k -> frame_pose e sc st (FBody b) = Ok P -> P = k_pose k.
Proof. intros E H. unfold frame_pose in H. cbn [frame_body] in H. rewrite E in H. cbn [attr a_pose Model_Dyn.get rbind] in H. apply Ok_eq in H. now symmetry. Qed.
Lemma fr_two (o : option (frame * frame)) f0 f1 g0 g1 : o = Some (g0, g1) -> o = Some (f0, f1) -> f0 = g0.
Proof. intros E. rewrite E. intros H. injection H as <- _. reflexivity. Qed.
Section Lost.
Variables (e : env) (sc : scene) (h : @heap R) (t : tree) (J : nat -> jstate) (st : store) (m : m6) (k1 k2 : kin).
Hypotheses (F1 : exists g, jframes h 1%nat = Some (FBody 0, g)) (F2 : exists g, jframes h 2%nat = Some (FBody 1, g))
  (S0 : st 0%nat = attr m kin0) (S1 : st 1%nat = attr m k1) (S2 : st 2%nat = attr m k2)
  (A1 : forall js, above t 1 js -> js = [1]%nat) (A2 : forall js, above t 2 js -> js = [2; 1]%nat).
Lemma lo_X1 P P0 f0 f1 T0 : jframes h 1%nat = Some (f0, f1) -> frame_twist e sc st f0 = Ok T0 -> joint_error (J 1%nat) P P0 T0 = zero6.
Proof.
  intros Ef ET. destruct F1 as (g & Eg). rewrite (fr_two _ _ _ _ _ Eg Ef) in ET. rewrite (tw_body _ _ _ _ _ _ _ S0 ET). apply error_0.
Qed.
Lemma lo_W1 W : lost_acceleration e sc h t J st (FBody 1) W -> W = zero6.
Proof.
  intros (P1 & js1 & Y1 & EP1 & Ab1 & EW1 & HX1). cbn [frame_body] in Ab1. rewrite (A1 _ Ab1) in EW1, HX1. rewrite EW1. cbn [map v6suml fold_right].
  destruct (HX1 1%nat (or_introl eq_refl)) as (f0 & f1 & Pa & Ta & Ef & _ & ETa & EYa). rewrite EYa, (lo_X1 P1 Pa f0 f1 Ta Ef ETa). apply v6add_0_l.
Qed.
Lemma lo_W2 W : lost_acceleration e sc h t J st (FBody 2) W -> W = joint_error (J 2%nat) (k_pose k2) (k_pose k1) (k_twist k1).
Proof.
  intros (P2 & js2 & Y2 & EP2 & Ab2 & EW2 & HX2). cbn [frame_body] in Ab2. rewrite (A2 _ Ab2) in EW2, HX2. rewrite EW2. cbn [map v6suml fold_right].
  destruct (HX2 1%nat (or_intror (or_introl eq_refl))) as (f0 & f1 & Pa & Ta & Ef & _ & ETa & EYa). rewrite EYa, (lo_X1 P2 Pa f0 f1 Ta Ef ETa). rewrite !v6add_0_r. clear f0 f1 Pa Ta Ef ETa EYa.
  destruct (HX2 2%nat (or_introl eq_refl)) as (f0 & f1 & Pa & Ta & Ef & EPa & ETa & EY). rewrite EY. destruct F2 as (g & Eg). rewrite (fr_two _ _ _ _ _ Eg Ef) in *.
  rewrite (ps_body _ _ _ _ _ _ _ S2 EP2), (ps_body _ _ _ _ _ _ _ S1 EPa), (tw_body _ _ _ _ _ _ _ S1 ETa). reflexivity.
Qed.
End Lost.
Notation lz_lost a b W := (lost_acceleration (ch_e k12) (ch_sc ky_m) (ch_h k12) (ch_t 0 2) (lz_f a 0) (lz_St a 0) (FBody b) W).
Lemma lz_W1 a W : lz_lost a 1%nat W -> W = zero6.
Proof.
  exact (lo_W1 (ch_e k12) (ch_sc ky_m) (ch_h k12) (ch_t 0 2) (lz_f a 0) (lz_St a 0) wm (ex_intro _ _ k12_frames1) (lz_St0 a) lz_js1 W).
Qed.
Lemma lz_W2 a W : lz_lost a 2%nat W -> W = acol 0 (2 * sin (PI / 4 + 0) * cos (PI / 4 + 0)) 0.
Proof.
  intros L. assert (X := lo_W2 (ch_e k12) (ch_sc ky_m) (ch_h k12) (ch_t 0 2) (lz_f a 0) (lz_St a 0) wm _ _ (ex_intro _ _ k12_frames1) (ex_intro _ _ k12_frames2) (lz_St0 a) (lz_St1 a) (lz_St2 a) lz_js2 W L).
  rewrite lz_tw1, lz_pose2, lz_0 in X. rewrite X. apply lz_error, lz_pose1.
Qed.
Lemma lz_T2 a T : frame_twist (ch_e k12) (ch_sc ky_m) (lz_St a 0) (FBody 2) = Ok T -> T = acol (- (2 * sin (PI / 4 + 0))) 1 (2 * cos (PI / 4 + 0)).
Proof. intros E. rewrite <- lz_tw2. exact (tw_body _ _ _ _ _ _ _ (lz_St2 a) E). Qed.
Lemma lz_W a T W : (forall b, In b (bodies (ch_t 0 2)) -> frame_twist (ch_e k12) (ch_sc ky_m) (lz_St a 0) (FBody b) = Ok (T b) /\ lz_lost a b (W b)) ->
  sumlist (fun b => dot6 (T b) (mv6 (b_mass (ch_sc ky_m) b) (W b)) - gyro_power 1 zero3 (T b)) (tl (bodies (ch_t 0 2))) = 6 * (sin (PI / 4 + 0) * cos (PI / 4 + 0)).
Proof.
  intros H. change (tl (bodies (ch_t 0 2))) with [1; 2]%nat. cbn [sumlist ch_sc b_mass]. unfold ky_m.
  destruct (H 1%nat ltac:(cbn; auto)) as (_ & L1). destruct (H 2%nat ltac:(cbn; auto)) as (ET2 & L2). clear H.
  rewrite (lz_W1 a _ L1), (lz_W2 a _ L2), (lz_T2 a _ ET2), mv6_zero6. clear. unfold gyro_power. destruct (Rle_dec 1 (1 / 10000000000)) as [L | _]; [lra | ].
  unfold wm, rigid_mass, acol. generalize (T 1%nat) (sin (PI / 4 + 0)) (cos (PI / 4 + 0)). clear. intros [[] []] x y. unf. ring.
Qed.

(** The mechanical energy recorded by EnergyMonitor does not follow the viscous dissipation. *)
Theorem C63_energy_refuted : exists eigvals eig e sc h t f s fuel st (St : R -> store) (D : R -> wdyn) (x : R -> wst) (v : R -> nat -> R) a m c I0,
  ready e h t /\ rigid_scene e sc t (f s) /\ world_motion t f s /\ (height t < fuel)%nat /\
  (forall u, world_update_dynamic e sc h (f u) fuel st = Ok (St u, D u)) /\ world_velocity e h t (f s) (v s) /\
  (forall k, (k < w_ndof h)%nat -> derivable_pt_lim (fun u => v u k) s (a k)) /\
  (forall u, same_tree e h t (x u) /\ s_dyn (x u) = D u /\ forall k, (k < w_ndof h)%nat -> gvel_vec (s_heap (x u)) k = v u k) /\
  solids eigvals eig sc t m c I0 /\ (forall b, In b (tl (bodies t)) -> 1 / 10000000000 < m b) /\
  exists o w gforce (E : R -> R),
    em_init eigvals eig e sc fuel h = Ok o /\
    wc_init e sc fuel h (- (981 / 100)) = Ok w /\ wc_update sc (St s) w = Ok (gforce, mzero) /\
    (forall u o', em_com o' = em_com o -> exists o'', em_update e sc fuel (x u) (St u) o' = Ok o'' /\ em_mech o'' = em_mech o' ++ [E u] /\ em_com o'' = em_com o) /\
    (forall k, (k < w_ndof h)%nat -> sumR (w_ndof h) (fun l => d_mass (D s) k l * a l) +
        sumR (w_ndof h) (fun l => (d_nle (D s) k l + d_visc (D s) k l) * v s l) = gforce k) /\
    ~ derivable_pt_lim E s (- quad (w_ndof h) (v s) (d_visc (D s)) (v s)).
Proof.
  assert (G : forall a, exists o w gforce (E : R -> R) T W,
    em_init ky_eigvals ky_eig (ch_e k12) (ch_sc ky_m) 10 (ch_h k12) = Ok o /\
    wc_init (ch_e k12) (ch_sc ky_m) 10 (ch_h k12) (- (981 / 100)) = Ok w /\ wc_update (ch_sc ky_m) (lz_St a 0) w = Ok (gforce, mzero) /\
    (forall u o', em_com o' = em_com o -> exists o'', em_update (ch_e k12) (ch_sc ky_m) 10 (lz_x a u) (lz_St a u) o' = Ok o'' /\ em_mech o'' = em_mech o' ++ [E u] /\ em_com o'' = em_com o) /\
    (forall b, In b (bodies (ch_t 0 2)) -> frame_twist (ch_e k12) (ch_sc ky_m) (lz_St a 0) (FBody b) = Ok (T b) /\ lost_acceleration (ch_e k12) (ch_sc ky_m) (ch_h k12) (ch_t 0 2) (lz_f a 0) (lz_St a 0) (FBody b) (W b)) /\
    ((forall k, (k < 3)%nat -> sumR 3%nat (fun l => d_mass (lz_D a 0) k l * a l) + sumR 3%nat (fun l => (d_nle (lz_D a 0) k l + d_visc (lz_D a 0) k l) * lz_v a 0 l) = gforce k) ->
     derivable_pt_lim E 0 (- quad 3%nat (lz_v a 0) (d_visc (lz_D a 0)) (lz_v a 0) +
       sumlist (fun b => dot6 (T b) (mv6 (b_mass (ch_sc ky_m) b) (W b)) - gyro_power 1 zero3 (T b)) (tl (bodies (ch_t 0 2)))))).
  { intros a. apply (C63_energy_balance ky_eigvals ky_eig (ch_e k12) (ch_sc ky_m) (ch_h k12) (ch_t 0 2) (lz_f a) 0 10 (fun _ => no_attr) (lz_St a) (lz_D a) (lz_x a) (lz_v a) a (fun _ => 1) (fun _ => zero3) (fun _ => M3 2 0 0 0 3 0 0 0 4)).
    - exact k12_ready.
    - apply ch_rigid, k12_nofree.
    - apply lz_motion.
    - cbn. lia.
    - intros u. exact (lz_run a u).
    - intros j s d Ij Ed i Hi. cbn in Ij. destruct Ij as [<- | [<- | []]]; [rewrite k12_dof1 in Ed | rewrite k12_dof2 in Ed]; injection Ed as <- <-.
      + change (jndof (ch_e k12) 1) with 1%nat in Hi. replace i with 0%nat by lia. reflexivity.
      + reflexivity.
    - intros k _. unfold lz_v. eapply dconv; [apply Dplus; [apply Dconst | apply Dscal, Did] | ring].
    - intros u. split; [apply lz_tree | ]. split; [reflexivity | ]. intros k Hk. apply lz_vel. exact Hk.
    - exact lz_solids. }
  destruct (G (fun _ => 0)) as (o0 & w0 & gf & _ & _ & _ & _ & Ew0 & Eu0 & _).
  destruct (lz_solve (fun k => gf k - sumR 3%nat (fun l => (d_nle (lz_D (fun _ => 0) 0) k l + d_visc (lz_D (fun _ => 0) 0) k l) * 1))) as (a & Ha).
  destruct (G a) as (o & w & gf' & E & T & W & Eo & Ew & Eu & Up & HTW & DE). clear G.
  rewrite Ew0 in Ew. injection Ew as <-. destruct (lz_upd0 a) as (ES & ED). assert (Eg : gf' = gf) by (rewrite ES, Eu0 in Eu; congruence). subst gf'. rewrite (lz_W a T W HTW) in DE.
  exists ky_eigvals, ky_eig, (ch_e k12), (ch_sc ky_m), (ch_h k12), (ch_t 0 2), (lz_f a), 0, 10%nat, (fun _ => no_attr), (lz_St a), (lz_D a), (lz_x a), (lz_v a), a, (fun _ => 1), (fun _ => zero3), (fun _ => M3 2 0 0 0 3 0 0 0 4).
  split; [exact k12_ready | ]. split; [apply ch_rigid, k12_nofree | ]. split; [apply lz_motion | ]. split; [cbn; lia | ]. split; [intros u; exact (lz_run a u) | ].
  split.
  { intros j s d Ij Ed i Hi. cbn in Ij. destruct Ij as [<- | [<- | []]]; [rewrite k12_dof1 in Ed | rewrite k12_dof2 in Ed]; injection Ed as <- <-.
    - change (jndof (ch_e k12) 1) with 1%nat in Hi. replace i with 0%nat by lia. reflexivity.
    - reflexivity. }
  split; [intros k _; unfold lz_v; eapply dconv; [apply Dplus; [apply Dconst | apply Dscal, Did] | ring] | ].
  split; [intros u; split; [apply lz_tree | ]; split; [reflexivity | ]; intros k Hk; apply lz_vel; exact Hk | ].
  split; [exact lz_solids | ]. split; [intros b _; lra | ].
  assert (Eq : forall k, (k < 3)%nat -> sumR 3%nat (fun l => d_mass (lz_D a 0) k l * a l) + sumR 3%nat (fun l => (d_nle (lz_D a 0) k l + d_visc (lz_D a 0) k l) * lz_v a 0 l) = gf k).
  { intros k Hk. rewrite ED, (Ha k Hk). assert (V1 : forall l, lz_v a 0 l = 1) by (intros l; unfold lz_v; ring).
    rewrite (sumR_ext 3%nat (fun l => _ * lz_v a 0 l) (fun l => (d_nle (lz_D (fun _ => 0) 0) k l + d_visc (lz_D (fun _ => 0) 0) k l) * 1)) by (intros l _; rewrite V1; reflexivity).
    match goal with |- ?x - ?y + ?y' = ?z => generalize y; intros; lra end. }
  exists o, w0, gf, E. split; [exact Eo | ]. split; [exact Ew0 | ]. split; [exact Eu | ]. split; [exact Up | ]. split; [exact Eq | ].
  intros Bad. assert (X := uniqueness_limite _ _ _ _ (DE Eq) Bad). destruct sc_pos as (P1 & P2). assert (P := Rmult_lt_0_compat _ _ P1 P2).
  change (w_ndof (ch_h k12)) with 3%nat in X. revert X. match goal with |- - ?q + _ = - ?q' -> _ => change q' with q; generalize q end. intros q X. lra.
Qed.
