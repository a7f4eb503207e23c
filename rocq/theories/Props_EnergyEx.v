(** A falling body: the hypotheses of Props_Energy are met.  A massless world meets those of C61. *)
From Verif Require Import Spec_Ctl Proof_Tree Proof_World Proof_Dofs Proof_Linalg Proof_Deriv Proof_SE3 Proof_Joints Proof_Dyn Proof_Dyn2 Proof_Matrix Proof_Step Proof_Mass.
From Verif Require Import Props_World Props_Dyn Props_DynEx Props_Mass Props_Step Proof_Ctl Props_Weight Props_Energy.
From Coq Require Import Lra.

(** one body sliding along the vertical axis y, in a viscous medium; it falls with acceleration
    -9.81 - v *)
Definition ky := [TyJoint].
Lemma ky_ready : ready (ch_e ky) (ch_h ky) (ch_t 0 1). Proof. ch_ready. Qed.
Lemma ky_nofree : Forall (fun k => k <> FreeJoint) ky. Proof. repeat constructor; discriminate. Qed.
Definition ky_m (b : nat) : m6 := wm.
Definition ky_q (u : R) (j i : nat) : R := u - (981 / 100 + 1) * (u * u) / 2.
Definition ky_v (u : R) (j : nat) (i : nat) : R := 1 - (981 / 100 + 1) * u.
Definition ky_f (u : R) : nat -> jstate := ch_J ky (ky_q u) (ky_v u).
Definition ky_upd u := world_update_dynamic (ch_e ky) (ch_sc ky_m) (ch_h ky) (ky_f u) 10 (fun _ => no_attr).
Definition ky_St u : store := match ky_upd u with Ok x => fst x | Err _ => fun _ => no_attr end.
Definition ky_D u : wdyn := match ky_upd u with Ok x => snd x | Err _ => wdyn0 end.
(** the world at time u: the velocity is written through the API *)
Definition ky_x (u : R) : wst :=
  WS (run 0 (ch_e ky) 10 (ch_ops ky ++ [WriteGvel 1 0 (ky_v u 1 0)])%nat (fresh (ch_e ky) (fun _ _ => 1))) (fun j => jt (ky_f u j)) (fun _ => eye4) (ky_q u) (ky_D u) vzero mzero mzero u.

Lemma ky_kin u : kin_of (ch_sc ky_m) (ch_h ky) (ky_f u) [1]%nat = stepk (ch_sc ky_m) (ch_h ky) (ky_f u 1%nat) (0, 1)%nat (FBody 0) (FBody 1) kin0.
Proof. unfold kin_of. cbn [fold_right]. unfold stepj. change (jframes (ch_h ky) 1) with (Some (FBody 0, FBody 1)). change (jdof (ch_h ky) 1) with (Some (0, 1)%nat). reflexivity. Qed.
Definition ey : v6 := V6 zero3 (V3 0 1 0).
Lemma ky_jac u : k_jac (kin_of (ch_sc ky_m) (ch_h ky) (ky_f u) [1]%nat) 0%nat = ey.
Proof. rewrite ky_kin. cbn [stepk k_jac kin0 fst snd bpose]. rewrite adjoint_eye, mv6_zero6, v6add_0_l. unfold slice_col. cbn [Nat.leb Nat.ltb andb Nat.sub]. apply mv6_1. Qed.
Lemma ky_djac u : k_djac (kin_of (ch_sc ky_m) (ch_h ky) (ky_f u) [1]%nat) 0%nat = zero6.
Proof. rewrite ky_kin. cbn [stepk k_djac k_jac kin0 fst snd bpose]. rewrite adjoint_eye, !mv6_zero6, !v6add_0_l. unfold slice_col. cbn [Nat.leb Nat.ltb andb Nat.sub]. apply mv6_1. Qed.
Lemma ky_path : path (ch_t 0 1) 1 [(1, 0)]%nat.
Proof. apply (path_step 0 _ 1 (ch_t 1 0) 1 []); [now left | constructor]. Qed.
Lemma ky_world u : ky_upd u = Ok (ky_St u, ky_D u) /\
  ky_St u 1%nat = attr wm (kin_of (ch_sc ky_m) (ch_h ky) (ky_f u) [1]%nat) /\
  d_mass (ky_D u) 0%nat 0%nat = 1 /\ d_visc (ky_D u) 0%nat 0%nat = 1 /\ d_nle (ky_D u) 0%nat 0%nat = 0.
Proof.
  destruct (world_ok _ _ _ _ (ky_f u) 10 (fun _ => no_attr) ky_ready (ch_rigid ky 1 ky_m (ky_q u) (ky_v u) ky_nofree)) as (sd & d & E & P & _ & Md & Vd & Nd); [cbn; lia | ].
  fold (ky_upd u) in E. unfold ky_St, ky_D. rewrite E. cbn [fst snd]. split; [reflexivity | ].
  assert (S1 := P _ _ ky_path). cbn [map fst] in S1. split; [exact S1 | ].
  rewrite Md, Vd, Nd. change (tl (bodies (ch_t 0 1))) with [1]%nat. cbn [suml map fold_right].
  rewrite (kin_at_attr _ _ _ _ S1). unfold congr. rewrite ky_jac, ky_djac. cbn [ch_sc b_mass b_visc]. change (ky_m 1) with wm.
  assert (T : ang (k_twist (kin_of (ch_sc ky_m) (ch_h ky) (ky_f u) [1]%nat)) = zero3).
  { rewrite ky_kin. cbn [stepk k_twist kin0 bpose]. rewrite adjoint_eye, mv6_zero6, v6add_0_l, mv6_1. rewrite twist_sum.
    unfold ky_f, ch_J, jacobian, ky. cbn [nth jt gvel ndof_of sum6]. unfold e6, v6of. cbn [Nat.eqb]. generalize (ky_v u 1%nat 0%nat). clear. intros z. unf. f_equal; ring. }
  split; [unfold ey, wm, rigid_mass; unf; ring | ]. split; [unfold ey, eye6; unf; ring | ].
  unfold body_nle. rewrite T. generalize (if Rle_dec (m22 (ll wm)) (1 / 10000000000) then zerom3 else mscal (/ m22 (ll wm)) (al wm)). intros [r1 r2 r3 r4 r5 r6 r7 r8 r9]. unfold ey, wm, rigid_mass. unf. ring.
Qed.
Definition ky_eigvals (_ : m6) : list R := [1; 2; 3; 4].
Definition ky_eig (_ : m3) : v3 * m3 := (V3 2 3 4, eye3).
Lemma ky_solids : solids ky_eigvals ky_eig (ch_sc ky_m) (ch_t 0 1) (fun _ => 1) (fun _ => zero3) (fun _ => M3 2 0 0 0 3 0 0 0 4).
Proof.
  intros b _. split; [reflexivity | ]. split; [reflexivity | ]. split; [exact wm_mass | ]. split; [exact wm_eig | ].
  split; cbn [fst snd ky_eig]; unfold diag3; lin.
Qed.
Lemma ky_motion : world_motion (ch_t 0 1) ky_f 0.
Proof.
  intros j Ij. assert (N : jt (ky_f 0 j) <> FreeJoint).
  { cbn in Ij. destruct Ij as [<- | []]. discriminate. }
  split; [intros s; split; [reflexivity | intros E; contradiction (N E)] | ].
  split; [intros E; contradiction (N E) | ]. intros _ i _. cbn [ky_f ch_J gpos gvel]. unfold ky_q, ky_v.
  eapply dconv; [apply (Dminus (fun u => u) (fun u => (981 / 100 + 1) * (u * u) / 2)); [apply Did | ] | ].
  - eapply dext with (f := fun u => ((981 / 100 + 1) / 2) * (u * u)); [intros; field | ]. apply Dscal. apply (Dmult (fun u => u) (fun u => u)); apply Did.
  - field.
Qed.
Lemma ky_tree u : same_tree (ch_e ky) (ch_h ky) (ch_t 0 1) (ky_x u).
Proof.
  split; [ | reflexivity]. cbn [ky_x s_heap].
  repeat (constructor; [reflexivity | ]; constructor;
      [split; [split; [do 2 eexists; split; [reflexivity | split; reflexivity] | reflexivity] | cbn [snd]] | constructor]); constructor; [reflexivity | constructor].
Qed.

Example C63_witness : exists o w gforce (E : R -> R),
  em_init ky_eigvals ky_eig (ch_e ky) (ch_sc ky_m) 10 (ch_h ky) = Ok o /\
  wc_init (ch_e ky) (ch_sc ky_m) 10 (ch_h ky) (- (981 / 100)) = Ok w /\ wc_update (ch_sc ky_m) (ky_St 0) w = Ok (gforce, mzero) /\
  gforce 0%nat = - (981 / 100) /\
  (forall u o', em_com o' = em_com o -> exists o'', em_update (ch_e ky) (ch_sc ky_m) 10 (ky_x u) (ky_St u) o' = Ok o'' /\ em_mech o'' = em_mech o' ++ [E u] /\ em_com o'' = em_com o) /\
  (* rate of dissipation: 1 * v^2 with v = 1 *)
  derivable_pt_lim E 0 (- 1).
Proof.
  destruct (C63_energy_balance_partial ky_eigvals ky_eig (ch_e ky) (ch_sc ky_m) (ch_h ky) (ch_t 0 1) ky_f 0 10 (fun _ => no_attr) ky_St ky_D ky_x
    (fun u _ => ky_v u 1 0) (fun _ => - (981 / 100 + 1)) (fun _ => 1) (fun _ => zero3) (fun _ => M3 2 0 0 0 3 0 0 0 4)) as (o & w & gf & E & Eo & Ew & Eu & Up & DE).
  - exact ky_ready.
  - apply ch_rigid. exact ky_nofree.
  - exact ky_motion.
  - cbn. lia.
  - intros u. apply ky_world.
  - intros j s d _ _ i _. reflexivity.
  - intros k _. unfold ky_v. eapply dconv; [apply (Dminus (fun _ => 1) (fun u => (981 / 100 + 1) * u)); [apply Dconst | apply Dscal, Did] | ring].
  - intros u. split; [apply ky_tree | ]. split; [reflexivity | ]. change (w_ndof (ch_h ky)) with 1%nat. intros k Hk. destruct k; [reflexivity | lia].
  - exact ky_solids.
  - intros b _. lra.
  - intros b js Ib (ps & P & ->) l1 j l2 El. left. cbn in Ib. destruct Ib as [<- | []].
    cbn [ch_t] in P. inversion P as [ | ? ? j' s' ? ps' Ij P' E1 E2]; subst. destruct Ij as [Ij | []]. injection Ij as <- <-.
    inversion P' as [ | ? ? j'' s'' ? ps'' Ij' P'' E3 E4]; subst; [ | destruct Ij']. cbn in El.
    destruct l1 as [ | ? l1]; [injection El as <- _; exact Logic.I | injection El as _ El; destruct l1; discriminate].
  - exists o, w, gf, E. split; [exact Eo | ]. split; [exact Ew | ]. split; [exact Eu | ].
    destruct (ky_world 0) as (_ & S1 & M1 & V1 & N1).
    assert (G : gf 0%nat = - (981 / 100)).
    { revert Ew Eu. unfold wc_init. change (iter_descendant_bodies (ch_e ky) 10 (ch_h ky) (ground (ch_e ky))) with (@Ok (list nat) [1%nat]). cbn [rbind filter].
      replace (existsb (fun x => Rltb 0 x) (list6 (b_mass (ch_sc ky_m) 1))) with true.
      2:{ symmetry. apply existsb_exists. exists 2. split; [left; reflexivity | apply Rltb_true; lra]. }
      intros Ew. injection Ew as <-. unfold wc_update. cbn [wc_bodies wc_dtwist wc_imp wc_loop]. rewrite S1. cbn [attr a_pose a_jac Model_Dyn.get rbind].
      assert (EP : k_pose (kin_of (ch_sc ky_m) (ch_h ky) (ky_f 0) [1]%nat) = transl 0 0 0).
      { rewrite ky_kin. cbn [stepk k_pose kin0]. rewrite rel_bodies, mm4_1_l. unfold ky_f, ch_J, ky, pose, ky_q, transl. cbn [nth jt gpos]. f_equal; f_equal; lra. }
      rewrite EP, iadjoint_ok by apply transl_SE3. cbn [rbind].
      intros H. apply (f_equal (fun r => match r with Ok a => fst a 0%nat | Err _ => 0 end)) in H. cbn [fst] in H. rewrite <- H. rewrite ky_jac. cbn [ch_sc b_mass]. change (ky_m 1) with wm. unfold vzero, ey, wm, rigid_mass, world_up, iadjoint_, transl. unf. ring. }
    split; [exact G | ]. split; [exact Up | ]. eapply dconv; [apply DE | ].
    + change (w_ndof (ch_h ky)) with 1%nat. intros k Hk. assert (k = 0)%nat as -> by lia. cbn [sumR]. rewrite M1, V1, N1, G. unfold ky_v. lra.
    + change (w_ndof (ch_h ky)) with 1%nat. unfold quad. cbn [sumR]. rewrite V1. unfold ky_v. lra.
Qed.

(** default bodies: EnergyMonitor.init raises *)
Example C61_witness : let eigvals := fun _ : m6 => [0] in
  ready (ch_e k12) (ch_h k12) (ch_t 0 2) /\ eigvals_of zerom6 (eigvals zerom6) /\ ismassmatrix eigvals zerom6 true = true /\
  forall eig, em_init eigvals eig (ch_e k12) (ch_sc (fun _ => zerom6)) 10 (ch_h k12) = Err AssertionError.
Proof.
  cbn zeta.
  assert (Ev : eigvals_of zerom6 [0]).
  { intros x. split.
    - intros [<- | []]. exists (V6 zero3 (V3 1 0 0)). split; [intros Z; injection Z as Z; lra | lin].
    - intros (u & N & E). left. destruct (Req_dec x 0) as [-> | Nx]; [reflexivity | exfalso]. apply N. 
      destruct u as [[a1 a2 a3] [b1 b2 b3]]. assert (Q := E). revert Q. unf. intros Q. injection Q as Q1 Q2 Q3 Q4 Q5 Q6.
      assert (Z : forall y, x * y = 0 -> y = 0) by (intros y Hy; destruct (Rmult_integral _ _ Hy); [contradiction | assumption]).
      f_equal; f_equal; apply Z; lra. }
  assert (Rm : zerom6 = rigid_mass 0 zero3 zerom3) by (unfold rigid_mass; unf; entries; ring).
  assert (Pz : psd6 zerom6) by (intros [[x1 x2 x3] [y1 y2 y3]]; unf; lra).
  pose proof (fun eig => C61_energymonitor_massless_refuted (fun _ => [0]) eig (ch_e k12) (ch_sc (fun _ => zerom6)) (ch_h k12) (ch_t 0 2) 10 (fun _ => 0) (fun _ => zero3) (fun _ => zerom3) k12_ready ltac:(cbn; lia)
     (fun b _ => conj Rm (conj eq_refl (conj Pz Ev)))) as HH.
  split; [exact k12_ready | ]. split; [exact Ev | ]. split; [apply (proj1 (HH (fun _ => (zero3, eye3))) 1%nat); cbn; auto | ].
  intros eig. apply (proj2 (proj2 (HH eig))). intros Pd.
  assert (X := Pd 1%nat ltac:(cbn; auto) (V6 zero3 (V3 1 0 0)) ltac:(intros Z; injection Z as Z; lra)). cbn [ch_sc b_mass] in X. revert X. unf. lra.
Qed.
