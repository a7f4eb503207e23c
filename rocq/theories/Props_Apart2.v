(** Two slides on the ground: a world that meets the hypotheses of C103. *)
From Coq Require Import Lra Lia FunctionalExtensionality String.
From Verif Require Import Spec_Apart Proof_Linalg Proof_SE3 Proof_Tree Proof_World Proof_World2 Proof_Dofs Proof_Joints Proof_Dyn Proof_Dyn2 Proof_Matrix Proof_Step Proof_Ctl Proof_Apart Proof_Apart2 Proof_Apart3 Proof_Sim Proof_Sim2 Proof_Sim3 Props_World Props_Mass Props_Weight Props_Step Props_Sim Props_Sim2 Props_Sim3 Props_Resume Props_Apart Props_DynEx Props_Energy Props_EnergyEx Props_Sim4.
Open Scope R_scope.

(** two bodies on slides along y, on the ground *)
Definition ty_e : env := ch_e [TyJoint; TyJoint].
Definition ty_t : tree := Node 0 [(1%nat, Node 1 []); (2%nat, Node 2 [])].
Definition ty_h (v : nat -> R) : @heap R := run 0 ty_e 10 [AddLink (FBody 0) 1 (FBody 1); AddLink (FBody 0) 2 (FBody 2); Init; Register (OController 0)] (fresh ty_e (fun j _ => v j)).
(** masses of the second body *)
Definition ty_m (c : R) (b : nat) : m6 := match b with 2%nat => rigid_mass c zero3 eye3 | _ => wm end.
Definition ty_U (c : R) : setup := SU ty_e (ch_sc (ty_m c)) 10 gauss_inv (fun _ _ => mzero) (fun _ => []) (fun _ _ _ => None) ky_eigvals ky_eig (fun _ => EmptyString).
Definition ty_x (v q : nat -> R) : sim :=
  Sim (W (WV (WS (ty_h v) (fun _ => TyJoint) (fun _ => eye4) (fun j _ => q j) wdyn0 vzero mzero mzero 0) (fun _ => no_attr) []) (fun _ => KWeight (- (981 / 100)) None)) (fun _ => None) (fun _ => MUser (VNum 0)).
Definition ty_P (j : nat) : bool := Nat.eqb j 1.

Lemma ty_rep v : rep ty_e (ty_h v) ty_t.
Proof.
  constructor; [reflexivity | ]. constructor; [split; [split; [do 2 eexists; split; [reflexivity | split; reflexivity] | reflexivity] | constructor; [reflexivity | constructor]] | ].
  constructor; [split; [split; [do 2 eexists; split; [reflexivity | split; reflexivity] | reflexivity] | constructor; [reflexivity | constructor]] | constructor].
Qed.
Lemma ty_reachable v : reachable 0 ty_e (fun j _ => v j) (ty_h v).
Proof.
  unfold ty_h, run. cbn [fold_left]. constructor; [ | exact Logic.I]. constructor; [ | exact Logic.I]. constructor; [constructor; [constructor | ] | ]; cbn [admissible frame_body].
  - intros B. inversion B as [ | ? ? ? ? ? Ij]; subst. cbn in Ij. contradiction.
  - intros B. inversion B as [ | ? ? ? ? ? Ij ? B2]; subst. cbn in Ij. contradiction.
Qed.
Lemma ty_whole : whole_robots ty_t ty_P.
Proof.
  apply (C103_robot ty_t (1%nat, Node 1 []) ty_P); [cbn; repeat (constructor; [cbn; intuition discriminate | ]); constructor | left; reflexivity | ].
  intros j. unfold ty_P. rewrite Nat.eqb_eq. cbn. tauto.
Qed.
Lemma ty_path j : (j = 1 \/ j = 2)%nat -> path ty_t j [(j, 0%nat)].
Proof. intros H. change [(j, 0%nat)] with ([] ++ [(j, 0%nat)]). apply (path_step 0 _ j (Node j [])); [destruct H as [-> | ->]; cbn; auto | constructor]. Qed.
Lemma ty_frames v j : (j = 1 \/ j = 2)%nat -> jframes (ty_h v) j = Some (FBody 0, FBody j).
Proof. intros [-> | ->]; reflexivity. Qed.

Section Slide.
  Context (h : @heap R) (J : nat -> jstate) (m : nat -> m6) (j s : nat).
  Hypothesis Fj : jframes h j = Some (FBody 0, FBody j).
  Hypothesis Dj : jdof h j = Some (s, S s).
  Hypothesis Tj : jt (J j) = TyJoint.
  Let k := kin_of (ch_sc m) h J [j].
  Lemma slide_kin : k = stepk (ch_sc m) h (J j) (s, S s) (FBody 0) (FBody j) kin0.
  Proof. unfold k, kin_of. cbn [fold_right]. unfold stepj. rewrite Fj, Dj. reflexivity. Qed.
  Lemma slide_col (f : nat -> v6) c : slice_col s (S s) f c = if Nat.eqb c s then f 0%nat else zero6.
  Proof. unfold slice_col. destruct (Nat.eqb_spec c s) as [-> | N]; [rewrite (proj2 (Nat.leb_le s s)), (proj2 (Nat.ltb_lt s (S s))), Nat.sub_diag by lia; reflexivity | ]. destruct (Nat.leb_spec s c), (Nat.ltb_spec c (S s)); try reflexivity. exfalso. lia. Qed.
  Lemma slide_jac c : k_jac k c = if Nat.eqb c s then ey else zero6.
  Proof. rewrite slide_kin. cbn [stepk k_jac kin0 fst snd bpose]. rewrite adjoint_eye, mv6_zero6, v6add_0_l, slide_col, mv6_1. unfold jacobian. rewrite Tj. reflexivity. Qed.
  Lemma slide_djac c : k_djac k c = zero6.
  Proof. rewrite slide_kin. cbn [stepk k_djac k_jac kin0 fst snd bpose]. rewrite adjoint_eye, !mv6_zero6, !v6add_0_l, slide_col, mv6_1. unfold djacobian. rewrite Tj. destruct (Nat.eqb c s); reflexivity. Qed.
  Lemma slide_ang : ang (k_twist k) = zero3.
  Proof.
    rewrite slide_kin. cbn [stepk k_twist kin0 bpose]. rewrite adjoint_eye, mv6_zero6, v6add_0_l, mv6_1. rewrite twist_sum.
    unfold jacobian. rewrite Tj. cbn [ndof_of sum6]. unfold e6, v6of. cbn [Nat.eqb]. generalize (gvel (J j) 0%nat). clear. intros z. unf. f_equal; ring.
  Qed.
End Slide.
Lemma ey_mass c a b d : dot6 ey (mv6 (rigid_mass c zero3 (M3 a 0 0 0 b 0 0 0 d)) ey) = c. Proof. unfold ey, rigid_mass; unf; ring. Qed.
Lemma ey_visc : dot6 ey (mv6 eye6 ey) = 1. Proof. unfold ey, eye6; unf; ring. Qed.
Lemma ey_nle M u : ang u = zero3 -> (exists c a b d, M = rigid_mass c zero3 (M3 a 0 0 0 b 0 0 0 d)) -> dot6 ey (mv6 (body_nle M u) ey) = 0.
Proof.
  intros T (c & a & b & d & ->). unfold body_nle. rewrite T. match goal with |- context [if ?x then ?y else ?z] => generalize (if x then y else z) end. intros [r1 r2 r3 r4 r5 r6 r7 r8 r9]. unfold ey, rigid_mass. unf. ring.
Qed.
Lemma ty_dyn c h J st st' d : ready ty_e h ty_t -> (forall j, (j = 1 \/ j = 2)%nat -> jframes h j = Some (FBody 0, FBody j)) -> (forall j, jt (J j) = TyJoint) ->
  world_update_dynamic ty_e (ch_sc (ty_m c)) h J 10 st = Ok (st', d) ->
  d_mass d 0%nat 0%nat = 1 /\ d_visc d 0%nat 0%nat = 1 /\ d_nle d 0%nat 0%nat = 0 /\ d_mass d 1%nat 1%nat = c /\ d_visc d 1%nat 1%nat = 1 /\ d_nle d 1%nat 1%nat = 0 /\
  (forall k l, (k = 0 /\ l = 1 \/ k = 1 /\ l = 0)%nat -> d_mass d k l = 0 /\ d_visc d k l = 0 /\ d_nle d k l = 0).
Proof.
  intros Rd Fj Tj E0.
  assert (Ri : rigid_scene ty_e (ch_sc (ty_m c)) ty_t J).
  { split; [intros [b | b | b]; apply SE3_eye | ]. intros j Ij. split; [intros E; rewrite Tj in E; discriminate | rewrite Tj]. cbn in Ij. destruct Ij as [<- | [<- | []]]; reflexivity. }
  destruct (world_ok _ _ _ _ J 10 st Rd Ri) as (sd & d' & E & P & _ & Md & Vd & Nd); [cbn; lia | ]. rewrite E0 in E. injection E as <- <-.
  assert (S1 := P _ _ (ty_path 1 ltac:(auto))). assert (S2 := P _ _ (ty_path 2 ltac:(auto))). cbn [map fst] in S1, S2.
  assert (D1 : jdof h 1%nat = Some (0, 1)%nat) by (destruct Rd as (_ & _ & _ & _ & D); exact (D [] 1%nat [2%nat] eq_refl)).
  assert (D2 : jdof h 2%nat = Some (1, 2)%nat) by (destruct Rd as (_ & _ & _ & _ & D); exact (D [1%nat] 2%nat [] eq_refl)).
  rewrite !Md, !Vd, !Nd. change (tl (bodies ty_t)) with [1; 2]%nat. cbn [suml].
  assert (K1 := kin_at_attr _ _ _ _ S1). assert (K2 := kin_at_attr _ _ _ _ S2).
  assert (J1 := slide_jac h J (ty_m c) 1 0 (Fj 1%nat ltac:(auto)) D1 (Tj 1%nat)). assert (J2 := slide_jac h J (ty_m c) 2 1 (Fj 2%nat ltac:(auto)) D2 (Tj 2%nat)).
  assert (Q1 := slide_djac h J (ty_m c) 1 0 (Fj 1%nat ltac:(auto)) D1 (Tj 1%nat)). assert (Q2 := slide_djac h J (ty_m c) 2 1 (Fj 2%nat ltac:(auto)) D2 (Tj 2%nat)).
  assert (A1 := slide_ang h J (ty_m c) 1 0 (Fj 1%nat ltac:(auto)) D1 (Tj 1%nat)). assert (A2 := slide_ang h J (ty_m c) 2 1 (Fj 2%nat ltac:(auto)) D2 (Tj 2%nat)).
  rewrite <- K1 in J1, Q1, A1. rewrite <- K2 in J2, Q2, A2. unfold congr. cbn [ch_sc b_mass b_visc ty_m].
  assert (W : exists c0 a b d0, wm = rigid_mass c0 zero3 (M3 a 0 0 0 b 0 0 0 d0)) by (unfold wm; eauto 6).
  assert (W2 : exists c0 a b d0, rigid_mass c zero3 eye3 = rigid_mass c0 zero3 (M3 a 0 0 0 b 0 0 0 d0)) by (unfold eye3; eauto 6).
  split; [rewrite J1, J2; cbn [Nat.eqb]; rewrite dot6_zl; unfold wm; rewrite ey_mass; ring | ].
  split; [rewrite J1, J2; cbn [Nat.eqb]; rewrite dot6_zl, ey_visc; ring | ].
  split; [rewrite J1, J2, Q1; cbn [Nat.eqb]; rewrite dot6_zl, mv6_zero6, v6add_0_l, (ey_nle _ _ A1 W); ring | ].
  split; [rewrite J1, J2; cbn [Nat.eqb]; rewrite dot6_zl; unfold eye3; rewrite ey_mass; ring | ].
  split; [rewrite J1, J2; cbn [Nat.eqb]; rewrite dot6_zl, ey_visc; ring | ].
  split; [rewrite J1, J2, Q2; cbn [Nat.eqb]; rewrite dot6_zl, mv6_zero6, v6add_0_l, (ey_nle _ _ A2 W2); ring | ].
  intros k l [[-> ->] | [-> ->]]; rewrite !Md, !Vd, !Nd; change (tl (bodies ty_t)) with [1; 2]%nat; cbn [suml]; unfold congr; rewrite !J1, !J2, ?Q1, ?Q2; cbn [Nat.eqb]; rewrite ?mv6_zero6, ?v6add_zz, ?dot6_zl, ?dot6_zr; (split; [ring | ]; split; ring).
Qed.
Lemma ty_progress c v q t0 ts : 0 < c -> Spec_Sim.increasing (t0 :: ts) -> exists y, simulate (ty_U c) sy_O (t0 :: ts) (IterList []) (ty_x v q) = (y, Ok tt).
Proof.
  intros Pc Inc. destruct (C18_progress (ty_U c) sy_O t0 ts [] (ty_x v q) (fun j _ => v j) ty_t) as (y & [E | (_ & h' & J & st & st' & d & dt & So & Lv & Tj & Pd & E & Sg)]).
  - exact (ty_reachable v).
  - exact (ty_rep v).
  - reflexivity.
  - cbn. lia.
  - exact gauss_inv_spec.
  - intros [b | b | b]; apply SE3_eye.
  - intros j Ij. cbn in Ij. split; [destruct Ij as [<- | [<- | []]]; reflexivity | discriminate].
  - reflexivity.
  - repeat constructor. intros [].
  - intros a _. do 2 eexists. reflexivity.
  - constructor.
  - intros i [].
  - exact Inc.
  - exists y. exact E.
  - exfalso. destruct So as (_ & Sj & _).
    destruct (ty_dyn c h' J st st' d (proj1 Lv) (ltac:(intros j Hj; rewrite Sj; apply (ty_frames v); exact Hj)) Tj E) as (M1 & V1 & N1 & M2 & V2 & N2 & X).
    assert (Nd : w_ndof h' = 2%nat) by (rewrite (proj1 (proj2 (proj2 (proj2 (proj1 Lv))))); reflexivity). rewrite Nd in Sg.
    destruct Sg as (u & Nv & Kv). apply Nv. assert (K0 := Kv 0%nat ltac:(lia)). assert (K1 := Kv 1%nat ltac:(lia)). destruct (X 0 1)%nat as (X1 & X2 & X3); [auto | ]. destruct (X 1 0)%nat as (Y1 & Y2 & Y3); [auto | ].
    unfold mvn, mplus, mmul, vzero in K0, K1. cbn [sumR] in K0, K1. rewrite M1, V1, N1, X1, X2, X3 in K0. rewrite M2, V2, N2, Y1, Y2, Y3 in K1.
    assert (0 < / dt) by (apply Rinv_0_lt_compat; exact Pd). assert (0 < / dt * c) by (apply Rmult_lt_0_compat; assumption).
    assert (A0 : u 0%nat = 0) by (apply (Rmult_eq_reg_l (/ dt + 1)); lra). assert (A1 : u 1%nat = 0) by (apply (Rmult_eq_reg_l (/ dt * c + 1)); lra).
    intros [ | [ | i]] Hi; [exact A0 | exact A1 | lia].
Qed.
(** the second slide starts elsewhere, faster, with another mass: the first one moves in the same way *)
Example C103_witness : forall c c' q2 q2' v2 v2', 0 < c -> 0 < c' ->
  let v a j := match j with 1%nat => 1 | _ => a end in let q a j := match j with 1%nat => 5 | _ => a end in
  exists y y', simulate (ty_U c) sy_O [0; 1 / 2; 1] (IterList []) (ty_x (v v2) (q q2)) = (y, Ok tt) /\ simulate (ty_U c') sy_O [0; 1 / 2; 1] (IterList []) (ty_x (v v2') (q q2')) = (y', Ok tt) /\
    now y = 1 /\ joints_of (w_s (sm_w y')) 1%nat = joints_of (w_s (sm_w y)) 1%nat.
Proof.
  intros c c' q2 q2' v2 v2' Pc Pc' v q. assert (Inc : Spec_Sim.increasing [0; 1 / 2; 1]) by (intros k Hk; cbn in Hk; destruct k as [ | [ | k]]; cbn; lra || lia).
  destruct (ty_progress c (v v2) (q q2) 0 [1 / 2; 1] Pc Inc) as (y & E1). destruct (ty_progress c' (v v2') (q q2') 0 [1 / 2; 1] Pc' Inc) as (y' & E2). exists y, y'. split; [exact E1 | ]. split; [exact E2 | ].
  split; [exact (proj1 (proj2 (C18_schedule (ty_U c) sy_O 0 [1 / 2; 1] [] (ty_x (v v2) (q q2)) y)) E1) | ].
  refine (proj2 (C103_alone (ty_U c) (ty_U c') sy_O sy_O (fun j _ => v v2 j) (fun j _ => v v2' j) ty_t ty_P 0 [1 / 2; 1] (ty_x (v v2) (q q2)) (ty_x (v v2') (q q2')) y y' eq_refl gauss_inv_spec gauss_inv_spec (ty_reachable _) (ty_reachable _) (ty_rep _) (ty_rep _) eq_refl eq_refl eq_refl
    _ _ _ _ eq_refl eq_refl ty_whole _ _ _ E1 E2) 1%nat (or_introl eq_refl) eq_refl).
  - intros [b | b | b]; apply SE3_eye.
  - intros [b | b | b]; apply SE3_eye.
  - intros j Ij. cbn in Ij. split; [destruct Ij as [<- | [<- | []]]; reflexivity | discriminate].
  - intros j Ij. cbn in Ij. split; [destruct Ij as [<- | [<- | []]]; reflexivity | discriminate].
  - split; [ | intros; split; reflexivity]. intros b (js & (ps & Pb & ->) & Nn & Hj). split; [ | reflexivity]. cbn [ch_sc b_mass ty_U su_sc]. destruct b as [ | [ | [ | b]]]; try reflexivity. exfalso.
    inversion Pb as [ | ? ? j s ? ps' Is Ps]; subst. specialize (Hj j). rewrite map_app in Hj. cbn [map fst] in Hj. specialize (Hj ltac:(apply in_or_app; right; left; reflexivity)). apply Nat.eqb_eq in Hj. subst j.
    cbn in Is. destruct Is as [Is | [Is | []]]; [ | discriminate]. injection Is as <-. inversion Ps; subst. contradiction.
  - intros a _. reflexivity.
  - intros j Ij Pj. apply Nat.eqb_eq in Pj. subst j. reflexivity.
Qed.
