(** C71: where the arm reaches, and what it refuses. *)
From Coq Require Import Lra Lia.
From Verif Require Import Spec_Arm.
From Verif Require Import Proof_Linalg Proof_SE3 Proof_Tree Proof_World Proof_World4 Proof_World3 Props_Dyn Proof_Dyn2 Props_Mass Proof_Robots2 Props_Robots2 Proof_Build Proof_Build2 Proof_Build3 Proof_Human36 Props_Human36 Props_Human36_2 Props_Human36_3 Props_Checks Props_Arm.
Open Scope R_scope.

Lemma tip_ok l0 l1 l2 q0 q1 q2 : mm4 (mm4 (mm4 (mm4 (mm4 (rotz q0) (transl 0 l0 0)) (rotz q1)) (transl 0 l1 0)) (rotz q2)) (transl 0 l2 0) = tip l0 l1 l2 q0 q1 q2.
Proof. unfold tip, rotz, transl. cbv zeta. rewrite ?cos_plus, ?sin_plus, ?cos_plus, ?sin_plus. generalize (sin q0) (cos q0) (sin q1) (cos q1) (sin q2) (cos q2). clear. intros. unf. entries; ring. Qed.

Theorem C71_reach : forall e g0 h eigvals I p l0 l1 l2 ls m0 m1 m2 ms ws t,
  reachable 0 e g0 h -> eigs_ok eigvals -> new_ids I h e -> l0 <> 0 -> l1 <> 0 -> l2 <> 0 -> 0 < m0 -> 0 < m1 -> 0 < m2 -> rep e h t -> root t = ground e ->
  exists cs, simplearm_script e eigvals I p (l0 :: l1 :: l2 :: ls) (m0 :: m1 :: m2 :: ms) ws = (cs, Ok tt) /\
    ((forall c, In c cs -> made e h c) -> forall fuel, (length (bodies t) + 3 < fuel)%nat ->
     exists h' t', add_simplearm e eigvals I fuel p (l0 :: l1 :: l2 :: ls) (m0 :: m1 :: m2 :: ms) ws h = (h', Ok tt) /\ ready e h' t' /\
       exists j0 j1 j2 s, joint_called cs p "Shoulder" j0 /\ joint_called cs p "Elbow" j1 /\ joint_called cs p "Wrist" j2 /\ tag_called cs p "EndEffector" s /\
       forall sc J st, rigid_scene e sc t' J -> scene_of sc J cs -> exists sg, world_update_geometric e sc h' J fuel st = Ok sg /\
         frame_pose e sc sg (FSub s) = Ok (tip l0 l1 l2 (gpos (J j0) 0%nat) (gpos (J j1) 0%nat) (gpos (J j2) 0%nat))).
Proof.
  intros e g0 h eigvals I p l0 l1 l2 ls m0 m1 m2 ms ws t R Ev Ni A0 A1 A2 B0 B1 B2 Rt Er. set (C := arm_cmds e I p ws l0 l1 l2 m0 m1 m2).
  assert (Es := script_arm e I p eigvals ws l0 l1 l2 ls m0 m1 m2 ms Ev A0 A1 A2 B0 B1 B2). fold C in Es. exists (C ++ [WInit]). split; [exact Es | ]. intros Mk fuel Fu.
  assert (Mk' : forall c, In c C -> made e h c) by (intros c Hc; apply Mk, in_or_app; now left).
  destruct (build_arm e I p ws l0 l1 l2 m0 m1 m2 g0 h eigvals t fuel R Ev Ni A0 A1 A2 B0 B1 B2 Mk' Rt Er Fu) as (h' & t' & E & R' & Rd & Hf & Bd & Pm & Nd & Jf & Jo & Gv & Rl & Rg). fold C in E, Jf, Rg.
  exists h', t'. split; [unfold add_simplearm, run_scr; rewrite Es; cbn [fst snd]; now rewrite E | ]. split; [exact Rd | ].
  exists (xj I 0), (xj I 1), (xj I 2), (xs I 2).
  split; [eexists; apply in_or_app; left; apply (tail_in e I p 0); reflexivity | ]. split; [eexists; apply in_or_app; left; apply (tail_in e I p 3); reflexivity | ]. split; [eexists; apply in_or_app; left; apply (tail_in e I p 6); reflexivity | ].
  split; [do 2 eexists; apply in_or_app; left; apply (tail_in e I p 8); reflexivity | ].
  intros sc J st Ri So. destruct (C39_poses e sc h' t' J fuel st Rd Ri Hf) as (sg & sd & dd & Eg & _ & P1 & P2 & P3 & _). exists sg. split; [exact Eg | ].
  apply scene_snoc in So. destruct So as (_ & S2 & S3).
  assert (Jin : forall k, (k < 3)%nat -> In (xj I k) (joints t')) by (intros k Hk; eapply Permutation_in; [symmetry; exact Pm | ]; apply in_or_app; right; apply in_map, in_seq; lia).
  assert (Q0 := arm_sub0 e I p ws l0 l1 l2 m0 m1 m2 h Mk'). assert (Q1 := arm_sub1 e I p ws l0 l1 l2 m0 m1 m2 h Mk'). assert (Q2 := arm_sub2 e I p ws l0 l1 l2 m0 m1 m2 h Mk').
  assert (T0 : sub_bpose sc (xs I 0) = transl 0 l0 0) by (eapply S2; apply (tail_in e I p 2); reflexivity).
  assert (T1 : sub_bpose sc (xs I 1) = transl 0 l1 0) by (eapply S2; apply (tail_in e I p 5); reflexivity).
  assert (T2 : sub_bpose sc (xs I 2) = transl 0 l2 0) by (eapply S2; apply (tail_in e I p 8); reflexivity).
  assert (J0 : jt (J (xj I 0%nat)) = RzJoint) by (eapply S3; apply (tail_in e I p 0); reflexivity).
  assert (J1 : jt (J (xj I 1%nat)) = RzJoint) by (eapply S3; apply (tail_in e I p 3); reflexivity).
  assert (J2 : jt (J (xj I 2%nat)) = RzJoint) by (eapply S3; apply (tail_in e I p 6); reflexivity).
  unfold C in Jf. rewrite arm_links in Jf.
  assert (F0 := Jf (FBody (ground e), xj I 0%nat, FBody (xb I 0%nat)) ltac:(now left)). assert (F1 := Jf (FSub (xs I 0%nat), xj I 1%nat, FBody (xb I 1%nat)) ltac:(right; now left)). assert (F2 := Jf (FSub (xs I 1%nat), xj I 2%nat, FBody (xb I 2%nat)) ltac:(right; right; now left)). cbn [l_joint fst snd] in F0, F1, F2.
  destruct (P3 _ _ _ (Jin 0%nat ltac:(lia)) F0) as (G0 & H0 & _ & _ & X0 & Y0 & Z0). destruct (P3 _ _ _ (Jin 1%nat ltac:(lia)) F1) as (G1 & H1 & _ & _ & X1 & Y1 & Z1). destruct (P3 _ _ _ (Jin 2%nat ltac:(lia)) F2) as (G2 & H2 & _ & _ & X2 & Y2 & Z2).
  apply frame_at in X0, X1, X2, Y0, Y1, Y2. cbn [frame_body bpose] in X0, X1, X2, Y0, Y1, Y2. rewrite Q0, T0 in X1. rewrite Q1, T1 in X2.
  destruct X0 as (? & U0 & ->), X1 as (? & U1 & ->), X2 as (? & U2 & ->), Y0 as (? & V0 & ->), Y1 as (? & V1 & ->), Y2 as (? & V2 & ->). rewrite mm4_1_r in *.
  rewrite P2 in U0. injection U0 as <-. rewrite V0 in U1. injection U1 as <-. rewrite V1 in U2. injection U2 as <-.
  assert (Pz : forall k, jt (J (xj I k)) = RzJoint -> Model_Joints.pose (J (xj I k)) = rotz (gpos (J (xj I k)) 0%nat)) by (intros k Hk; unfold Model_Joints.pose; now rewrite Hk).
  rewrite (Pz _ J0) in Z0. rewrite (Pz _ J1), Z0 in Z1. rewrite (Pz _ J2), Z1 in Z2.
  unfold frame_pose. cbn [frame_body]. rewrite Q2, V2. cbn [get rbind bpose]. rewrite T2, Z2, !mm4_1_l, tip_ok. reflexivity.
Qed.
Print Assumptions C71_reach.

(** the tip stays in the plane z = 0 and no further from the shoulder than the arm is long *)
Lemma cauchy_cs a b : -1 <= cos a * cos b + sin a * sin b <= 1.
Proof. rewrite <- cos_minus. apply COS_bound. Qed.
Theorem C71_workspace : forall l0 l1 l2 q0 q1 q2, 0 <= l0 -> 0 <= l1 -> 0 <= l2 -> let P := pos (tip l0 l1 l2 q0 q1 q2) in
  vz P = 0 /\ dot3 P P <= (l0 + l1 + l2) ^ 2 /\ (q1 = 0 -> q2 = 0 -> dot3 P P = (l0 + l1 + l2) ^ 2).
Proof.
  intros l0 l1 l2 q0 q1 q2 H0 H1 H2. unfold tip. cbn [pos vz].
  assert (K : forall a b c, dot3 (V3 (- (l0 * sin a + l1 * sin b + l2 * sin c)) (l0 * cos a + l1 * cos b + l2 * cos c) 0) (V3 (- (l0 * sin a + l1 * sin b + l2 * sin c)) (l0 * cos a + l1 * cos b + l2 * cos c) 0)
              = l0 ^ 2 + l1 ^ 2 + l2 ^ 2 + 2 * (l0 * l1) * (cos a * cos b + sin a * sin b) + 2 * (l0 * l2) * (cos a * cos c + sin a * sin c) + 2 * (l1 * l2) * (cos b * cos c + sin b * sin c)).
  { intros a b c. assert (Sa := sin2_cos2 a). assert (Sb := sin2_cos2 b). assert (Sc := sin2_cos2 c). unfold Rsqr in *. unfold dot3. cbn [vx vy vz].
    transitivity (l0 ^ 2 * (sin a * sin a + cos a * cos a) + l1 ^ 2 * (sin b * sin b + cos b * cos b) + l2 ^ 2 * (sin c * sin c + cos c * cos c) + 2 * (l0 * l1) * (cos a * cos b + sin a * sin b) + 2 * (l0 * l2) * (cos a * cos c + sin a * sin c) + 2 * (l1 * l2) * (cos b * cos c + sin b * sin c)); [ring | ]. rewrite Sa, Sb, Sc. ring. }
  split; [reflexivity | ]. rewrite K. split.
  - assert (X := cauchy_cs q0 (q0 + q1)). assert (Y := cauchy_cs q0 (q0 + q1 + q2)). assert (Z := cauchy_cs (q0 + q1) (q0 + q1 + q2)). revert X Y Z. generalize (cos q0 * cos (q0 + q1) + sin q0 * sin (q0 + q1)) (cos q0 * cos (q0 + q1 + q2) + sin q0 * sin (q0 + q1 + q2)) (cos (q0 + q1) * cos (q0 + q1 + q2) + sin (q0 + q1) * sin (q0 + q1 + q2)).
    clear K. intros x y z X Y Z. assert (0 <= l0 * l1) by nra. assert (0 <= l0 * l2) by nra. assert (0 <= l1 * l2) by nra. nra.
  - intros -> ->. rewrite !Rplus_0_r. assert (S0 := sin2_cos2 q0). unfold Rsqr in S0. replace (cos q0 * cos q0 + sin q0 * sin q0) with 1 by lra. ring.
Qed.
Print Assumptions C71_workspace.

(** ** What is refused *)
Definition arm_args (lengths masses : list R) : Prop :=
  exists l0 l1 l2 ls m0 m1 m2 ms, lengths = l0 :: l1 :: l2 :: ls /\ masses = m0 :: m1 :: m2 :: ms /\ l0 <> 0 /\ l1 <> 0 /\ l2 <> 0 /\ 0 < m0 /\ 0 < m1 /\ 0 < m2.
Definition rods_only (c : cmd) : Prop := match c with MkBody _ _ _ => True | _ => False end.
Lemma rods_keep e eigvals fuel cs h : Forall rods_only cs -> fst (exec_all e eigvals fuel cs h) = h /\ (snd (exec_all e eigvals fuel cs h) = Ok tt \/ snd (exec_all e eigvals fuel cs h) = Err AssertionError).
Proof.
  induction 1 as [ | c cs Hc _ IH]; cbn [exec_all]; [auto | ]. destruct c; try destruct Hc. cbn [exec]. destruct (ismassmatrix eigvals M true); [exact IH | cbn; auto].
Qed.
(** with no shapes, bad arguments are refused before anything is touched *)
Theorem C71_refuses : forall e eigvals I fuel p lengths masses h, eigs_ok eigvals -> ~ arm_args lengths masses ->
  exists x, add_simplearm e eigvals I fuel p lengths masses false h = (h, Err x) /\ (x = AssertionError \/ x = IndexError).
Proof.
  intros e eigvals I fuel p lengths masses h Ev Hb. unfold add_simplearm, run_scr.
  assert (X : exists cs x, simplearm_script e eigvals I p lengths masses false = (cs, Err x) /\ Forall rods_only cs /\ (x = AssertionError \/ x = IndexError)).
  { unfold simplearm_script, item.
    assert (St : forall k, match nth_error lengths k, nth_error masses k with Some l, Some m => (l <> 0 /\ 0 < m) \/ (l = 0 \/ m <= 0) | _, _ => True end) by (intros k; destruct (nth_error lengths k), (nth_error masses k); auto; destruct (Req_dec r 0), (Rlt_or_le 0 r0); auto).
    assert (S0 := St 0%nat). assert (S1 := St 1%nat). assert (S2 := St 2%nat). clear St.
    destruct lengths as [ | l0 lengths]; [do 2 eexists; split; [reflexivity | ]; split; [apply Forall_nil | auto] | ]. try cbn [nth_error] in S0; try cbn [nth_error] in S1; cbn [nth_error] in S2; cbn [nth_error]. rewrite sbind_lift.
    destruct masses as [ | m0 masses]; [do 2 eexists; split; [reflexivity | ]; split; [apply Forall_nil | auto] | ]. try cbn [nth_error] in S0; try cbn [nth_error] in S1; cbn [nth_error] in S2; cbn [nth_error]. rewrite sbind_lift. cbn [nth_error] in S0. destruct S0 as [(A0 & B0) | S0]; [ | rewrite (create_bad I eigvals false 0 _ l0 m0 Ev S0); do 2 eexists; split; [reflexivity | ]; split; [apply Forall_nil | auto]].
    rewrite (create_ok I eigvals false 0 _ l0 m0 Ev A0 B0), sbind_ok.
    destruct lengths as [ | l1 lengths]; [do 2 eexists; split; [reflexivity | ]; split; [ | auto]; apply Forall_cons; [exact Logic.I | apply Forall_nil] | ]. try cbn [nth_error] in S0; try cbn [nth_error] in S1; cbn [nth_error] in S2; cbn [nth_error]. rewrite sbind_lift.
    destruct masses as [ | m1 masses]; [do 2 eexists; split; [reflexivity | ]; split; [ | auto]; apply Forall_cons; [exact Logic.I | apply Forall_nil] | ]. try cbn [nth_error] in S0; try cbn [nth_error] in S1; cbn [nth_error] in S2; cbn [nth_error]. rewrite sbind_lift. destruct S1 as [(A1 & B1) | S1]; [ | rewrite (create_bad I eigvals false 1 _ l1 m1 Ev S1); do 2 eexists; split; [reflexivity | ]; split; [ | auto]; apply Forall_cons; [exact Logic.I | apply Forall_nil]].
    rewrite (create_ok I eigvals false 1 _ l1 m1 Ev A1 B1), sbind_ok.
    destruct lengths as [ | l2 lengths]; [do 2 eexists; split; [reflexivity | ]; split; [ | auto]; apply Forall_cons; [exact Logic.I | ]; apply Forall_cons; [exact Logic.I | apply Forall_nil] | ]. try cbn [nth_error] in S0; try cbn [nth_error] in S1; cbn [nth_error] in S2; cbn [nth_error]. rewrite sbind_lift.
    destruct masses as [ | m2 masses]; [do 2 eexists; split; [reflexivity | ]; split; [ | auto]; apply Forall_cons; [exact Logic.I | ]; apply Forall_cons; [exact Logic.I | apply Forall_nil] | ]. try cbn [nth_error] in S0; try cbn [nth_error] in S1; cbn [nth_error] in S2; cbn [nth_error]. rewrite sbind_lift. destruct S2 as [(A2 & B2) | S2]; [ | rewrite (create_bad I eigvals false 2 _ l2 m2 Ev S2); do 2 eexists; split; [reflexivity | ]; split; [ | auto]; apply Forall_cons; [exact Logic.I | ]; apply Forall_cons; [exact Logic.I | apply Forall_nil]].
    destruct Hb. exists l0, l1, l2, lengths, m0, m1, m2, masses. auto 20. }
  destruct X as (cs & x & -> & Fo & Hx). cbn [fst snd]. destruct (rods_keep e eigvals fuel cs h Fo) as (E1 & E2). destruct (exec_all e eigvals fuel cs h) as (h1, r). cbn [fst snd] in *. subst h1. destruct E2 as [-> | ->]; eauto.
Qed.
Print Assumptions C71_refuses.
(** with shapes, the shapes of the first rods stay in the world although the arm is refused *)
Theorem C77_atomic_refuted : exists e eigvals I p lengths masses h' x, eigs_ok eigvals /\ let h := fresh e zero_vel in
  ~ arm_args lengths masses /\ add_simplearm e eigvals I 5 p lengths masses true h = (h', Err x) /\ w_shapes h = [] /\ length (w_shapes h') = 2%nat /\ forall b, childrenjoints h' b = [].
Proof.
  destruct eigs_exist as (eigvals & Ev). set (e := Env 0 (fun _ => 1%nat) (fun _ => 1%nat) (fun _ => FSub 3) (fun _ => []) (fun _ => 0%nat)). set (p := ""%string).
  assert (Es : simplearm_script e eigvals plain_ids p [1; 1; 0] [1; 1; 1] true = (rod_cmds plain_ids true 0 (p ++ "Arm") 1 1 ++ rod_cmds plain_ids true 1 (p ++ "Forearm") 1 1, Err AssertionError)).
  { unfold simplearm_script, item. cbn [nth_error]. do 2 (rewrite sbind_lift; cbv beta). rewrite (create_ok plain_ids eigvals true 0 _ 1 1 Ev ltac:(lra) ltac:(lra)), sbind_ok. do 2 (rewrite sbind_lift; cbv beta). rewrite (create_ok plain_ids eigvals true 1 _ 1 1 Ev ltac:(lra) ltac:(lra)), sbind_ok.
    do 2 (rewrite sbind_lift; cbv beta). rewrite (create_bad plain_ids eigvals true 2 _ 0 1 Ev ltac:(lra)), sbind_err. cbn [fst snd]. now rewrite app_nil_r. }
  assert (Acc := rod_accept eigvals 1 1 Ev ltac:(lra) ltac:(lra)). assert (Hom := ishom_SE3 _ (transl_SE3 0 (1 / 2) 0)).
  set (h := fresh e zero_vel). assert (Ex : exists h', exec_all e eigvals 5 (rod_cmds plain_ids true 0 (p ++ "Arm") 1 1 ++ rod_cmds plain_ids true 1 (p ++ "Forearm") 1 1) h = (h', Ok tt) /\ length (w_shapes h') = 2%nat /\ forall b, childrenjoints h' b = []).
  { unfold rod_cmds. cbn [app exec_all exec register]. rewrite ?Acc, ?Hom. cbn [exec_all exec register]. rewrite ?Acc, ?Hom. eexists. split; [reflexivity | ]. split; [reflexivity | intros b; reflexivity]. }
  destruct Ex as (h' & E & Hs & Hc). exists e, eigvals, plain_ids, p, [1; 1; 0], [1; 1; 1], h', AssertionError. split; [exact Ev | ]. cbv zeta. fold h. split; [ | split; [ | split; [reflexivity | split; [exact Hs | exact Hc]]]].
  - intros (a & b & c & l & d & f & g & l' & E1 & _ & _ & _ & N & _). injection E1 as _ _ E1 _. congruence.
  - unfold add_simplearm, run_scr. rewrite Es. cbn [fst snd]. now rewrite E.
Qed.
Print Assumptions C77_atomic_refuted.

(** ** The default arm in a fresh world *)
Lemma arm_ground e e' I p ws l0 l1 l2 m0 m1 m2 : ground e = ground e' -> arm_cmds e I p ws l0 l1 l2 m0 m1 m2 = arm_cmds e' I p ws l0 l1 l2 m0 m1 m2.
Proof. intros E. unfold arm_cmds, arm_tail. rewrite E. reflexivity. Qed.
Lemma arm_once e p ws l0 l1 l2 m0 m1 m2 : once (arm_cmds e plain_ids p ws l0 l1 l2 m0 m1 m2 ++ [WInit]).
Proof. destruct ws; (split; [ | split]); cbn -[append]; repeat (apply NoDup_cons; [cbn; lia | ]); apply NoDup_nil. Qed.
Theorem C71_witness : forall p ws q0 q1 q2, exists e eigvals cs h' t' sc J sg s, let h := fresh e zero_vel in
  eigs_ok eigvals /\ reachable 0 e zero_vel h /\ new_ids plain_ids h e /\ simplearm_script e eigvals plain_ids p [0.5; 0.4; 0.2] [1; 0.8; 0.2] ws = (cs, Ok tt) /\ (forall c, In c cs -> made e h c) /\
  add_simplearm e eigvals plain_ids 5 p [0.5; 0.4; 0.2] [1; 0.8; 0.2] ws h = (h', Ok tt) /\ ready e h' t' /\ w_ndof h' = 3%nat /\ rigid_scene e sc t' J /\ scene_of sc J cs /\
  world_update_geometric e sc h' J 5 (fun _ => no_attr) = Ok sg /\ tag_called cs p "EndEffector" s /\ frame_pose e sc sg (FSub s) = Ok (tip 0.5 0.4 0.2 q0 q1 q2).
Proof.
  intros p ws q0 q1 q2. destruct eigs_exist as (eigvals & Ev). set (e0 := Env 0 (fun _ => 0%nat) (fun _ => 0%nat) (fun _ => FBody 0) (fun _ => []) (fun _ => 0%nat)).
  assert (A0 : 0.5 <> 0) by lra. assert (A1 : 0.4 <> 0) by lra. assert (A2 : 0.2 <> 0) by lra. assert (B0 : 0 < 1) by lra. assert (B1 : 0 < 0.8) by lra. assert (B2 : 0 < 0.2) by lra.
  set (C := arm_cmds e0 plain_ids p ws 0.5 0.4 0.2 1 0.8 0.2). set (cs := C ++ [WInit]). set (e := env_for cs). set (h := fresh e zero_vel).
  assert (R : reachable 0 e zero_vel h) by constructor. assert (Ni : new_ids plain_ids h e) by (apply plain_new; reflexivity).
  assert (Rt : rep e h (Node 0 [])) by (constructor; [reflexivity | constructor]).
  assert (EC : arm_cmds e plain_ids p ws 0.5 0.4 0.2 1 0.8 0.2 = C) by (apply arm_ground; reflexivity).
  assert (Es : simplearm_script e eigvals plain_ids p [0.5; 0.4; 0.2] [1; 0.8; 0.2] ws = (cs, Ok tt)) by (rewrite script_arm by assumption; now rewrite EC).
  assert (Oc : once cs) by apply arm_once. assert (Mk : forall c, In c cs -> made e h c) by (exact (made_for cs Oc)).
  assert (Mk' : forall c, In c (arm_cmds e plain_ids p ws 0.5 0.4 0.2 1 0.8 0.2) -> made e h c) by (intros c Hc; apply Mk; unfold cs; rewrite <- EC; apply in_or_app; now left).
  destruct (build_arm e plain_ids p ws 0.5 0.4 0.2 1 0.8 0.2 zero_vel h eigvals (Node 0 []) 5 R Ev Ni A0 A1 A2 B0 B1 B2 Mk' Rt eq_refl ltac:(cbn; lia)) as (h1 & t1 & E1 & _ & Rd1 & _ & _ & Pm & _).
  destruct (C71_reach e zero_vel h eigvals plain_ids p 0.5 0.4 0.2 [] 1 0.8 0.2 [] ws (Node 0 []) R Ev Ni A0 A1 A2 B0 B1 B2 Rt eq_refl) as (cs1 & Es1 & X). rewrite Es in Es1. injection Es1 as <-.
  destruct (X Mk 5%nat ltac:(cbn; lia)) as (h' & t' & E & Rd & j0 & j1 & j2 & s & Hj0 & Hj1 & Hj2 & Hs & Z).
  destruct (C71_arm e zero_vel h eigvals plain_ids p 0.5 0.4 0.2 [] 1 0.8 0.2 [] ws (Node 0 []) R Ev Ni A0 A1 A2 B0 B1 B2 Rt eq_refl) as (cs1 & Es1 & Y). rewrite Es in Es1. injection Es1 as <-.
  destruct (Y Mk 5%nat ltac:(cbn; lia)) as (h2 & t2 & E2 & _ & _ & _ & Nd & _). rewrite E in E2. injection E2 as <-.
  unfold add_simplearm, run_scr in E. rewrite Es in E. cbn [fst snd] in E. assert (E1' : exec_all e eigvals 5 cs h = (h1, Ok tt)) by (unfold cs; rewrite <- EC; exact E1). rewrite E1' in E. injection E as ->.
  assert (t1 = t') by (apply (rep_unique e h'); [apply Rd1 | apply Rd | transitivity (ground e); [apply Rd1 | symmetry; apply Rd]]). subst t1.
  assert (Jall : forall k, (k < 3)%nat -> exists n, In (MkJoint (xj plain_ids k) n RzJoint) cs).
  { intros k Hk. destruct k as [ | [ | [ | ]]]; [ | | | lia]; eexists; unfold cs; apply in_or_app; left; unfold C; [apply (tail_in e0 plain_ids p 0) | apply (tail_in e0 plain_ids p 3) | apply (tail_in e0 plain_ids p 6)]; reflexivity. }
  set (J := fun j : nat => JS RzJoint eye4 (fun _ => nth j [q0; q1; q2] 0) (fun _ => 0)).
  assert (HJ : forall j, In j (joints t') -> exists k, (k < 3)%nat /\ j = xj plain_ids k).
  { intros j Hj. apply (Permutation_in _ Pm) in Hj. cbn [joints app] in Hj. apply in_map_iff in Hj. destruct Hj as (k & <- & Hk). apply in_seq in Hk. exists k. split; [lia | reflexivity]. }
  assert (HS : forall s b n H, In (MkSub s b n H) cs -> SE3 H).
  { intros s' b n H Hin. unfold cs in Hin. apply in_snoc in Hin; [ | discriminate]. assert (Zp := arm_pass e0 plain_ids p eigvals ws 0.5 0.4 0.2 1 0.8 0.2 Ev A0 A1 A2 B0 B1 B2). rewrite Forall_forall in Zp. exact (Zp _ Hin). }
  assert (Ri0 : rigid_scene e (scene_for cs) t' (rest_for cs)) by (apply rigid_for; [exact HS | intros j Hj; destruct (HJ j Hj) as (k & Hk & ->); destruct (Jall k Hk) as (n & Hn); eauto | exact Oc]).
  assert (Ri : rigid_scene e (scene_for cs) t' J).
  { destruct Ri0 as (Ra & Rb). split; [exact Ra | ]. intros j Hj. destruct (HJ j Hj) as (k & Hk & ->). destruct (Jall k Hk) as (n & Hn). split; [intros _; apply SE3_eye | ]. apply (Mk _ Hn). }
  assert (So : scene_of (scene_for cs) J cs).
  { destruct (scene_for_ok cs Oc) as (Sa & Sb & Sc). split; [exact Sa | split; [exact Sb | ]]. intros j n k Hin. cbn [J jt]. unfold cs in Hin. apply in_snoc in Hin; [ | discriminate]. apply arm_cases in Hin. destruct Hin as [(k0 & n' & l & m & _ & H0) | H0].
    - exfalso. unfold rod_cmds in H0. destruct H0 as [H0 | H0]; [discriminate H0 | ]. destruct ws; [ | destruct H0]. destruct H0 as [H0 | [H0 | [H0 | []]]]; discriminate H0.
    - unfold arm_tail in H0. cbn [In] in H0. repeat (destruct H0 as [H0 | H0]; [first [discriminate H0 | injection H0; intros; subst; reflexivity] | ]). destruct H0. }
  destruct (Z (scene_for cs) J (fun _ => no_attr) Ri So) as (sg & Eg & Ep).
  assert (Jn : forall k j n, nth_error [(0%nat, "Shoulder"%string); (1%nat, "Elbow"%string); (2%nat, "Wrist"%string)] k = Some (j, n) -> forall j', joint_called cs p n j' -> j' = j).
  { intros k j n Hk j' (ty & Hin). unfold cs in Hin. apply in_snoc in Hin; [ | discriminate]. apply arm_cases in Hin. destruct Hin as [(k0 & n' & l & m & _ & H0) | H0].
    - exfalso. unfold rod_cmds in H0. destruct H0 as [H0 | H0]; [discriminate H0 | ]. destruct ws; [ | destruct H0]. destruct H0 as [H0 | [H0 | [H0 | []]]]; discriminate H0.
    - unfold arm_tail in H0. cbn [In] in H0. repeat (destruct H0 as [H0 | H0]; [ | ]); try discriminate H0; try (now destruct H0); injection H0 as Hj Hn _; apply Props_Human36_3.app_inj in Hn; subst n j'; destruct k as [ | [ | [ | k]]]; cbn in Hk; try (injection Hk as <-; reflexivity); try discriminate Hk; destruct k; discriminate Hk. }
  rewrite (Jn 0%nat _ _ eq_refl _ Hj0), (Jn 1%nat _ _ eq_refl _ Hj1), (Jn 2%nat _ _ eq_refl _ Hj2) in Ep. cbn [J gpos nth] in Ep.
  exists e, eigvals, cs, h', t', (scene_for cs), J, sg, s. cbv zeta. fold h. split; [exact Ev | ]. split; [exact R | ]. split; [exact Ni | ]. split; [exact Es | ]. split; [exact Mk | ]. split; [unfold add_simplearm, run_scr; rewrite Es; cbn [fst snd]; now rewrite E1' | ]. split; [exact Rd | ]. split; [exact Nd | ]. split; [exact Ri | ]. split; [exact So | ]. split; [exact Eg | ]. split; [exact Hs | exact Ep].
Qed.
Print Assumptions C71_witness.
