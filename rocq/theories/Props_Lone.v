(** C72: a single solid, and the ground plane. *)
From Coq Require Import Lra Lia.
From Verif Require Import Spec_Arm.
From Verif Require Import Proof_Linalg Proof_SE3 Proof_Tree Proof_World Proof_World4 Proof_World3 Props_Dyn Proof_Dyn2 Props_Mass Proof_Robots2 Props_Robots2 Proof_Build Proof_Build2 Proof_Build3 Proof_Human36 Props_Human36 Props_Human36_2 Props_Checks Props_Arm Proof_Urdf2 Proof_Urdf3.
Open Scope R_scope.

Section S.
  Variables (e : env) (I : bids) (name : option string) (M : m6) (g : bshape).
  Definition lone_cmds : list cmd := [MkBody (xb I 0) name M; MkJoint (xj I 0) None FreeJoint; Link (FBody (ground e)) (xj I 0) (FBody (xb I 0)); MkShape (xh I 0) None (FBody (xb I 0)) g; Reg (OShape (xh I 0))].
  Lemma build_lone g0 h0 eigvals t fuel : reachable 0 e g0 h0 -> ismassmatrix eigvals M true = true -> new_ids I h0 e -> (forall c, In c lone_cmds -> made e h0 c) -> rep e h0 t -> root t = ground e -> (length (bodies t) + 1 < fuel)%nat ->
    exists h' t', exec_all e eigvals fuel (lone_cmds ++ [WInit]) h0 = (h', Ok tt) /\ reachable 0 e g0 h' /\ ready e h' t' /\ (height t' < fuel)%nat /\
      (forall b, In b (bodies t') <-> In b (bodies t) \/ In b (map (xb I) (seq 0 1))) /\ Permutation (joints t') (joints t ++ map (xj I) (seq 0 1)) /\
      w_ndof h' = (total_ndof e (joints t) + total_ndof e (map (xj I) (seq 0 1)))%nat /\
      jframes h' (xj I 0) = Some (FBody (ground e), FBody (xb I 0)) /\
      (forall j, ~ In j (map (xj I) (seq 0 1)) -> jframes h' j = jframes h0 j) /\
      (forall j, joint_gvel h' j = joint_gvel h0 j) /\
      reg_le h0 h' /\ (forall x, In (Reg x) lone_cmds -> registered h' x).
  Proof.
    intros R Ac Ni Mk Rt Er Fu.
    assert (X : forall l, In l (links_in lone_cmds) -> exists k, (k < 1)%nat /\ l_to e l = xb I k /\ (exists j, l_joint l = xj I j) /\ (l_from e l = ground e \/ exists i, (i < k)%nat /\ l_from e l = xb I i)).
    { intros l [<- | []]. exists 0%nat. split; [lia | ]. split; [reflexivity | ]. split; [eexists; reflexivity | now left]. }
    destruct (build_ok e g0 eigvals h0 (map (xb I) (seq 0 1)) (rank_of I 1) (bs_new e h0 I 1 Ni) lone_cmds t R Rt Er (bs_nodup e h0 I 1 Ni)) with (fuel := fuel) as (h' & t' & A & B & C & D & E & F & G & H & K).
    - unfold lone_cmds. repeat (apply Forall_cons; [cbn [passes]; first [exact Logic.I | exact Ac] | ]). apply Forall_nil.
    - apply idx_fits; [exact Ni | exact X | apply (bs_nodup e h0 I 1 Ni) | apply NoDup_map_inj with (f := xj I) (l := [0%nat]); [apply Ni | apply (seq_NoDup 1 0)]].
    - intros l Hl. destruct (X l Hl) as (k & Hk & _ & _ & [Q | (i & Hi & Q)]); [now right | lia].
    - intros b Hb. exact Hb.
    - rewrite map_length, seq_length. exact Fu.
    - exists h', t'. split; [exact A | ]. split; [exact B | ]. split; [exact C | ]. split; [exact D | ]. split; [exact E | ]. split; [exact F | ]. split; [exact G | ]. split; [exact (H _ (or_introl eq_refl)) | exact K].
  Qed.
  Lemma lone_ok g0 h0 eigvals t fuel : reachable 0 e g0 h0 -> ismassmatrix eigvals M true = true -> new_ids I h0 e -> (forall c, In c (lone_script e I name M g) -> made e h0 c) -> rep e h0 t -> root t = ground e -> (length (bodies t) + 1 < fuel)%nat ->
    exists h' t', exec_all e eigvals fuel (lone_script e I name M g) h0 = (h', Ok tt) /\ reachable 0 e g0 h' /\ ready e h' t' /\ (height t' < fuel)%nat /\ one_more e h0 h' t t' (lone_script e I name M g) name M g.
  Proof.
    intros R Ac Ni Mk Rt Er Fu. change (lone_script e I name M g) with (lone_cmds ++ [WInit]) in *.
    destruct (build_lone g0 h0 eigvals t fuel R Ac Ni) as (h' & t' & E & R' & Rd & Hf & Bd & Pm & Nd & Jf & Jo & Gv & Rl & Rg); [intros c Hc; apply Mk, in_or_app; now left | assumption | assumption | assumption | ].
    exists h', t'. split; [exact E | ]. split; [exact R' | ]. split; [exact Rd | ]. split; [exact Hf | ].
    assert (Jd : jndof e (xj I 0) = 6%nat) by (apply (Mk (MkJoint (xj I 0) None FreeJoint)); right; now left).
    exists (xb I 0), (xj I 0), (xh I 0). split; [now left | ]. split; [intros c Hc; cbn [lone_cmds app In] in Hc; repeat (destruct Hc as [<- | Hc]; [cbn; auto | ]); destruct Hc | ].
    split; [right; now left | ]. split; [do 3 right; now left | ]. split; [exact (new_not_old e g0 h0 I t 0 R Ni Rt Er) | ].
    split; [intros b; rewrite Bd; cbn [seq map In]; intuition congruence | ]. split; [rewrite (new_bodies_length e g0 h0 I t t' 1 R Ni Rt Er (proj1 (proj2 (proj2 Rd))) Bd); lia | ].
    split; [eapply Permutation_in; [symmetry; exact Pm | ]; apply in_or_app; right; now left | ]. split; [exact Jf | ]. split; [exact Jd | ].
    split; [rewrite (Permutation_length Pm), app_length, map_length, seq_length; lia | ].
    split; [intros j Hj; split; [eapply Permutation_in; [symmetry; exact Pm | ]; apply in_or_app; now left | apply Jo; exact (old_joint e h0 I t j 1 Ni Rt Hj)] | ].
    split; [exact Gv | ]. split; [rewrite Nd; unfold total_ndof; cbn [seq map list_sum fold_right]; rewrite Jd; reflexivity | ]. split; [exact Rl | ].
    apply (Rg (OShape (xh I 0))). do 4 right. now left.
  Qed.
End S.

(** semi-definite diagonal matrices are accepted, and those with a negative mass are not *)
Lemma diag_accept eigvals a b c m : eigs_ok eigvals -> 0 <= a -> 0 <= b -> 0 <= c -> 0 <= m -> ismassmatrix eigvals (diag6 a b c m m m) true = true.
Proof.
  intros Ev Ha Hb Hc Hm. set (M := diag6 a b c m m m). assert (Sy : sym6 M) by (apply tr_sym6; unfold M, diag6; lin). assert (Ll : ll M = mscal m eye3) by (unfold M, diag6; cbn [ll]; clear; unf; entries; ring).
  apply (proj2 (C70_definite eigvals m M (Ev M Sy) Sy Ll)). intros [[u1 u2 u3] [u4 u5 u6]]. unfold M, diag6. unf.
  assert (Q := fun k x (K : 0 <= k) => Rmult_le_pos k (x * x) K (Rle_0_sqr x)). assert (Q1 := Q a u1 Ha). assert (Q2 := Q b u2 Hb). assert (Q3 := Q c u3 Hc). assert (Q4 := Q m u4 Hm). assert (Q5 := Q m u5 Hm). assert (Q6 := Q m u6 Hm). nra.
Qed.
Lemma diag_reject eigvals a b c m : eigs_ok eigvals -> m < 0 -> ismassmatrix eigvals (diag6 a b c m m m) true = false.
Proof.
  intros Ev Hm. set (M := diag6 a b c m m m). assert (Sy : sym6 M) by (apply tr_sym6; unfold M, diag6; lin). assert (Ll : ll M = mscal m eye3) by (unfold M, diag6; cbn [ll]; clear; unf; entries; ring).
  destruct (ismassmatrix eigvals M true) eqn:Q; [ | reflexivity]. exfalso. apply (proj2 (C70_definite eigvals m M (Ev M Sy) Sy Ll)) in Q. specialize (Q (V6 zero3 (V3 1 0 0))). unfold M, diag6 in Q. revert Q Hm. clear. unf. lra.
Qed.

(** Adding a sphere, a box or a cylinder: one free body with a shape of the dimensions its mass matrix was computed from. *)
Theorem C72_solids : forall e g0 h eigvals I name m t,
  reachable 0 e g0 h -> eigs_ok eigvals -> new_ids I h e -> 0 <= m -> rep e h t -> root t = ground e ->
  (forall radius, let cs := lone_script e I name (sphere radius m) (ShSphere radius) in (forall c, In c cs -> made e h c) -> forall fuel, (length (bodies t) + 1 < fuel)%nat ->
     exists h' t', add_sphere e eigvals I fuel radius m name h = (h', Ok tt) /\ reachable 0 e g0 h' /\ ready e h' t' /\ (height t' < fuel)%nat /\ one_more e h h' t t' cs name (sphere radius m) (ShSphere radius)) /\
  (forall half_extents, let cs := lone_script e I name (box half_extents m) (ShBox half_extents) in (forall c, In c cs -> made e h c) -> forall fuel, (length (bodies t) + 1 < fuel)%nat ->
     exists h' t', add_box e eigvals I fuel half_extents m name h = (h', Ok tt) /\ reachable 0 e g0 h' /\ ready e h' t' /\ (height t' < fuel)%nat /\ one_more e h h' t t' cs name (box half_extents m) (ShBox half_extents)) /\
  (forall len radius, let cs := lone_script e I name (cylinder len radius m) (ShCylinder len radius) in (forall c, In c cs -> made e h c) -> forall fuel, (length (bodies t) + 1 < fuel)%nat ->
     exists h' t', add_cylinder e eigvals I fuel len radius m name h = (h', Ok tt) /\ reachable 0 e g0 h' /\ ready e h' t' /\ (height t' < fuel)%nat /\ one_more e h h' t t' cs name (cylinder len radius m) (ShCylinder len radius)).
Proof.
  intros e g0 h eigvals I name m t R Ev Ni Hm Rt Er.
  assert (Sq : forall x, 0 <= x ^ 2) by (intros x; rewrite <- Rsqr_pow2; apply Rle_0_sqr).
  split; [ | split].
  - intros radius cs Mk fuel Fu. apply lone_ok; try assumption. unfold sphere. assert (X := Sq radius). apply diag_accept; try assumption; nra.
  - intros [x y z] cs Mk fuel Fu. apply lone_ok; try assumption. unfold box. cbn [vx vy vz]. assert (X := Sq x). assert (Y := Sq y). assert (Z := Sq z). apply diag_accept; try assumption; apply Rmult_le_pos; lra.
  - intros len radius cs Mk fuel Fu. apply lone_ok; try assumption. unfold cylinder. assert (X := Sq radius). assert (Y := Sq len). apply diag_accept; try assumption; [apply Rmult_le_pos; lra | apply Rmult_le_pos; lra | ]. unfold Rdiv. apply Rmult_le_pos; [apply Rmult_le_pos; assumption | lra].
Qed.
Print Assumptions C72_solids.
(** a negative mass is refused and nothing is touched *)
Theorem C72_refuses : forall e eigvals I fuel name m h, eigs_ok eigvals -> m < 0 ->
  (forall radius, add_sphere e eigvals I fuel radius m name h = (h, Err AssertionError)) /\
  (forall half_extents, add_box e eigvals I fuel half_extents m name h = (h, Err AssertionError)) /\
  (forall len radius, add_cylinder e eigvals I fuel len radius m name h = (h, Err AssertionError)).
Proof.
  intros e eigvals I fuel name m h Ev Hm. split; [ | split]; intros; unfold add_sphere, add_box, add_cylinder, lone_script, sphere, box, cylinder; cbn [exec_all exec]; rewrite diag_reject by assumption; reflexivity.
Qed.
Print Assumptions C72_refuses.
(** The body is where its free joint says, and moves with it. *)
Theorem C72_free : forall e g0 h eigvals I name M g t, reachable 0 e g0 h -> ismassmatrix eigvals M true = true -> new_ids I h e -> rep e h t -> root t = ground e ->
  let cs := lone_script e I name M g in (forall c, In c cs -> made e h c) -> forall fuel, (length (bodies t) + 1 < fuel)%nat ->
  exists h' t', exec_all e eigvals fuel cs h = (h', Ok tt) /\ ready e h' t' /\ exists b j, In (MkBody b name M) cs /\ In (MkJoint j None FreeJoint) cs /\
    forall sc J st, rigid_scene e sc t' J -> scene_of sc J cs -> b_mass sc b = M /\ exists sg, world_update_geometric e sc h' J fuel st = Ok sg /\ frame_pose e sc sg (FBody b) = Ok (gposH (J j)).
Proof.
  intros e g0 h eigvals I name M g t R Ac Ni Rt Er cs Mk fuel Fu. destruct (build_lone e I name M g g0 h eigvals t fuel R Ac Ni) as (h' & t' & E & R' & Rd & Hf & Bd & Pm & Nd & Jf & Jo & Gv & Rl & Rg); [intros c Hc; apply Mk; change cs with (lone_cmds e I name M g ++ [WInit]); apply in_or_app; now left | assumption | assumption | assumption | ].
  exists h', t'. split; [exact E | ]. split; [exact Rd | ]. exists (xb I 0), (xj I 0). split; [now left | ]. split; [right; now left | ].
  intros sc J st Ri (S1 & S2 & S3). split; [apply S1; cbn [cs lone_script mass_in]; now rewrite Nat.eqb_refl | ].
  destruct (C39_poses e sc h' t' J fuel st Rd Ri Hf) as (sg & sd & dd & Eg & _ & P1 & P2 & P3 & _). exists sg. split; [exact Eg | ].
  destruct (P3 (xj I 0) _ _ ltac:(eapply Permutation_in; [symmetry; exact Pm | ]; apply in_or_app; right; now left) Jf) as (F0 & F1 & _ & _ & E0 & E1 & EF). rewrite E1, EF. apply frame_at in E0. destruct E0 as (P & EP & ->). cbn [frame_body] in EP. rewrite P2 in EP. injection EP as <-. cbn [bpose].
  assert (Jt : jt (J (xj I 0%nat)) = FreeJoint) by (eapply S3; right; now left). unfold Model_Joints.pose. rewrite Jt, !mm4_1_l. reflexivity.
Qed.
Print Assumptions C72_free.
(** The ground plane: a plane through the origin of the ground, normal to the up direction of the world; nothing else changes. *)
Theorem C72_plane : forall e g0 h eigvals I fuel up, reachable 0 e g0 h ->
  let cs := groundplane_script e I up in (forall c, In c cs -> made e h c) ->
  exists h' x, add_groundplane e eigvals I fuel up h = (h', Ok tt) /\ reachable 0 e g0 h' /\ In (MkShape x (Some "Ground shape"%string) (FBody (ground e)) (ShPlane (up, 0))) cs /\
    In x (w_shapes h') /\ (forall y, In y (w_shapes h') <-> In y (w_shapes h) \/ y = x) /\ w_subframes h' = w_subframes h /\ w_constraints h' = w_constraints h /\ w_controllers h' = w_controllers h /\
    same_graph h h' /\ (forall j, joint_gvel h' j = joint_gvel h j) /\ w_ndof h' = w_ndof h.
Proof.
  intros e g0 h eigvals I fuel up R cs Mk. assert (Sf : shape_frame e (xh I 0) = FBody (ground e)) by (apply (Mk (MkShape (xh I 0) (Some "Ground shape"%string) (FBody (ground e)) (ShPlane (up, 0)))); now left).
  destruct (register_ok e g0 (OShape (xh I 0)) h R Logic.I) as (h1 & E & R1 & G1 & V1). exists h1, (xh I 0). split; [unfold add_groundplane, groundplane_script; cbn [exec_all exec]; now rewrite E | ]. split; [exact R1 | ]. split; [now left | ].
  cbn [register] in E. rewrite Sf in E. cbn [register_frame] in E. injection E as <-. cbn [set_registered w_shapes w_subframes w_constraints w_controllers w_ndof].
  assert (Q : forall y l, In y (add_once Nat.eqb (xh I 0) l) <-> In y l \/ y = xh I 0%nat).
  { intros y l. unfold add_once. destruct (existsb (Nat.eqb (xh I 0)) l) eqn:Z; [ | rewrite in_app_iff; cbn; intuition congruence]. apply existsb_exists in Z. destruct Z as (z & Hz & Qz). apply Nat.eqb_eq in Qz. subst z. intuition congruence. }
  split; [apply Q; now right | ]. split; [intros y; apply Q | ]. split; [reflexivity | ]. split; [reflexivity | ]. split; [reflexivity | ]. split; [exact G1 | ]. split; [exact V1 | reflexivity].
Qed.
Print Assumptions C72_plane.
(** a ball in a fresh world *)
Theorem C72_witness : forall radius m, 0 < radius -> 0 < m -> exists e eigvals h' t', let h := fresh e zero_vel in let cs := lone_script e plain_ids None (sphere radius m) (ShSphere radius) in
  eigs_ok eigvals /\ reachable 0 e zero_vel h /\ new_ids plain_ids h e /\ (forall c, In c cs -> made e h c) /\ add_sphere e eigvals plain_ids 3 radius m None h = (h', Ok tt) /\ ready e h' t' /\ one_more e h h' (Node 0 []) t' cs None (sphere radius m) (ShSphere radius) /\
  mass_of m (sphere radius m) /\ homogeneous_inertia (ellipsoid_integral radius radius radius) m (sphere radius m).
Proof.
  intros radius m Hr Hm. destruct eigs_exist as (eigvals & Ev). set (e0 := Env 0 (fun _ => 0%nat) (fun _ => 0%nat) (fun _ => FBody 0) (fun _ => []) (fun _ => 0%nat)).
  set (cs := lone_script e0 plain_ids None (sphere radius m) (ShSphere radius)). set (e := env_for cs). set (h := fresh e zero_vel).
  assert (R : reachable 0 e zero_vel h) by constructor. assert (Ni : new_ids plain_ids h e) by (apply plain_new; reflexivity).
  assert (Rt : rep e h (Node 0 [])) by (constructor; [reflexivity | constructor]).
  assert (Oc : once cs) by (split; [ | split]; cbn; repeat (apply NoDup_cons; [cbn; lia | ]); apply NoDup_nil).
  assert (Mk : forall c, In c cs -> made e h c) by (exact (made_for cs Oc)).
  destruct (proj1 (C72_solids e zero_vel h eigvals plain_ids None m (Node 0 []) R Ev Ni (Rlt_le _ _ Hm) Rt eq_refl) radius Mk 3%nat ltac:(cbn; lia)) as (h' & t' & E & _ & Rd & _ & O1).
  exists e, eigvals, h', t'. cbv zeta. split; [exact Ev | ]. split; [exact R | ]. split; [exact Ni | ]. split; [exact Mk | ]. split; [exact E | ]. split; [exact Rd | ]. split; [exact O1 | ].
  destruct (C36_mass_constructors radius radius radius radius 1 m Hr Hr Hr Hr ltac:(lra) Hm) as (_ & _ & _ & Hi & _ & _ & Hs & Eq). split; [exact Hs | ]. rewrite Eq. exact Hi.
Qed.
Print Assumptions C72_witness.
