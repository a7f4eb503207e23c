(** C34, C39-C44: kinematics and dynamics of a world. *)
From Verif Require Import Spec_Dyn Proof_Tree Proof_World Proof_World2 Proof_World3 Proof_Dofs Proof_Register Proof_World4.
From Verif Require Import Proof_Linalg Proof_Deriv Proof_SE3 Proof_Exp Proof_Joints Proof_Dyn Proof_Dyn2.

(** Every world built by API calls is [ready] once initialised, and its velocity vector is made of
    the velocities of its joints: the hypotheses used below are met by all reachable states. *)
Lemma rep_set_dofs e (h : @heap R) d n a g w k t : rep e h t -> rep e (set_dofs h d n a g w k) t.
Proof.
  induction t as [b ks IH] using tree_ind'. intros R. inversion R as [b' ks' C E]; subst b' ks'.
  constructor; auto. rewrite Forall_forall in *. intros x Ix. destruct (E x Ix) as [E1 E2]. split; [exact E1 | apply IH; auto].
Qed.
Theorem C39_C40_reachable : forall e g0 h ty qH q, reachable 0 e g0 h ->
  exists t, rep e h t /\ root t = ground e /\ forall fuel, (height t < fuel)%nat ->
  exists h', init 0 e fuel h = (h', Ok tt) /\ ready e h' t /\
    world_velocity e h' t (joint_state h' ty qH q) (fun k => nth k (world_gvel h') 0).
Proof.
  intros e g0 h ty qH q R. destruct (world_iterators e h (reachable_forest 0 e g0 h R)) as (t & Rt & Er & ND & NJ & _).
  exists t. split; auto. split; auto. intros fuel F.
  destruct (init_spec 0 e h t fuel (reachable_vinv 0 e g0 h R) Rt Er ND F) as (h' & E & N & Sl & _).
  exists h'. split; auto.
  assert (S : exists d n a g w k, h' = set_dofs h d n a g w k).
  { unfold init in E. destruct (iterjoints _ _ _); [ | discriminate]. destruct (assign_dofs _ _ _ _).
    destruct (copy_gvels _ _ _ _ _) as [[? ?] | ]; [ | discriminate]. injection E as <-. repeat eexists. }
  destruct S as (d & n & a & g & w & k & ->).
  split.
  - split; [apply rep_set_dofs; auto | ]. split; [auto | ]. split; [auto | ]. split; [exact N | ].
    intros l1 j l2 El. apply (Sl l1 j l2 El).
  - intros j s d' I D i Hi. apply in_split in I. destruct I as (l1 & l2 & El). destruct (Sl l1 j l2 El) as [D1 G].
    rewrite D in D1. injection D1 as -> ->. unfold joint_state. cbn [gvel]. unfold joint_gvel, read. rewrite G. cbn [v_len v_start v_arr].
    unfold world_gvel. set (x := arr _ _). clearbody x. rewrite <- (firstn_skipn (total_ndof e l1) x) at 2.
    destruct (Nat.le_gt_cases (length x) (total_ndof e l1)) as [Lx | Lx].
    + rewrite skipn_all2 by lia. rewrite firstn_nil, app_nil_r. rewrite nth_overflow by (cbn; lia).
      symmetry. apply nth_overflow. rewrite firstn_length. lia.
    + rewrite app_nth2 by (rewrite firstn_length; lia). rewrite firstn_length, Nat.min_l by lia.
      replace (total_ndof e l1 + i - total_ndof e l1)%nat with i by lia.
      generalize (skipn (total_ndof e l1) x). intros y. clear - Hi. revert i y Hi. generalize (jndof e j). 
      induction n as [ | n IH]; intros i y Hi; [lia | ]. destruct y as [ | z y]; [destruct i; reflexivity | ].
      destruct i; cbn [firstn nth]; auto. apply IH. lia.
Qed.

(** ** C39 *)
(** No assertion fails; both updates give the same rigid poses; the ground is the reference; the
    pose of a joint's second frame is the pose of its first frame times the joint pose. *)
Theorem C39_poses : forall e sc h t J fuel st, ready e h t -> rigid_scene e sc t J -> (height t < fuel)%nat ->
  exists sg sd d, world_update_geometric e sc h J fuel st = Ok sg /\ world_update_dynamic e sc h J fuel st = Ok (sd, d) /\
    (forall f, In (frame_body e f) (bodies t) -> exists H, SE3 H /\ a_pose (sg (frame_body e f)) = Some H /\
        a_pose (sd (frame_body e f)) = Some H /\
        frame_pose e sc sg f = Ok (mm4 H (bpose sc f)) /\ frame_pose e sc sd f = Ok (mm4 H (bpose sc f))) /\
    a_pose (sg (ground e)) = Some eye4 /\
    (forall j f0 f1, In j (joints t) -> jframes h j = Some (f0, f1) -> exists F0 F1,
        In (frame_body e f0) (bodies t) /\ In (frame_body e f1) (bodies t) /\
        frame_pose e sc sg f0 = Ok F0 /\ frame_pose e sc sg f1 = Ok F1 /\ F1 = mm4 F0 (pose (J j))) /\
    (forall x, ~ In x (bodies t) -> sg x = st x /\ sd x = st x) /\
    (forall x, a_jac (sg x) = a_jac (st x) /\ a_twist (sg x) = a_twist (st x)).
Proof.
  intros e sc h t J fuel st Rd Ri F.
  destruct (geometric_ok e sc h t J fuel st Rd Ri F) as (sg & Eg & Pg & Qg).
  destruct (world_ok e sc h t J fuel st Rd Ri F) as (sd & d & Ed & Pd & Qd & _).
  exists sg, sd, d. split; [exact Eg | ]. split; [exact Ed | ]. destruct (Ri) as [B V].
  assert (DN : forall x ps, path t x ps -> forall j, In j (map fst ps) -> jdof h j <> None).
  { intros x ps P j Ij. destruct (ready_dof e h t j Rd) as (s & D & _); [eapply path_in; eauto | congruence]. }
  assert (G : forall f, In (frame_body e f) (bodies t) -> exists ps, path t (frame_body e f) ps /\
      let H := fold_right (posej sc h J) eye4 (map fst ps) in
      SE3 H /\ a_pose (sg (frame_body e f)) = Some H /\ a_pose (sd (frame_body e f)) = Some H /\
      frame_pose e sc sg f = Ok (mm4 H (bpose sc f)) /\ frame_pose e sc sd f = Ok (mm4 H (bpose sc f))).
  { intros f If. destruct (path_of t _ If) as [ps P]. exists ps. split; auto. cbn zeta.
    set (H := fold_right (posej sc h J) eye4 (map fst ps)).
    assert (Ag : a_pose (sg (frame_body e f)) = Some H) by (rewrite (Pg _ _ P); reflexivity).
    assert (Ad : a_pose (sd (frame_body e f)) = Some H).
    { rewrite (Pd _ _ P). cbn [attr a_pose]. rewrite kin_pose by (eapply DN; eauto). reflexivity. }
    split; [apply posej_SE3; auto; intros j Ij; apply V; eapply path_in; eauto | ].
    split; auto. split; auto. unfold frame_pose. rewrite Ag, Ad. cbn [get rbind].
    destruct f; cbn [bpose]; rewrite ?mm4_1_r; auto. }
  split; [intros f If; destruct (G f If) as (ps & _ & X); eexists; exact X | ].
  split.
  { destruct (Rd) as (_ & Er & _). rewrite <- Er, (Pg _ _ (path_root_nil t)). reflexivity. }
  split.
  { intros j f0 f1 Ij Ej. destruct (path_joint e h t (proj1 Rd) j Ij) as (g0 & g1 & ps & Eg' & P0 & P1).
    rewrite Ej in Eg'. injection Eg' as <- <-.
    assert (I0 := proj1 (path_in _ _ _ P0)). assert (I1 := proj1 (path_in _ _ _ P1)).
    exists (mm4 (fold_right (posej sc h J) eye4 (map fst ps)) (bpose sc f0)),
           (mm4 (fold_right (posej sc h J) eye4 (j :: map fst ps)) (bpose sc f1)).
    split; auto. split; auto.
    assert (Z : forall f ps, path t (frame_body e f) ps -> frame_pose e sc sg f = Ok (mm4 (fold_right (posej sc h J) eye4 (map fst ps)) (bpose sc f))).
    { intros f qs P. unfold frame_pose. rewrite (Pg _ _ P). cbn [get a_pose rbind]. destruct f; cbn [bpose]; rewrite ?mm4_1_r; auto. }
    split; [apply Z; auto | ]. split; [apply (Z f1 _ P1) | ]. cbn [fold_right]. unfold posej at 1. rewrite Ej. unfold rel_.
    rewrite <- !mm4_assoc, inv_l, mm4_1_r by apply B. reflexivity. }
  split; [auto | ]. intros x. destruct (in_dec Nat.eq_dec x (bodies t)) as [I | I].
  - destruct (path_of _ _ I) as [ps P]. rewrite (Pg _ _ P). split; reflexivity.
  - rewrite Qg by auto. split; reflexivity.
Qed.

(** ** C40 *)
Theorem C40_twist_is_jacobian_gvel : forall e sc h t J v fuel st, ready e h t -> rigid_scene e sc t J ->
  (height t < fuel)%nat -> world_velocity e h t J v ->
  exists sd d, world_update_dynamic e sc h J fuel st = Ok (sd, d) /\
  forall f, In (frame_body e f) (bodies t) -> exists T A,
    frame_twist e sc sd f = Ok T /\ frame_jac e sc sd f = Ok A /\
    T = sum6 (w_ndof h) (fun c => v6scal (v c) (A c)) /\
    forall js c, above t (frame_body e f) js ->
      (forall j s d, In j js -> jdof h j = Some (s, d) -> ~ (s <= c < d)%nat) -> A c = zero6.
Proof.
  intros e sc h t J v fuel st Rd Ri F Wv.
  destruct (world_ok e sc h t J fuel st Rd Ri F) as (sd & d & Ed & Pd & _).
  exists sd, d. split; auto. intros f If. destruct (path_of _ _ If) as [ps P].
  destruct (frame_ok e sc t J h sd f Pd (proj1 Ri) ps P) as (_ & ET & (A & EA & HA) & _).
  exists (mv6 (iadjoint_ (bpose sc f)) (k_twist (kin_of sc h J (map fst ps)))), A. split; auto. split; auto.
  assert (I := proj2 (path_in _ _ _ P)). split.
  - rewrite (kin_twist e sc h t J v Rd Ri Wv _ I), <- sum6_mv6. apply sum6_ext. intros c _. rewrite HA, mv6_scal. reflexivity.
  - intros js c (qs & Q & ->) N. rewrite HA.
    assert (E : sd (frame_body e f) = attr (b_mass sc (frame_body e f)) (kin_of sc h J (map fst qs))) by (apply Pd; auto).
    rewrite (Pd _ _ P) in E. assert (E' : k_jac (kin_of sc h J (map fst ps)) = k_jac (kin_of sc h J (map fst qs))) by (injection E; auto).
    rewrite E'. rewrite (proj1 (kin_columns e sc h t J Rd (map fst qs) c (proj2 (path_in _ _ _ Q)) N)). apply mv6_zero6.
Qed.

(** ** C41, C42 *)
Theorem C41_pose_derivative : forall e sc h t f s fuel st (St : R -> store) (D : R -> wdyn),
  ready e h t -> rigid_scene e sc t (f s) -> world_motion t f s -> (height t < fuel)%nat ->
  (forall u, world_update_dynamic e sc h (f u) fuel st = Ok (St u, D u)) ->
  forall g, In (frame_body e g) (bodies t) -> exists P T,
    (forall u, frame_pose e sc (St u) g = Ok (P u)) /\ frame_twist e sc (St s) g = Ok T /\
    dm4 P s (mm4 (P s) (hat T)).
Proof.
  intros e sc h t f s fuel st St D Rd Ri M F HU g Ig. destruct (path_of _ _ Ig) as [ps P].
  assert (G : forall u x qs, path t x qs -> St u x = attr (b_mass sc x) (kin_of sc h (f u) (map fst qs))).
  { intros u. destruct (world_ok e sc h t (f u) fuel st Rd (rigid_motion e sc t f s u Ri M) F) as (sd & d & Ed & Pd & _).
    rewrite HU in Ed. injection Ed as -> _. exact Pd. }
  exists (fun u => mm4 (k_pose (kin_of sc h (f u) (map fst ps))) (bpose sc g)), (mv6 (iadjoint_ (bpose sc g)) (k_twist (kin_of sc h (f s) (map fst ps)))).
  split; [intros u; eapply frame_ok; eauto; apply Ri | ]. split; [eapply frame_ok; eauto; apply Ri | ].
  assert (I := proj2 (path_in _ _ _ P)).
  eapply (tw_eq (fun u => mm4 (k_pose (kin_of sc h (f u) (map fst ps))) (bpose sc g))).
  - apply (compose_deriv (fun u => k_pose (kin_of sc h (f u) (map fst ps))) (fun _ => bpose sc g)).
    + intros u. rewrite kin_pose. * apply posej_SE3; [apply Ri | ]. intros j Ij. eapply mo_valid; eauto.
      * intros j Ij. destruct (ready_dof e h t j Rd (I j Ij)) as (? & E & _). congruence.
    + intros; apply Ri.
    + eapply kin_pose_deriv; eauto. apply Ri.
    + apply const_motion, Ri.
  - cbv beta. apply v6add_0_r.
Qed.

(** djacobian is the derivative of jacobian whenever the joints between the body and the ground are
    safe: hinges and slides anywhere, the other joints only at the end of a motionless chain
    (e.g. a free-flying base). *)
Theorem C42_djacobian_partial : forall e sc h t f s fuel st (St : R -> store) (D : R -> wdyn),
  ready e h t -> rigid_scene e sc t (f s) -> world_motion t f s -> (height t < fuel)%nat ->
  (forall u, world_update_dynamic e sc h (f u) fuel st = Ok (St u, D u)) ->
  forall g js, above t (frame_body e g) js -> djac_safe (fun j => jt (f s j)) js ->
  exists A dA, (forall u, frame_jac e sc (St u) g = Ok (A u)) /\ frame_djac e sc (St s) g = Ok dA /\
    forall c, dv6 (fun u => A u c) s (dA c).
Proof.
  intros e sc h t f s fuel st St D Rd Ri M F HU g js (ps & P & ->) Sf.
  assert (G : forall u x qs, path t x qs -> St u x = attr (b_mass sc x) (kin_of sc h (f u) (map fst qs))).
  { intros u. destruct (world_ok e sc h t (f u) fuel st Rd (rigid_motion e sc t f s u Ri M) F) as (sd & d & Ed & Pd & _).
    rewrite HU in Ed. injection Ed as -> _. exact Pd. }
  assert (Bp := proj1 Ri).
  assert (X := fun u => proj1 (proj2 (proj2 (frame_ok e sc t (f u) h (St u) g (G u) Bp ps P)))). cbv zeta in X.
  assert (Y := proj2 (proj2 (proj2 (frame_ok e sc t (f s) h (St s) g (G s) Bp ps P)))). cbv zeta in Y.
  destruct Y as (dA & EdA & HdA).
  exists (fun u => match frame_jac e sc (St u) g with Ok A => A | Err _ => fun _ => zero6 end), dA.
  split; [intros u; destruct (X u) as (A & -> & _); reflexivity | ]. split; auto.
  intros c. apply dv6_ext with (f := fun u => mv6 (iadjoint_ (bpose sc g)) (k_jac (kin_of sc h (f u) (map fst ps)) c)).
  { intros u. destruct (X u) as (A & -> & HA). apply HA. }
  rewrite HdA. assert (Z := dv6_mv6 s _ _ _ _ (dm6_const s (iadjoint_ (bpose sc g)))
    (kin_jac_deriv e sc h t f s Rd Bp M (fun j I => proj2 (proj2 Ri j I)) (map fst ps) c (proj2 (path_in _ _ _ P)) Sf)).
  cbv beta in Z. rewrite mv6_0, v6add_0_l in Z. exact Z.
Qed.

(** ** C43 *)
Theorem C43_mass_matrix : forall e sc h t J fuel st, ready e h t -> rigid_scene e sc t J -> (height t < fuel)%nat ->
  (forall b, In b (tl (bodies t)) -> sym6 (b_mass sc b) /\ psd6 (b_mass sc b)) ->
  exists sd d, world_update_dynamic e sc h J fuel st = Ok (sd, d) /\
    (forall k l, d_mass d k l = d_mass d l k) /\
    (forall x, 0 <= quad (w_ndof h) x (d_mass d) x) /\
    (* equality only for velocities that leave every body of definite mass at rest *)
    (forall x b A, quad (w_ndof h) x (d_mass d) x = 0 -> In b (tl (bodies t)) ->
       (forall u, dot6 u (mv6 (b_mass sc b) u) = 0 -> u = zero6) ->
       a_jac (sd b) = Some A -> sum6 (w_ndof h) (fun c => v6scal (x c) (A c)) = zero6) /\
    (* kinetic energy and dissipated power are the sums over the bodies *)
    (forall v, world_velocity e h t J v -> exists T, (forall b, In b (bodies t) -> a_twist (sd b) = Some (T b)) /\
       quad (w_ndof h) v (d_mass d) v = suml (fun b => dot6 (T b) (mv6 (b_mass sc b) (T b))) (tl (bodies t)) /\
       quad (w_ndof h) v (d_visc d) v = suml (fun b => dot6 (T b) (mv6 (b_visc sc b) (T b))) (tl (bodies t))).
Proof.
  intros e sc h t J fuel st Rd Ri F Ms.
  destruct (world_ok e sc h t J fuel st Rd Ri F) as (sd & d & Ed & Pd & _ & M & V & _).
  exists sd, d. split; auto.
  assert (Q : forall x W X, (forall k l, X k l = suml (fun b => congr (k_jac (kin_at sd b)) (W b) (k_jac (kin_at sd b)) k l) (tl (bodies t))) ->
     quad (w_ndof h) x X x = suml (fun b => let u := sum6 (w_ndof h) (fun c => v6scal (x c) (k_jac (kin_at sd b) c)) in dot6 u (mv6 (W b) u)) (tl (bodies t))).
  { intros x W X E. rewrite (quad_ext _ _ _ _ _ E), quad_suml. apply suml_ext. intros b _. unfold congr.
    rewrite quad_dot. cbn zeta. rewrite <- sum6_mv6. f_equal. apply sum6_ext. intros; symmetry; apply mv6_scal. }
  split; [ | split; [ | split]].
  - intros k l. rewrite !M. apply suml_ext. intros b Ib. unfold congr. apply Ms; auto.
  - intros x. rewrite (Q x _ _ M). apply suml_nonneg. intros b Ib. apply Ms; auto.
  - intros x b A. rewrite (Q x _ _ M). intros Z Ib Df EA.
    assert (Z1 : forall l, (forall y, In y l -> In y (tl (bodies t))) -> suml (fun b => let u := sum6 (w_ndof h) (fun c => v6scal (x c) (k_jac (kin_at sd b) c)) in dot6 u (mv6 (b_mass sc b) u)) l = 0 ->
       In b l -> dot6 (sum6 (w_ndof h) (fun c => v6scal (x c) (k_jac (kin_at sd b) c))) (mv6 (b_mass sc b) (sum6 (w_ndof h) (fun c => v6scal (x c) (k_jac (kin_at sd b) c)))) = 0).
    { clear - Ms. induction l as [ | y l IH]; intros I Z Ib; [contradiction | ]. cbn [suml] in Z. cbv zeta in Z.
      assert (P : forall y, In y (tl (bodies t)) -> 0 <= let u := sum6 (w_ndof h) (fun c => v6scal (x c) (k_jac (kin_at sd y) c)) in dot6 u (mv6 (b_mass sc y) u)).
      { intros z Iz. apply Ms; auto. }
      assert (P1 := P y (I y (or_introl eq_refl))). cbv zeta in P1.
      match type of Z with _ + ?a = 0 => assert (P2 : 0 <= a) by (apply suml_nonneg; intros; apply (P x0), I; right; auto) end.
      destruct Ib as [-> | Ib]; [lra | ]. apply IH; auto. intros; apply I; right; auto. cbv zeta. lra. }
    specialize (Z1 (tl (bodies t)) (fun y H => H) Z Ib). apply Df in Z1.
    assert (EK : k_jac (kin_at sd b) = A); [ | rewrite <- EK; exact Z1].
    destruct (path_of t b) as [ps P]. { rewrite bodies_tail. rewrite bodies_tail in Ib. right. exact Ib. }
    assert (E := Pd _ _ P). rewrite (kin_at_attr _ _ _ _ E). rewrite E in EA. cbn [attr a_jac] in EA. congruence.
  - intros v Wv. exists (fun b => k_twist (kin_at sd b)).
    assert (TW : forall b, In b (bodies t) -> a_twist (sd b) = Some (k_twist (kin_at sd b)) /\
       k_twist (kin_at sd b) = sum6 (w_ndof h) (fun c => v6scal (v c) (k_jac (kin_at sd b) c))).
    { intros b Ib. destruct (path_of t b Ib) as [ps P]. assert (E := Pd _ _ P). rewrite (kin_at_attr _ _ _ _ E), E. split; auto.
      apply (kin_twist e sc h t J v Rd Ri Wv). apply (path_in _ _ _ P). }
    split; [intros b Ib; apply TW; auto | ].
    rewrite (Q v _ _ M), (Q v _ _ V). split; apply suml_ext; intros b Ib; cbn zeta; rewrite <- (proj2 (TW b ltac:(rewrite bodies_tail in *; right; exact Ib))); reflexivity.
Qed.

(** ** C44 *)
(** Newton-Euler: with momenta (L, p) = M_b T and T = (w, v), the wrench is (w x L + v x p, w x p);
    it does no work. *)
Theorem C44_body_gyroscopic : forall m c I0 w v, 1 / 10000000000 < m \/ m = 0 ->
  let M := rigid_mass m c I0 in let T := V6 w v in
  let L := ang (mv6 M T) in let p := lin (mv6 M T) in
  mv6 (body_nle M T) T = V6 (vadd (cross w L) (cross v p)) (cross w p) /\
  dot6 T (mv6 (body_nle M T) T) = 0.
Proof. intros m c I0 w v Hm. cbn zeta. split; [apply nle_eq; auto | apply nle_power; auto]. Qed.

(** Along every motion whose joints are safe, the mass matrix is differentiable and
    v'(dM/dt)v / 2 = v' N v. *)
Theorem C80_world_partial : forall e sc h t f s v fuel st (St : R -> store) (D : R -> wdyn),
  ready e h t -> rigid_scene e sc t (f s) -> world_motion t f s -> (height t < fuel)%nat ->
  (forall u, world_update_dynamic e sc h (f u) fuel st = Ok (St u, D u)) ->
  world_velocity e h t (f s) v ->
  (forall b, In b (tl (bodies t)) -> exists m c I0, (1 / 10000000000 < m \/ m = 0) /\ tr I0 = I0 /\ b_mass sc b = rigid_mass m c I0) ->
  (forall b js, In b (tl (bodies t)) -> above t b js -> djac_safe (fun j => jt (f s j)) js) ->
  exists dM, (forall k l, derivable_pt_lim (fun u => d_mass (D u) k l) s (dM k l)) /\
    quad (w_ndof h) v dM v / 2 = quad (w_ndof h) v (d_nle (D s)) v.
Proof.
  intros e sc h t f s v fuel st St D Rd Ri M F HU Wv Ms Sf.
  assert (G : forall u, (forall x qs, path t x qs -> St u x = attr (b_mass sc x) (kin_of sc h (f u) (map fst qs))) /\
     (forall k l, d_mass (D u) k l = suml (fun b => congr (k_jac (kin_at (St u) b)) (b_mass sc b) (k_jac (kin_at (St u) b)) k l) (tl (bodies t))) /\
     (forall k l, d_nle (D u) k l = suml (fun b => dot6 (k_jac (kin_at (St u) b) k)
        (v6add (mv6 (b_mass sc b) (k_djac (kin_at (St u) b) l))
               (mv6 (body_nle (b_mass sc b) (k_twist (kin_at (St u) b))) (k_jac (kin_at (St u) b) l)))) (tl (bodies t)))).
  { intros u. destruct (world_ok e sc h t (f u) fuel st Rd (rigid_motion e sc t f s u Ri M) F) as (sd & d & Ed & Pd & _ & Md & _ & Nd).
    rewrite HU in Ed. injection Ed as -> ->. auto. }
  assert (SY : forall m c I0 u w, tr I0 = I0 -> dot6 u (mv6 (rigid_mass m c I0) w) = dot6 w (mv6 (rigid_mass m c I0) u)).
  { intros m c I0 u w E. rewrite <- dot6_comm, dot6_mv6. f_equal. f_equal. unfold rigid_mass, tr6. cbn [aa al la ll]. rewrite E. f_equal; lin. }
  set (K := fun u b => kin_at (St u) b).
  assert (DJ : forall b, In b (tl (bodies t)) -> forall c, dv6 (fun u => k_jac (K u b) c) s (k_djac (K s b) c)).
  { intros b Ib c. assert (Ib' : In b (bodies t)) by (rewrite bodies_tail in *; right; exact Ib).
    destruct (path_of t b Ib') as [ps P].
    eapply dv6_ext with (f := fun u => k_jac (kin_of sc h (f u) (map fst ps)) c).
    { intros u. unfold K. rewrite (kin_at_attr _ _ _ _ (proj1 (G u) _ _ P)). reflexivity. }
    unfold K. rewrite (kin_at_attr _ _ _ _ (proj1 (G s) _ _ P)).
    apply (kin_jac_deriv e sc h t f s Rd (proj1 Ri) M (fun j I => proj2 (proj2 Ri j I)) (map fst ps) c (proj2 (path_in _ _ _ P))).
    apply (Sf b); auto. exists ps; auto. }
  exists (fun k l => suml (fun b => dot6 (k_djac (K s b) k) (mv6 (b_mass sc b) (k_jac (K s b) l)) +
                                    dot6 (k_jac (K s b) k) (mv6 (b_mass sc b) (k_djac (K s b) l))) (tl (bodies t))).
  split.
  - intros k l. eapply dext; [intros u; apply (proj1 (proj2 (G u))) | ]. cbv beta.
    apply (Dsuml (fun u b => congr (k_jac (K u b)) (b_mass sc b) (k_jac (K u b)) k l)).
    intros b Ib. unfold congr. 
    assert (X := dv6_mv6 s _ _ _ _ (dm6_const s (b_mass sc b)) (DJ b Ib l)). cbv beta in X. rewrite mv6_0, v6add_0_l in X.
    assert (Y := dot6_deriv s _ _ _ _ (DJ b Ib k) X). cbv beta in Y. exact Y.
  - rewrite quad_suml. rewrite (quad_ext _ _ _ _ _ (proj2 (proj2 (G s)))), quad_suml.
    unfold Rdiv. rewrite Rmult_comm, <- suml_scal. apply suml_ext. intros b Ib. fold (K s b).
    destruct (Ms b Ib) as (m & c & I0 & Hm & Sy & ->).
    assert (Ib' : In b (bodies t)) by (rewrite bodies_tail in *; right; exact Ib).
    destruct (path_of t b Ib') as [ps P].
    assert (TW : k_twist (K s b) = sum6 (w_ndof h) (fun c => v6scal (v c) (k_jac (K s b) c))).
    { unfold K. rewrite (kin_at_attr _ _ _ _ (proj1 (G s) _ _ P)). apply (kin_twist e sc h t (f s) v Rd Ri Wv). apply (path_in _ _ _ P). }
    set (MM := rigid_mass m c I0) in *.
    rewrite quad_add.
    rewrite (quad_dot _ v (k_djac (K s b)) (fun l => mv6 MM (k_jac (K s b) l)) v).
    rewrite (quad_dot _ v (k_jac (K s b)) (fun l => mv6 MM (k_djac (K s b) l)) v).
    rewrite (quad_dot _ v (k_jac (K s b)) (fun l => v6add (mv6 MM (k_djac (K s b) l)) (mv6 (body_nle MM (k_twist (K s b))) (k_jac (K s b) l))) v).
    rewrite (sum6_ext _ (fun k => v6scal (v k) (v6add _ _)) (fun k => v6add (mv6 MM (v6scal (v k) (k_djac (K s b) k))) (mv6 (body_nle MM (k_twist (K s b))) (v6scal (v k) (k_jac (K s b) k)))))
      by (intros; rewrite v6scal_add, !mv6_scal; reflexivity).
    rewrite (sum6_ext _ (fun k => v6scal (v k) (mv6 MM (k_jac (K s b) k))) (fun k => mv6 MM (v6scal (v k) (k_jac (K s b) k)))) by (intros; rewrite mv6_scal; reflexivity).
    rewrite (sum6_ext _ (fun k => v6scal (v k) (mv6 MM (k_djac (K s b) k))) (fun k => mv6 MM (v6scal (v k) (k_djac (K s b) k)))) by (intros; rewrite mv6_scal; reflexivity).
    rewrite sum6_add, !sum6_mv6, <- TW. set (dT := sum6 _ (fun k => v6scal (v k) (k_djac (K s b) k))).
    rewrite dot6_add_r. unfold MM at 4. rewrite (nle_power m c I0) by auto.
    unfold MM. rewrite (SY m c I0 dT) by auto. lra.
Qed.

(** Power balance: if the accelerations [a] satisfy M a + (N + B) v = tau, the kinetic energy
    v'Mv/2 changes at the rate v.tau - v'Bv. *)
Theorem C80_power_partial : forall e sc h t f s (v : R -> nat -> R) a tau fuel st (St : R -> store) (D : R -> wdyn),
  ready e h t -> rigid_scene e sc t (f s) -> world_motion t f s -> (height t < fuel)%nat ->
  (forall u, world_update_dynamic e sc h (f u) fuel st = Ok (St u, D u)) ->
  world_velocity e h t (f s) (v s) ->
  (forall k, (k < w_ndof h)%nat -> derivable_pt_lim (fun u => v u k) s (a k)) ->
  (forall k, (k < w_ndof h)%nat -> sumR (w_ndof h) (fun l => d_mass (D s) k l * a l) +
     sumR (w_ndof h) (fun l => (d_nle (D s) k l + d_visc (D s) k l) * v s l) = tau k) ->
  (forall b, In b (tl (bodies t)) -> exists m c I0, (1 / 10000000000 < m \/ m = 0) /\ tr I0 = I0 /\ b_mass sc b = rigid_mass m c I0) ->
  (forall b js, In b (tl (bodies t)) -> above t b js -> djac_safe (fun j => jt (f s j)) js) ->
  derivable_pt_lim (fun u => quad (w_ndof h) (v u) (d_mass (D u)) (v u) / 2) s
    (sumR (w_ndof h) (fun k => v s k * tau k) - quad (w_ndof h) (v s) (d_visc (D s)) (v s)).
Proof.
  intros e sc h t f s v a tau fuel st St D Rd Ri M F HU Wv Dv Eq Ms Sf.
  destruct (C80_world_partial e sc h t f s (v s) fuel st St D Rd Ri M F HU Wv Ms Sf) as (dM & DM & E).
  set (n := w_ndof h) in *.
  assert (SYM : forall k l, d_mass (D s) k l = d_mass (D s) l k).
  { destruct (world_ok e sc h t (f s) fuel st Rd Ri F) as (sd & d & Ed & _ & _ & Md & _). rewrite HU in Ed. injection Ed as <- <-.
    intros k l. rewrite !Md. apply suml_ext. intros b Ib. destruct (Ms b Ib) as (m & c & I0 & _ & Sy & ->). unfold congr.
    rewrite <- dot6_comm, dot6_mv6. f_equal. f_equal. unfold rigid_mass, tr6. cbn [aa al la ll]. rewrite Sy. f_equal; lin. }
  assert (X : derivable_pt_lim (fun u => quad n (v u) (d_mass (D u)) (v u)) s
     (quad n a (d_mass (D s)) (v s) + quad n (v s) dM (v s) + quad n (v s) (d_mass (D s)) a)).
  { unfold quad. rewrite <- !sumR_add. apply (DsumR (fun u k => sumR n (fun l => v u k * d_mass (D u) k l * v u l))).
    intros k Hk. rewrite <- !sumR_add. apply (DsumR (fun u l => v u k * d_mass (D u) k l * v u l)). intros l Hl.
    eapply dconv; [apply Dmult; [apply Dmult | ]; [apply Dv; auto | apply DM | apply Dv; auto] | cbv beta; ring]. }
  eapply dconv; [apply (Dmult _ (fun _ => / 2)); [exact X | apply Dconst] | ]. cbv beta.
  replace (quad n a (d_mass (D s)) (v s)) with (quad n (v s) (d_mass (D s)) a).
  2: { unfold quad. rewrite sumR_swap. apply sumR_ext; intros k _; apply sumR_ext; intros l _. rewrite (SYM l k). ring. }
  assert (Y : sumR n (fun k => v s k * tau k) = quad n (v s) (d_mass (D s)) a + quad n (v s) (d_nle (D s)) (v s) + quad n (v s) (d_visc (D s)) (v s)).
  { unfold quad. rewrite <- !sumR_add. apply sumR_ext. intros k Hk. rewrite <- (Eq k Hk), Rmult_plus_distr_l, <- !sumR_scal, <- !sumR_add.
    apply sumR_ext. intros; ring. }
  rewrite Y. lra.
Qed.

(** ** C34 *)
Lemma rel_split sc s f0 f1 : (forall f, SE3 (bpose sc f)) -> valid_joint s -> iadjoint_ (rel_ sc s f0 f1) =
  mm6 (adjoint_ (bpose sc f1)) (mm6 (iadjoint_ (pose s)) (adjoint_ (inv_ (bpose sc f0)))).
Proof.
  intros B V. assert (S := pose_SE3 _ V). assert (S1 := SE3_inv _ (B f1)).
  unfold rel_, iadjoint_. rewrite inv_mm4, inv_mm4, inv_inv; auto using SE3_mm4.
  rewrite !SE3_adjoint_mm; auto using SE3_mm4, SE3_inv. apply eq_sym, mm6_assoc.
Qed.
Lemma linear_valid j : jt j <> FreeJoint -> valid_joint j.
Proof. intros N E; contradiction. Qed.
(** what one joint does, when its frames have poses P0 and P1 *)
Lemma stepk_eq sc h s d f0 f1 k P0 P1 : (forall f, SE3 (bpose sc f)) -> valid_joint s -> bpose sc f0 = P0 -> bpose sc f1 = P1 ->
  let k' := stepk sc h s d f0 f1 k in
  let Z := fun x => mv6 (adjoint_ P1) (mv6 (iadjoint_ (pose s)) (mv6 (adjoint_ (inv_ P0)) x)) in
  k_pose k' = mm4 (k_pose k) (mm4 P0 (mm4 (pose s) (inv_ P1))) /\
  (forall c, k_jac k' c = v6add (Z (k_jac k c)) (slice_col (fst d) (snd d) (fun i => mv6 (adjoint_ P1) (jacobian s i)) c)) /\
  k_twist k' = v6add (Z (k_twist k)) (mv6 (adjoint_ P1) (twist s)).
Proof.
  intros B V E0 E1. cbn zeta. cbn [stepk k_pose k_jac k_twist]. rewrite rel_split by auto. rewrite E0, E1. unfold rel_. rewrite E0, E1.
  split; auto. split; intros; rewrite !mv6_mm6; reflexivity.
Qed.

(** A joint [j] of world 1, from frame [f0] to frame [f1], and in world 2 the hinges [j1; j2; ...]
    in series through frames placed at the origin of intermediate bodies. *)
Definition same_motion (s1 s2 : store) (b1 b2 : nat) : Prop := exists H A1 A2 T,
  a_pose (s1 b1) = Some H /\ a_pose (s2 b2) = Some H /\ a_jac (s1 b1) = Some A1 /\ a_jac (s2 b2) = Some A2 /\
  (forall c, A1 c = A2 c) /\ a_twist (s1 b1) = Some T /\ a_twist (s2 b2) = Some T.
(** hinge of type [k] at the angle and speed of coordinate [i] of [s] *)
Definition hinge_of (s : jstate) (k : jtype) (i : nat) (s1 : jstate) : Prop :=
  jt s1 = k /\ gpos s1 0%nat = gpos s i /\ gvel s1 0%nat = gvel s i.

Lemma world_kin e sc h t J fuel st sd d j f0 f1 : ready e h t -> rigid_scene e sc t J -> (height t < fuel)%nat ->
  world_update_dynamic e sc h J fuel st = Ok (sd, d) -> In j (joints t) -> jframes h j = Some (f0, f1) ->
  exists k0 k1, sd (frame_body e f0) = attr (b_mass sc (frame_body e f0)) k0 /\ sd (frame_body e f1) = attr (b_mass sc (frame_body e f1)) k1 /\
    exists s, jdof h j = Some (s, s + jndof e j)%nat /\ k1 = stepk sc h (J j) (s, s + jndof e j)%nat f0 f1 k0.
Proof.
  intros Rd Ri F E Ij Ej. destruct (world_ok e sc h t J fuel st Rd Ri F) as (sd' & d' & Ed & Pd & _).
  rewrite E in Ed. injection Ed as <- <-.
  destruct (path_joint e h t (proj1 Rd) j Ij) as (g0 & g1 & ps & Eg & P0 & P1). rewrite Ej in Eg. injection Eg as <- <-.
  destruct (ready_dof _ _ _ _ Rd Ij) as (s & D & _).
  exists (kin_of sc h J (map fst ps)), (kin_of sc h J (j :: map fst ps)).
  split; [apply Pd; auto | ]. split; [apply (Pd _ _ P1) | ]. exists s. split; auto.
  cbn [kin_of fold_right]. unfold stepj at 1. rewrite Ej, D. reflexivity.
Qed.
Lemma attr_inj m k m' k' : attr m k = attr m' k' -> k = k'.
Proof. destruct k, k'. unfold attr. cbn. intros [=]. subst. reflexivity. Qed.

(** [sd] holds the body attributes left by update_dynamic *)
Definition updated e sc h t J (sd : store) : Prop := ready e h t /\ rigid_scene e sc t J /\
  exists fuel st d, (height t < fuel)%nat /\ world_update_dynamic e sc h J fuel st = Ok (sd, d).
(** joint [j] goes from frame [f0] to frame [f1], its first dof is number [s] *)
Definition joint_at (h : @heap R) (t : tree) (j : nat) (f0 f1 : frame) (s : nat) : Prop :=
  In j (joints t) /\ jframes h j = Some (f0, f1) /\ exists d, jdof h j = Some (s, d).

Lemma updated_kin e sc h t J sd j f0 f1 s : updated e sc h t J sd -> joint_at h t j f0 f1 s ->
  exists k0 k1, sd (frame_body e f0) = attr (b_mass sc (frame_body e f0)) k0 /\ sd (frame_body e f1) = attr (b_mass sc (frame_body e f1)) k1 /\
    k1 = stepk sc h (J j) (s, s + ndof_of (jt (J j)))%nat f0 f1 k0.
Proof.
  intros (Rd & Ri & fuel & st & d & F & E) (Ij & Ej & d' & D).
  destruct (world_kin e sc h t J fuel st sd d j f0 f1 Rd Ri F E Ij Ej) as (k0 & k1 & A & B & s' & D' & K).
  exists k0, k1. split; auto. split; auto. destruct (proj2 Ri j Ij) as [_ N]. rewrite D in D'. injection D' as <- _. rewrite <- N. exact K.
Qed.
Lemma inv_eye : inv_ eye4 = eye4. Proof. lin. Qed.
Lemma iadjoint_mm a b : SE3 a -> SE3 b -> iadjoint_ (mm4 a b) = mm6 (iadjoint_ b) (iadjoint_ a).
Proof. intros A B. unfold iadjoint_. rewrite inv_mm4, SE3_adjoint_mm; auto using SE3_inv. Qed.

Theorem C34_three_hinges : forall e sc h t J sd e' sc' h' t' J' sd' j f0 f1 j1 j2 j3 g0 m1 m1' m2 m2' g1 s,
  updated e sc h t J sd -> updated e' sc' h' t' J' sd' ->
  joint_at h t j f0 f1 s -> jt (J j) = RzRyRxJoint ->
  joint_at h' t' j1 g0 m1 s -> joint_at h' t' j2 m1' m2 (s + 1) -> joint_at h' t' j3 m2' g1 (s + 2) ->
  frame_body e' m1 = frame_body e' m1' -> frame_body e' m2 = frame_body e' m2' ->
  bpose sc' m1 = eye4 -> bpose sc' m1' = eye4 -> bpose sc' m2 = eye4 -> bpose sc' m2' = eye4 ->
  bpose sc' g0 = bpose sc f0 -> bpose sc' g1 = bpose sc f1 ->
  hinge_of (J j) RzJoint 0 (J' j1) -> hinge_of (J j) RyJoint 1 (J' j2) -> hinge_of (J j) RxJoint 2 (J' j3) ->
  same_motion sd sd' (frame_body e f0) (frame_body e' g0) -> same_motion sd sd' (frame_body e f1) (frame_body e' g1).
Proof.
  intros e sc h t J sd e' sc' h' t' J' sd' j f0 f1 j1 j2 j3 g0 m1 m1' m2 m2' g1 s U U' L Kj L1 L2 L3 B1 B2 E1 E1' E2 E2' G0 G1 H1 H2 H3 Sm.
  destruct (updated_kin _ _ _ _ _ _ _ _ _ _ U L) as (k0 & k & A0 & A1 & K).
  destruct (updated_kin _ _ _ _ _ _ _ _ _ _ U' L1) as (l0 & l1 & C0 & C1 & K1).
  destruct (updated_kin _ _ _ _ _ _ _ _ _ _ U' L2) as (l1' & l2 & C1' & C2 & K2).
  destruct (updated_kin _ _ _ _ _ _ _ _ _ _ U' L3) as (l2' & l3 & C2' & C3 & K3).
  rewrite <- B1, C1 in C1'. apply attr_inj in C1'. subst l1'. rewrite <- B2, C2 in C2'. apply attr_inj in C2'. subst l2'.
  assert (Bp := proj1 (proj1 (proj2 U))). assert (Bp' := proj1 (proj1 (proj2 U'))).
  destruct Sm as (H & X1 & X2 & T & P1 & P2 & Q1 & Q2 & Qc & R1 & R2).
  rewrite A0 in P1, Q1, R1. rewrite C0 in P2, Q2, R2. cbn [attr a_pose a_jac a_twist] in *.
  injection P1 as P1. injection P2 as P2. injection Q1 as Q1. injection Q2 as Q2. injection R1 as R1. injection R2 as R2.
  destruct H1 as (J1 & J1p & J1v), H2 as (J2 & J2p & J2v), H3 as (J3 & J3p & J3v).
  destruct (stepk_eq sc h (J j) (s, s + ndof_of (jt (J j)))%nat f0 f1 k0 _ _ Bp ltac:(apply linear_valid; congruence) eq_refl eq_refl) as (Y1 & Y2 & Y3).
  destruct (stepk_eq sc' h' (J' j1) (s, s + ndof_of (jt (J' j1)))%nat g0 m1 l0 _ _ Bp' ltac:(apply linear_valid; congruence) G0 E1) as (Z1 & Z2 & Z3).
  destruct (stepk_eq sc' h' (J' j2) (s + 1, s + 1 + ndof_of (jt (J' j2)))%nat m1' m2 l1 _ _ Bp' ltac:(apply linear_valid; congruence) E1' E2) as (W1 & W2 & W3).
  destruct (stepk_eq sc' h' (J' j3) (s + 2, s + 2 + ndof_of (jt (J' j3)))%nat m2' g1 l2 _ _ Bp' ltac:(apply linear_valid; congruence) E2' G1) as (V1 & V2 & V3).
  rewrite <- K in Y1, Y2, Y3. rewrite <- K1 in Z1, Z2, Z3. rewrite <- K2 in W1, W2, W3. rewrite <- K3 in V1, V2, V3.
  clear K K1 K2 K3.
  rewrite J1 in Z2. rewrite J2 in W2. rewrite J3 in V2. rewrite Kj in Y2. cbn [ndof_of fst snd] in Y2, Z2, W2, V2.
  rewrite !inv_eye, !adjoint_eye in *.
  assert (Pz : pose (J' j1) = rotz (gpos (J j) 0%nat)) by (unfold pose; rewrite J1, J1p; reflexivity).
  assert (Py : pose (J' j2) = roty (gpos (J j) 1%nat)) by (unfold pose; rewrite J2, J2p; reflexivity).
  assert (Px : pose (J' j3) = rotx (gpos (J j) 2%nat)) by (unfold pose; rewrite J3, J3p; reflexivity).
  assert (Pj : pose (J j) = mm4 (rotz (gpos (J j) 0%nat)) (mm4 (roty (gpos (J j) 1%nat)) (rotx (gpos (J j) 2%nat)))) by (unfold pose; rewrite Kj; apply rotzyx_eq).
  assert (Jz : forall i, jacobian (J' j1) i = e6 2) by (intros; unfold jacobian; rewrite J1; reflexivity).
  assert (Jy : forall i, jacobian (J' j2) i = e6 1) by (intros; unfold jacobian; rewrite J2; reflexivity).
  assert (Jx : forall i, jacobian (J' j3) i = e6 0) by (intros; unfold jacobian; rewrite J3; reflexivity).
  rewrite Pz in *. rewrite Py in *. rewrite Px in *.
  set (qz := gpos (J j) 0%nat) in *. set (qy := gpos (J j) 1%nat) in *. set (qx := gpos (J j) 2%nat) in *.
  assert (I3 : iadjoint_ (pose (J j)) = mm6 (iadjoint_ (rotx qx)) (mm6 (iadjoint_ (roty qy)) (iadjoint_ (rotz qz)))).
  { rewrite Pj, iadjoint_mm, iadjoint_mm, <- mm6_assoc; auto using rotx_SE3, roty_SE3, rotz_SE3, SE3_mm4. }
  assert (c0 : mv6 (iadjoint_ (rotx qx)) (mv6 (iadjoint_ (roty qy)) (e6 2)) = jacobian (J j) 0).
  { unfold jacobian. rewrite Kj. fold qx qy. unfold rotx, roty, e6, v6of, acol. cbn [Nat.eqb]. cbn zeta. lin. }
  assert (c1 : mv6 (iadjoint_ (rotx qx)) (e6 1) = jacobian (J j) 1).
  { unfold jacobian. rewrite Kj. fold qx qy. unfold rotx, e6, v6of, acol. cbn [Nat.eqb]. cbn zeta. lin. }
  assert (c2 : e6 0 = jacobian (J j) 2) by (unfold jacobian; rewrite Kj; reflexivity).
  exists (k_pose k), (k_jac k), (k_jac l3), (k_twist k). rewrite A1, C3. cbn [attr a_pose a_jac a_twist].
  split; auto. split; [f_equal | split; [auto | split; [auto | split; [ | split; [auto | f_equal]]]]].
  - rewrite V1, W1, Z1, Y1, P1, P2, Pj, !mm4_1_r, !mm4_1_l, <- !mm4_assoc. reflexivity.
  - intros c. rewrite Y2, V2, W2, Z2, I3, Q1, Q2, Qc, !mv6_1, !mv6_mm6, !mv6_add.
    rewrite <- !v6add_assoc. f_equal. unfold slice_col. rewrite Jz, Jy, Jx, !mv6_1.
    destruct (Nat.leb_spec s c); cbn [andb].
    2: { replace (s + 1 <=? c)%nat with false by (symmetry; apply Nat.leb_gt; lia). replace (s + 2 <=? c)%nat with false by (symmetry; apply Nat.leb_gt; lia).
         cbn [andb]. rewrite !mv6_zero6. lin. }
    destruct (Nat.ltb_spec c (s + 1)).
    { replace c with s by lia. replace (s + 1 <=? s)%nat with false by (symmetry; apply Nat.leb_gt; lia). replace (s + 2 <=? s)%nat with false by (symmetry; apply Nat.leb_gt; lia).
      replace (s <? s + 3)%nat with true by (symmetry; apply Nat.ltb_lt; lia). cbn [andb]. rewrite !mv6_zero6, Nat.sub_diag, <- c0, !v6add_0_r. reflexivity. }
    replace (s + 1 <=? c)%nat with true by (symmetry; apply Nat.leb_le; lia). cbn [andb]. rewrite !mv6_zero6, v6add_0_l.
    destruct (Nat.ltb_spec c (s + 1 + 1)).
    { replace c with (s + 1)%nat by lia. replace (s + 2 <=? s + 1)%nat with false by (symmetry; apply Nat.leb_gt; lia).
      replace (s + 1 <? s + 3)%nat with true by (symmetry; apply Nat.ltb_lt; lia). cbn [andb]. replace (s + 1 - s)%nat with 1%nat by lia. rewrite <- c1, v6add_0_r. reflexivity. }
    replace (s + 2 <=? c)%nat with true by (symmetry; apply Nat.leb_le; lia). cbn [andb]. rewrite !mv6_zero6, v6add_0_l.
    replace (s + 2 + 1)%nat with (s + 3)%nat by lia. destruct (Nat.ltb_spec c (s + 3)); auto.
    replace (c - s)%nat with 2%nat by lia. rewrite <- c2. reflexivity.
  - rewrite V3, W3, Z3, Y3, I3, R1, R2, !mv6_1, !mv6_mm6, !mv6_add, !twist_sum.
    rewrite J1, J2, J3, Kj. cbn [ndof_of sum6]. rewrite Jz, Jy, Jx, J1v, J2v, J3v, !v6add_0_l, !mv6_add, !mv6_scal, <- c0, <- c1, <- c2, <- !v6add_assoc. reflexivity.
Qed.

Theorem C34_two_hinges : forall ka kb k e sc h t J sd e' sc' h' t' J' sd' j f0 f1 j1 j2 g0 m1 m1' g1 s,
  In (k, ka, kb) [(RzRyJoint, RzJoint, RyJoint); (RzRxJoint, RzJoint, RxJoint); (RyRxJoint, RyJoint, RxJoint)] ->
  updated e sc h t J sd -> updated e' sc' h' t' J' sd' ->
  joint_at h t j f0 f1 s -> jt (J j) = k ->
  joint_at h' t' j1 g0 m1 s -> joint_at h' t' j2 m1' g1 (s + 1) ->
  frame_body e' m1 = frame_body e' m1' -> bpose sc' m1 = eye4 -> bpose sc' m1' = eye4 ->
  bpose sc' g0 = bpose sc f0 -> bpose sc' g1 = bpose sc f1 ->
  hinge_of (J j) ka 0 (J' j1) -> hinge_of (J j) kb 1 (J' j2) ->
  same_motion sd sd' (frame_body e f0) (frame_body e' g0) -> same_motion sd sd' (frame_body e f1) (frame_body e' g1).
Proof.
  intros ka kb kk e sc h t J sd e' sc' h' t' J' sd' j f0 f1 j1 j2 g0 m1 m1' g1 s Ty U U' L Kj L1 L2 B1 E1 E1' G0 G1 H1 H2 Sm.
  destruct (updated_kin _ _ _ _ _ _ _ _ _ _ U L) as (k0 & k & A0 & A1 & K).
  destruct (updated_kin _ _ _ _ _ _ _ _ _ _ U' L1) as (l0 & l1 & C0 & C1 & K1).
  destruct (updated_kin _ _ _ _ _ _ _ _ _ _ U' L2) as (l1' & l2 & C1' & C2 & K2).
  rewrite <- B1, C1 in C1'. apply attr_inj in C1'. subst l1'.
  assert (Bp := proj1 (proj1 (proj2 U))). assert (Bp' := proj1 (proj1 (proj2 U'))).
  destruct Sm as (H & X1 & X2 & T & P1 & P2 & Q1 & Q2 & Qc & R1 & R2).
  rewrite A0 in P1, Q1, R1. rewrite C0 in P2, Q2, R2. cbn [attr a_pose a_jac a_twist] in *.
  injection P1 as P1. injection P2 as P2. injection Q1 as Q1. injection Q2 as Q2. injection R1 as R1. injection R2 as R2.
  destruct H1 as (J1 & J1p & J1v), H2 as (J2 & J2p & J2v).
  assert (N : ndof_of kk = 2%nat /\ ndof_of ka = 1%nat /\ ndof_of kb = 1%nat /\ kk <> FreeJoint /\ ka <> FreeJoint /\ kb <> FreeJoint).
  { destruct Ty as [[= <- <- <-] | [[= <- <- <-] | [[= <- <- <-] | []]]]; repeat split; discriminate. }
  destruct N as (Nk & Na & Nb & Fk & Fa & Fb).
  destruct (stepk_eq sc h (J j) (s, s + ndof_of (jt (J j)))%nat f0 f1 k0 _ _ Bp ltac:(apply linear_valid; congruence) eq_refl eq_refl) as (Y1 & Y2 & Y3).
  destruct (stepk_eq sc' h' (J' j1) (s, s + ndof_of (jt (J' j1)))%nat g0 m1 l0 _ _ Bp' ltac:(apply linear_valid; congruence) G0 E1) as (Z1 & Z2 & Z3).
  destruct (stepk_eq sc' h' (J' j2) (s + 1, s + 1 + ndof_of (jt (J' j2)))%nat m1' g1 l1 _ _ Bp' ltac:(apply linear_valid; congruence) E1' G1) as (V1 & V2 & V3).
  rewrite <- K in Y1, Y2, Y3. rewrite <- K1 in Z1, Z2, Z3. rewrite <- K2 in V1, V2, V3. clear K K1 K2.
  rewrite J1, Na in Z2. rewrite J2, Nb in V2. rewrite Kj, Nk in Y2. cbn [fst snd] in Y2, Z2, V2.
  rewrite !inv_eye, !adjoint_eye in *.
  assert (S1 : SE3 (pose (J' j1))) by (apply pose_SE3, linear_valid; congruence).
  assert (S2 : SE3 (pose (J' j2))) by (apply pose_SE3, linear_valid; congruence).
  assert (Pj : pose (J j) = mm4 (pose (J' j1)) (pose (J' j2))).
  { unfold pose. rewrite Kj, J1, J2, J1p, J2p. destruct Ty as [[= <- <- <-] | [[= <- <- <-] | [[= <- <- <-] | []]]]; auto using rotzy_eq, rotzx_eq, rotyx_eq. }
  assert (I3 : iadjoint_ (pose (J j)) = mm6 (iadjoint_ (pose (J' j2))) (iadjoint_ (pose (J' j1)))) by (rewrite Pj; apply iadjoint_mm; auto).
  assert (c0 : forall i, mv6 (iadjoint_ (pose (J' j2))) (jacobian (J' j1) i) = jacobian (J j) 0).
  { intros i. unfold pose, jacobian. rewrite Kj, J1, J2, J2p. destruct Ty as [[= <- <- <-] | [[= <- <- <-] | [[= <- <- <-] | []]]];
    unfold rotx, roty, e6, v6of, acol; cbn [Nat.eqb]; cbn zeta; lin. }
  assert (c1 : forall i, jacobian (J' j2) i = jacobian (J j) 1).
  { intros i. unfold jacobian. rewrite Kj, J2. destruct Ty as [[= <- <- <-] | [[= <- <- <-] | [[= <- <- <-] | []]]];
    unfold e6, v6of, acol; cbn [Nat.eqb]; lin. }
  exists (k_pose k), (k_jac k), (k_jac l2), (k_twist k). rewrite A1, C2. cbn [attr a_pose a_jac a_twist].
  split; auto. split; [f_equal | split; [auto | split; [auto | split; [ | split; [auto | f_equal]]]]].
  - rewrite V1, Z1, Y1, P1, P2, Pj, !mm4_1_r, !mm4_1_l, <- !mm4_assoc. reflexivity.
  - intros c. rewrite Y2, V2, Z2, I3, Q1, Q2, Qc, !mv6_1, !mv6_mm6, !mv6_add.
    rewrite <- !v6add_assoc. f_equal. unfold slice_col. rewrite !mv6_1.
    destruct (Nat.leb_spec s c); cbn [andb].
    2: { replace (s + 1 <=? c)%nat with false by (symmetry; apply Nat.leb_gt; lia).
         cbn [andb]. rewrite !mv6_zero6. lin. }
    destruct (Nat.ltb_spec c (s + 1)).
    { replace c with s by lia. replace (s + 1 <=? s)%nat with false by (symmetry; apply Nat.leb_gt; lia).
      replace (s <? s + 2)%nat with true by (symmetry; apply Nat.ltb_lt; lia). cbn [andb]. rewrite !Nat.sub_diag, c0, !v6add_0_r. reflexivity. }
    replace (s + 1 <=? c)%nat with true by (symmetry; apply Nat.leb_le; lia). cbn [andb]. rewrite !mv6_zero6, v6add_0_l.
    replace (s + 1 + 1)%nat with (s + 2)%nat by lia. destruct (Nat.ltb_spec c (s + 2)); auto.
    replace (c - s)%nat with 1%nat by lia. rewrite c1. reflexivity.
  - rewrite V3, Z3, Y3, I3, R1, R2, !mv6_1, !mv6_mm6, !mv6_add, !twist_sum.
    rewrite J1, J2, Kj, Nk, Na, Nb. cbn [sum6]. rewrite J1v, J2v, !v6add_0_l, !mv6_add, !mv6_scal, c0, c1, <- !v6add_assoc. reflexivity.
Qed.
