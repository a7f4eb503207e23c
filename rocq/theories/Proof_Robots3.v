(** The snake: success, size, posture. *)
From Coq Require Import Lra Lia.
From Verif Require Import Spec_Robots.
From Verif Require Import Spec_Dyn Proof_Linalg Proof_SE3 Proof_Tree Proof_World Proof_World2 Proof_World3 Proof_Register Proof_Dofs Proof_World4 Props_Mass Props_Dyn Props_Draw Proof_Robots Proof_Robots2.
Open Scope R_scope.

Lemma zip4_segs : forall a b c d, zip4 a b c d = segs_of a b c d.
Proof.
  unfold segs_of. induction a as [ | x a IH]; intros [ | y b] [ | z c] [ | t d]; try reflexivity. cbn [zip4 combine]. now rewrite IH.
Qed.
Lemma segs_length a b c d n : length a = n -> length b = n -> length c = n -> length d = n -> length (segs_of a b c d) = n.
Proof. intros. unfold segs_of. rewrite !combine_length. lia. Qed.
Lemma segs_in a b c d l m q v : In (l, m, q, v) (segs_of a b c d) -> In l a /\ In m b.
Proof. unfold segs_of. intros H. apply in_combine_l in H. apply in_combine_l in H. split; [now apply in_combine_l in H | now apply in_combine_r in H]. Qed.
Lemma parts_exist I : forall segs k, exists cr, snake_parts I k segs cr.
Proof. induction segs as [ | (((l, m), q), v) segs IH]; intros k; [exists []; constructor | ]. destruct (IH (S k)) as (cr & H). eexists. constructor. exact H. Qed.
Lemma height_app_chain g ks L : height (Node g (ks ++ chain L)) = Nat.max (height (Node g ks)) (length L).
Proof.
  destruct L as [ | (j, b) L].
  - cbn [chain length]. now rewrite app_nil_r, Nat.max_0_r.
  - induction ks as [ | (i, t) ks IH].
    + cbn [app]. rewrite chain_height. cbn [height length]. lia.
    + cbn [app]. cbn [height] in *. lia.
Qed.
Lemma joints_app_chain g ks L : joints (Node g (ks ++ chain L)) = joints (Node g ks) ++ map fst L.
Proof. rewrite !joints_eq, flat_map_app, chain_joints. reflexivity. Qed.
Lemma segments_joints I k n : map fst (segments I k n) = map (nj I) (seq k n).
Proof. unfold segments. now rewrite map_map. Qed.

Section S.
  Variables (e : env) (g0 : nat -> nat -> R) (eigvals : m6 -> list R) (I : ids).
  Hypothesis Ev : eigs_ok eigvals.
  Notation heap := (@heap R).
  Notation reachable := (reachable 0 e g0).
  Notation gr := (ground e).

  Lemma box_eq len mass : box (V3 (len / 2) (len / 2) (len / 2)) mass = rigid_mass mass (V3 0 0 0) (diag3 (V3 (mass * len ^ 2 / 6) (mass * len ^ 2 / 6) (mass * len ^ 2 / 6))).
  Proof. unfold box, diag6, rigid_mass, diag3. clear. unf. entries; field. Qed.
  Lemma cube_ok len mass : 0 < len -> 0 < mass -> let M := rigid_mass mass (V3 0 0 0) (diag3 (V3 (mass * len ^ 2 / 6) (mass * len ^ 2 / 6) (mass * len ^ 2 / 6))) in
    new_body eigvals (box (V3 (len / 2) (len / 2) (len / 2)) mass) = Ok M.
  Proof.
    intros HL Hm M. rewrite box_eq. fold M. apply (new_body_ok eigvals mass M Ev). unfold M. rewrite <- box_eq. assert (X := C36_mass_constructors (len / 2) (len / 2) (len / 2) 1 1 mass). apply X; lra.
  Qed.

  (** register and init at the end *)
  Lemma finish_ok (h : heap) f g ks fuel : reachable h -> g = gr -> rep e h (Node g ks) -> NoDup (bodies (Node g ks)) -> (height (Node g ks) < fuel)%nat ->
    exists h', finish_robot e fuel f h = (h', Ok tt) /\ reachable h' /\ ready e h' (Node g ks) /\ (forall j, jframes h' j = jframes h j) /\
      (forall j, joint_gvel h' j = joint_gvel h j) /\ world_gvel h' = concat (map (joint_gvel h) (joints (Node g ks))) /\
      known h' f.
  Proof.
    intros R -> Rt ND Hf. unfold finish_robot. cbn [register]. set (h1 := register_frame f h).
    assert (R1 : reachable h1) by exact (reach_step 0 e g0 h 0 (Register (OFrame f)) R Logic.I).
    assert (G1 : same_graph h h1) by exact (register_graph e (OFrame f) h).
    assert (S1 := register_store e (OFrame f) h). cbn [register fst] in S1. fold h1 in S1.
    assert (Gv : forall j, joint_gvel h1 j = joint_gvel h j) by (intros j; destruct S1 as (? & ? & ? & ?); unfold joint_gvel, read; congruence).
    assert (Rt1 : rep e h1 (Node gr ks)) by exact (same_graph_rep e h h1 _ G1 Rt).
    destruct (init_spec 0 e h1 (Node gr ks) fuel (reachable_vinv 0 e g0 h1 R1) Rt1 eq_refl ND Hf) as (h' & Hi & Hn & Hs & Ho & Hg & Hw & Hnx & Ha).
    exists h'. split; [exact Hi | ]. assert (R' : reachable h') by (assert (X := reach_step 0 e g0 h1 fuel Init R1 Logic.I); cbn [step] in X; rewrite Hi in X; exact X). split; [exact R' | ].
    assert (G2 : same_graph h1 h') by (assert (X := init_graph 0 e fuel h1); rewrite Hi in X; exact X).
    split; [split; [exact (same_graph_rep e h1 h' _ G2 Rt1) | split; [reflexivity | split; [exact ND | split; [exact Hn | intros l1 j l2 E; exact (proj1 (Hs l1 j l2 E))]]]] | ].
    destruct G1 as (_ & _ & F1), G2 as (_ & _ & F2). split; [intros j; now rewrite F2, F1 | ]. split; [intros j; rewrite (init_keeps_gvel 0 e h1 (Node gr ks) fuel h' (reachable_vinv 0 e g0 h1 R1) Rt1 eq_refl ND Hf Hi j); apply Gv | ].
    split; [rewrite Hg; f_equal; apply map_ext; exact Gv | ].
    assert (K1 : known h1 f) by exact (proj2 (register_frame_inv e f h (reachable_reg 0 e g0 h R))).
    assert (Sr := init_reg 0 e fuel h1). rewrite Hi in Sr. destruct Sr as (Sr & _). destruct f; cbn [known] in *; cbn [fst] in Sr; rewrite ?Sr; exact K1.
  Qed.

  Lemma sized_ok n x d : length (match x with Some l => l | None => repeat d n end) = n -> sized n x d = Ok (match x with Some l => l | None => repeat d n end).
  Proof. intros E. unfold sized. rewrite E, Nat.eqb_refl. reflexivity. Qed.
End S.

(** a value or its default *)
Definition or_default (x : option (list R)) (d : R) (n : nat) : list R := match x with Some l => l | None => repeat d n end.

Section T.
  Variables (e : env) (g0 : nat -> nat -> R) (eigvals : m6 -> list R) (I : ids).
  Hypothesis Ev : eigs_ok eigvals.
  Notation heap := (@heap R).
  Notation reachable := (reachable 0 e g0).
  Notation gr := (ground e).

  Lemma attached_known (h : heap) t j f0 f1 : reachable h -> rep e h t -> In j (joints t) -> jframes h j = Some (f0, f1) -> known h f0.
  Proof.
    intros R Rt Ij Ef. destruct (subtree_joint t j Ij) as (b & ks & s & Sb & Ik). assert (Rb := subtree_rep e h _ _ Sb Rt). apply rep_inv in Rb. destruct Rb as (Rb & _).
    refine (proj1 (reachable_frames_known 0 e g0 h R b j f0 f1 _ Ef)). rewrite Rb. exact (in_map fst _ _ Ik).
  Qed.
  Lemma hinge_in g ks n i : (i < n)%nat -> In (nj I i) (joints (Node g (ks ++ chain (segments I 0 n)))).
  Proof. intros Hi. rewrite joints_app_chain, segments_joints. apply in_or_app. right. apply in_map. apply in_seq. lia. Qed.

  Lemma snake_ok (h : heap) ks fuel n lengths masses gpos gvel fx cr :
    let ls := or_default lengths (1 / 2) n in let ms := or_default masses 2 n in let qs := or_default gpos 0 n in let vs := or_default gvel 0 n in
    let L := segments I 0 (snake_size fx n) in let t' := Node gr (ks ++ chain L) in
    reachable h -> rep e h (Node gr ks) -> NoDup (bodies (Node gr ks)) ->
    length ls = n -> length ms = n -> length qs = n -> length vs = n -> (fx = false -> (0 < n)%nat) ->
    (forall l, In l ls -> 0 < l) -> (forall m, In m ms -> 0 < m) -> new_objects I h e ->
    (height (Node gr ks) < fuel)%nat -> (snake_size fx n < fuel)%nat ->
    snake_objects I fx (segs_of ls ms qs vs) cr -> (forall c, In c cr -> known_as e h c) ->
    exists h', add_snake e eigvals fuel I n lengths masses gpos gvel fx h = (h', cr, Ok tt) /\ reachable h' /\ ready e h' t' /\
      (fx = false -> jframes h' (nj I 0) = Some (FBody gr, FBody (nb I 0))) /\
      (forall i, (first_hinge fx <= i < snake_size fx n)%nat -> jframes h' (nj I i) = Some (hinge_frame I (first_hinge fx) (snake_root e I fx) i, FBody (nb I i))) /\
      (forall j, (forall i, j <> nj I i) -> jframes h' j = jframes h j) /\
      (forall j, joint_gvel h' j = joint_gvel h j) /\ world_gvel h' = concat (map (joint_gvel h) (joints t')) /\
      (forall i, (first_hinge fx <= i < snake_size fx n)%nat -> known h' (FSub (ns I i))).
  Proof.
    intros ls ms qs vs L t' R Rt ND E1 E2 E3 E4 Hn Hl Hm No Hf1 Hf2 So Kn. set (segs := segs_of ls ms qs vs) in *.
    assert (Hlen : length segs = n) by now apply segs_length.
    assert (Pos : forall l m q v, In (l, m, q, v) segs -> 0 < l /\ 0 < m) by (intros l m q v H; apply segs_in in H; destruct H; auto).
    assert (Un := new_objects_unattached e I h (Node gr ks) Rt eq_refl No).
    unfold add_snake. unfold ls, ms, qs, vs, or_default in E1, E2, E3, E4.
    rewrite (sized_ok n lengths (1 / 2) E1), (sized_ok n masses 2 E2), (sized_ok n gpos 0 E3), (sized_ok n gvel 0 E4). cbn [rbind].
    change (match lengths with Some l => l | None => repeat (1 / 2) n end) with ls. change (match masses with Some l => l | None => repeat 2 n end) with ms.
    change (match gpos with Some l => l | None => repeat 0 n end) with qs. change (match gvel with Some l => l | None => repeat 0 n end) with vs. rewrite (zip4_segs ls ms qs vs). fold segs.
    assert (Fin : forall h1 f, reachable h1 -> rep e h1 t' -> NoDup (bodies t') -> exists h', finish_robot e fuel f h1 = (h', Ok tt) /\ reachable h' /\ ready e h' t' /\ (forall j, jframes h' j = jframes h1 j) /\
      (forall j, joint_gvel h' j = joint_gvel h1 j) /\ world_gvel h' = concat (map (joint_gvel h1) (joints t')) /\ known h' f).
    { intros h1 f A B C. apply (finish_ok e g0 h1 f gr (ks ++ chain L) fuel A eq_refl B C). rewrite height_app_chain. unfold L, segments. rewrite map_length, seq_length. lia. }
    destruct fx; cbn [snake_objects first_hinge snake_size snake_root] in *.
    - assert (Rt0 : rep e h (Node gr (ks ++ chain []))) by (cbn [chain]; rewrite app_nil_r; exact Rt). assert (ND0 : NoDup (bodies (Node gr (ks ++ chain [])))) by (cbn [chain]; rewrite app_nil_r; exact ND).
      assert (Un0 : unattached I h (Node gr (ks ++ chain [])) 0) by (cbn [chain]; rewrite app_nil_r; exact Un).
      destruct (loop_ok e g0 eigvals I Ev segs 0 (FBody gr) h [] cr ks [] R Rt0 ND0 eq_refl Un0 Pos So Kn) as (h1 & El & R1 & Rt1 & ND1 & Gv1 & Fr1 & Fo1 & Tp & Nw).
      rewrite El. cbn [app] in *. rewrite Hlen in *. cbn [Nat.add] in *. fold L in Rt1, ND1. fold t' in Rt1, ND1.
      destruct (Fin h1 (hinge_frame I 0 (FBody gr) n) R1 Rt1 ND1) as (h' & Ef & R' & Rd & Fr & Gv & Wg & K). rewrite Ef. exists h'. split; [reflexivity | ]. split; [exact R' | ]. split; [exact Rd | ].
      split; [discriminate | ]. assert (FR : forall i, (0 <= i < n)%nat -> jframes h' (nj I i) = Some (hinge_frame I 0 (FBody gr) i, FBody (nb I i))) by (intros i Hi; rewrite Fr; now apply Fr1). split; [exact FR | ].
      split; [intros j Hj; rewrite Fr; apply Fo1; intros; apply Hj | ]. split; [intros j; now rewrite Gv | ]. split; [rewrite Wg; f_equal; apply map_ext; exact Gv1 | ].
      intros i Hi. destruct (Nat.eq_dec (S i) n) as [Ei | Ni].
      + rewrite <- Ei in K. exact K.
      + exact (attached_known h' t' _ _ _ R' (proj1 Rd) (hinge_in gr ks n (S i) ltac:(lia)) (FR (S i) ltac:(lia))).
    - destruct So as (len & mass & q & dq & segs' & cr' & Es & Sp & ->).
      destruct ls as [ | l0 ls'] eqn:Els; [exfalso; unfold segs, segs_of in Es; cbn in Es; discriminate | ]. destruct ms as [ | m0 ms'] eqn:Ems; [exfalso; unfold segs, segs_of in Es; cbn in Es; discriminate | ].
      assert (l0 = len /\ m0 = mass) as (-> & ->). { unfold segs, segs_of in Es. destruct qs; [discriminate | ]. destruct vs; [discriminate | ]. cbn in Es. injection Es. auto. }
      unfold snake_base. rewrite (cube_ok eigvals Ev len mass (Hl len ltac:(now left)) (Hm mass ltac:(now left))).
      assert (Rt0 : rep e h (Node gr (ks ++ chain []))) by (cbn [chain]; rewrite app_nil_r; exact Rt). assert (ND0 : NoDup (bodies (Node gr (ks ++ chain [])))) by (cbn [chain]; rewrite app_nil_r; exact ND).
      assert (Un0 : unattached I h (Node gr (ks ++ chain [])) 0) by (cbn [chain]; rewrite app_nil_r; exact Un).
      destruct (proj2 (proj2 Un0) 0%nat (le_n 0)) as (A1 & A2 & A3 & A4).
      destruct (grow e g0 h ks [] (FBody gr) (nj I 0) (nb I 0) R Rt0 ND0 eq_refl A1 A2 A3 A4) as (h1 & E & R1 & Rt1 & ND1 & Lk & Gv1). rewrite E. cbn [app] in Rt1, ND1.
      assert (Un1 : unattached I h1 (Node gr (ks ++ chain [(nj I 0, nb I 0)])) 1).
      { apply (linked_unattached e I h h1 (FBody gr) 0 _ _ Lk Un0).
        - intros x. rewrite !bodies_eq, !flat_map_app, !chain_bodies. cbn [map snd]. rewrite app_nil_r. intros [Q | Q]; [left; now left | ]. apply in_app_or in Q. destruct Q as [Q | [Q | []]]; [left; now right | now right].
        - intros i _ Q. exact (proj1 (proj2 (proj2 No) i) Q). }
      assert (Kn1 : forall c, In c cr' -> known_as e h1 c). { intros c Hc. assert (X := Kn c ltac:(right; right; exact Hc)). destruct c; cbn in *; auto. now rewrite Gv1. }
      destruct (loop_ok e g0 eigvals I Ev segs 1 (FBody (nb I 0)) h1 [CBody (nb I 0) (rigid_mass mass (V3 0 0 0) (diag3 (V3 (mass * len ^ 2 / 6) (mass * len ^ 2 / 6) (mass * len ^ 2 / 6)))); CJoint (nj I 0) FreeJoint [] (repeat 0 6)] cr' ks [(nj I 0, nb I 0)] R1 Rt1 ND1 eq_refl Un1 Pos Sp Kn1) as (h2 & El & R2 & Rt2 & ND2 & Gv2 & Fr2 & Fo2 & Tp & Nw).
      rewrite El. rewrite Hlen in *. change ([(nj I 0, nb I 0)] ++ segments I 1 n) with L in Rt2, ND2. fold t' in Rt2, ND2.
      destruct (Fin h2 (hinge_frame I 1 (FBody (nb I 0)) (1 + n)) R2 Rt2 ND2) as (h' & Ef & R' & Rd & Fr & Gv & Wg & K). rewrite Ef. exists h'. split; [reflexivity | ]. split; [exact R' | ]. split; [exact Rd | ].
      assert (N2 := proj1 (proj2 No)). split; [intros _; rewrite Fr, Fo2 by (intros i Hi Q; apply N2 in Q; lia); rewrite (proj2 (proj2 Lk)); cbn [l_joint fst snd]; now rewrite Nat.eqb_refl | ].
      assert (FR : forall i, (1 <= i < S n)%nat -> jframes h' (nj I i) = Some (hinge_frame I 1 (FBody (nb I 0)) i, FBody (nb I i))) by (intros i Hi; rewrite Fr; apply Fr2; lia). split; [exact FR | ].
      split; [intros j Hj; rewrite Fr, Fo2 by (intros; apply Hj); rewrite (proj2 (proj2 Lk)); cbn [l_joint fst snd]; destruct (Nat.eqb_spec j (nj I 0)) as [Q | ]; [destruct (Hj 0%nat Q) | reflexivity] | ].
      split; [intros j; now rewrite Gv, Gv2, Gv1 | ]. split; [rewrite Wg; f_equal; apply map_ext; intros j; now rewrite Gv2, Gv1 | ].
      intros i Hi. destruct (Nat.eq_dec i n) as [Ei | Ni].
      + rewrite Ei. assert (Q : hinge_frame I 1 (FBody (nb I 0)) (1 + n) = FSub (ns I n)) by (unfold hinge_frame; destruct (Nat.eqb_spec (1 + n) 1); [lia | reflexivity]). now rewrite Q in K.
      + assert (X := attached_known h' t' _ _ _ R' (proj1 Rd) (hinge_in gr ks (S n) (S i) ltac:(lia)) (FR (S i) ltac:(lia))). assert (Q : hinge_frame I 1 (FBody (nb I 0)) (S i) = FSub (ns I i)) by (unfold hinge_frame; destruct (Nat.eqb_spec (S i) 1); [lia | reflexivity]). now rewrite Q in X.
  Qed.
End T.
