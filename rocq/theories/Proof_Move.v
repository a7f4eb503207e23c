(** Displaced robots: kinematics and dynamics. *)
From Coq Require Import Lra Lia FunctionalExtensionality.
From Verif Require Import Spec_Move Proof_Linalg Proof_SE3 Proof_Tree Proof_World Proof_World2 Proof_World3 Proof_World4 Proof_Dofs.
Open Scope R_scope.

(** *** products with a rigid motion *)
Lemma det3_mm a b : det3 (mm a b) = det3 a * det3 b.
Proof. lin. Qed.
Lemma mm4_parts G H : SE3 G -> rot (mm4 G H) = madd (mm (rot G) (rot H)) (outer (pos G) (bot H)) /\ bot (mm4 G H) = bot H /\ hom (mm4 G H) = hom H.
Proof. intros (_ & B & Hh). cbn. rewrite B, Hh. repeat split; lin. Qed.
Lemma ishom_G G H : SE3 G -> ishomogeneousmatrix (mm4 G H) = ishomogeneousmatrix H.
Proof.
  intros S. destruct (mm4_parts G H S) as (A & B & C). unfold ishomogeneousmatrix. rewrite A, B, C.
  destruct (v3eqb (bot H) (V3 0 0 0)) eqn:E; [ | rewrite !andb_false_r; reflexivity].
  assert (Eb : bot H = zero3) by (unfold v3eqb in E; destruct (bot H) as [x y z]; cbn in E; unfold Reqb in E; repeat destruct (Req_EM_T _ _); try discriminate; subst; reflexivity).
  rewrite Eb. replace (madd (mm (rot G) (rot H)) (outer (pos G) zero3)) with (mm (rot G) (rot H)) by lin. rewrite det3_mm. destruct S as ((_ & D) & _).
  replace (det3 (rot G)) with 1 by (symmetry; exact D). rewrite Rmult_1_l. reflexivity.
Qed.
Lemma ishom_bot H : ishomogeneousmatrix H = true -> bot H = zero3 /\ hom H = 1.
Proof.
  unfold ishomogeneousmatrix. intros E. apply andb_prop in E. destruct E as [_ E]. apply andb_prop in E. destruct E as [E E2].
  unfold v3eqb in E. destruct (bot H) as [x y z]; cbn in E; unfold Reqb in *; repeat destruct (Req_EM_T _ _); try discriminate; subst; split; [reflexivity | assumption].
Qed.
Lemma rot_G G H : bot H = zero3 -> rot (mm4 G H) = mm (rot G) (rot H).
Proof. intros E. cbn. rewrite E. lin. Qed.
Definition like {A B} (a : res A) (b : res B) : Prop := match a, b with Ok _, Ok _ => True | Err x, Err y => x = y | _, _ => False end.
Lemma like_refl {A} (a : res A) : like a a.
Proof. destruct a; cbn; auto. Qed.
Lemma inv_G G H : SE3 G -> inv (mm4 G H) = (let* X := inv H in Ok (mm4 X (inv_ G))).
Proof.
  intros S. unfold inv. rewrite (ishom_G G H S). destruct (ishomogeneousmatrix H) eqn:E; [ | reflexivity]. cbn [rbind]. f_equal. destruct (ishom_bot H E) as [B Hh].
  destruct S as ((O & D) & Bg & Hg). unfold inv_. rewrite rot_G by exact B. cbn [rot pos bot hom mm4]. rewrite Hh, tr_mm.
  assert (Ep : mv (mm (tr (rot H)) (tr (rot G))) (vadd (mv (rot G) (pos H)) (vscal 1 (pos G))) = vadd (mv (tr (rot H)) (pos H)) (mv (mm (tr (rot H)) (tr (rot G))) (pos G))).
  { replace (vscal 1 (pos G)) with (pos G) by lin. replace (mv (mm (tr (rot H)) (tr (rot G))) (vadd (mv (rot G) (pos H)) (pos G))) with (vadd (mv (mm (tr (rot H)) (mm (tr (rot G)) (rot G))) (pos H)) (mv (mm (tr (rot H)) (tr (rot G))) (pos G))) by lin.
    rewrite O. f_equal. lin. }
  rewrite Ep. unfold mm4. cbn [rot pos bot hom]. f_equal; lin.
Qed.
Lemma det3_tr a : det3 (tr a) = det3 a.
Proof. lin. Qed.
Lemma ishom_inv H : ishomogeneousmatrix H = true -> ishomogeneousmatrix (inv_ H) = true.
Proof.
  intros E. unfold ishomogeneousmatrix in *. cbn [inv_ rot bot hom]. rewrite det3_tr. apply andb_prop in E. destruct E as [-> _]. unfold v3eqb, Reqb. cbn. destruct (Req_EM_T 0 0); [ | contradiction]. destruct (Req_EM_T 1 1); [reflexivity | contradiction].
Qed.
Lemma iadjoint_eq H : iadjoint H = if ishomogeneousmatrix H then Ok (iadjoint_ H) else Err AssertionError.
Proof. unfold iadjoint, inv, adjoint. destruct (ishomogeneousmatrix H) eqn:E; [ | reflexivity]. cbn [rbind]. rewrite (ishom_inv H E). reflexivity. Qed.
Lemma iadjoint_G G H : SE3 G -> like (iadjoint (mm4 G H)) (iadjoint H).
Proof. intros S. rewrite !iadjoint_eq, (ishom_G G H S). destruct (ishomogeneousmatrix H); cbn; auto. Qed.
(** a force that G keeps, seen from the displaced body *)
Lemma iadjoint_weight G H u : SE3 G -> mv (rot G) u = u -> ishomogeneousmatrix H = true -> mv6 (iadjoint_ (mm4 G H)) (V6 zero3 u) = mv6 (iadjoint_ H) (V6 zero3 u).
Proof.
  intros S Eu E. destruct (ishom_bot H E) as [B _]. destruct S as ((O & _) & _).
  assert (Et : mv (tr (rot G)) u = u) by (rewrite <- Eu at 1; rewrite <- mv_mm, O; lin).
  unfold iadjoint_, inv_, adjoint_. cbn [rot pos]. rewrite rot_G by exact B. rewrite tr_mm. unfold mv6. cbn [aa al la ll ang lin]. f_equal; [lin | ].
  rewrite !mv_mm, Et. lin.
Qed.

(** *** the bodies below a joint of the ground *)
Section Kin.
  Context (e : env) (sc sc' : scene) (h : @heap R) (J J' : nat -> jstate) (G : m4) (ty : nat -> jtype) (fr : nat -> bool).
  Hypothesis D : displaced e sc sc' h ty fr G.
  Let S := dp_rigid _ _ _ _ _ _ _ D.
  Definition movek (k : kin) : kin := Kin (mm4 G (k_pose k)) (k_jac k) (k_djac k) (k_twist k).
  Lemma child_below j f0 f1 k : frame_body e f0 <> ground e -> frame_body e f1 <> ground e -> J' j = J j ->
    child_kin sc' h j (J' j) f0 f1 (movek k) = (let* k1 := child_kin sc h j (J j) f0 f1 k in Ok (movek k1)).
  Proof.
    intros B0 B1 Ej. unfold child_kin, rel_pose. rewrite Ej, (dp_same _ _ _ _ _ _ _ D f0 B0), (dp_same _ _ _ _ _ _ _ D f1 B1).
    destruct (inv (bpose sc f1)) as [Hnc | ]; [ | reflexivity]. cbn [rbind]. destruct (iadjoint _); [ | reflexivity]. cbn [rbind]. destruct (adjoint (bpose sc f1)); [ | reflexivity]. cbn [rbind].
    destruct (inv (bpose sc f0)) as [Hrp | ]; [ | reflexivity]. cbn [rbind]. destruct (adjoint Hrp); [ | reflexivity]. cbn [rbind]. destruct (idadjoint (J j)); [ | reflexivity]. cbn [rbind].
    destruct (jdof h j) as [[d0 d1] | ]; [ | reflexivity]. destruct (Nat.leb d1 (w_ndof h)); [ | reflexivity]. cbn [rbind]. unfold movek. cbn [k_pose k_jac k_djac k_twist]. rewrite <- (mm4_assoc G (k_pose k)). reflexivity.
  Qed.
  Definition attr_moved (a a' : bodyattr) : Prop :=
    a_pose a' = option_map (mm4 G) (a_pose a) /\ a_jac a' = a_jac a /\ a_djac a' = a_djac a /\ a_twist a' = a_twist a /\ a_nle a' = a_nle a.
  (** the two updates raise together, or move the bodies of the list and change no other *)
  Definition moved_upd (bs : list nat) (st st' : store) (r r' : res store) : Prop :=
    match r, r' with
    | Ok s, Ok s' => (forall b, In b bs -> attr_moved (s b) (s' b)) /\ (forall b, ~ In b bs -> s b = st b /\ s' b = st' b)
    | Err x, Err y => x = y
    | _, _ => False
    end.
  Lemma below t : rep e h t -> NoDup (bodies t) -> ~ In (ground e) (bodies t) -> (forall j, In j (joints t) -> J' j = J j) ->
    forall fuel k st st', moved_upd (bodies t) st st' (update_dynamic e sc h J fuel (root t) k st) (update_dynamic e sc' h J' fuel (root t) (movek k) st').
  Proof.
    induction t as [b ks IH] using tree_ind'. intros Rt ND Ng Hj fuel k st st'. inversion Rt as [? ? Ec Fk]; subst. clear Rt.
    destruct fuel as [ | n]; [reflexivity | ]. cbn [update_dynamic root]. rewrite Ec. clear Ec.
    match goal with |- moved_upd _ _ _ (?f _ _) (?f' _ _) => set (lp := f); set (lp' := f') end.
    match goal with |- moved_upd _ _ _ (lp _ ?a) (lp' _ ?a') => set (s0 := a); set (s0' := a') end.
    rewrite bodies_eq in ND, Ng. rewrite joints_eq in Hj. rewrite bodies_eq. inversion ND as [ | ? ? Nb NDk]; subst.
    assert (Gb : b <> ground e) by (intros ->; apply Ng; left; reflexivity).
    assert (X : forall s s', moved_upd (flat_map (fun jt => bodies (snd jt)) ks) s s' (lp (map fst ks) s) (lp' (map fst ks) s')).
    { assert (Ngk : ~ In (ground e) (flat_map (fun jt => bodies (snd jt)) ks)) by (intros Q; apply Ng; right; exact Q). clear Ng Nb ND s0 s0'. 
      induction ks as [ | (j, u) ks IHk]; intros s s'; [cbn; split; [intros ? [] | auto] | ]. inversion IH as [ | ? ? IHu IHks]; subst. inversion Fk as [ | ? ? (Ed & Ru) Fks]; subst. cbn [fst snd] in *.
      cbn [flat_map] in NDk, Ngk, Hj |- *. rewrite in_app_iff in Ngk. cbn [map fst lp lp']. fold lp lp'.
      destruct Ed as ((f0 & f1 & Ef & B0 & B1) & _). rewrite Ef.
      assert (G1 : frame_body e f1 <> ground e) by (rewrite B1; intros Q; apply Ngk; left; rewrite <- Q; apply root_in_bodies).
      rewrite (child_below j f0 f1 k); [ | congruence | exact G1 | apply Hj; cbn; left; reflexivity].
      destruct (child_kin sc h j (J j) f0 f1 k) as [k1 | ]; [ | reflexivity]. cbn [rbind].
      rewrite B1. destruct (proj1 (NoDup_app_iff _ _) NDk) as (NDu & Nds & _).
      specialize (IHu Ru NDu (fun Q => Ngk (or_introl Q)) (fun i Hi => Hj i (or_intror (in_or_app _ _ _ (or_introl Hi)))) n k1 s s').
      destruct (update_dynamic e sc h J n (root u) k1 s) as [s1 | ]; destruct (update_dynamic e sc' h J' n (root u) (movek k1) s') as [s1' | ]; try contradiction IHu; cbn [rbind]; [ | exact IHu].
      assert (IHs : moved_upd (flat_map (fun jt => bodies (snd jt)) ks) s1 s1' (lp (map fst ks) s1) (lp' (map fst ks) s1')) by (apply IHk; try assumption; [intros i Hi; apply Hj; right; apply in_or_app; right; exact Hi | intros Q; apply Ngk; right; exact Q]). clear IHk. rename IHs into IHk.
      destruct IHu as [A1 A2]. unfold moved_upd in IHk. destruct (lp (map fst ks) s1) as [s2 | ]; destruct (lp' (map fst ks) s1') as [s2' | ]; try contradiction IHk; [ | exact IHk].
      destruct IHk as [C1 C2]. split.
      - intros c Hc. destruct (in_dec Nat.eq_dec c (flat_map (fun jt => bodies (snd jt)) ks)) as [Ic | Nc]; [auto | ]. apply in_app_iff in Hc. destruct Hc as [Hc | Hc]; [ | contradiction].
        destruct (C2 c Nc) as [-> ->]. auto.
      - intros c Hc. rewrite in_app_iff in Hc. destruct (C2 c ltac:(tauto)) as [-> ->]. apply A2. tauto. }
    specialize (X s0 s0'). unfold moved_upd in *. destruct (lp (map fst ks) s0) as [s1 | ]; destruct (lp' (map fst ks) s0') as [s1' | ]; try contradiction X; [ | exact X].
    destruct X as [X1 X2]. split.
    - intros c [<- | Hc]; [ | auto]. destruct (X2 b Nb) as [-> ->]. unfold s0, s0', upd. rewrite !Nat.eqb_refl. unfold attr_moved. cbn [a_pose a_jac a_djac a_twist a_nle option_map movek k_pose k_jac k_djac k_twist].
      rewrite (dp_mass _ _ _ _ _ _ _ D). auto.
    - intros c Hc. assert (Nc : c <> b) by (intros ->; apply Hc; left; reflexivity). destruct (X2 c ltac:(intros Q; apply Hc; right; exact Q)) as [-> ->]. unfold s0, s0', upd. destruct (Nat.eqb_spec c b); [contradiction | auto].
  Qed.
  (** *** the joints of the ground *)
  Definition kin0_ : kin := Kin eye4 (fun _ => zero6) (fun _ => zero6) zero6.
  Hypothesis HJ : forall j, jt (J j) = ty j.
  Hypothesis HJ' : forall j, J' j = JS (jt (J j)) (if fr j then mm4 G (gposH (J j)) else gposH (J j)) (gpos (J j)) (gvel (J j)).
  Lemma J_same j : fr j = false -> J' j = J j.
  Proof. intros E. rewrite HJ', E. destruct (J j); reflexivity. Qed.
  Lemma child_root j f0 f1 : In j (childrenjoints h (ground e)) -> jframes h j = Some (f0, f1) -> frame_body e f1 <> ground e ->
    child_kin sc' h j (J' j) f0 f1 kin0_ = (let* k1 := child_kin sc h j (J j) f0 f1 kin0_ in Ok (movek k1)).
  Proof.
    intros Ij Ef B1. assert (Rj := dp_root _ _ _ _ _ _ _ D j f0 f1 Ij Ef).
    assert (Q : forall X, mm4 (bpose sc' f0) (mm4 (Model_Joints.pose (J' j)) X) = mm4 G (mm4 (bpose sc f0) (mm4 (Model_Joints.pose (J j)) X)) /\
      like (let* A := inv (bpose sc' f0) in adjoint A) (let* A := inv (bpose sc f0) in adjoint A) /\ like (idadjoint (J' j)) (idadjoint (J j)) /\
      jacobian (J' j) = jacobian (J j) /\ djacobian (J' j) = djacobian (J j) /\ Model_Joints.twist (J' j) = Model_Joints.twist (J j)).
    { intros X. destruct (fr j) eqn:Ej.
      - destruct Rj as [Tj ->]. assert (Ejs := HJ' j). rewrite Ej in Ejs. assert (Kj := HJ j). rewrite Tj in Kj. rewrite Ejs. clear Ejs. destruct (J j) as [kk H q v]. cbn [jt gposH gpos gvel] in *. subst kk.
        cbn [bpose]. rewrite !mm4_1_l. split; [ | split; [apply like_refl | split; [ | split; [reflexivity | split; reflexivity]]]].
        + cbn [Model_Joints.pose jt gposH]. symmetry. apply mm4_assoc.
        + unfold idadjoint, j_iadjoint, j_iadjacency, itwist, j_iadjoint, ipose, Model_Joints.pose. cbn [jt gposH].
          assert (K := iadjoint_G G H S). unfold iadjoint in K. destruct (let* X := inv (mm4 G H) in adjoint X) as [A1 | x1] eqn:E1; destruct (let* X := inv H in adjoint X) as [A2 | x2] eqn:E2;
            unfold rbind in *; destruct (inv (mm4 G H)); destruct (inv H); try contradiction K; try discriminate; try rewrite E1; try rewrite E2; cbn; auto; congruence.
      - rewrite (J_same j Ej), Rj. rewrite <- !mm4_assoc. split; [reflexivity | ]. split; [ | split; [apply like_refl | auto]]. exact (iadjoint_G G (bpose sc f0) S). }
    unfold child_kin, rel_pose. rewrite (dp_same _ _ _ _ _ _ _ D f1 B1). destruct (inv (bpose sc f1)) as [Hnc | ]; [ | reflexivity]. cbn [rbind].
    destruct (Q Hnc) as (Q1 & Q2 & Q3 & Q4 & Q5 & Q6). rewrite Q1, Q4, Q5, Q6. set (Hpc := mm4 (bpose sc f0) (mm4 (Model_Joints.pose (J j)) Hnc)).
    assert (K := iadjoint_G G Hpc S). destruct (iadjoint (mm4 G Hpc)) as [A1 | x1]; destruct (iadjoint Hpc) as [A2 | x2]; try contradiction K; cbn [rbind]; [ | cbn in K; congruence].
    destruct (adjoint (bpose sc f1)) as [Ac | ]; [ | reflexivity]. cbn [rbind].
    destruct (inv (bpose sc' f0)) as [B1' | x1]; destruct (inv (bpose sc f0)) as [B2 | x2]; cbn [rbind] in *.
    - destruct (adjoint B1') as [C1 | y1]; destruct (adjoint B2) as [C2 | y2]; try contradiction Q2; cbn [rbind]; [ | cbn in Q2; congruence].
      destruct (idadjoint (J' j)) as [D1 | y1]; destruct (idadjoint (J j)) as [D2 | y2]; try contradiction Q3; cbn [rbind]; [ | cbn in Q3; congruence].
      destruct (jdof h j) as [[d0 d1] | ]; [ | reflexivity]. destruct (Nat.leb d1 (w_ndof h)); [ | reflexivity]. cbn [rbind]. unfold movek, kin0_. cbn [k_pose k_jac k_djac k_twist].
      rewrite !mm4_1_l, !mv6_zero6. reflexivity.
    - destruct (adjoint B1'); cbn in Q2; [contradiction | subst; destruct (adjoint B1'); reflexivity].
    - destruct (adjoint B2) as [ | y]; cbn in Q2; [contradiction | subst; reflexivity].
    - cbn in Q2. congruence.
  Qed.
End Kin.
