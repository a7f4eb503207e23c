(** Conversion of URDF elements. *)
From Coq Require Import Lra Lia Classical_Prop.
From Verif Require Import Spec_Urdf.
From Verif Require Import Proof_Linalg Proof_SE3 Proof_Robots2 Props_Mass Props_Draw Proof_Coll.
Open Scope R_scope.

Lemma sub_ok H : SE3 H -> subframe H = Ok H.
Proof. intros S. unfold subframe. now rewrite (ishom_SE3 H S). Qed.
Lemma to_pose_ok p : complete_pose p -> to_pose p = Ok (origin_of p) /\ SE3 (origin_of p).
Proof.
  destruct p as [[[t | ] [r | ]] | ]; cbn [complete_pose up_xyz up_rpy]; intros C; try (destruct C as (C1 & C2); congruence); [ | split; [reflexivity | apply SE3_eye]].
  unfold to_pose. cbn [up_xyz up_rpy origin_of]. split.
  - f_equal. unfold rotzyx, rotz, roty, rotx, transl. clear. unf. dall. entries; ring.
  - split; [ | split; reflexivity]. cbn [rot]. apply SO3_mm; [apply SO3_mm | ]; apply rotz_SE3 || apply roty_SE3 || apply rotx_SE3.
Qed.

(** ** Masses *)
Lemma com_mass_ok i : (forall u, u <> zero3 -> 0 < dot3 u (mv (inertia_of i) u)) -> mass_of (clip (ui_mass i)) (com_mass i).
Proof.
  intros P. assert (Hm : 0 < clip (ui_mass i)) by (unfold clip; apply Rlt_le_trans with (1 / 1000000); [lra | apply Rmax_l]).
  assert (EM : com_mass i = M6 (inertia_of i) zerom3 zerom3 (mscal (clip (ui_mass i)) eye3)) by reflexivity. rewrite EM. set (m := clip (ui_mass i)) in *. split; [ | split; [ | reflexivity]].
  - intros u v. unfold inertia_of. clear. generalize (Rmax (1 / 1000000) (ui_xx i)) (Rmax (1 / 1000000) (ui_yy i)) (Rmax (1 / 1000000) (ui_zz i)). intros a b c. destruct u as [[] []], v as [[] []]. unf. ring.
  - intros u Nu. assert (E : dot6 u (mv6 (M6 (inertia_of i) zerom3 zerom3 (mscal m eye3)) u) = dot3 (ang u) (mv (inertia_of i) (ang u)) + m * dot3 (lin u) (lin u)).
    { generalize (inertia_of i). intros A. clear. destruct u as [[] []], A. unf. ring. }
    rewrite E. assert (Q1 : ang u <> zero3 -> 0 < dot3 (ang u) (mv (inertia_of i) (ang u))) by apply P.
    assert (Q0 : 0 <= dot3 (ang u) (mv (inertia_of i) (ang u))).
    { destruct (classic (ang u = zero3)) as [Z | Z]; [rewrite Z; right; generalize (inertia_of i); intros []; unf; ring | left; auto]. }
    assert (L0 : 0 <= dot3 (lin u) (lin u)) by (destruct (lin u) as [a b c]; unf; nra).
    destruct (classic (ang u = zero3)) as [Z | Z]; [ | specialize (Q1 Z); nra].
    assert (L1 : lin u <> zero3) by (intros Z'; apply Nu; destruct u as [a l]; cbn in *; now subst).
    assert (0 < dot3 (lin u) (lin u)).
    { destruct (Rle_lt_or_eq_dec _ _ L0) as [ | Z']; [assumption | ]. exfalso. apply L1. destruct (lin u) as [a b c]. unf. assert (a = 0 /\ b = 0 /\ c = 0) as (-> & -> & ->) by nra. reflexivity. }
    nra.
Qed.
Lemma to_mass_ok eigvals l : eigs_ok eigvals -> loadable_link l -> to_mass eigvals (ul_inertial l) = Ok (urdf_mass l).
Proof.
  intros Ev (Hl & _). unfold urdf_mass, to_mass. destruct (ul_inertial l) as [i | ]; [ | reflexivity]. destruct Hl as (Cp & Pd). destruct (to_pose_ok _ Cp) as (-> & SH). cbn [rbind]. set (H := origin_of (ui_origin i)) in *.
  unfold inv. rewrite (ishom_SE3 H SH). cbn [rbind]. assert (Mm := com_mass_ok i Pd). rewrite (transport_eq _ _ _ _ Mm (Ev _ (proj1 Mm)) (SE3_inv _ SH)). cbn [rbind]. do 2 f_equal. change (Rmax (1 / 1000000) (ui_mass i)) with (clip (ui_mass i)).
  change (com_mass i) with (M6 (inertia_of i) zerom3 zerom3 (mscal (clip (ui_mass i)) eye3)). generalize (clip (ui_mass i)). intros m. generalize (inertia_of i). intros A0.
  destruct SH as (SR & Bo & Ho). destruct H as [A p b k]. cbn [rot pos bot hom] in *. subst b k. assert (Ar := SO3_r A SR).
  assert (X : mm (skew (pos (inv_ (M4 A p zero3 1)))) (tr A) = mneg (mm (tr A) (skew p))).
  { cbn [inv_ pos rot]. replace (skew (vneg (mv (tr A) p))) with (mneg (skew (mv (tr A) p))) by (clear; lin). rewrite (SO3_skew' _ _ (SO3_transpose _ SR)), tr_tr.
    replace (mm (mneg (mm (mm (tr A) (skew p)) A)) (tr A)) with (mneg (mm (mm (tr A) (skew p)) (mm A (tr A)))) by (clear; lin). now rewrite Ar, mm_1_r. }
  unfold adjoint_. cbn [rot inv_]. cbn [inv_] in X. unfold adjoint_ in X. rewrite X. clear X. unfold tr6, mm6, rigid_mass. cbn [aa al la ll].
  f_equal.
  - replace (madd (mm (tr (tr A)) (madd (mm A0 (tr A)) (mm zerom3 (mneg (mm (tr A) (skew p)))))) (mm (tr (mneg (mm (tr A) (skew p)))) (madd (mm zerom3 (tr A)) (mm (mscal m eye3) (mneg (mm (tr A) (skew p)))))))
      with (madd (mm (mm A A0) (tr A)) (mscal m (mm (mm (tr (skew p)) (mm A (tr A))) (skew p)))) by (clear; lin). rewrite Ar, mm_1_r. f_equal. f_equal. clear; lin.
  - replace (madd (mm (tr (tr A)) (madd (mm A0 zerom3) (mm zerom3 (tr A)))) (mm (tr (mneg (mm (tr A) (skew p)))) (madd (mm zerom3 zerom3) (mm (mscal m eye3) (tr A)))))
      with (mscal m (mm (skew p) (mm A (tr A)))) by (clear; lin). now rewrite Ar, mm_1_r.
  - replace (madd (mm (tr zerom3) (madd (mm A0 (tr A)) (mm zerom3 (mneg (mm (tr A) (skew p)))))) (mm (tr (tr A)) (madd (mm zerom3 (tr A)) (mm (mscal m eye3) (mneg (mm (tr A) (skew p)))))))
      with (mscal m (mm (mm A (tr A)) (tr (skew p)))) by (clear; lin). now rewrite Ar, mm_1_l.
  - replace (madd (mm (tr zerom3) (madd (mm A0 zerom3) (mm zerom3 (tr A)))) (mm (tr (tr A)) (madd (mm zerom3 zerom3) (mm (mscal m eye3) (tr A)))))
      with (mscal m (mm A (tr A))) by (clear; lin). now rewrite Ar.
Qed.

(** ** Joints *)
Lemma conj_rotz A q : SO3 A -> mm (mm A (rot (rotz q))) (tr A) = madd eye3 (madd (mscal (sin q) (skew (zcol A))) (mscal (1 - cos q) (mm (skew (zcol A)) (skew (zcol A))))).
Proof.
  intros SA. assert (Ez : zcol A = mv A (V3 0 0 1)) by (clear; unfold zcol; lin). rewrite Ez, (SO3_skew' A _ SA).
  assert (Ar := SO3_r A SA). assert (Al := SO3_l A SA). set (E := skew (V3 0 0 1)).
  assert (ER : rot (rotz q) = madd eye3 (madd (mscal (sin q) E) (mscal (1 - cos q) (mm E E)))) by (unfold E, rotz; clear; cbn [rot]; unf; entries; ring). rewrite ER.
  replace (mm (mm (mm A E) (tr A)) (mm (mm A E) (tr A))) with (mm (mm (mm A E) (mm (tr A) A)) (mm E (tr A))) by (clear; generalize E; lin). rewrite Al, mm_1_r.
  transitivity (madd (mm A (tr A)) (madd (mscal (sin q) (mm (mm A E) (tr A))) (mscal (1 - cos q) (mm (mm A E) (mm E (tr A)))))); [clear; generalize E; lin | now rewrite Ar].
Qed.
Lemma conj_transl H q : SE3 H -> pos H = zero3 -> mm4 (mm4 H (transl 0 0 q)) (inv_ H) = let t := vscal q (zaxis H) in transl (vx t) (vy t) (vz t).
Proof.
  intros (SR & Bo & Ho) Po. destruct H as [A p b k]. cbn [rot pos bot hom] in *. subst b k p. assert (Ar := SO3_r A SR). unfold zaxis, zcol, transl. cbn [rot].
  transitivity (M4 (mm A (tr A)) (vscal q (V3 (m02 A) (m12 A) (m22 A))) zero3 1); [clear; lin | ]. rewrite Ar. reflexivity.
Qed.
Lemma conj_rot H q : SE3 H -> pos H = zero3 -> mm4 (mm4 H (rotz q)) (inv_ H) = rotation_about (zaxis H) q.
Proof.
  intros (SR & Bo & Ho) Po. unfold rotation_about, zaxis. rewrite <- (conj_rotz (rot H) q SR). destruct H as [A p b k]. cbn [rot pos bot hom] in *. subst b k p. unfold rotz. clear. lin.
Qed.
Lemma allclose1_refl a : allclose1 a a = true.
Proof. unfold allclose1. apply Rleb_true. rewrite Rminus_diag_eq, Rabs_R0 by reflexivity. assert (X := Rabs_pos a). lra. Qed.
Lemma far1 : allclose1 0 1 = false.
Proof. unfold allclose1. apply Rleb_false. rewrite Rabs_R1. replace (0 - 1) with (- (1)) by ring. rewrite Rabs_Ropp, Rabs_R1. lra. Qed.
Lemma allclose_refl v : allclose v v = true.
Proof. unfold allclose. now rewrite !allclose1_refl. Qed.

Definition conj_of (Z : option m4) (H : m4) : m4 := match Z with None => H | Some Z => mm4 (mm4 Z H) (inv_ Z) end.
Lemma to_joint_ok argsort j : argsort_ok argsort -> loadable_joint j -> exists ty Z, to_joint argsort j = Ok (ty, origin_of (uj_origin j), Z) /\ SE3 (origin_of (uj_origin j)) /\
  ndof_of ty = udof j /\ (forall z, Z = Some z -> SE3 z) /\ (forall s, jt s = ty -> conj_of Z (Model_Joints.pose s) = urdf_motion j s) /\ (uj_kind j = Floating <-> ty = FreeJoint).
Proof.
  intros Ha (Cp & Lj). destruct (to_pose_ok _ Cp) as (Ep & SH). unfold to_joint. rewrite Ep. cbn [rbind]. unfold udof, urdf_motion.
  assert (Rd : forall v q, v = V3 1 0 0 -> rotx q = rotation_about v q) by (intros v q ->; unfold rotation_about, rotx; clear; unf; entries; ring).
  assert (Rd2 : forall v q, v = V3 0 1 0 -> roty q = rotation_about v q) by (intros v q ->; unfold rotation_about, roty; clear; unf; entries; ring).
  assert (Rd3 : forall v q, v = V3 0 0 1 -> rotz q = rotation_about v q) by (intros v q ->; unfold rotation_about, rotz; clear; unf; entries; ring).
  assert (F1 := far1). assert (F0 := allclose1_refl 0).
  assert (Or : forall kx ky kz : jtype, (exists v, uj_axis j = Some (AxVec v) /\ norm3 v = 1 /\ (is_basis v \/ (allclose v (V3 1 0 0) = false /\ allclose v (V3 0 1 0) = false /\ allclose v (V3 0 0 1) = false))) ->
    exists a v, uj_axis j = Some a /\ a = AxVec v /\
    let r := (let* x := along a "x" "X" (V3 1 0 0) in if x : bool then Ok (kx, origin_of (uj_origin j), None) else
        let* y := along a "y" "Y" (V3 0 1 0) in if y : bool then Ok (ky, origin_of (uj_origin j), None) else
        let* z := along a "z" "Z" (V3 0 0 1) in if z : bool then Ok (kz, origin_of (uj_origin j), None) else
        let* Z := zaxis_of argsort a in Ok (kz, origin_of (uj_origin j), Some Z)) in
    (v = V3 1 0 0 /\ r = Ok (kx, origin_of (uj_origin j), None)) \/ (v = V3 0 1 0 /\ r = Ok (ky, origin_of (uj_origin j), None)) \/ (v = V3 0 0 1 /\ r = Ok (kz, origin_of (uj_origin j), None)) \/
    exists Z : m4, SE3 Z /\ zaxis Z = v /\ pos Z = zero3 /\ r = Ok (kz, origin_of (uj_origin j), Some Z)).
  { intros kx ky kz (v & Ea & Nv & [[-> | [-> | ->]] | (A1 & A2 & A3)]); eexists; eexists; (split; [exact Ea | split; [reflexivity | ]]); cbn [along rbind].
    - left. split; [reflexivity | ]. now rewrite allclose_refl.
    - right; left. split; [reflexivity | ]. rewrite allclose_refl. unfold allclose at 1. cbn [vx vy vz]. now rewrite F1.
    - right; right; left. split; [reflexivity | ]. rewrite allclose_refl. unfold allclose. cbn [vx vy vz]. rewrite F1, F0. reflexivity.
    - right; right; right. rewrite A1, A2, A3. destruct (zaligned_ok argsort v Ha Nv) as (Z & EZ & SZ & ZZ & PZ). exists Z. split; [exact SZ | ]. split; [exact ZZ | ]. split; [exact PZ | ]. cbn [zaxis_of]. rewrite EZ. reflexivity. }
  destruct (uj_kind j) eqn:Ek; try (destruct Lj; fail).
  - destruct (Or RxJoint RyJoint RzJoint (proj2 Lj)) as (a & v & Ea & -> & H). rewrite Ea. cbv zeta in H. destruct H as [(Ev & ->) | [(Ev & ->) | [(Ev & ->) | (Z & SZ & ZZ & PZ & ->)]]].
    + exists RxJoint, None. split; [reflexivity | ]. split; [exact SH | ]. split; [reflexivity | ]. split; [discriminate | ]. split; [ | split; discriminate]. intros s Es. unfold Model_Joints.pose. rewrite Es. cbn [conj_of]. now apply Rd.
    + exists RyJoint, None. split; [reflexivity | ]. split; [exact SH | ]. split; [reflexivity | ]. split; [discriminate | ]. split; [ | split; discriminate]. intros s Es. unfold Model_Joints.pose. rewrite Es. cbn [conj_of]. now apply Rd2.
    + exists RzJoint, None. split; [reflexivity | ]. split; [exact SH | ]. split; [reflexivity | ]. split; [discriminate | ]. split; [ | split; discriminate]. intros s Es. unfold Model_Joints.pose. rewrite Es. cbn [conj_of]. now apply Rd3.
    + exists RzJoint, (Some Z). split; [reflexivity | ]. split; [exact SH | ]. split; [reflexivity | ]. split; [intros z Q; injection Q as <-; exact SZ | ]. split; [ | split; discriminate]. intros s Es. unfold Model_Joints.pose. rewrite Es. cbn [conj_of]. rewrite (conj_rot Z _ SZ PZ). now rewrite ZZ.
  - destruct (Or TxJoint TyJoint TzJoint (proj2 Lj)) as (a & v & Ea & -> & H). rewrite Ea. cbv zeta in H. destruct H as [(Ev & ->) | [(Ev & ->) | [(Ev & ->) | (Z & SZ & ZZ & PZ & ->)]]].
    + exists TxJoint, None. split; [reflexivity | ]. split; [exact SH | ]. split; [reflexivity | ]. split; [discriminate | ]. split; [ | split; discriminate]. intros s Es. unfold Model_Joints.pose. rewrite Es, Ev. cbn [conj_of]. unfold transl. clear. unf. entries; ring.
    + exists TyJoint, None. split; [reflexivity | ]. split; [exact SH | ]. split; [reflexivity | ]. split; [discriminate | ]. split; [ | split; discriminate]. intros s Es. unfold Model_Joints.pose. rewrite Es, Ev. cbn [conj_of]. unfold transl. clear. unf. entries; ring.
    + exists TzJoint, None. split; [reflexivity | ]. split; [exact SH | ]. split; [reflexivity | ]. split; [discriminate | ]. split; [ | split; discriminate]. intros s Es. unfold Model_Joints.pose. rewrite Es, Ev. cbn [conj_of]. unfold transl. clear. unf. entries; ring.
    + exists TzJoint, (Some Z). split; [reflexivity | ]. split; [exact SH | ]. split; [reflexivity | ]. split; [intros z Q; injection Q as <-; exact SZ | ]. split; [ | split; discriminate]. intros s Es. unfold Model_Joints.pose. rewrite Es. cbn [conj_of]. rewrite (conj_transl Z _ SZ PZ). now rewrite ZZ.
  - destruct (uj_axis j) as [[av | | aw] | ]; [ | destruct Lj; congruence | | destruct Lj; congruence]; (exists FreeJoint, None; split; [reflexivity | ]; split; [exact SH | ]; split; [reflexivity | ]; split; [discriminate | ]; split; [ | split; auto]; intros s Es; unfold Model_Joints.pose; now rewrite Es).
  - destruct (uj_axis j) as [[av | | aw] | ]; [ | destruct Lj; congruence | | destruct Lj; congruence]; (exists FixedJoint, None; split; [reflexivity | ]; split; [exact SH | ]; split; [reflexivity | ]; split; [discriminate | ]; split; [ | split; discriminate]; intros s Es; unfold Model_Joints.pose; now rewrite Es).
Qed.
