(** The error on the derivatives of the jacobians. *)
From Coq Require Import Lra Lia.
From Verif Require Import Spec_Defect Proof_Tree Proof_World Proof_Dyn Proof_Dyn2.
From Verif Require Import Proof_Linalg Proof_Deriv Proof_SE3 Proof_Joints.
Open Scope R_scope.

Lemma v6suml_mv6 M l : mv6 M (v6suml l) = v6suml (map (mv6 M) l).
Proof. induction l as [ | x l IH]; cbn [v6suml fold_right map]; [apply mv6_zero6 | ]. fold (v6suml l). fold (v6suml (map (mv6 M) l)). rewrite <- IH. generalize (v6suml l). clear. intros y. lin. Qed.
Lemma v6suml_ext {A} (f g : A -> v6) l : (forall x, In x l -> f x = g x) -> v6suml (map f l) = v6suml (map g l).
Proof. intros H. f_equal. now apply map_ext_in. Qed.
Lemma sum6_v6suml n (g : nat -> nat -> v6) l : sum6 n (fun c => v6suml (map (fun j => g c j) l)) = v6suml (map (fun j => sum6 n (fun c => g c j)) l).
Proof.
  induction l as [ | j l IH]; cbn [map v6suml fold_right]; [apply sum6_zero; reflexivity | ].
  fold (v6suml (map (fun j => sum6 n (fun c => g c j)) l)). rewrite <- IH. rewrite <- sum6_add. reflexivity.
Qed.
Lemma v6suml_scal k l : v6scal k (v6suml l) = v6suml (map (v6scal k) l).
Proof. induction l as [ | x l IH]; cbn [v6suml fold_right map]; [apply v6scal_zero6 | ]. fold (v6suml l). fold (v6suml (map (v6scal k) l)). rewrite <- IH. apply v6scal_add. Qed.

Lemma mm6_0_l a : mm6 zerom6 a = zerom6. Proof. lin. Qed.
Lemma mm6_0_r a : mm6 a zerom6 = zerom6. Proof. lin. Qed.
Lemma m6add_0_l a : m6add zerom6 a = a. Proof. lin. Qed.
Lemma m6add_0_r a : m6add a zerom6 = a. Proof. lin. Qed.

(** the true derivative of the inverse adjoint of a joint *)
Lemma true_idadjoint k f t : joint_motion k f t ->
  dm6 (fun s => iadjoint_ (pose (f s))) t
    (mm6 (iadjoint_ (pose (f t))) (adjacency (v6neg (mv6 (adjoint_ (pose (f t))) (twist (f t)))))).
Proof.
  intros M. assert (V : forall s, valid_joint (f s)) by (intros s; apply M).
  apply (iadjoint_deriv (fun s => pose (f s))); [intros s; apply pose_SE3; auto | apply (pose_deriv k); auto].
Qed.

Section Defect.
  Variables (e : env) (sc : scene) (h : @heap R) (t : tree) (f : R -> nat -> jstate) (s : R).
  Hypothesis Rd : ready e h t.
  Hypothesis B : forall g, SE3 (bpose sc g).
  Hypothesis Mo : world_motion t f s.
  Hypothesis N : forall j, In j (joints t) -> jndof e j = ndof_of (jt (f s j)).
  Variables (P0 : nat -> m4) (A0 : nat -> nat -> v6).
  Hypothesis H0 : forall x j p ps f0 f1, path t x ((j, p) :: ps) -> jframes h j = Some (f0, f1) ->
    let K := kin_of sc h (f s) (map fst ps) in
    P0 j = mm4 (k_pose K) (bpose sc f0) /\ forall c, A0 j c = mv6 (iadjoint_ (bpose sc f0)) (k_jac K c).

  Definition errsum (H : m4) (js : list nat) (c : nat) : v6 := v6suml (map (fun j => joint_error (f s j) H (P0 j) (A0 j c)) js).

  Lemma kin_SE3 u x ps : path t x ps -> SE3 (k_pose (kin_of sc h (f u) (map fst ps))).
  Proof.
    intros P. assert (I := proj2 (path_in _ _ _ P)). rewrite kin_pose.
    - apply posej_SE3; auto. intros j Ij. eapply mo_valid; eauto.
    - intros j Ij. destruct (ready_dof e h t j Rd (I j Ij)) as (? & E & _). congruence.
  Qed.
  Lemma frames_of j : In j (joints t) -> exists f0 f1, jframes h j = Some (f0, f1).
  Proof. intros I. destruct (path_joint e h t (proj1 Rd) j I) as (f0 & f1 & _ & E & _). eauto. Qed.
  Lemma P0_SE3 x ps j : path t x ps -> In j (map fst ps) -> SE3 (P0 j).
  Proof.
    revert x. induction ps as [ | (i, p) ps IH]; intros x P I; [destruct I | ]. destruct (Nat.eq_dec i j) as [-> | Ne].
    - destruct (frames_of j) as (f0 & f1 & E); [apply (path_in _ _ _ P); now left | ]. rewrite (proj1 (H0 _ _ _ _ _ _ P E)). apply SE3_mm4; [eapply kin_SE3, path_tail; eauto | apply B].
    - destruct I as [I | I]; [cbn in I; congruence | ]. eapply IH; [eapply path_tail; eauto | exact I].
  Qed.
  Lemma errsum_move H K js c : SE3 H -> SE3 K -> (forall j, In j js -> SE3 (P0 j)) -> mv6 (iadjoint_ K) (errsum H js c) = errsum (mm4 H K) js c.
  Proof.
    intros SH SK Sp. unfold errsum. rewrite v6suml_mv6, map_map. apply v6suml_ext. intros j J. unfold joint_error.
    rewrite <- mv6_mm6. f_equal. unfold iadjoint_. rewrite <- SE3_adjoint_mm; auto using SE3_inv, SE3_mm4. f_equal. rewrite inv_mm4 by auto. apply mm4_assoc.
  Qed.

  Lemma errsum_cons H j js c : errsum H (j :: js) c = v6add (joint_error (f s j) H (P0 j) (A0 j c)) (errsum H js c).
  Proof. reflexivity. Qed.

  Lemma kin_jac_defect x ps c : path t x ps ->
    dv6 (fun u => k_jac (kin_of sc h (f u) (map fst ps)) c) s
      (v6add (k_djac (kin_of sc h (f s) (map fst ps)) c) (errsum (k_pose (kin_of sc h (f s) (map fst ps))) (map fst ps) c)).
  Proof.
    revert x. induction ps as [ | (j, p) ps IH]; intros x P.
    - cbn [map errsum v6suml fold_right kin_of]. replace (v6add _ _) with zero6 by (unfold errsum, kin0; cbn; lin). exact (dv6_const s zero6).
    - assert (I := proj2 (path_in _ _ _ P)). assert (Ij := I j (or_introl eq_refl)). destruct (ready_dof _ _ _ _ Rd Ij) as (d & D & L).
      destruct (frames_of j Ij) as (f0 & f1 & Ef). assert (P' := path_tail _ _ _ _ _ P). assert (IHc := IH _ P'). clear IH.
      destruct (H0 _ _ _ _ _ _ P Ef) as (Ep & Ea). cbn [map fst]. set (js := map fst ps) in *.
      assert (EK : forall u, kin_of sc h (f u) (j :: js) = stepk sc h (f u j) (d, d + jndof e j)%nat f0 f1 (kin_of sc h (f u) js)).
      { intros u. cbn [kin_of fold_right]. fold (kin_of sc h (f u) js). unfold stepj. rewrite Ef, D. reflexivity. }
      rewrite EK. eapply dv6_ext. { intros u. rewrite EK. reflexivity. }
      cbn [stepk k_jac k_djac k_pose fst snd].
      assert (Vj : forall u, valid_joint (f u j)) by (intros u; eapply mo_valid; eauto).
      assert (DD : dm6 (fun u => iadjoint_ (rel_ sc (f u j) f0 f1)) s
           (mm6 (adjoint_ (bpose sc f1)) (mm6 (mm6 (iadjoint_ (pose (f s j))) (adjacency (v6neg (mv6 (adjoint_ (pose (f s j))) (twist (f s j)))))) (adjoint_ (inv_ (bpose sc f0)))))).
      { assert (DA := true_idadjoint _ (fun u => f u j) s (Mo j Ij)).
        eapply dm6_ext with (f := fun u => mm6 (adjoint_ (bpose sc f1)) (mm6 (iadjoint_ (pose (f u j))) (adjoint_ (inv_ (bpose sc f0))))).
        { intros u. eapply irel_split; eauto. }
        assert (X := dm6_mm6 s _ _ _ _ (dm6_const s (adjoint_ (bpose sc f1))) (dm6_mm6 s _ _ _ _ DA (dm6_const s (adjoint_ (inv_ (bpose sc f0)))))).
        cbv beta in X. revert X. match goal with |- dm6 _ _ ?a -> dm6 _ _ ?b => replace a with b; auto end.
        rewrite mm6_0_l, !mm6_0_r, m6add_0_l, m6add_0_r. reflexivity. }
      assert (X := dv6_mv6 s _ _ _ _ DD IHc). cbv beta in X.
      assert (Y : dv6 (fun u => slice_col d (d + jndof e j) (fun i => mv6 (adjoint_ (bpose sc f1)) (jacobian (f u j) i)) c) s (slice_col d (d + jndof e j) (fun i => mv6 (adjoint_ (bpose sc f1)) (djacobian (f s j) i)) c)).
      { unfold slice_col. destruct (_ && _)%bool; [ | apply dv6_const].
        assert (X' := dv6_mv6 s _ _ _ _ (dm6_const s (adjoint_ (bpose sc f1))) (jac_deriv (jt (f s j)) (fun u => f u j) s (c - d) (Mo j Ij))).
        cbv beta in X'. rewrite mv6_0, v6add_0_l in X'. exact X'. }
      assert (Z := dv6_add _ _ _ _ _ X Y). cbv beta in Z. revert Z.
      match goal with |- dv6 _ _ ?a -> dv6 _ _ ?b => replace a with b; auto end. clear X Y DD.
      assert (Sr : SE3 (rel_ sc (f s j) f0 f1)) by (apply rel_SE3; auto). assert (Sp := pose_SE3 _ (Vj s)). assert (Sk := kin_SE3 s _ _ P'). fold js in Sk.
      set (H := k_pose (kin_of sc h (f s) js)) in *. set (rel := rel_ sc (f s j) f0 f1) in *.
      rewrite errsum_cons.
      rewrite <- (errsum_move H rel js c Sk Sr (fun i Ii => P0_SE3 _ _ _ P' Ii)).
      assert (EE : joint_error (f s j) (mm4 H rel) (P0 j) (A0 j c) =
        mv6 (mm6 (adjoint_ (bpose sc f1)) (mm6 (mm6 (iadjoint_ (pose (f s j))) (adjacency (twist_error (f s j)))) (adjoint_ (inv_ (bpose sc f0))))) (k_jac (kin_of sc h (f s) js) c)).
      { unfold joint_error. rewrite Ep, Ea. rewrite !mv6_mm6. change (iadjoint_ (bpose sc f0)) with (adjoint_ (inv_ (bpose sc f0))). rewrite <- (mv6_mm6 (adjoint_ (bpose sc f1))).
        f_equal. unfold iadjoint_. rewrite <- SE3_adjoint_mm; auto using SE3_inv. f_equal.
        rewrite inv_mm4 by auto. unfold rel, rel_. rewrite !inv_mm4, inv_inv; auto using SE3_mm4, SE3_inv.
        rewrite <- !mm4_assoc. f_equal. f_equal. rewrite (mm4_assoc (inv_ H)), inv_l, mm4_1_l, inv_l, mm4_1_r; auto. }
      rewrite EE.
      unfold twist_error. fold (iadjoint_ (pose (f s j))).
      generalize (adjoint_ (bpose sc f1)) (iadjoint_ (pose (f s j))) (mv6 (adjoint_ (pose (f s j))) (twist (f s j))) (mv6 (iadjoint_ (pose (f s j))) (twist (f s j))) (adjoint_ (inv_ (bpose sc f0))) (k_jac (kin_of sc h (f s) js) c) (k_djac (kin_of sc h (f s) js) c) (errsum H js c) (iadjoint_ rel) (slice_col d (d + jndof e j) (fun i => mv6 (adjoint_ (bpose sc f1)) (djacobian (f s j) i)) c).
      clear. intros a x T1 T2 b J dJ er R0 sl.
      rewrite !mv6_mm6. generalize (mv6 b J). intros y.
      assert (K1 : v6add (mv6 (adjacency (v6neg T2)) y) (mv6 (adjacency (v6sub T2 T1)) y) = mv6 (adjacency (v6neg T1)) y) by (clear; lin).
      rewrite <- K1. rewrite !mv6_add. generalize (mv6 a (mv6 x (mv6 (adjacency (v6neg T2)) y))) (mv6 a (mv6 x (mv6 (adjacency (v6sub T2 T1)) y))) (mv6 R0 dJ) (mv6 R0 er). clear. intros. lin.
  Qed.
End Defect.
