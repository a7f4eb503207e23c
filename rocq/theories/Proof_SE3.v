(** Lemmas about the homogeneous-matrix functions. *)
From Verif Require Import Model_Linalg Model_Hg Spec_SE3 Proof_Linalg Proof_Deriv.

Lemma Rleb_true x y : Rleb x y = true <-> x <= y.
Proof. unfold Rleb; destruct (Rle_dec x y); split; auto; discriminate. Qed.
Lemma Rltb_true x y : Rltb x y = true <-> x < y.
Proof. unfold Rltb; destruct (Rlt_dec x y); split; auto; discriminate. Qed.
Lemma Reqb_true x y : Reqb x y = true <-> x = y.
Proof. unfold Reqb; destruct (Req_EM_T x y); split; auto; discriminate. Qed.
Lemma Rleb_false x y : Rleb x y = false <-> y < x.
Proof. unfold Rleb; destruct (Rle_dec x y); split; auto; try discriminate; lra. Qed.
Lemma Rltb_false x y : Rltb x y = false <-> y <= x.
Proof. unfold Rltb; destruct (Rlt_dec x y); split; auto; try discriminate; lra. Qed.
Lemma v3eqb_true a b : v3eqb a b = true <-> a = b.
Proof.
  unfold v3eqb. rewrite !andb_true_iff, !Reqb_true. destruct a, b; cbn. split.
  - intros [[-> ->] ->]; auto.
  - intros [= -> -> ->]; auto.
Qed.
Lemma tol_pos : 0 < tol. Proof. unfold tol; lra. Qed.

Lemma ishom_iff H : ishomogeneousmatrix H = true <->
  (Rabs (det3 (rot H) - 1) <= tol /\ bot H = zero3 /\ hom H = 1).
Proof.
  unfold ishomogeneousmatrix. rewrite !andb_true_iff, Rleb_true, v3eqb_true, Reqb_true. tauto.
Qed.
Lemma ishom_SE3 H : SE3 H -> ishomogeneousmatrix H = true.
Proof.
  intros ((_&D)&B&C). apply ishom_iff. rewrite D. replace (1 - 1) with 0 by ring. rewrite Rabs_R0.
  pose proof tol_pos. split; [lra | auto].
Qed.
Lemma inv_ok H : SE3 H -> inv H = Ok (inv_ H).
Proof. intros. unfold inv. rewrite ishom_SE3; auto. Qed.
Lemma adjoint_ok H : SE3 H -> adjoint H = Ok (adjoint_ H).
Proof. intros. unfold adjoint. rewrite ishom_SE3; auto. Qed.
Lemma iadjoint_ok H : SE3 H -> iadjoint H = Ok (iadjoint_ H).
Proof. intros. unfold iadjoint. rewrite inv_ok by auto. cbn [rbind]. rewrite adjoint_ok; auto using SE3_inv. Qed.
Lemma pdot_ok H p : SE3 H -> pdot H p = Ok (vadd (mv (rot H) p) (pos H)).
Proof. intros. unfold pdot. rewrite ishom_SE3; auto. Qed.
Lemma vdot_ok H p : SE3 H -> vdot H p = Ok (mv (rot H) p).
Proof. intros. unfold vdot. rewrite ishom_SE3; auto. Qed.

Lemma cs2 a : cos a * cos a = 1 - sin a * sin a.
Proof. pose proof (sin2_cos2 a). unfold Rsqr in *. lra. Qed.

Ltac trig := repeat match goal with
  | |- context [cos ?a * cos ?a] => rewrite (cs2 a)
  end.
Lemma rotx_SE3 a : SE3 (rotx a).
Proof. split; [split | split; reflexivity]; unfold rotx; cbn zeta; unf; entries; try ring; pose proof (cs2 a); nra. Qed.
Lemma roty_SE3 a : SE3 (roty a).
Proof. split; [split | split; reflexivity]; unfold roty; cbn zeta; unf; entries; try ring; pose proof (cs2 a); nra. Qed.
Lemma rotz_SE3 a : SE3 (rotz a).
Proof. split; [split | split; reflexivity]; unfold rotz; cbn zeta; unf; entries; try ring; pose proof (cs2 a); nra. Qed.
Lemma transl_SE3 x y z : SE3 (transl x y z).
Proof. split; [split | split; reflexivity]; unfold transl; lin. Qed.
Lemma rotzyx_eq a b c : rotzyx a b c = mm4 (rotz a) (mm4 (roty b) (rotx c)).
Proof. unfold rotzyx, rotz, roty, rotx; cbn zeta; lin. Qed.
Lemma rotzy_eq a b : rotzy a b = mm4 (rotz a) (roty b).
Proof. unfold rotzy, rotz, roty; cbn zeta; lin. Qed.
Lemma rotzx_eq a b : rotzx a b = mm4 (rotz a) (rotx b).
Proof. unfold rotzx, rotz, rotx; cbn zeta; lin. Qed.
Lemma rotyx_eq a b : rotyx a b = mm4 (roty a) (rotx b).
Proof. unfold rotyx, roty, rotx; cbn zeta; lin. Qed.
Lemma rotzyx_SE3 a b c : SE3 (rotzyx a b c).
Proof. rewrite rotzyx_eq. auto using SE3_mm4, rotx_SE3, roty_SE3, rotz_SE3. Qed.
Lemma rotzy_SE3 a b : SE3 (rotzy a b).
Proof. rewrite rotzy_eq. auto using SE3_mm4, rotx_SE3, roty_SE3, rotz_SE3. Qed.
Lemma rotzx_SE3 a b : SE3 (rotzx a b).
Proof. rewrite rotzx_eq. auto using SE3_mm4, rotx_SE3, roty_SE3, rotz_SE3. Qed.
Lemma rotyx_SE3 a b : SE3 (rotyx a b).
Proof. rewrite rotyx_eq. auto using SE3_mm4, rotx_SE3, roty_SE3, rotz_SE3. Qed.

Lemma hat_adjoint H T : SE3 H -> hat (mv6 (adjoint_ H) T) = mm4 (mm4 H (hat T)) (inv_ H).
Proof.
  intros A. rewrite (SE3_eta _ A). destruct A as [A _]. destruct T as [w v].
  change (hat (V6 w v)) with (M4 (skew w) v zero3 0).
  unfold hat. unfold adjoint_, mv6, mm4, inv_. cbn [rot pos bot hom aa al la ll ang lin].
  rewrite mv_0, vadd_0_r.
  change (M3 0 (- vz (mv (rot H) w)) (vy (mv (rot H) w)) (vz (mv (rot H) w)) 0 (- vx (mv (rot H) w))
       (- vy (mv (rot H) w)) (vx (mv (rot H) w)) 0) with (skew (mv (rot H) w)).
  replace (outer (pos H) zero3) with zerom3 by lin.
  rewrite madd_0_r, (SO3_skew' _ _ A).
  f_equal; try solve [lin].
  rewrite mv_neg, <- mv_mm, <- (SO3_skew' _ _ A), mv_mm, !skew_mv, vscal_0, vadd_0_r.
  rewrite cross_anti, vscal_1. reflexivity.
Qed.

(** derivative of the adjoint of a motion *)
Lemma adjoint_deriv f t T : (forall s, SE3 (f s)) -> dm4 f t (mm4 (f t) (hat T)) ->
  dm6 (fun s => adjoint_ (f s)) t (mm6 (adjoint_ (f t)) (adjacency T)).
Proof.
  intros S3 D. assert (S := S3 t). apply dm6_adjoint in D.
  replace (mm6 (adjoint_ (f t)) (adjacency T)) with
   (M6 (rot (mm4 (f t) (hat T))) zerom3
          (madd (mm (skew (pos (mm4 (f t) (hat T)))) (rot (f t))) (mm (skew (pos (f t))) (rot (mm4 (f t) (hat T)))))
          (rot (mm4 (f t) (hat T)))); auto.
  clear D. rewrite (SE3_eta _ S). destruct S as [S _]. set (A := rot (f t)) in *. set (p := pos (f t)).
  destruct T as [w v]. change (hat (V6 w v)) with (M4 (skew w) v zero3 0).
  unfold adjoint_, adjacency, mm6, mm4. cbn [rot pos bot hom aa al la ll ang lin].
  replace (outer p zero3) with zerom3 by lin.
  rewrite !mm_0_r, !mm_0_l, !madd_0_r, ?madd_0_l. f_equal.
  replace (vscal 0 p) with zero3 by lin. rewrite vadd_0_r, SO3_skew, mm_assoc by auto. apply madd_comm.
Qed.

(** the twist of the inverse motion *)
Lemma inv_deriv f t T : (forall s, SE3 (f s)) -> dm4 f t (mm4 (f t) (hat T)) ->
  dm4 (fun s => inv_ (f s)) t (mm4 (inv_ (f t)) (hat (v6neg (mv6 (adjoint_ (f t)) T)))).
Proof.
  intros S3 D. assert (S := S3 t). apply dm4_inv in D.
  match goal with H : dm4 _ _ ?d |- dm4 _ _ ?e => replace e with d; auto end.
  replace (hat (v6neg (mv6 (adjoint_ (f t)) T))) with (m4scal (-1) (hat (mv6 (adjoint_ (f t)) T))) by lin.
  rewrite (hat_adjoint _ _ S).
  replace (mm4 (inv_ (f t)) (m4scal (-1) (mm4 (mm4 (f t) (hat T)) (inv_ (f t))))) with
     (m4scal (-1) (mm4 (mm4 (inv_ (f t)) (f t)) (mm4 (hat T) (inv_ (f t))))) by (clear; generalize (inv_ (f t)); lin).
  rewrite (inv_l _ S), mm4_1_l. clear D.
  rewrite (SE3_eta _ S). destruct S as [S _]. destruct T as [w v].
  change (hat (V6 w v)) with (M4 (skew w) v zero3 0).
  unfold mm4, inv_, m4scal. cbn [rot pos bot hom].
  replace (outer (pos (f t)) zero3) with zerom3 by lin.
  rewrite madd_0_r, tr_mm, tr_skew.
  f_equal; try solve [lin].
  rewrite vscal_0, vadd_0_r, <- mv_mm, (SO3_l _ S), mv_1. lin.
Qed.
