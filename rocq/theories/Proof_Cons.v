(** Lemmas on the constraints. *)
From Verif Require Import Spec_Con Proof_Dyn Proof_Dyn2 Proof_Matrix Proof_Step Proof_Con.
From Coq Require Import Lra.

Lemma existsb_n_true n p : existsb_n n p = true <-> exists i, (i < n)%nat /\ p i = true.
Proof.
  unfold existsb_n. rewrite existsb_exists. split; intros (i & L & P); exists i; split; auto.
  - apply in_seq in L. lia. - apply in_seq. lia.
Qed.
Lemma existsb_n_false n p : existsb_n n p = false -> forall i, (i < n)%nat -> p i = false.
Proof. intros E i L. destruct (p i) eqn:P; auto. assert (existsb_n n p = true) by (apply existsb_n_true; eauto). congruence. Qed.

Lemma con_increments E c : increments (con_ops E) c.
Proof.
  intros vel Y dt c' df H. destruct c as [c | c | c]; cbn in H.
  - unfold jl_solve in H. repeat match type of H with context [if ?b then _ else _] => destruct b end;
    injection H as <- <-; cbn; repeat split; intros; unfold vminus, vzero; lra.
  - injection H as <- <-; cbn; repeat split; intros; lra.
  - unfold sf_solve in H. cbn zeta in H. destruct (Rltb _ _).
    { cbn in H. injection H as <- <-; cbn; repeat split; intros; unfold vzero; lra. }
    destruct (Rleb _ _).
    { cbn in H. injection H as <- <-; cbn; repeat split; intros; unfold vplus; lra. }
    destruct (_ || _); [discriminate | ]. destruct (np_solve _ _ _ _); [ | discriminate].
    cbn in H. injection H as <- <-; cbn; repeat split; intros; unfold vminus; lra.
Qed.

Lemma posdef_not_singular n A : posdef n A -> ~ singular n A.
Proof.
  intros [_ P] (x & Nx & Kx). specialize (P x Nx). unfold quad in P.
  rewrite sumR_zero in P; [lra | ]. intros k Lk. rewrite (sumR_ext n _ (fun l => x k * (A k l * x l))) by (intros; lra).
  rewrite sumR_scal. fold (mvn n A x k). rewrite (Kx k Lk). unfold vzero. lra.
Qed.

Lemma inverse_apply n A B x : inverse n A B -> veq n (mvn n A (mvn n B x)) x.
Proof.
  intros [E _] i L. rewrite <- mvn_mmn. rewrite (mvn_ext n _ unit_mat _ x) by (try intros; try apply E; auto; intros ? ?; auto).
  apply mvn_unit, L.
Qed.
Lemma inverse_apply_l n A B x : inverse n A B -> veq n (mvn n B (mvn n A x)) x.
Proof. intros [E1 E2]. apply inverse_apply. split; auto. Qed.

(** a solution of a regular system is the product by the inverse *)
Lemma inverse_solution n A B x b : inverse n A B -> veq n (mvn n A x) b -> veq n (mvn n B b) x.
Proof.
  intros Iv E i L. rewrite <- (inverse_apply_l n A B x Iv i L). apply mvn_ext; auto. intros k Lk. symmetry. apply E, Lk.
Qed.

Lemma diag_mvn n A x i : diagonal n A -> (i < n)%nat -> mvn n A x i = A i i * x i.
Proof.
  intros D L. unfold mvn. apply (sumR_single n (fun k => A i k * x k) i L). intros k Lk N. rewrite D by auto. lra.
Qed.
Lemma diag_not_singular n A : diagonal n A -> (forall i, (i < n)%nat -> 0 < A i i) -> ~ singular n A.
Proof.
  intros D P (x & Nx & Kx). apply Nx. intros i L. specialize (Kx i L). rewrite diag_mvn in Kx by auto. specialize (P i L). unfold vzero in *.
  destruct (Rmult_integral _ _ Kx); lra.
Qed.

(** implementations meeting the assumptions on numpy.linalg *)
Definition gauss_pinv (n : nat) (A : mat) : mat := match gauss_inv n A with Some B => B | None => mzero end.
Lemma gauss_pinv_spec : pinv_spec gauss_pinv.
Proof. intros n A NS. unfold gauss_pinv. assert (G := gauss_inv_spec n A). destruct (gauss_inv n A); [exact G | contradiction]. Qed.
Definition gauss_solve (n : nat) (A : mat) (b : vec) : option vec := match gauss_inv n A with Some B => Some (mvn n B b) | None => None end.
Lemma gauss_solve_spec : solve_spec gauss_solve.
Proof. intros n A b. unfold gauss_solve. assert (G := gauss_inv_spec n A). destruct (gauss_inv n A); [apply inverse_apply, G | exact G]. Qed.

(** ** Relative motion of two frames *)
From Verif Require Import Proof_Linalg Proof_Deriv Proof_SE3 Proof_Joints Props_Dyn.

Lemma relative_deriv A B t T0 T1 : (forall s, SE3 (A s)) -> (forall s, SE3 (B s)) ->
  dm4 A t (mm4 (A t) (hat T0)) -> dm4 B t (mm4 (B t) (hat T1)) ->
  let H := fun s => mm4 (inv_ (A s)) (B s) in
  dm4 H t (mm4 (hat (v6sub (mv6 (adjoint_ (H t)) T1) T0)) (H t)).
Proof.
  intros SA SB DA DB H.
  assert (DI := inv_deriv A t T0 SA DA). assert (X := dm4_mm4 t _ _ _ _ DI DB). cbv beta in X.
  assert (SH : SE3 (H t)) by (apply SE3_mm4; [apply SE3_inv | ]; auto).
  match type of X with dm4 _ _ ?d => replace (mm4 (hat (v6sub (mv6 (adjoint_ (H t)) T1) T0)) (H t)) with d; [exact X | ] end.
  replace (hat (v6neg (mv6 (adjoint_ (A t)) T0))) with (m4scal (-1) (hat (mv6 (adjoint_ (A t)) T0))) by (generalize (adjoint_ (A t)); lin).
  replace (hat (v6sub (mv6 (adjoint_ (H t)) T1) T0)) with (m4add (m4scal (-1) (hat T0)) (hat (mv6 (adjoint_ (H t)) T1))) by (generalize (adjoint_ (H t)); lin).
  rewrite !hat_adjoint by auto. rewrite mm4_add_l. f_equal.
  - replace (mm4 (inv_ (A t)) (m4scal (-1) (mm4 (mm4 (A t) (hat T0)) (inv_ (A t))))) with (m4scal (-1) (mm4 (mm4 (inv_ (A t)) (A t)) (mm4 (hat T0) (inv_ (A t))))) by (clear; generalize (inv_ (A t)); lin).
    rewrite inv_l, mm4_1_l by auto. unfold H. clear. generalize (inv_ (A t)). lin.
  - rewrite <- (mm4_assoc _ (inv_ (H t)) (H t)), inv_l, mm4_1_r by auto. unfold H. clear. generalize (inv_ (A t)). lin.
Qed.

(** the linear rows of a twist-valued sum *)
Lemma comp6_sum n v (J : nat -> v6) k : comp6 k (sum6 n (fun c => v6scal (v c) (J c))) = mvn n (fun i c => comp6 i (J c)) v k.
Proof.
  unfold mvn. induction n as [ | n IH]; cbn [sum6 sumR].
  - destruct k as [ | [ | [ | [ | [ | k]]]]]; reflexivity.
  - rewrite <- IH. destruct k as [ | [ | [ | [ | [ | k]]]]]; cbn; ring.
Qed.

(** [rel_jac] gives the twist of frame 1 relative to frame 0, in frame 0 *)
Lemma rel_jac_ok e sc h t J v fuel st sd d f0 f1 : ready e h t -> rigid_scene e sc t J -> (height t < fuel)%nat ->
  world_velocity e h t J v -> world_update_dynamic e sc h J fuel st = Ok (sd, d) ->
  In (frame_body e f0) (bodies t) -> In (frame_body e f1) (bodies t) ->
  exists P0 P1 T0 T1 A, SE3 P0 /\ SE3 P1 /\ frame_pose e sc sd f0 = Ok P0 /\ frame_pose e sc sd f1 = Ok P1 /\
    frame_twist e sc sd f0 = Ok T0 /\ frame_twist e sc sd f1 = Ok T1 /\
    rel_jac e sc sd f0 f1 = Ok A /\
    sum6 (w_ndof h) (fun c => v6scal (v c) (A c)) = v6sub (mv6 (adjoint_ (mm4 (inv_ P0) P1)) T1) T0.
Proof.
  intros Rd Ri F Wv U I0 I1.
  destruct (C39_poses e sc h t J fuel st Rd Ri F) as (sg & sd' & d' & _ & U' & HP & _). rewrite U in U'. injection U' as <- <-.
  destruct (HP f0 I0) as (H0 & S0 & _ & _ & _ & E0). destruct (HP f1 I1) as (H1 & S1 & _ & _ & _ & E1).
  destruct (C40_twist_is_jacobian_gvel e sc h t J v fuel st Rd Ri F Wv) as (sd' & d' & U' & HT). rewrite U in U'. injection U' as <- <-.
  destruct (HT f0 I0) as (T0 & A0 & ET0 & EA0 & Q0 & _). destruct (HT f1 I1) as (T1 & A1 & ET1 & EA1 & Q1 & _).
  assert (SP0 : SE3 (mm4 H0 (bpose sc f0))) by (apply SE3_mm4; auto; apply Ri).
  assert (SP1 : SE3 (mm4 H1 (bpose sc f1))) by (apply SE3_mm4; auto; apply Ri).
  exists (mm4 H0 (bpose sc f0)), (mm4 H1 (bpose sc f1)), T0, T1.
  assert (SH : SE3 (mm4 (inv_ (mm4 H0 (bpose sc f0))) (mm4 H1 (bpose sc f1)))) by (apply SE3_mm4; auto; apply SE3_inv; auto).
  eexists. do 6 (split; [eassumption | ]). split.
  - unfold rel_jac. rewrite E0. cbn [rbind]. rewrite inv_ok by auto. cbn [rbind]. rewrite E1. cbn [rbind]. rewrite adjoint_ok by auto. cbn [rbind].
    rewrite EA1. cbn [rbind]. rewrite EA0. cbn [rbind]. reflexivity.
  - rewrite Q0, Q1. rewrite <- sum6_mv6.
    rewrite (sum6_ext _ _ (fun c => v6add (mv6 (adjoint_ (mm4 (inv_ (mm4 H0 (bpose sc f0))) (mm4 H1 (bpose sc f1)))) (v6scal (v c) (A1 c))) (v6scal (- v c) (A0 c)))).
    2:{ intros c _. rewrite mv6_scal. generalize (mv6 (adjoint_ (mm4 (inv_ (mm4 H0 (bpose sc f0))) (mm4 H1 (bpose sc f1)))) (A1 c)) (A0 c). lin. }
    rewrite sum6_add. set (X := sum6 _ _). set (Z := sum6 _ (fun c => v6scal (v c) (A0 c))).
    replace (sum6 (w_ndof h) (fun c => v6scal (- v c) (A0 c))) with (v6scal (-1) Z); [lin | ]. unfold Z. clear. induction (w_ndof h) as [ | n IH]; cbn [sum6].
    + lin. + rewrite <- IH. generalize (sum6 n (fun c => v6scal (v c) (A0 c))) (A0 n). lin.
Qed.
