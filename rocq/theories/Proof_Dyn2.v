(** Derivatives along motions of the joints; sums over bodies. *)
From Verif Require Import Spec_Dyn Proof_Tree Proof_Dyn.
From Verif Require Import Proof_Linalg Proof_Deriv Proof_SE3 Proof_Joints.

Lemma iadjoint_inv H : SE3 H -> iadjoint_ (inv_ H) = adjoint_ H.
Proof. intros S. unfold iadjoint_. rewrite inv_inv; auto. Qed.

Section Motion.
  Variables (e : env) (sc : scene) (h : @heap R) (t : tree) (f : R -> nat -> jstate) (s : R).
  Hypothesis Rd : ready e h t.
  Hypothesis B : forall g, SE3 (bpose sc g).
  Hypothesis Mo : world_motion t f s.

  Lemma mo_type u j : In j (joints t) -> jt (f u j) = jt (f s j).
  Proof. intros I. destruct (Mo j I) as [M _]. apply M. Qed.
  Lemma mo_valid u j : In j (joints t) -> valid_joint (f u j).
  Proof. intros I. destruct (Mo j I) as [M _]. apply M. Qed.

  Lemma rel_deriv j f0 f1 : In j (joints t) ->
    dm4 (fun u => rel_ sc (f u j) f0 f1) s (mm4 (rel_ sc (f s j) f0 f1) (hat (mv6 (adjoint_ (bpose sc f1)) (twist (f s j))))).
  Proof.
    intros I. unfold rel_. eapply (tw_eq (fun u => mm4 (bpose sc f0) (mm4 (pose (f u j)) (inv_ (bpose sc f1))))).
    - apply (compose_deriv (fun _ => bpose sc f0) (fun u => mm4 (pose (f u j)) (inv_ (bpose sc f1)))).
      + intros; apply B.
      + intros; apply SE3_mm4; [apply pose_SE3, mo_valid; auto | apply SE3_inv, B].
      + apply const_motion, B.
      + apply (compose_deriv (fun u => pose (f u j)) (fun _ => inv_ (bpose sc f1))).
        * intros; apply pose_SE3, mo_valid; auto.
        * intros; apply SE3_inv, B.
        * apply (pose_deriv (jt (f s j)) (fun u => f u j)). apply Mo; auto.
        * apply const_motion, SE3_inv, B.
    - cbv beta. rewrite mv6_zero6, v6add_0_l, v6add_0_r, iadjoint_inv by apply B. reflexivity.
  Qed.

  Lemma kin_pose_deriv js : (forall j, In j js -> In j (joints t)) ->
    dm4 (fun u => k_pose (kin_of sc h (f u) js)) s (mm4 (k_pose (kin_of sc h (f s) js)) (hat (k_twist (kin_of sc h (f s) js)))).
  Proof.
    induction js as [ | j js IH]; intros I.
    - apply (const_motion eye4), SE3_eye.
    - assert (Ij := I j (or_introl eq_refl)). destruct (ready_dof _ _ _ _ Rd Ij) as (d & D & L).
      destruct (path_joint e h t (proj1 Rd) j Ij) as (f0 & f1 & _ & Ef & _).
      assert (I' : forall j, In j js -> In j (joints t)) by (intros; apply I; right; auto).
      cbn [kin_of fold_right]. unfold stepj. rewrite Ef, D. cbn [stepk k_pose k_twist].
      apply (compose_deriv (fun u => k_pose (kin_of sc h (f u) js)) (fun u => rel_ sc (f u j) f0 f1)).
      + intros u. rewrite kin_pose.
        * apply posej_SE3; auto. intros; apply mo_valid; auto.
        * intros i Ii. destruct (ready_dof _ _ _ _ Rd (I' i Ii)) as (? & E & _). congruence.
      + intros u. apply rel_SE3; auto. apply mo_valid; auto.
      + apply IH; auto.
      + apply rel_deriv; auto.
  Qed.

  Lemma irel_split u j f0 f1 : In j (joints t) -> iadjoint_ (rel_ sc (f u j) f0 f1) =
    mm6 (adjoint_ (bpose sc f1)) (mm6 (iadjoint_ (pose (f u j))) (adjoint_ (inv_ (bpose sc f0)))).
  Proof.
    intros I. assert (S := pose_SE3 _ (mo_valid u j I)). assert (S1 := SE3_inv _ (B f1)).
    unfold rel_, iadjoint_. rewrite inv_mm4, inv_mm4, inv_inv; auto using SE3_mm4.
    rewrite !SE3_adjoint_mm; auto using SE3_mm4, SE3_inv. apply eq_sym, mm6_assoc.
  Qed.

  Lemma jac_zero u js c : (forall j, In j js -> In j (joints t)) -> (forall i, In i js -> ndof_of (jt (f s i)) = 0%nat) ->
    (forall j, In j (joints t) -> jndof e j = ndof_of (jt (f s j))) ->
    k_jac (kin_of sc h (f u) js) c = zero6.
  Proof.
    intros I Z N. eapply kin_columns; eauto. intros j d0 d1 Ij D. destruct (ready_dof _ _ _ _ Rd (I j Ij)) as (d & D' & _).
    rewrite D in D'. injection D' as <- ->. rewrite N, Z by auto. lia.
  Qed.

  Lemma kin_jac_deriv (N : forall j, In j (joints t) -> jndof e j = ndof_of (jt (f s j))) js c :
    (forall j, In j js -> In j (joints t)) -> djac_safe (fun j => jt (f s j)) js ->
    dv6 (fun u => k_jac (kin_of sc h (f u) js) c) s (k_djac (kin_of sc h (f s) js) c).
  Proof.
    induction js as [ | j js IH]; intros I Sf.
    - exact (dv6_const s zero6).
    - assert (Ij := I j (or_introl eq_refl)). destruct (ready_dof _ _ _ _ Rd Ij) as (d & D & L).
      destruct (path_joint e h t (proj1 Rd) j Ij) as (f0 & f1 & _ & Ef & _).
      assert (I' : forall j, In j js -> In j (joints t)) by (intros; apply I; right; auto).
      assert (Sf' : djac_safe (fun j => jt (f s j)) js) by (intros l1 i l2 E; apply (Sf (j :: l1)); rewrite E; reflexivity).
      assert (IHc := IH I' Sf'). clear IH.
      assert (EK : forall u, kin_of sc h (f u) (j :: js) = stepk sc h (f u j) (d, d + jndof e j)%nat f0 f1 (kin_of sc h (f u) js)).
      { intros u. cbn [kin_of fold_right]. fold (kin_of sc h (f u) js). unfold stepj. rewrite Ef, D. reflexivity. }
      rewrite EK. eapply dv6_ext. { intros u. rewrite EK. reflexivity. }
      cbn [stepk k_jac k_djac fst snd].
      apply dv6_add with (f := fun u => mv6 (iadjoint_ (rel_ sc (f u j) f0 f1)) (k_jac (kin_of sc h (f u) js) c))
        (g := fun u => slice_col d (d + jndof e j) (fun i => mv6 (adjoint_ (bpose sc f1)) (jacobian (f u j) i)) c).
      + destruct (Sf [] j js eq_refl) as [Si | Z].
        * destruct (simple_idadjoint (jt (f s j)) (fun u => f u j) s Si (Mo j Ij)) as (A & dA & EA & EdA & DA).
          rewrite idadjoint_ok in EdA by (apply mo_valid; auto). injection EdA as EdA.
          assert (EA' : forall u, A u = iadjoint_ (pose (f u j))).
          { intros u. specialize (EA u). rewrite j_iadjoint_ok in EA by (apply mo_valid; auto). congruence. }
          eapply dv6_ext with (f := fun u => mv6 (mm6 (adjoint_ (bpose sc f1)) (mm6 (A u) (adjoint_ (inv_ (bpose sc f0))))) (k_jac (kin_of sc h (f u) js) c)).
          { intros u. rewrite irel_split, EA' by auto. reflexivity. }
          assert (DD : dm6 (fun u => mm6 (adjoint_ (bpose sc f1)) (mm6 (A u) (adjoint_ (inv_ (bpose sc f0))))) s
                        (mm6 (adjoint_ (bpose sc f1)) (mm6 dA (adjoint_ (inv_ (bpose sc f0)))))).
          { assert (X := dm6_mm6 s _ _ _ _ (dm6_const s (adjoint_ (bpose sc f1))) (dm6_mm6 s _ _ _ _ DA (dm6_const s (adjoint_ (inv_ (bpose sc f0)))))).
            cbv beta in X. revert X. match goal with |- dm6 _ _ ?a -> dm6 _ _ ?b => replace a with b; auto end.
            generalize (adjoint_ (bpose sc f1)) (adjoint_ (inv_ (bpose sc f0))) (A s). clear. intros a b x.
            replace (mm6 x zerom6) with zerom6 by lin. replace (mm6 zerom6 (mm6 x b)) with zerom6 by lin. lin. }
          assert (X := dv6_mv6 s _ _ _ _ DD IHc). cbv beta in X. rewrite EdA.
          rewrite (irel_split s j f0 f1 Ij), <- EA'. exact X.
        * assert (Z0 : forall u, k_jac (kin_of sc h (f u) js) c = zero6) by (intros u; apply jac_zero; auto).
          eapply dv6_ext with (f := fun _ => zero6). { intros u. rewrite Z0. apply mv6_zero6. }
          rewrite Z0, mv6_zero6, v6add_0_l.
          replace (k_djac (kin_of sc h (f s) js) c) with zero6. { rewrite mv6_zero6. apply dv6_const. }
          symmetry. eapply (kin_columns e sc h t (f s) Rd js c I'). intros i d0 d1 Ii Di.
          destruct (ready_dof _ _ _ _ Rd (I' i Ii)) as (d' & D' & _).
          rewrite Di in D'. injection D' as <- ->. rewrite N, Z by auto. lia.
      + unfold slice_col. destruct (_ && _)%bool; [ | apply dv6_const].
        assert (X := dv6_mv6 s _ _ _ _ (dm6_const s (adjoint_ (bpose sc f1))) (jac_deriv (jt (f s j)) (fun u => f u j) s (c - d) (Mo j Ij))).
        cbv beta in X. rewrite mv6_0, v6add_0_l in X. exact X.
  Qed.
End Motion.

(** ** Sums *)
Lemma sumR_ext n f g : (forall i, (i < n)%nat -> f i = g i) -> sumR n f = sumR n g.
Proof. induction n as [ | n IH]; intros H; cbn [sumR]; [auto | ]. rewrite IH, H by auto. reflexivity. Qed.
Lemma sumR_add n f g : sumR n (fun i => f i + g i) = sumR n f + sumR n g.
Proof. induction n as [ | n IH]; cbn [sumR]; [ring | rewrite IH; ring]. Qed.
Lemma sumR_scal n k f : sumR n (fun i => k * f i) = k * sumR n f.
Proof. induction n as [ | n IH]; cbn [sumR]; [ring | rewrite IH; ring]. Qed.
Lemma sumR_zero n f : (forall i, (i < n)%nat -> f i = 0) -> sumR n f = 0.
Proof. induction n as [ | n IH]; intros H; cbn [sumR]; [auto | ]. rewrite IH, H by auto. ring. Qed.
Lemma sumR_swap n m f : sumR n (fun i => sumR m (fun j => f i j)) = sumR m (fun j => sumR n (fun i => f i j)).
Proof.
  induction n as [ | n IH]; cbn [sumR]; [symmetry; apply sumR_zero; auto | ].
  rewrite IH. symmetry. apply sumR_add.
Qed.
Lemma sumR_dot6_l n v A u : sumR n (fun k => v k * dot6 (A k) u) = dot6 (sum6 n (fun k => v6scal (v k) (A k))) u.
Proof.
  induction n as [ | n IH]; cbn [sumR sum6]; [symmetry; apply dot6_0_l | ].
  rewrite IH, dot6_add_l, dot6_scal_l. reflexivity.
Qed.
Lemma sumR_dot6_r n v A u : sumR n (fun k => dot6 u (A k) * v k) = dot6 u (sum6 n (fun k => v6scal (v k) (A k))).
Proof.
  induction n as [ | n IH]; cbn [sumR sum6]; [symmetry; apply dot6_0_r | ].
  rewrite IH, dot6_add_r, dot6_scal_r. ring.
Qed.
(** v' (A' X) w *)
Lemma quad_dot n v A X w : quad n v (fun k l => dot6 (A k) (X l)) w =
  dot6 (sum6 n (fun k => v6scal (v k) (A k))) (sum6 n (fun k => v6scal (w k) (X k))).
Proof.
  unfold quad. rewrite <- sumR_dot6_l. apply sumR_ext. intros k _. rewrite <- sumR_dot6_r, <- sumR_scal.
  apply sumR_ext. intros l _. ring.
Qed.
Lemma quad_add n v A B w : quad n v (fun k l => A k l + B k l) w = quad n v A w + quad n v B w.
Proof.
  unfold quad. rewrite <- sumR_add. apply sumR_ext. intros k _. rewrite <- sumR_add. apply sumR_ext. intros; ring.
Qed.
Lemma quad_ext n v A B w : (forall k l, A k l = B k l) -> quad n v A w = quad n v B w.
Proof. intros H. unfold quad. apply sumR_ext; intros k _; apply sumR_ext; intros l _. rewrite H. ring. Qed.
Lemma quad_scal n v a A w : quad n v (fun k l => a * A k l) w = a * quad n v A w.
Proof.
  unfold quad. rewrite <- sumR_scal. apply sumR_ext. intros k _. rewrite <- sumR_scal. apply sumR_ext. intros; ring.
Qed.
Lemma quad_suml n v (F : nat -> nat -> nat -> R) w l : quad n v (fun k c => suml (fun b => F b k c) l) w = suml (fun b => quad n v (F b) w) l.
Proof.
  induction l as [ | b l IH]; cbn [suml].
  - unfold quad. apply sumR_zero. intros k _. apply sumR_zero. intros; ring.
  - rewrite quad_add, IH. reflexivity.
Qed.
Lemma suml_ext f g l : (forall x, In x l -> f x = g x) -> suml f l = suml g l.
Proof. induction l as [ | x l IH]; intros H; cbn [suml]; [auto | ]. rewrite IH, H; auto; intros; try apply H; cbn; auto. Qed.
Lemma suml_add f g l : suml (fun x => f x + g x) l = suml f l + suml g l.
Proof. induction l as [ | x l IH]; cbn [suml]; [ring | rewrite IH; ring]. Qed.
Lemma suml_scal k f l : suml (fun x => k * f x) l = k * suml f l.
Proof. induction l as [ | x l IH]; cbn [suml]; [ring | rewrite IH; ring]. Qed.
Lemma suml_nonneg f l : (forall x, In x l -> 0 <= f x) -> 0 <= suml f l.
Proof.
  induction l as [ | x l IH]; intros H; cbn [suml]; [lra | ].
  assert (0 <= f x) by (apply H; left; auto). assert (0 <= suml f l) by (apply IH; intros; apply H; right; auto). lra.
Qed.
Lemma Dsuml f g t l : (forall x, In x l -> derivable_pt_lim (fun s => f s x) t (g x)) ->
  derivable_pt_lim (fun s => suml (f s) l) t (suml g l).
Proof.
  induction l as [ | x l IH]; intros H; cbn [suml]; [apply Dconst | ].
  apply (Dplus (fun s => f s x) (fun s => suml (f s) l)); [apply H; left; auto | apply IH; intros; apply H; right; auto].
Qed.
Lemma DsumR f g t n : (forall x, (x < n)%nat -> derivable_pt_lim (fun s => f s x) t (g x)) ->
  derivable_pt_lim (fun s => sumR n (f s)) t (sumR n g).
Proof.
  induction n as [ | n IH]; intros H; cbn [sumR]; [apply Dconst | ].
  apply (Dplus (fun s => sumR n (f s)) (fun s => f s n)); [apply IH; intros; apply H; lia | apply H; lia].
Qed.
Lemma dv6_sum6 t n f g : (forall k, (k < n)%nat -> dv6 (fun s => f s k) t (g k)) -> dv6 (fun s => sum6 n (f s)) t (sum6 n g).
Proof.
  induction n as [ | n IH]; intros H; cbn [sum6]; [apply dv6_const | ].
  apply (dv6_add t (fun s => sum6 n (f s)) (fun s => f s n)); [apply IH; intros; apply H; lia | apply H; lia].
Qed.

(** ** One body *)
Lemma nle_eq m c I0 T : 1 / 10000000000 < m \/ m = 0 -> let M := rigid_mass m c I0 in let P := mv6 M T in
  mv6 (body_nle M T) T = V6 (vadd (cross (ang T) (ang P)) (cross (lin T) (lin P))) (cross (ang T) (lin P)).
Proof.
  intros Hm. cbn zeta. unfold body_nle. cbn [rigid_mass ll al mscal eye3 m22]. rewrite Rmult_1_r.
  destruct (Rle_dec m (1 / 10000000000)) as [L | L].
  - destruct Hm as [Hm | ->]; [lra | ]. unfold rigid_mass. lin.
  - unfold rigid_mass. dall. unf. entries; field; lra.
Qed.
Lemma nle_power m c I0 T : 1 / 10000000000 < m \/ m = 0 ->
  dot6 T (mv6 (body_nle (rigid_mass m c I0) T) T) = 0.
Proof.
  intros Hm. rewrite nle_eq by auto. set (P := mv6 _ T). generalize P. clear. intros P.
  replace (dot6 _ _) with (dot3 (lin T) (cross (ang T) (lin P)) + dot3 (ang T) (cross (lin T) (lin P))) by (generalize T P; lin).
  generalize T P; lin.
Qed.

(** ** The world *)
From Verif Require Import Proof_World2.
Definition kin_at (st : store) (b : nat) : kin :=
  match a_pose (st b), a_jac (st b), a_djac (st b), a_twist (st b) with
  | Some p, Some A, Some dA, Some T => Kin p A dA T | _, _, _, _ => kin0 end.
Lemma kin_at_attr st b m k : st b = attr m k -> kin_at st b = k.
Proof. intros E. unfold kin_at. rewrite E. destruct k; reflexivity. Qed.

Lemma world_ok e sc h t J fuel st : ready e h t -> rigid_scene e sc t J -> (height t < fuel)%nat ->
  exists st' d, world_update_dynamic e sc h J fuel st = Ok (st', d) /\
    (forall x ps, path t x ps -> st' x = attr (b_mass sc x) (kin_of sc h J (map fst ps))) /\
    (forall x, ~ In x (bodies t) -> st' x = st x) /\
    (forall k l, d_mass d k l = suml (fun b => congr (k_jac (kin_at st' b)) (b_mass sc b) (k_jac (kin_at st' b)) k l) (tl (bodies t))) /\
    (forall k l, d_visc d k l = suml (fun b => congr (k_jac (kin_at st' b)) (b_visc sc b) (k_jac (kin_at st' b)) k l) (tl (bodies t))) /\
    (forall k l, d_nle d k l = suml (fun b => dot6 (k_jac (kin_at st' b) k)
        (v6add (mv6 (b_mass sc b) (k_djac (kin_at st' b) l))
               (mv6 (body_nle (b_mass sc b) (k_twist (kin_at st' b))) (k_jac (kin_at st' b) l)))) (tl (bodies t))).
Proof.
  intros Rd Ri F. destruct (dynamic_ok e sc h t J fuel st Rd Ri F) as (st' & E & P & Q).
  unfold world_update_dynamic. fold kin0. rewrite E. cbn [rbind]. destruct (Rd) as (R & Er & ND & _).
  rewrite <- Er, (iter_bodies_ok e h t R fuel F). cbn [rbind].
  destruct (accumulate_ok sc st' (kin_at st') (tailb t) wdyn0) as (d & A & M & V & N).
  { intros b Ib. destruct (path_of t b) as [ps Pb]. { rewrite bodies_tail. right; auto. }
    rewrite (P b ps Pb). f_equal. symmetry. eapply kin_at_attr. apply P; auto. }
  exists st', d. rewrite A. cbn [rbind]. split; [reflexivity | ]. split; [exact P | ]. split; [exact Q | ].
  replace (tl (bodies t)) with (tailb t) by (rewrite bodies_tail; reflexivity).
  repeat split; intros; rewrite ?M, ?V, ?N; cbn [wdyn0 d_mass d_visc d_nle]; ring.
Qed.

Lemma rigid_motion e sc t f s u : rigid_scene e sc t (f s) -> world_motion t f s -> rigid_scene e sc t (f u).
Proof.
  intros [B V] M. split; auto. intros j I. destruct (M j I) as [K _]. destruct (V j I) as [_ E].
  destruct (K u) as [K1 K2]. split; auto. congruence.
Qed.
Lemma frame_ok e sc t J h st f : (forall x ps, path t x ps -> st x = attr (b_mass sc x) (kin_of sc h J (map fst ps))) ->
  (forall f, SE3 (bpose sc f)) -> forall ps, path t (frame_body e f) ps ->
  let k := kin_of sc h J (map fst ps) in
  frame_pose e sc st f = Ok (mm4 (k_pose k) (bpose sc f)) /\
  frame_twist e sc st f = Ok (mv6 (iadjoint_ (bpose sc f)) (k_twist k)) /\
  (exists A, frame_jac e sc st f = Ok A /\ forall c, A c = mv6 (iadjoint_ (bpose sc f)) (k_jac k c)) /\
  (exists A, frame_djac e sc st f = Ok A /\ forall c, A c = mv6 (iadjoint_ (bpose sc f)) (k_djac k c)).
Proof.
  intros P B ps Pa k. specialize (P _ _ Pa). fold k in P.
  assert (E : iadjoint_ eye4 = eye6) by (unfold iadjoint_; replace (inv_ eye4) with eye4 by lin; apply adjoint_eye).
  destruct f as [b | x | x]; unfold frame_pose, frame_twist, frame_jac, frame_djac; cbn [frame_body bpose] in *;
    rewrite P; cbn [attr get a_pose a_twist a_jac a_djac rbind].
  - rewrite mm4_1_r, E, mv6_1. repeat split; eexists; split; eauto; intros; rewrite mv6_1; auto.
  - assert (S := B (FSub x)). cbn [bpose] in S. rewrite iadjoint_ok by auto. cbn [rbind]. repeat split; eexists; split; eauto.
  - assert (S := B (FMov x)). cbn [bpose] in S. rewrite iadjoint_ok by auto. cbn [rbind]. repeat split; eexists; split; eauto.
Qed.
