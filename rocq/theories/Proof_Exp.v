(** The exponential of a twist. *)
From Verif Require Import Model_Linalg Model_Hg Spec_SE3 Proof_Linalg Proof_Deriv Proof_SE3.

(** I + a K + b K^2, and a I + b K + d w w' *)
Definition rodr (w : v3) (a b : R) : m3 := madd (madd eye3 (mscal a (skew w))) (mscal b (mm (skew w) (skew w))).
Definition vmat (w : v3) (a b d : R) : m3 := madd (madd (mscal a eye3) (mscal b (skew w))) (mscal d (outer w w)).

Lemma rodr_tr w a b : mm (tr (rodr w a b)) (rodr w a b) =
  madd eye3 (mscal (2 * b - a * a - b * b * dot3 w w) (mm (skew w) (skew w))).
Proof. unfold rodr; lin. Qed.
Lemma rodr_det w a b : det3 (rodr w a b) =
  (1 - b * dot3 w w) * (1 - b * dot3 w w) + a * a * dot3 w w.
Proof. unfold rodr; lin. Qed.
Lemma rodr_SO3 w a b : 2 * b = a * a + b * b * dot3 w w -> SO3 (rodr w a b).
Proof.
  intros E. split.
  - rewrite rodr_tr. replace (2 * b - a * a - b * b * dot3 w w) with 0 by lra. lin.
  - rewrite rodr_det.
    transitivity (1 + dot3 w w * (a * a + b * b * dot3 w w - 2 * b)); [ring | rewrite <- E; ring].
Qed.

(** exact one-parameter motion for a nonzero angular velocity *)
Definition screwG (tw : v6) (s : R) : m4 :=
  let t := norm3 (ang tw) in
  M4 (rodr (ang tw) (sin (t * s) / t) ((1 - cos (t * s)) / (t * t)))
     (mv (vmat (ang tw) (sin (t * s) / t) ((1 - cos (t * s)) / (t * t)) ((t * s - sin (t * s)) / (t * t * t))) (lin tw))
     zero3 1.
(** ... and for a zero angular velocity *)
Definition screw0 (tw : v6) (s : R) : m4 := M4 eye3 (vscal s (lin tw)) zero3 1.

Lemma norm3_sq w : norm3 w * norm3 w = dot3 w w.
Proof. unfold norm3. apply sqrt_sqrt, dot3_nonneg. Qed.
Lemma norm3_pos w : 0 <= norm3 w. Proof. apply sqrt_pos. Qed.
Lemma norm3_scal s w : norm3 (vscal s w) = Rabs s * norm3 w.
Proof.
  unfold norm3. replace (dot3 (vscal s w) (vscal s w)) with (Rsqr s * dot3 w w) by (unfold Rsqr; lin).
  rewrite sqrt_mult_alt by apply Rle_0_sqr. rewrite sqrt_Rsqr_abs. reflexivity.
Qed.
Lemma norm3_zero w : norm3 w = 0 -> w = zero3.
Proof. intros H. apply dot3_zero. rewrite <- norm3_sq, H. ring. Qed.

Lemma screw_abstract (w v : v3) (a b d : R -> R) (c t0 : R) :
  derivable_pt_lim a t0 c -> derivable_pt_lim b t0 (a t0) -> derivable_pt_lim d t0 (b t0) ->
  c = 1 - b t0 * dot3 w w ->
  dm4 (fun s => M4 (rodr w (a s) (b s)) (mv (vmat w (a s) (b s) (d s)) v) zero3 1) t0
    (mm4 (M4 (rodr w (a t0) (b t0)) (mv (vmat w (a t0) (b t0) (d t0)) v) zero3 1) (hat (V6 w v))).
Proof.
  intros A B Dd ->. destruct w as [x y z], v as [u1 u2 u3].
  unfold rodr, vmat. unf. cbv [dm4 dm3 dv3]. cbv [m00 m01 m02 m10 m11 m12 m20 m21 m22 vx vy vz rot pos bot hom].
  dsplit; D.
Qed.

Lemma screwG_deriv tw s : norm3 (ang tw) <> 0 -> dm4 (screwG tw) s (mm4 (screwG tw s) (hat tw)).
Proof.
  intros N. unfold screwG. destruct tw as [w v]. cbn [ang lin] in *. set (t := norm3 w) in *.
  assert (S := cs2 (t * s)). assert (Q : t * t = dot3 w w) by apply norm3_sq.
  apply (screw_abstract w v (fun s => sin (t * s) / t) (fun s => (1 - cos (t * s)) / (t * t))
           (fun s => (t * s - sin (t * s)) / (t * t * t)) (cos (t * s))).
  - unfold Rdiv. eapply dconv; [solve [dsolve] | ]. cbv beta. field; auto.
  - unfold Rdiv. eapply dconv; [solve [dsolve] | ]. cbv beta. field; auto.
  - unfold Rdiv. eapply dconv; [solve [dsolve] | ]. cbv beta. field; auto.
  - rewrite <- Q. field; auto.
Qed.
Lemma screwG_0 tw : norm3 (ang tw) <> 0 -> screwG tw 0 = eye4.
Proof.
  intros N. unfold screwG. cbn zeta. set (t := norm3 (ang tw)) in *.
  replace (t * 0) with 0 by ring. rewrite sin_0, cos_0.
  replace (0 / t) with 0 by (field; auto). replace ((1 - 1) / (t * t)) with 0 by (field; auto).
  replace ((0 - 0) / (t * t * t)) with 0 by (field; auto).
  unfold eye4. f_equal; unfold rodr, vmat; lin.
Qed.
Lemma screwG_SE3 tw s : norm3 (ang tw) <> 0 -> SE3 (screwG tw s).
Proof.
  intros N. split; [ | split; reflexivity]. cbn [screwG rot]. apply rodr_SO3.
  rewrite <- norm3_sq. set (t := norm3 (ang tw)) in *. set (ts := t * s).
  assert (S : sin ts * sin ts = 1 - cos ts * cos ts) by (pose proof (cs2 ts); lra).
  transitivity ((sin ts * sin ts + (1 - cos ts) * (1 - cos ts)) / (t * t)); [rewrite S | ]; field; auto.
Qed.
Lemma screw0_deriv v s : dm4 (screw0 (V6 zero3 v)) s (mm4 (screw0 (V6 zero3 v) s) (hat (V6 zero3 v))).
Proof.
  destruct v as [x1 x2 x3]. unfold screw0. unf. cbv [dm4 dm3 dv3]. cbv [m00 m01 m02 m10 m11 m12 m20 m21 m22 vx vy vz rot pos bot hom].
  dsplit; D.
Qed.

Lemma const_of_null f : (forall s, derivable_pt_lim f s 0) -> forall a b, f a = f b.
Proof.
  intros H a b.
  assert (pr : derivable f) by (intros x; exists 0; apply H).
  assert (C : constant f).
  { apply (null_derivative_1 f pr). intros x. apply derive_pt_eq_0, H. }
  apply C.
Qed.
Lemma m3_ext a b : m00 a = m00 b -> m01 a = m01 b -> m02 a = m02 b -> m10 a = m10 b -> m11 a = m11 b ->
  m12 a = m12 b -> m20 a = m20 b -> m21 a = m21 b -> m22 a = m22 b -> a = b.
Proof. destruct a, b; cbn; intros; subst; reflexivity. Qed.
Lemma m4_ext a b : rot a = rot b -> pos a = pos b -> bot a = bot b -> hom a = hom b -> a = b.
Proof. destruct a, b; cbn; intros; subst; reflexivity. Qed.
Lemma dm4_const_of_null f : (forall s, dm4 f s (M4 zerom3 zero3 zero3 0)) -> forall a b, f a = f b.
Proof.
  intros H a b. unfold dm4, dm3, dv3 in H. apply m4_ext; [apply m3_ext | apply v3_ext | apply v3_ext | ];
  match goal with |- ?p (?q (f _)) = _ => apply (const_of_null (fun s => p (q (f s))))
   | |- ?p (f _) = _ => apply (const_of_null (fun s => p (f s))) end;
  intros s; destruct (H s) as ((?&?&?&?&?&?&?&?&?)&(?&?&?)&(?&?&?)&?); assumption.
Qed.

(** uniqueness: any two screw motions with the same twist coincide *)
Lemma screw_unique tw E G : (forall s, SE3 (G s)) -> screw_motion tw G -> screw_motion tw E ->
  forall s, E s = G s.
Proof.
  intros S [G0 GD] [E0 ED] s.
  assert (K : forall a b, mm4 (E a) (inv_ (G a)) = mm4 (E b) (inv_ (G b))).
  { apply (dm4_const_of_null (fun s => mm4 (E s) (inv_ (G s)))). intros r.
    assert (X := inv_deriv G r tw S (GD r)).
    assert (Y := dm4_mm4 r E (fun s => inv_ (G s)) _ _ (ED r) X).
    match type of Y with dm4 _ _ ?d => replace (M4 zerom3 zero3 zero3 0) with d; auto end.
    replace (hat (v6neg (mv6 (adjoint_ (G r)) tw))) with (m4scal (-1) (hat (mv6 (adjoint_ (G r)) tw))) by (generalize (adjoint_ (G r)); lin).
    rewrite (hat_adjoint _ _ (S r)).
    replace (mm4 (inv_ (G r)) (m4scal (-1) (mm4 (mm4 (G r) (hat tw)) (inv_ (G r))))) with
     (m4scal (-1) (mm4 (mm4 (inv_ (G r)) (G r)) (mm4 (hat tw) (inv_ (G r))))) by (clear; generalize (hat tw); generalize (inv_ (G r)); lin).
    rewrite (inv_l _ (S r)), mm4_1_l. generalize (hat tw), (inv_ (G r)). lin. }
  specialize (K s 0). rewrite G0, E0 in K.
  replace (mm4 eye4 (inv_ eye4)) with eye4 in K by lin.
  assert (mm4 (mm4 (E s) (inv_ (G s))) (G s) = mm4 eye4 (G s)) by (rewrite K; reflexivity).
  rewrite <- mm4_assoc, inv_l, mm4_1_r, mm4_1_l in H; auto.
Qed.

Lemma screw_exists tw : exists E, screw_motion tw E /\ (forall s, SE3 (E s)) /\
  (norm3 (ang tw) <> 0 -> E = screwG tw) /\ (norm3 (ang tw) = 0 -> E = screw0 tw).
Proof.
  destruct (Req_EM_T (norm3 (ang tw)) 0) as [Z | N].
  - exists (screw0 tw). assert (W := norm3_zero _ Z). destruct tw as [w v]. cbn [ang] in *. subst.
    repeat split; intros; try apply screw0_deriv; try (unfold screw0; lin); try contradiction.
  - exists (screwG tw). repeat split; intros; try apply screwG_deriv; try apply screwG_0; try apply screwG_SE3; auto; try contradiction.
Qed.

(** the closed form used above the threshold is the screw motion *)
Lemma exp_large tw s : 1 / 1000 <= norm3 (vscal s (ang tw)) -> exp (v6scal s tw) = screwG tw s.
Proof.
  intros L. unfold exp, screwG. destruct tw as [w v]. cbn [ang lin v6scal] in *. rewrite norm3_scal in *.
  set (t := norm3 w) in *. unfold exp_coeffs. destruct (Rle_dec (1 / 1000) (Rabs s * t)) as [_ | ]; [ | contradiction].
  assert (Pt : 0 <= t) by apply norm3_pos.
  assert (Ns : s <> 0) by (intros ->; rewrite Rabs_R0 in L; lra).
  assert (Nt : t <> 0) by (intros Z; rewrite Z in L; rewrite Rmult_0_r in L; lra).
  assert (E1 : sin (Rabs s * t) / (Rabs s * t) = sin (t * s) / (t * s)).
  { unfold Rabs. destruct (Rcase_abs s).
    - replace (- s * t) with (- (t * s)) by ring. rewrite sin_neg. field. auto.
    - rewrite (Rmult_comm s t). reflexivity. }
  assert (E2 : (1 - cos (Rabs s * t)) / (Rabs s * t) ^ 2 = (1 - cos (t * s)) / (t * s * (t * s))).
  { unfold Rabs. destruct (Rcase_abs s).
    - replace (- s * t) with (- (t * s)) by ring. rewrite cos_neg. field. auto.
    - rewrite (Rmult_comm s t). field. auto. }
  assert (E3 : (Rabs s * t - sin (Rabs s * t)) / (Rabs s * t) ^ 3 = (t * s - sin (t * s)) / (t * s * (t * s) * (t * s))).
  { unfold Rabs. destruct (Rcase_abs s).
    - replace (- s * t) with (- (t * s)) by ring. rewrite sin_neg. field. auto.
    - rewrite (Rmult_comm s t). field. auto. }
  rewrite E1, E2, E3. unfold rodr, vmat. 
  f_equal; destruct w as [y1 y2 y3], v as [x1 x2 x3]; unf; entries; field; auto.
Qed.
Lemma exp_zero v : exp (V6 zero3 v) = screw0 (V6 zero3 v) 1.
Proof.
  unfold exp, screw0. cbn [ang lin]. unfold exp_coeffs.
  assert (Z : norm3 zero3 = 0) by (unfold norm3; replace (dot3 zero3 zero3) with 0 by lin; apply sqrt_0).
  rewrite Z. destruct (Rle_dec (1 / 1000) 0); [lra | ].
  destruct v as [x1 x2 x3]. f_equal; unf; entries; field.
Qed.

(** bounds on the series *)
Lemma sin_bounds t : 0 <= t <= 4 -> t - t ^ 3 / 6 <= sin t <= t - t ^ 3 / 6 + t ^ 5 / 120.
Proof.
  intros [A B]. destruct (pre_sin_bound t 0 A B) as [L U].
  unfold sin_approx, sum_f_R0, sin_term in L, U. cbn [Nat.mul Nat.add pow fact INR] in L, U.
  split; [eapply Rle_trans; [ | exact L] | eapply Rle_trans; [exact U | ]].
  all: apply Req_le; cbn [Nat.mul Nat.add fact INR]; simpl; field.
Qed.
Lemma cos_bounds t : 0 <= t <= 1 -> 1 - t ^ 2 / 2 <= cos t <= 1 - t ^ 2 / 2 + t ^ 4 / 24.
Proof.
  intros [A B]. destruct (pre_cos_bound t 0) as [L U]; try lra.
  unfold cos_approx, sum_f_R0, cos_term in L, U. cbn [Nat.mul Nat.add pow fact INR] in L, U.
  split; [eapply Rle_trans; [ | exact L] | eapply Rle_trans; [exact U | ]].
  all: apply Req_le; simpl; field.
Qed.
