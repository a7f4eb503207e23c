(** Derivatives of array-valued motions. *)
From Verif Require Import Model_Linalg Model_Hg Spec_SE3 Proof_Linalg.

Lemma dconv f t l l' : derivable_pt_lim f t l -> l = l' -> derivable_pt_lim f t l'.
Proof. intros; subst; auto. Qed.
Lemma dext f g t l : (forall s, g s = f s) -> derivable_pt_lim f t l -> derivable_pt_lim g t l.
Proof. intros E H eps He. destruct (H eps He) as [d Hd]. exists d. intros. rewrite !E. auto. Qed.
(** agreement near the point is enough *)
Lemma dext_loc f g t l r : 0 < r -> (forall s, Rabs (s - t) < r -> g s = f s) ->
  derivable_pt_lim f t l -> derivable_pt_lim g t l.
Proof.
  intros Hr E H eps He. destruct (H eps He) as [d Hd].
  assert (M : 0 < Rmin d r) by (apply Rmin_glb_lt; [apply cond_pos | auto]).
  exists (mkposreal _ M). intros h Hh1 Hh2. cbn in Hh2.
  assert (Rabs h < d) by (eapply Rlt_le_trans; [exact Hh2 | apply Rmin_l]).
  assert (Rabs h < r) by (eapply Rlt_le_trans; [exact Hh2 | apply Rmin_r]).
  rewrite !E; auto.
  - replace (t - t) with 0 by ring. rewrite Rabs_R0; auto.
  - replace (t + h - t) with h by ring; auto.
Qed.
Lemma Dconst k t : derivable_pt_lim (fun _ => k) t 0.
Proof. apply (derivable_pt_lim_const k t). Qed.
Lemma Did t : derivable_pt_lim (fun s => s) t 1.
Proof. apply (derivable_pt_lim_id t). Qed.
Lemma Dplus f g t a b : derivable_pt_lim f t a -> derivable_pt_lim g t b ->
  derivable_pt_lim (fun s => f s + g s) t (a + b).
Proof. apply derivable_pt_lim_plus. Qed.
Lemma Dminus f g t a b : derivable_pt_lim f t a -> derivable_pt_lim g t b ->
  derivable_pt_lim (fun s => f s - g s) t (a - b).
Proof. apply derivable_pt_lim_minus. Qed.
Lemma Dopp f t a : derivable_pt_lim f t a -> derivable_pt_lim (fun s => - f s) t (- a).
Proof. apply derivable_pt_lim_opp. Qed.
Lemma Dmult f g t a b : derivable_pt_lim f t a -> derivable_pt_lim g t b ->
  derivable_pt_lim (fun s => f s * g s) t (a * g t + f t * b).
Proof. apply derivable_pt_lim_mult. Qed.
Lemma Dscal k f t a : derivable_pt_lim f t a -> derivable_pt_lim (fun s => k * f s) t (k * a).
Proof. intros H. eapply dconv. apply Dmult; [apply Dconst | exact H]. cbv beta; ring. Qed.
Lemma Dsin f t a : derivable_pt_lim f t a -> derivable_pt_lim (fun s => sin (f s)) t (cos (f t) * a).
Proof. intros. apply (derivable_pt_lim_comp f sin); auto. apply derivable_pt_lim_sin. Qed.
Lemma Dcos f t a : derivable_pt_lim f t a -> derivable_pt_lim (fun s => cos (f s)) t (- sin (f t) * a).
Proof. intros. apply (derivable_pt_lim_comp f cos); auto. apply derivable_pt_lim_cos. Qed.
Lemma Dinv f t a : derivable_pt_lim f t a -> f t <> 0 ->
  derivable_pt_lim (fun s => / f s) t (- a / (f t * f t)).
Proof.
  intros H N. eapply dconv.
  - eapply dext; [ | apply (derivable_pt_lim_div (fun _ => 1) f t 0 a); auto; apply Dconst].
    intros s. unfold div_fct, Rdiv. ring.
  - unfold Rsqr. field. auto.
Qed.
Lemma derivable_unique f t a b : derivable_pt_lim f t a -> derivable_pt_lim f t b -> a = b.
Proof. apply uniqueness_limite. Qed.

Ltac dsplit := repeat match goal with |- _ /\ _ => split end.
Ltac dunf := unfold dm4, dm6, dv6, dm3, dv3 in *.
Ltac dhyps := repeat match goal with H : _ /\ _ |- _ => destruct H end.
(** one differentiation pass: leaves from hypotheses *)
Ltac dstep := first
  [ eassumption | apply Dconst | apply Did
  | eapply Dplus | eapply Dminus | eapply Dopp | eapply Dmult | eapply Dsin | eapply Dcos ].
Ltac dsolve := repeat dstep.
Ltac D := eapply dconv; [solve [dsolve] | cbv beta; try ring].

Section Products.
  Variables (t : R).
  Lemma dm3_ext f g d : (forall s, g s = f s) -> dm3 f t d -> dm3 g t d.
  Proof. intros E H. dunf. dhyps. dsplit; (eapply dext; [ | eassumption]); intros; cbv beta; rewrite E; auto. Qed.
  Lemma dv3_ext f g d : (forall s, g s = f s) -> dv3 f t d -> dv3 g t d.
  Proof. intros E H. dunf. dhyps. dsplit; (eapply dext; [ | eassumption]); intros; cbv beta; rewrite E; auto. Qed.
  Lemma dm4_ext f g d : (forall s, g s = f s) -> dm4 f t d -> dm4 g t d.
  Proof. intros E H. dunf. dhyps. dsplit; (eapply dext; [ | eassumption]); intros; cbv beta; rewrite E; auto. Qed.
  Lemma dm6_ext f g d : (forall s, g s = f s) -> dm6 f t d -> dm6 g t d.
  Proof. intros E H. dunf. dhyps. dsplit; (eapply dext; [ | eassumption]); intros; cbv beta; rewrite E; auto. Qed.
  Lemma dv6_ext f g d : (forall s, g s = f s) -> dv6 f t d -> dv6 g t d.
  Proof. intros E H. dunf. dhyps. dsplit; (eapply dext; [ | eassumption]); intros; cbv beta; rewrite E; auto. Qed.
  Lemma dm3_const a : dm3 (fun _ => a) t zerom3.
  Proof. dunf; dsplit; apply Dconst. Qed.
  Lemma dv3_const a : dv3 (fun _ => a) t zero3.
  Proof. dunf; dsplit; apply Dconst. Qed.
  Lemma dm4_const a : dm4 (fun _ => a) t (M4 zerom3 zero3 zero3 0).
  Proof. dunf; dsplit; apply Dconst. Qed.
  Lemma dm6_const a : dm6 (fun _ => a) t zerom6.
  Proof. dunf; dsplit; apply Dconst. Qed.
  Lemma dv6_const a : dv6 (fun _ => a) t zero6.
  Proof. dunf; dsplit; apply Dconst. Qed.
  Lemma dv3_add f g a b : dv3 f t a -> dv3 g t b -> dv3 (fun s => vadd (f s) (g s)) t (vadd a b).
  Proof. intros. dunf; dhyps; dsplit; apply Dplus; auto. Qed.
  Lemma dv3_neg f a : dv3 f t a -> dv3 (fun s => vneg (f s)) t (vneg a).
  Proof. intros. dunf; dhyps; dsplit; apply Dopp; auto. Qed.
  Lemma dm3_add f g a b : dm3 f t a -> dm3 g t b -> dm3 (fun s => madd (f s) (g s)) t (madd a b).
  Proof. intros. dunf; dhyps; dsplit; apply Dplus; auto. Qed.
  Lemma dm3_tr f a : dm3 f t a -> dm3 (fun s => tr (f s)) t (tr a).
  Proof. intros. dunf; dhyps; dsplit; assumption. Qed.
  Lemma dm3_skew f a : dv3 f t a -> dm3 (fun s => skew (f s)) t (skew a).
  Proof. intros. dunf; dhyps; dsplit; unfold skew; cbn [m00 m01 m02 m10 m11 m12 m20 m21 m22];
    first [apply Dconst | assumption | apply Dopp; assumption]. Qed.
  Lemma dm3_mm f g a b : dm3 f t a -> dm3 g t b ->
    dm3 (fun s => mm (f s) (g s)) t (madd (mm a (g t)) (mm (f t) b)).
  Proof. intros. dunf; dhyps; dsplit; unfold mm, madd; cbn [m00 m01 m02 m10 m11 m12 m20 m21 m22]; D. Qed.
  Lemma dv3_mv f g a b : dm3 f t a -> dv3 g t b ->
    dv3 (fun s => mv (f s) (g s)) t (vadd (mv a (g t)) (mv (f t) b)).
  Proof. intros. dunf; dhyps; dsplit; unfold mv, vadd; cbn [vx vy vz]; D. Qed.
  Lemma dot3_deriv f g a b : dv3 f t a -> dv3 g t b ->
    derivable_pt_lim (fun s => dot3 (f s) (g s)) t (dot3 a (g t) + dot3 (f t) b).
  Proof. intros. dunf; dhyps; unfold dot3; D. Qed.
  Lemma dv6_add f g a b : dv6 f t a -> dv6 g t b -> dv6 (fun s => v6add (f s) (g s)) t (v6add a b).
  Proof. intros. dunf; dhyps; dsplit; apply Dplus; auto. Qed.
  Lemma dv6_scal f g a b : derivable_pt_lim f t a -> dv6 g t b ->
    dv6 (fun s => v6scal (f s) (g s)) t (v6add (v6scal a (g t)) (v6scal (f t) b)).
  Proof. intros. dunf; dhyps; dsplit; apply Dmult; auto. Qed.
  Lemma dm6_add f g a b : dm6 f t a -> dm6 g t b -> dm6 (fun s => m6add (f s) (g s)) t (m6add a b).
  Proof. intros. dunf; dhyps; dsplit; apply Dplus; auto. Qed.
  Lemma dm6_mm6 f g a b : dm6 f t a -> dm6 g t b ->
    dm6 (fun s => mm6 (f s) (g s)) t (m6add (mm6 a (g t)) (mm6 (f t) b)).
  Proof.
    intros (F1&F2&F3&F4) (G1&G2&G3&G4).
    unfold mm6, m6add. split; [ | split; [ | split]]; cbn [aa al la ll];
    match goal with |- dm3 (fun s => madd (mm (?p (f s)) (?q (g s))) (mm (?p2 (f s)) (?q2 (g s)))) _ _ =>
      replace (madd (madd (mm (p a) (q (g t))) (mm (p2 a) (q2 (g t)))) (madd (mm (p (f t)) (q b)) (mm (p2 (f t)) (q2 b))))
      with (madd (madd (mm (p a) (q (g t))) (mm (p (f t)) (q b))) (madd (mm (p2 a) (q2 (g t))) (mm (p2 (f t)) (q2 b))))
    end; try (apply dm3_add; apply (dm3_mm (fun s => _ (f s)) (fun s => _ (g s))); assumption);
    rewrite !madd_assoc; f_equal; rewrite <- !madd_assoc; f_equal; apply madd_comm.
  Qed.
  Lemma dv6_mv6 f g a b : dm6 f t a -> dv6 g t b ->
    dv6 (fun s => mv6 (f s) (g s)) t (v6add (mv6 a (g t)) (mv6 (f t) b)).
  Proof.
    intros (F1&F2&F3&F4) (G1&G2).
    unfold mv6, v6add. split; cbn [ang lin];
    match goal with |- dv3 (fun s => vadd (mv (?p (f s)) (?q (g s))) (mv (?p2 (f s)) (?q2 (g s)))) _ _ =>
      replace (vadd (vadd (mv (p a) (q (g t))) (mv (p2 a) (q2 (g t)))) (vadd (mv (p (f t)) (q b)) (mv (p2 (f t)) (q2 b))))
      with (vadd (vadd (mv (p a) (q (g t))) (mv (p (f t)) (q b))) (vadd (mv (p2 a) (q2 (g t))) (mv (p2 (f t)) (q2 b))))
    end; try (apply dv3_add; apply (dv3_mv (fun s => _ (f s)) (fun s => _ (g s))); assumption);
    rewrite !vadd_assoc; f_equal; rewrite <- !vadd_assoc; f_equal; apply vadd_comm.
  Qed.
  Lemma dot6_deriv f g a b : dv6 f t a -> dv6 g t b ->
    derivable_pt_lim (fun s => dot6 (f s) (g s)) t (dot6 a (g t) + dot6 (f t) b).
  Proof. intros (A&A2) (B&B2). unfold dot6. eapply dconv. apply Dplus; apply dot3_deriv; eassumption. cbv beta. ring. Qed.
  Lemma dm4_mm4 f g a b : dm4 f t a -> dm4 g t b ->
    dm4 (fun s => mm4 (f s) (g s)) t (m4add (mm4 a (g t)) (mm4 (f t) b)).
  Proof.
    intros. dunf; dhyps; dsplit;
    unfold mm4, m4add, madd, vadd, vscal, vm, mv, mm, outer, dot3;
    cbn [m00 m01 m02 m10 m11 m12 m20 m21 m22 vx vy vz rot pos bot hom]; D.
  Qed.
  Lemma dm6_adjoint f a : dm4 f t a ->
    dm6 (fun s => adjoint_ (f s)) t
      (M6 (rot a) zerom3 (madd (mm (skew (pos a)) (rot (f t))) (mm (skew (pos (f t))) (rot a))) (rot a)).
  Proof.
    intros (A&B&_). unfold adjoint_. split; [ | split; [ | split]]; cbn [aa al la ll]; auto.
    - apply dm3_const.
    - apply (dm3_mm (fun s => skew (pos (f s))) (fun s => rot (f s))); auto. apply dm3_skew; auto.
  Qed.
  Lemma dm4_inv f a : dm4 f t a ->
    dm4 (fun s => inv_ (f s)) t
      (M4 (tr (rot a)) (vneg (vadd (mv (tr (rot a)) (pos (f t))) (mv (tr (rot (f t))) (pos a)))) zero3 0).
  Proof.
    intros (A&B&_). unfold inv_. split; [ | split; [ | split]]; cbn [rot pos bot hom].
    - apply dm3_tr; auto.
    - apply (dv3_neg (fun s => mv (tr (rot (f s))) (pos (f s)))).
      apply (dv3_mv (fun s => tr (rot (f s))) (fun s => pos (f s))); auto. apply dm3_tr; auto.
    - apply dv3_const.
    - apply Dconst.
  Qed.
End Products.
