(** Algebra of the fixed-size arrays. *)
From Verif Require Import Model_Linalg Model_Hg Spec_SE3.

(** Reduce an equation between arrays to ring equations on entries. *)
Ltac unf := cbv [zero3 zerom3 eye3 eye4 zero6 zerom6 eye6 vadd vsub vneg vscal madd msub mscal mneg
  v6add v6sub v6neg v6scal m6add m6scal m4add m4scal dot3 mv vm mm outer tr det3 cross mm4 dot6 mv6
  mm6 tr6 skew hat adjoint_ inv_ iadjoint_ adjacency dAdjoint Ad_inv
  vx vy vz m00 m01 m02 m10 m11 m12 m20 m21 m22 rot pos bot hom ang lin aa al la ll] in *.
Ltac dall := repeat match goal with
  | x : v3 |- _ => destruct x | x : m3 |- _ => destruct x | x : m4 |- _ => destruct x
  | x : v6 |- _ => destruct x | x : m6 |- _ => destruct x end.
Ltac entries := repeat match goal with
  | |- M4 _ _ _ _ = M4 _ _ _ _ => f_equal | |- M3 _ _ _ _ _ _ _ _ _ = _ => f_equal
  | |- V3 _ _ _ = V3 _ _ _ => f_equal | |- V6 _ _ = V6 _ _ => f_equal
  | |- M6 _ _ _ _ = M6 _ _ _ _ => f_equal end.
Ltac lin := intros; dall; unf; entries; try ring.

Lemma v3_ext a b : vx a = vx b -> vy a = vy b -> vz a = vz b -> a = b.
Proof. destruct a, b; cbn; congruence. Qed.

Lemma madd_comm a b : madd a b = madd b a. Proof. lin. Qed.
Lemma madd_assoc a b c : madd a (madd b c) = madd (madd a b) c. Proof. lin. Qed.
Lemma madd_0_l a : madd zerom3 a = a. Proof. lin. Qed.
Lemma madd_0_r a : madd a zerom3 = a. Proof. lin. Qed.
Lemma mm_assoc a b c : mm a (mm b c) = mm (mm a b) c. Proof. lin. Qed.
Lemma mm_1_l a : mm eye3 a = a. Proof. lin. Qed.
Lemma mm_1_r a : mm a eye3 = a. Proof. lin. Qed.
Lemma mm_0_l a : mm zerom3 a = zerom3. Proof. lin. Qed.
Lemma mm_0_r a : mm a zerom3 = zerom3. Proof. lin. Qed.
Lemma mm_add_l a b c : mm (madd a b) c = madd (mm a c) (mm b c). Proof. lin. Qed.
Lemma mm_add_r a b c : mm a (madd b c) = madd (mm a b) (mm a c). Proof. lin. Qed.
Lemma mv_mm a b u : mv (mm a b) u = mv a (mv b u). Proof. lin. Qed.
Lemma mv_1 u : mv eye3 u = u. Proof. lin. Qed.
Lemma mv_0 u : mv zerom3 u = zero3. Proof. lin. Qed.
Lemma mv_add a u v : mv a (vadd u v) = vadd (mv a u) (mv a v). Proof. lin. Qed.
Lemma mv_neg a u : mv a (vneg u) = vneg (mv a u). Proof. lin. Qed.
Lemma mv_scal a k u : mv a (vscal k u) = vscal k (mv a u). Proof. lin. Qed.
Lemma mv_zero3 a : mv a zero3 = zero3. Proof. lin. Qed.
Lemma vm_tr u a : vm u a = mv (tr a) u. Proof. lin. Qed.
Lemma vadd_comm u v : vadd u v = vadd v u. Proof. lin. Qed.
Lemma vadd_assoc u v w : vadd u (vadd v w) = vadd (vadd u v) w. Proof. lin. Qed.
Lemma vadd_0_l u : vadd zero3 u = u. Proof. lin. Qed.
Lemma vadd_0_r u : vadd u zero3 = u. Proof. lin. Qed.
Lemma vadd_neg u : vadd u (vneg u) = zero3. Proof. lin. Qed.
Lemma vadd_neg_l u : vadd (vneg u) u = zero3. Proof. lin. Qed.
Lemma vneg_neg u : vneg (vneg u) = u. Proof. lin. Qed.
Lemma vsub_add u v : vsub u v = vadd u (vneg v). Proof. lin. Qed.
Lemma vscal_1 u : vscal 1 u = u. Proof. lin. Qed.
Lemma vscal_0 u : vscal 0 u = zero3. Proof. lin. Qed.
Lemma vscal_0_r k : vscal k zero3 = zero3. Proof. lin. Qed.
Lemma tr_mm a b : tr (mm a b) = mm (tr b) (tr a). Proof. lin. Qed.
Lemma tr_tr a : tr (tr a) = a. Proof. lin. Qed.
Lemma tr_eye : tr eye3 = eye3. Proof. lin. Qed.
Lemma tr_skew u : tr (skew u) = mneg (skew u). Proof. lin. Qed.
Lemma tr_add a b : tr (madd a b) = madd (tr a) (tr b). Proof. lin. Qed.
Lemma det_tr a : det3 (tr a) = det3 a. Proof. lin. Qed.
Lemma det_mm a b : det3 (mm a b) = det3 a * det3 b. Proof. lin. Qed.
Lemma det_eye : det3 eye3 = 1. Proof. lin. Qed.
Lemma dot3_comm u v : dot3 u v = dot3 v u. Proof. lin. Qed.
Lemma dot3_mv a u v : dot3 (mv a u) v = dot3 u (mv (tr a) v). Proof. lin. Qed.
Lemma dot3_nonneg u : 0 <= dot3 u u. Proof. destruct u; unf; nra. Qed.
Lemma dot3_zero u : dot3 u u = 0 -> u = zero3.
Proof. destruct u; unf; intros. f_equal; nra. Qed.
Lemma skew_mv u v : mv (skew u) v = cross u v. Proof. lin. Qed.
Lemma cross_anti u v : cross u v = vneg (cross v u). Proof. lin. Qed.
Lemma cross_self u : cross u u = zero3. Proof. lin. Qed.
Lemma dot_cross u v : dot3 u (cross u v) = 0. Proof. lin. Qed.
Lemma dot_cross_r u v : dot3 v (cross u v) = 0. Proof. lin. Qed.
Lemma skew_zero : skew zero3 = zerom3. Proof. lin. Qed.

(** 6-dimensional *)
Lemma mm6_assoc a b c : mm6 a (mm6 b c) = mm6 (mm6 a b) c. Proof. lin. Qed.
Lemma mm6_1_l a : mm6 eye6 a = a. Proof. lin. Qed.
Lemma mm6_1_r a : mm6 a eye6 = a. Proof. lin. Qed.
Lemma mv6_mm6 a b u : mv6 (mm6 a b) u = mv6 a (mv6 b u). Proof. lin. Qed.
Lemma mv6_1 u : mv6 eye6 u = u. Proof. lin. Qed.
Lemma mv6_0 u : mv6 zerom6 u = zero6. Proof. lin. Qed.
Lemma mv6_zero6 a : mv6 a zero6 = zero6. Proof. lin. Qed.
Lemma mv6_add a u v : mv6 a (v6add u v) = v6add (mv6 a u) (mv6 a v). Proof. lin. Qed.
Lemma mv6_scal a k u : mv6 a (v6scal k u) = v6scal k (mv6 a u). Proof. lin. Qed.
Lemma mv6_neg a u : mv6 a (v6neg u) = v6neg (mv6 a u). Proof. lin. Qed.
Lemma mv6_m6add a b u : mv6 (m6add a b) u = v6add (mv6 a u) (mv6 b u). Proof. lin. Qed.
Lemma mv6_m6scal k a u : mv6 (m6scal k a) u = v6scal k (mv6 a u). Proof. lin. Qed.
Lemma mm6_m6add_l a b c : mm6 (m6add a b) c = m6add (mm6 a c) (mm6 b c). Proof. lin. Qed.
Lemma mm6_m6add_r a b c : mm6 a (m6add b c) = m6add (mm6 a b) (mm6 a c). Proof. lin. Qed.
Lemma mm6_m6scal_l k a b : mm6 (m6scal k a) b = m6scal k (mm6 a b). Proof. lin. Qed.
Lemma mm6_m6scal_r k a b : mm6 a (m6scal k b) = m6scal k (mm6 a b). Proof. lin. Qed.
Lemma v6add_comm u v : v6add u v = v6add v u. Proof. lin. Qed.
Lemma v6add_assoc u v w : v6add u (v6add v w) = v6add (v6add u v) w. Proof. lin. Qed.
Lemma v6add_0_l u : v6add zero6 u = u. Proof. lin. Qed.
Lemma v6add_0_r u : v6add u zero6 = u. Proof. lin. Qed.
Lemma tr6_mm6 a b : tr6 (mm6 a b) = mm6 (tr6 b) (tr6 a). Proof. lin. Qed.
Lemma tr6_tr6 a : tr6 (tr6 a) = a. Proof. lin. Qed.
Lemma dot6_comm u v : dot6 u v = dot6 v u. Proof. lin. Qed.
Lemma dot6_mv6 a u v : dot6 (mv6 a u) v = dot6 u (mv6 (tr6 a) v). Proof. lin. Qed.
Lemma dot6_add_l u v w : dot6 (v6add u v) w = dot6 u w + dot6 v w. Proof. lin. Qed.
Lemma dot6_add_r u v w : dot6 u (v6add v w) = dot6 u v + dot6 u w. Proof. lin. Qed.
Lemma dot6_scal_l k u v : dot6 (v6scal k u) v = k * dot6 u v. Proof. lin. Qed.
Lemma dot6_scal_r k u v : dot6 u (v6scal k v) = k * dot6 u v. Proof. lin. Qed.
Lemma dot6_0_l u : dot6 zero6 u = 0. Proof. lin. Qed.
Lemma dot6_0_r u : dot6 u zero6 = 0. Proof. lin. Qed.
Lemma v6scal_0 u : v6scal 0 u = zero6. Proof. lin. Qed.
Lemma v6scal_1 u : v6scal 1 u = u. Proof. lin. Qed.
Lemma v6scal_zero6 k : v6scal k zero6 = zero6. Proof. lin. Qed.
Lemma v6scal_v6scal k j u : v6scal k (v6scal j u) = v6scal (k * j) u. Proof. lin. Qed.
Lemma v6scal_add k u v : v6scal k (v6add u v) = v6add (v6scal k u) (v6scal k v). Proof. lin. Qed.
Lemma v6scal_plus k j u : v6scal (k + j) u = v6add (v6scal k u) (v6scal j u). Proof. lin. Qed.

(** homogeneous *)
Lemma mm4_assoc a b c : mm4 a (mm4 b c) = mm4 (mm4 a b) c. Proof. lin. Qed.
Lemma mm4_1_l a : mm4 eye4 a = a. Proof. lin. Qed.
Lemma mm4_1_r a : mm4 a eye4 = a. Proof. lin. Qed.
Lemma mm4_add_l a b c : mm4 (m4add a b) c = m4add (mm4 a c) (mm4 b c). Proof. lin. Qed.
Lemma mm4_add_r a b c : mm4 a (m4add b c) = m4add (mm4 a b) (mm4 a c). Proof. lin. Qed.

(** rotations *)
Definition adj3 a := M3
  (m11 a * m22 a - m12 a * m21 a) (m02 a * m21 a - m01 a * m22 a) (m01 a * m12 a - m02 a * m11 a)
  (m12 a * m20 a - m10 a * m22 a) (m00 a * m22 a - m02 a * m20 a) (m02 a * m10 a - m00 a * m12 a)
  (m10 a * m21 a - m11 a * m20 a) (m01 a * m20 a - m00 a * m21 a) (m00 a * m11 a - m01 a * m10 a).
Lemma adj3_r a : mm a (adj3 a) = mscal (det3 a) eye3.
Proof. unfold adj3; lin. Qed.
Lemma adj3_l a : mm (adj3 a) a = mscal (det3 a) eye3.
Proof. unfold adj3; lin. Qed.
Lemma SO3_tr a : SO3 a -> tr a = adj3 a.
Proof.
  intros [H D]. assert (E := adj3_r a). rewrite D in E.
  assert (mm (tr a) (mm a (adj3 a)) = tr a). { rewrite E. lin. }
  rewrite mm_assoc, H, mm_1_l in H0. auto.
Qed.
Lemma SO3_l a : SO3 a -> mm (tr a) a = eye3. Proof. intros [H _]; exact H. Qed.
Lemma SO3_r a : SO3 a -> mm a (tr a) = eye3.
Proof. intros H. rewrite (SO3_tr _ H), adj3_r. destruct H as [_ D]. rewrite D. lin. Qed.
Lemma SO3_eye : SO3 eye3. Proof. split; lin. Qed.
Lemma SO3_transpose a : SO3 a -> SO3 (tr a).
Proof. intros H. split. rewrite tr_tr. now apply SO3_r. rewrite det_tr. apply H. Qed.
Lemma SO3_mm a b : SO3 a -> SO3 b -> SO3 (mm a b).
Proof.
  intros [A DA] [B DB]. split.
  - rewrite tr_mm, <- mm_assoc, (mm_assoc (tr a)), A, mm_1_l; exact B.
  - rewrite det_mm, DA, DB; ring.
Qed.
Lemma SO3_dot a u v : SO3 a -> dot3 (mv a u) (mv a v) = dot3 u v.
Proof. intros [A _]. rewrite dot3_mv, <- mv_mm, A, mv_1. reflexivity. Qed.

(** a skew(u) = skew(a u) a, for rotations *)
Lemma SO3_skew a u : SO3 a -> mm (skew (mv a u)) a = mm a (skew u).
Proof.
  intros H. assert (E := SO3_tr _ H).
  (* (a u) x (a v) = cof(a) (u x v), cof a = a *)
  assert (K : mm (tr (adj3 a)) (skew u) = mm (skew (mv a u)) a).
  { unfold adj3. lin. }
  rewrite <- E, tr_tr in K. congruence.
Qed.
Lemma SO3_skew' a u : SO3 a -> skew (mv a u) = mm (mm a (skew u)) (tr a).
Proof.
  intros H. rewrite <- SO3_skew by auto. rewrite <- mm_assoc, SO3_r, mm_1_r by auto. reflexivity.
Qed.
Lemma SO3_cross a u v : SO3 a -> cross (mv a u) (mv a v) = mv a (cross u v).
Proof.
  intros H. rewrite <- !skew_mv, <- mv_mm, SO3_skew, mv_mm by auto. reflexivity.
Qed.

(** rigid motions *)
Lemma SE3_eta H : SE3 H -> H = M4 (rot H) (pos H) zero3 1.
Proof. destruct H; intros (_ & A & B); cbn in *; subst; reflexivity. Qed.
Lemma SE3_eye : SE3 eye4. Proof. split; [apply SO3_eye | split; reflexivity]. Qed.
Lemma SE3_mm4 a b : SE3 a -> SE3 b -> SE3 (mm4 a b).
Proof.
  intros A B. rewrite (SE3_eta _ A), (SE3_eta _ B). destruct A as [A _], B as [B _].
  split; [ | split].
  - cbn [rot mm4 bot pos]. replace (outer (pos a) zero3) with zerom3 by lin.
    rewrite madd_0_r. apply SO3_mm; auto.
  - lin.
  - lin.
Qed.
Lemma SE3_inv a : SE3 a -> SE3 (inv_ a).
Proof. intros (A & _). split; [apply SO3_transpose, A | split; reflexivity]. Qed.
Lemma inv_l a : SE3 a -> mm4 (inv_ a) a = eye4.
Proof.
  intros A. rewrite (SE3_eta _ A). destruct A as [A _]. unfold inv_, mm4, eye4. cbn [rot pos bot hom].
  rewrite (SO3_l _ A). f_equal; try solve [lin].
Qed.
Lemma inv_r a : SE3 a -> mm4 a (inv_ a) = eye4.
Proof.
  intros A. rewrite (SE3_eta _ A). destruct A as [A _]. unfold inv_, mm4, eye4. cbn [rot pos bot hom].
  rewrite (SO3_r _ A), mv_neg, <- mv_mm, (SO3_r _ A), mv_1. f_equal; try solve [lin].
Qed.
Lemma inv_inv a : SE3 a -> inv_ (inv_ a) = a.
Proof.
  intros A. rewrite <- (mm4_1_r (inv_ (inv_ a))), <- (inv_l _ A), mm4_assoc, inv_l, mm4_1_l; auto using SE3_inv.
Qed.
Lemma inv_mm4 a b : SE3 a -> SE3 b -> inv_ (mm4 a b) = mm4 (inv_ b) (inv_ a).
Proof.
  intros A B.
  assert (C := SE3_mm4 _ _ A B).
  rewrite <- (mm4_1_r (inv_ (mm4 a b))).
  assert (E : mm4 (mm4 a b) (mm4 (inv_ b) (inv_ a)) = eye4).
  { rewrite <- mm4_assoc, (mm4_assoc b), (inv_r b), mm4_1_l, inv_r; auto. }
  rewrite <- E, mm4_assoc, inv_l, mm4_1_l; auto.
Qed.
Lemma SE3_adjoint_mm a b : SE3 a -> SE3 b -> adjoint_ (mm4 a b) = mm6 (adjoint_ a) (adjoint_ b).
Proof.
  intros A B. rewrite (SE3_eta _ A), (SE3_eta _ B). destruct A as [A _], B as [B _].
  unfold adjoint_, mm4, mm6. cbn [rot pos bot hom aa al la ll].
  replace (outer (pos a) zero3) with zerom3 by lin. rewrite madd_0_r.
  rewrite !mm_0_l, !mm_0_r, !madd_0_r, ?madd_0_l. f_equal.
  rewrite vscal_1.
  replace (skew (vadd (mv (rot a) (pos b)) (pos a))) with (madd (skew (mv (rot a) (pos b))) (skew (pos a))) by lin.
  rewrite mm_add_l, mm_assoc, (SO3_skew _ _ A).
  rewrite madd_comm, !mm_assoc. reflexivity.
Qed.
Lemma adjoint_eye : adjoint_ eye4 = eye6. Proof. lin. Qed.
Lemma iadjoint_l a : SE3 a -> mm6 (iadjoint_ a) (adjoint_ a) = eye6.
Proof. intros A. unfold iadjoint_. rewrite <- SE3_adjoint_mm, inv_l, adjoint_eye; auto using SE3_inv. Qed.
Lemma iadjoint_r a : SE3 a -> mm6 (adjoint_ a) (iadjoint_ a) = eye6.
Proof. intros A. unfold iadjoint_. rewrite <- SE3_adjoint_mm, inv_r, adjoint_eye; auto using SE3_inv. Qed.
