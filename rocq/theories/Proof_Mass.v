(** Integrals and mass matrices. *)
From Coquelicot Require Import Coquelicot.
From Verif Require Import Spec_Mass Proof_Linalg Proof_SE3.

(** ** Iterated integrals of sums of products *)
Lemma int3_prod a0 a1 b0 b1 c0 c1 (u v w : R -> R) U V W : is_RInt u a0 a1 U -> is_RInt v b0 b1 V -> is_RInt w c0 c1 W ->
  integral3 a0 a1 b0 b1 c0 c1 (fun a b c => u a * v b * w c) (U * V * W).
Proof.
  intros Hu Hv Hw. exists (fun a b => u a * v b * W), (fun a => u a * V * W). split; [ | split].
  - intros a b. apply (is_RInt_scal w c0 c1 (u a * v b) W Hw).
  - intros a. apply is_RInt_ext with (f := fun b => scal (u a * W) (v b)); [intros; unfold scal; cbn; unfold mult; cbn; ring | ].
    replace (u a * V * W) with (scal (u a * W) V) by (unfold scal; cbn; unfold mult; cbn; ring). apply (is_RInt_scal v); auto.
  - apply is_RInt_ext with (f := fun a => scal (V * W) (u a)); [intros; unfold scal; cbn; unfold mult; cbn; ring | ].
    replace (U * V * W) with (scal (V * W) U) by (unfold scal; cbn; unfold mult; cbn; ring). apply (is_RInt_scal u); auto.
Qed.
Lemma int3_plus a0 a1 b0 b1 c0 c1 f g I J : integral3 a0 a1 b0 b1 c0 c1 f I -> integral3 a0 a1 b0 b1 c0 c1 g J ->
  integral3 a0 a1 b0 b1 c0 c1 (fun a b c => f a b c + g a b c) (I + J).
Proof.
  intros (f1 & f2 & F1 & F2 & F3) (g1 & g2 & G1 & G2 & G3). exists (fun a b => f1 a b + g1 a b), (fun a => f2 a + g2 a).
  split; [ | split]; intros; apply (is_RInt_plus (V := R_NormedModule)); auto.
Qed.
Lemma int3_ext a0 a1 b0 b1 c0 c1 f g I J : (forall a b c, f a b c = g a b c) -> I = J ->
  integral3 a0 a1 b0 b1 c0 c1 f I -> integral3 a0 a1 b0 b1 c0 c1 g J.
Proof.
  intros E <- (f1 & f2 & F1 & F2 & F3). exists f1, f2. split; auto. intros a b. eapply is_RInt_ext; [ | apply F1]. intros; apply E.
Qed.

(** one-dimensional integrals *)
Lemma rint_of (F f : R -> R) a b I : (forall x, is_derive F x (f x)) -> (forall x, ex_derive f x) -> I = F b - F a -> is_RInt f a b I.
Proof.
  intros D C ->. apply (is_RInt_derive F f); intros; auto. apply (ex_derive_continuous f). apply C.
Qed.
Ltac rint F := apply (rint_of F); [intros; auto_derive; auto; try (field; fail) | intros; auto_derive; auto | ].
Lemma ri_const k a b : is_RInt (fun _ => k) a b (k * (b - a)). Proof. rint (fun x => k * x). ring. Qed.
Lemma ri_id a b : is_RInt (fun x => x) a b ((b ^ 2 - a ^ 2) / 2). Proof. rint (fun x => x ^ 2 / 2). field. Qed.
Lemma ri_2 a b : is_RInt (fun x => x ^ 2) a b ((b ^ 3 - a ^ 3) / 3). Proof. rint (fun x => x ^ 3 / 3). field. Qed.
Lemma ri_3 a b : is_RInt (fun x => x ^ 3) a b ((b ^ 4 - a ^ 4) / 4). Proof. rint (fun x => x ^ 4 / 4). field. Qed.
Lemma ri_4 a b : is_RInt (fun x => x ^ 4) a b ((b ^ 5 - a ^ 5) / 5). Proof. rint (fun x => x ^ 5 / 5). field. Qed.
Lemma c2s2 x : cos x ^ 2 = 1 - sin x ^ 2. Proof. rewrite <- !Rsqr_pow2. apply cos2. Qed.
Lemma ri_cos : is_RInt cos 0 (2 * PI) 0. Proof. rint sin. rewrite sin_2PI, sin_0. ring. Qed.
Lemma ri_sin : is_RInt sin 0 (2 * PI) 0. Proof. rint (fun x => - cos x). rewrite cos_2PI, cos_0. ring. Qed.
Lemma ri_cs : is_RInt (fun x => cos x * sin x) 0 (2 * PI) 0. Proof. rint (fun x => sin x ^ 2 / 2). rewrite sin_2PI, sin_0. field. Qed.
Lemma ri_cc : is_RInt (fun x => cos x ^ 2) 0 (2 * PI) PI.
Proof.
  rint (fun x => (x + sin x * cos x) / 2).
  - rewrite ?c2s2. assert (Q := c2s2 x). cbn [pow] in *. rewrite ?Rmult_1_r in *. lra.
  - rewrite sin_2PI, sin_0. field.
Qed.
Lemma ri_ss : is_RInt (fun x => sin x ^ 2) 0 (2 * PI) PI.
Proof.
  rint (fun x => (x - sin x * cos x) / 2).
  - assert (Q := c2s2 x). cbn [pow] in *. rewrite ?Rmult_1_r in *. lra.
  - rewrite sin_2PI, sin_0. field.
Qed.
Lemma ri_s1 : is_RInt sin 0 PI 2. Proof. rint (fun x => - cos x). rewrite cos_PI, cos_0. ring. Qed.
Lemma ri_s2 : is_RInt (fun x => sin x ^ 2) 0 PI (PI / 2).
Proof.
  rint (fun x => (x - sin x * cos x) / 2).
  - assert (Q := c2s2 x). cbn [pow] in *. rewrite ?Rmult_1_r in *. lra.
  - rewrite sin_PI, sin_0. field.
Qed.
Lemma ri_s3 : is_RInt (fun x => sin x ^ 3) 0 PI (4 / 3).
Proof.
  rint (fun x => cos x ^ 3 / 3 - cos x).
  - assert (Q := c2s2 x). cbn [pow] in *. rewrite ?Rmult_1_r in *.
    transitivity (- (cos x * cos x) * sin x + sin x); [field | ]. rewrite Q. ring.
  - rewrite cos_PI, cos_0. field.
Qed.
Lemma ri_s1c : is_RInt (fun x => sin x * cos x) 0 PI 0. Proof. rint (fun x => sin x ^ 2 / 2). rewrite sin_PI, sin_0. field. Qed.
Lemma ri_s2c : is_RInt (fun x => sin x ^ 2 * cos x) 0 PI 0. Proof. rint (fun x => sin x ^ 3 / 3). rewrite sin_PI, sin_0. field. Qed.
Lemma ri_s1cc : is_RInt (fun x => sin x * cos x ^ 2) 0 PI (2 / 3). Proof. rint (fun x => - cos x ^ 3 / 3). rewrite cos_PI, cos_0. field. Qed.

(** ** Solids *)
Ltac one a b c := eapply int3_ext; [ | | exact (int3_prod _ _ _ _ _ _ _ _ _ _ _ _ a b c)]; cbv beta.
Ltac two a b c d e f := eapply int3_ext; [ | | exact (int3_plus _ _ _ _ _ _ _ _ _ _ (int3_prod _ _ _ _ _ _ _ _ _ _ _ _ a b c) (int3_prod _ _ _ _ _ _ _ _ _ _ _ _ d e f))]; cbv beta.
Lemma ri_k k (f : R -> R) a b I : is_RInt f a b I -> is_RInt (fun x => k * f x) a b (k * I).
Proof. intros H. exact (is_RInt_scal f a b k I H). Qed.
Lemma box_inertia x y z m : 0 < x -> 0 < y -> 0 < z ->
  homogeneous_inertia (box_integral x y z) m (box (V3 x y z) m).
Proof.
  intros X Y Z. exists (8 * x * y * z). split; [do 3 (apply Rmult_lt_0_compat; [ | lra]); lra | ].
  unfold box_integral, box, diag6. cbn [vx vy vz aa m00 m01 m02 m11 m12 m22]. set (k := m / (8 * x * y * z)).
  assert (K : m = k * (8 * x * y * z)) by (unfold k; field; lra).
  repeat split.
  - one (ri_const 1 (- x) x) (ri_const 1 (- y) y) (ri_const 1 (- z) z); intros; field.
  - two (ri_const k (- x) x) (ri_2 (- y) y) (ri_const 1 (- z) z) (ri_const k (- x) x) (ri_const 1 (- y) y) (ri_2 (- z) z); intros; [ring | rewrite K; field].
  - two (ri_2 (- x) x) (ri_const k (- y) y) (ri_const 1 (- z) z) (ri_const k (- x) x) (ri_const 1 (- y) y) (ri_2 (- z) z); intros; [ring | rewrite K; field].
  - two (ri_2 (- x) x) (ri_const k (- y) y) (ri_const 1 (- z) z) (ri_const k (- x) x) (ri_2 (- y) y) (ri_const 1 (- z) z); intros; [ring | rewrite K; field].
  - one (ri_id (- x) x) (ri_id (- y) y) (ri_const (- k) (- z) z); intros; [ring | field].
  - one (ri_id (- x) x) (ri_const (- k) (- y) y) (ri_id (- z) z); intros; [ring | field].
  - one (ri_const (- k) (- x) x) (ri_id (- y) y) (ri_id (- z) z); intros; [ring | field].
  - one (ri_id (- x) x) (ri_const k (- y) y) (ri_const 1 (- z) z); intros; [ring | field].
  - one (ri_const 1 (- x) x) (ri_id (- y) y) (ri_const k (- z) z); intros; [ring | field].
  - one (ri_const 1 (- x) x) (ri_const k (- y) y) (ri_id (- z) z); intros; [ring | field].
Qed.
Lemma cylinder_inertia L r m : 0 < L -> 0 < r -> homogeneous_inertia (cylinder_integral L r) m (cylinder L r m).
Proof.
  intros X Y. exists (PI * r ^ 2 * L). assert (P := PI_RGT_0). split; [apply Rmult_lt_0_compat; [apply Rmult_lt_0_compat; [lra | apply pow_lt; lra] | lra] | ].
  unfold cylinder_integral, cylinder, diag6. cbn [vx vy vz aa m00 m01 m02 m11 m12 m22]. set (k := m / (PI * r ^ 2 * L)).
  assert (K : m = k * (PI * r ^ 2 * L)) by (unfold k; field; repeat split; try apply pow_nonzero; lra).
  set (A := - (L / 2)). set (B := L / 2).
  repeat split.
  - one (ri_const 1 A B) (ri_id 0 r) (ri_const 1 0 (2 * PI)); intros; unfold A, B; field.
  - two (ri_const k A B) (ri_3 0 r) ri_ss (ri_2 A B) (ri_id 0 r) (ri_const k 0 (2 * PI)); intros; [ring | rewrite K; unfold A, B; field].
  - two (ri_const k A B) (ri_3 0 r) ri_cc (ri_2 A B) (ri_id 0 r) (ri_const k 0 (2 * PI)); intros; [ring | rewrite K; unfold A, B; field].
  - two (ri_const k A B) (ri_3 0 r) ri_cc (ri_const k A B) (ri_3 0 r) ri_ss; intros; [ring | rewrite K; unfold A, B; field].
  - one (ri_const (- k) A B) (ri_3 0 r) ri_cs; intros; [ring | field].
  - one (ri_id A B) (ri_2 0 r) (ri_k (- k) _ _ _ _ ri_cos); intros; [ring | field].
  - one (ri_id A B) (ri_2 0 r) (ri_k (- k) _ _ _ _ ri_sin); intros; [ring | field].
  - one (ri_const k A B) (ri_2 0 r) ri_cos; intros; [ring | field].
  - one (ri_const k A B) (ri_2 0 r) ri_sin; intros; [ring | field].
  - one (ri_id A B) (ri_id 0 r) (ri_const k 0 (2 * PI)); intros; [ring | unfold A, B; field].
Qed.
Lemma ellipsoid_inertia x y z m : 0 < x -> 0 < y -> 0 < z ->
  homogeneous_inertia (ellipsoid_integral x y z) m (ellipsoid (V3 x y z) m).
Proof.
  intros X Y Z. exists (4 / 3 * PI * x * y * z). assert (P := PI_RGT_0). split; [do 4 (apply Rmult_lt_0_compat; [ | lra]); lra | ].
  unfold ellipsoid_integral, ellipsoid, diag6. cbn [vx vy vz aa m00 m01 m02 m11 m12 m22]. set (k := m / (4 / 3 * PI * x * y * z)).
  assert (K : m = k * (4 / 3 * PI * x * y * z)) by (unfold k; field; repeat split; lra).
  set (d := x * y * z). assert (D : m = k * (4 / 3 * PI * d)) by (rewrite K; unfold d; ring). clearbody k. clear K.
  repeat split.
  - one (ri_k d _ _ _ _ (ri_2 0 1)) ri_s1 (ri_const 1 0 (2 * PI)); intros; [ring | unfold d; field].
  - two (ri_k (k * d * y ^ 2) _ _ _ _ (ri_4 0 1)) ri_s3 ri_ss (ri_k (k * d * z ^ 2) _ _ _ _ (ri_4 0 1)) ri_s1cc (ri_const 1 0 (2 * PI)); intros; [unfold d; ring | rewrite D; field].
  - two (ri_k (k * d * x ^ 2) _ _ _ _ (ri_4 0 1)) ri_s3 ri_cc (ri_k (k * d * z ^ 2) _ _ _ _ (ri_4 0 1)) ri_s1cc (ri_const 1 0 (2 * PI)); intros; [unfold d; ring | rewrite D; field].
  - two (ri_k (k * d * x ^ 2) _ _ _ _ (ri_4 0 1)) ri_s3 ri_cc (ri_k (k * d * y ^ 2) _ _ _ _ (ri_4 0 1)) ri_s3 ri_ss; intros; [unfold d; ring | rewrite D; field].
  - one (ri_k (- k * d * x * y) _ _ _ _ (ri_4 0 1)) ri_s3 ri_cs; intros; [unfold d; ring | field].
  - one (ri_k (- k * d * x * z) _ _ _ _ (ri_4 0 1)) ri_s2c ri_cos; intros; [unfold d; ring | field].
  - one (ri_k (- k * d * y * z) _ _ _ _ (ri_4 0 1)) ri_s2c ri_sin; intros; [unfold d; ring | field].
  - one (ri_k (k * d * x) _ _ _ _ (ri_3 0 1)) ri_s2 ri_cos; intros; [unfold d; ring | field].
  - one (ri_k (k * d * y) _ _ _ _ (ri_3 0 1)) ri_s2 ri_sin; intros; [unfold d; ring | field].
  - one (ri_k (k * d * z) _ _ _ _ (ri_3 0 1)) ri_s1c (ri_const 1 0 (2 * PI)); intros; [unfold d; ring | field].
Qed.
