(** C36-C38: mass matrices. *)
From Verif Require Import Spec_Mass Proof_Linalg Proof_SE3 Proof_Dyn2 Proof_Mass.

Lemma close1_refl x : close1 x x = true.
Proof.
  unfold close1. apply Rleb_true. rewrite Rminus_diag_eq, Rabs_R0 by reflexivity. assert (H := Rabs_pos x). lra.
Qed.
Lemma close3_refl x : close3 x x = true.
Proof. unfold close3. rewrite !close1_refl. reflexivity. Qed.
Lemma sym6_tr M : sym6 M -> tr6 M = M.
Proof.
  intros Sy. destruct M as [[a1 a2 a3 a4 a5 a6 a7 a8 a9] [b1 b2 b3 b4 b5 b6 b7 b8 b9] [c1 c2 c3 c4 c5 c6 c7 c8 c9] [d1 d2 d3 d4 d5 d6 d7 d8 d9]].
  assert (X := fun i j => Sy (V6 (V3 (i 0%nat) (i 1%nat) (i 2%nat)) (V3 (i 3%nat) (i 4%nat) (i 5%nat)))
                       (V6 (V3 (j 0%nat) (j 1%nat) (j 2%nat)) (V3 (j 3%nat) (j 4%nat) (j 5%nat)))). clear Sy.
  set (e := fun k i : nat => if Nat.eqb i k then 1 else 0).
  assert (Y := fun k l => X (e k) (e l)). clear X. unfold e in Y. clear e.
  assert (Z01 := Y 0%nat 1%nat). assert (Z02 := Y 0%nat 2%nat). assert (Z03 := Y 0%nat 3%nat). assert (Z04 := Y 0%nat 4%nat). assert (Z05 := Y 0%nat 5%nat).
  assert (Z12 := Y 1%nat 2%nat). assert (Z13 := Y 1%nat 3%nat). assert (Z14 := Y 1%nat 4%nat). assert (Z15 := Y 1%nat 5%nat).
  assert (Z23 := Y 2%nat 3%nat). assert (Z24 := Y 2%nat 4%nat). assert (Z25 := Y 2%nat 5%nat).
  assert (Z34 := Y 3%nat 4%nat). assert (Z35 := Y 3%nat 5%nat). assert (Z45 := Y 4%nat 5%nat). clear Y.
  cbn [Nat.eqb] in *. unf. entries; lra.
Qed.
Lemma tr_sym6 M : tr6 M = M -> sym6 M.
Proof. intros E u v. rewrite <- dot6_comm, dot6_mv6, E. reflexivity. Qed.
(** acceptance *)
Lemma accepts eigvals m M : mass_of m M -> eigvals_of M (eigvals M) -> ismassmatrix eigvals M false = true.
Proof.
  intros (Sy & Pd & L) Ev. unfold ismassmatrix. rewrite (sym6_tr M Sy). unfold close6. rewrite !close3_refl, L. cbn [andb].
  replace (m00 (mscal m eye3)) with m by (unf; ring). rewrite close3_refl. cbn [andb].
  apply forallb_forall. intros x Ix. apply Ev in Ix. destruct Ix as (u & N & E). specialize (Pd u N). rewrite E, dot6_scal_r in Pd.
  unfold Rltb. destruct (Rlt_dec 0 x) as [ | H]; auto. exfalso. assert (Q := dot3_nonneg (ang u)). assert (Q' := dot3_nonneg (lin u)).
  assert (0 <= dot6 u u) by (unfold dot6; lra). nra.
Qed.

(** ** C36 *)
Lemma diag_mass i1 i2 i3 m : 0 < i1 -> 0 < i2 -> 0 < i3 -> 0 < m -> mass_of m (diag6 i1 i2 i3 m m m).
Proof.
  intros H1 H2 H3 H. split; [apply tr_sym6; unfold diag6; lin | ]. split.
  - intros [[a1 a2 a3] [b1 b2 b3]] N. unfold diag6. unf.
    assert (Q := fun k x (K : 0 < k) => Rmult_le_pos k (x * x) (Rlt_le _ _ K) (Rle_0_sqr x)).
    assert (P : forall k x, 0 < k -> x <> 0 -> 0 < k * (x * x)) by (intros; apply Rmult_lt_0_compat; auto; apply Rsqr_pos_lt; auto).
    assert (Q1 := Q i1 a1 H1). assert (Q2 := Q i2 a2 H2). assert (Q3 := Q i3 a3 H3). assert (Q4 := Q m b1 H). assert (Q5 := Q m b2 H). assert (Q6 := Q m b3 H).
    destruct (Req_dec a1 0) as [-> | Z]; [ | specialize (P i1 a1 H1 Z); lra].
    destruct (Req_dec a2 0) as [-> | Z]; [ | specialize (P i2 a2 H2 Z); lra].
    destruct (Req_dec a3 0) as [-> | Z]; [ | specialize (P i3 a3 H3 Z); lra].
    destruct (Req_dec b1 0) as [-> | Z]; [ | specialize (P m b1 H Z); lra].
    destruct (Req_dec b2 0) as [-> | Z]; [ | specialize (P m b2 H Z); lra].
    destruct (Req_dec b3 0) as [-> | Z]; [ | specialize (P m b3 H Z); lra]. contradiction N; reflexivity.
  - unfold diag6. cbn [ll]. lin.
Qed.
Theorem C36_mass_constructors : forall x y z r L m, 0 < x -> 0 < y -> 0 < z -> 0 < r -> 0 < L -> 0 < m ->
  mass_of m (box (V3 x y z) m) /\ homogeneous_inertia (box_integral x y z) m (box (V3 x y z) m) /\
  mass_of m (ellipsoid (V3 x y z) m) /\ homogeneous_inertia (ellipsoid_integral x y z) m (ellipsoid (V3 x y z) m) /\
  mass_of m (cylinder L r m) /\ homogeneous_inertia (cylinder_integral L r) m (cylinder L r m) /\
  mass_of m (sphere r m) /\ sphere r m = ellipsoid (V3 r r r) m.
Proof.
  intros x y z r L m X Y Z Hr HL Hm.
  assert (X2 := pow_lt x 2 X). assert (Y2 := pow_lt y 2 Y). assert (Z2 := pow_lt z 2 Z). assert (R2 := pow_lt r 2 Hr). assert (L2 := pow_lt L 2 HL).
  split; [apply diag_mass; cbn [vx vy vz]; auto; apply Rmult_lt_0_compat; lra | ].
  split; [apply box_inertia; auto | ].
  split; [apply diag_mass; cbn [vx vy vz]; auto; apply Rmult_lt_0_compat; lra | ].
  split; [apply ellipsoid_inertia; auto | ].
  split.
  { apply diag_mass; auto; [apply Rmult_lt_0_compat; lra .. | ]. unfold Rdiv. rewrite Rmult_assoc. apply Rmult_lt_0_compat; lra. }
  split; [apply cylinder_inertia; auto | ]. split.
  { apply diag_mass; auto; replace (2 * m * r ^ 2 / 5) with (m * (2 * r ^ 2 / 5)) by field; apply Rmult_lt_0_compat; lra. }
  unfold sphere, ellipsoid. cbn [vx vy vz]. cbv zeta. f_equal; field.
Qed.

(** ** C37 *)
Lemma transport_eq eigvals m M H : mass_of m M -> eigvals_of M (eigvals M) -> SE3 H ->
  transport eigvals M H = Ok (mm6 (tr6 (adjoint_ H)) (mm6 M (adjoint_ H))).
Proof.
  intros Mm Ev S. unfold transport. rewrite (accepts _ _ _ Mm Ev), (ishom_SE3 _ S), (adjoint_ok _ S). reflexivity.
Qed.
Lemma transport_energy M H u v : dot6 u (mv6 (mm6 (tr6 (adjoint_ H)) (mm6 M (adjoint_ H))) v) = dot6 (mv6 (adjoint_ H) u) (mv6 M (mv6 (adjoint_ H) v)).
Proof. rewrite !mv6_mm6. rewrite (dot6_comm u), dot6_mv6, tr6_tr6, dot6_comm. reflexivity. Qed.
Lemma adjoint_inj H u : SE3 H -> mv6 (adjoint_ H) u = zero6 -> u = zero6.
Proof. intros S E. rewrite <- (mv6_1 u), <- (iadjoint_l H S), mv6_mm6, E. apply mv6_zero6. Qed.
Lemma transport_mass m M H : mass_of m M -> SE3 H -> mass_of m (mm6 (tr6 (adjoint_ H)) (mm6 M (adjoint_ H))).
Proof.
  intros (Sy & Pd & L) S. split; [ | split].
  - intros u v. rewrite !transport_energy. apply Sy.
  - intros u N. rewrite transport_energy. apply Pd. intros E. apply N. eapply adjoint_inj; eauto.
  - destruct S as [SO _]. cbn [mm6 ll tr6 adjoint_ aa al la]. rewrite L.
    replace (mm (aa M) zerom3) with zerom3 by lin. replace (mm (la M) zerom3) with zerom3 by lin.
    transitivity (mscal m (mm (tr (rot H)) (rot H))); [ | rewrite (SO3_l _ SO); reflexivity].
    destruct (rot H). lin.
Qed.
Theorem C37_transport : forall eigvals m M H H2 M1, mass_of m M -> eigvals_of M (eigvals M) -> SE3 H -> SE3 H2 ->
  transport eigvals M H = Ok M1 -> eigvals_of M1 (eigvals M1) ->
  mass_of m M1 /\
  (* kinetic energy of the twist u of the new frame, seen in the old one through the adjoint *)
  (forall u, dot6 u (mv6 M1 u) / 2 = dot6 (mv6 (adjoint_ H) u) (mv6 M (mv6 (adjoint_ H) u)) / 2) /\
  transport eigvals M1 H2 = transport eigvals M (mm4 H H2) /\
  transport eigvals M1 (inv_ H) = Ok M.
Proof.
  intros eigvals m M H H2 M1 Mm Ev S S2 T Ev1. rewrite (transport_eq _ _ _ _ Mm Ev S) in T. injection T as <-.
  assert (Mm1 := transport_mass _ _ _ Mm S). split; auto. split; [intros u; rewrite transport_energy; reflexivity | ].
  assert (A : forall H2, SE3 H2 -> mm6 (tr6 (adjoint_ H2)) (mm6 (mm6 (tr6 (adjoint_ H)) (mm6 M (adjoint_ H))) (adjoint_ H2)) =
     mm6 (tr6 (adjoint_ (mm4 H H2))) (mm6 M (adjoint_ (mm4 H H2)))).
  { intros K SK. rewrite (SE3_adjoint_mm _ _ S SK), tr6_mm6, !mm6_assoc. reflexivity. }
  split.
  - rewrite (transport_eq _ _ _ _ Mm1 Ev1 S2), (transport_eq _ _ _ _ Mm Ev (SE3_mm4 _ _ S S2)), A; auto.
  - rewrite (transport_eq _ _ _ _ Mm1 Ev1 (SE3_inv _ S)), A, inv_r, adjoint_eye by auto using SE3_inv.
    replace (tr6 eye6) with eye6 by lin. rewrite mm6_1_l, mm6_1_r. reflexivity.
Qed.
(** the mass matrix of a rigid body stays one, its centre of mass being moved by the inverse motion *)
Theorem C37_rigid_body : forall eigvals m c I0 H M1, tr I0 = I0 -> mass_of m (rigid_mass m c I0) ->
  eigvals_of (rigid_mass m c I0) (eigvals (rigid_mass m c I0)) -> SE3 H ->
  transport eigvals (rigid_mass m c I0) H = Ok M1 ->
  exists I1, tr I1 = I1 /\ M1 = rigid_mass m (mv (tr (rot H)) (vsub c (pos H))) I1.
Proof.
  intros eigvals m c I0 H M1 TI Mm Ev S T. rewrite (transport_eq _ _ _ _ Mm Ev S) in T. injection T as <-.
  assert (Sy := sym6_tr _ (proj1 (transport_mass _ _ _ Mm S))). assert (LL := proj2 (proj2 (transport_mass _ _ _ Mm S))).
  assert (AL : al (mm6 (tr6 (adjoint_ H)) (mm6 (rigid_mass m c I0) (adjoint_ H))) = mscal m (skew (mv (tr (rot H)) (vsub c (pos H))))).
  { destruct S as [SO _]. rewrite (SO3_skew' _ _ (SO3_transpose _ SO)), tr_tr. unfold rigid_mass. cbn [mm6 tr6 adjoint_ aa al la ll].
    destruct (rot H), (pos H), c, I0. lin. }
  destruct (mm6 (tr6 (adjoint_ H)) (mm6 (rigid_mass m c I0) (adjoint_ H))) as [A B C D]. cbn [al ll] in *.
  assert (E1 := f_equal aa Sy). assert (E3 := f_equal la Sy). cbn [tr6 aa al la ll] in E1, E3.
  exists A. split; auto. unfold rigid_mass. rewrite <- E3, AL, LL. reflexivity.
Qed.

(** ** C38 *)
Lemma det_orth R : mm (tr R) R = eye3 -> det3 R = 1 \/ det3 R = -1.
Proof.
  intros E. assert (D := f_equal det3 E). rewrite det_mm, det_tr, det_eye in D.
  assert (X : (det3 R - 1) * (det3 R + 1) = 0) by lra. apply Rmult_integral in X. lra.
Qed.
Theorem C38_principalframe : forall eigvals eig m c I0, tr I0 = I0 -> mass_of m (rigid_mass m c I0) ->
  let M := rigid_mass m c I0 in
  eigvals_of M (eigvals M) ->
  (* eig is given the inertia at the centre of mass *)
  let Ic := madd I0 (mscal m (mm (skew c) (skew c))) in
  eig_of Ic (eig Ic) ->
  exists H s M1, principalframe eigvals eig M = Ok H /\ SE3 H /\ pos H = c /\
    transport eigvals M H = Ok M1 /\
    M1 = M6 (diag3 s) zerom3 zerom3 (mscal m eye3) /\
    (s = fst (eig Ic) \/ s = V3 (vz (fst (eig Ic))) (vy (fst (eig Ic))) (vx (fst (eig Ic)))).
Proof.
  intros eigvals eig m c I0 TI Mm M Ev Ic Eg.
  assert (Hm : m > 0).
  { destruct Mm as (_ & Pd & _). specialize (Pd (V6 zero3 (V3 1 0 0))). unfold rigid_mass in Pd. destruct c, I0. unf.
    assert (X : 0 < m); [ | lra]. assert (Y : forall a b : R, a = b -> 0 < a -> 0 < b) by (intros; subst; auto).
    eapply Y; [ | apply Pd; intros E; injection E; lra]. ring. }
  unfold principalframe. fold M. fold M in Mm. rewrite (accepts _ _ _ Mm Ev).
  assert (Em : m22 (ll M) = m) by (unfold M, rigid_mass; cbn [ll]; unf; ring).
  assert (Er : mscal (/ m) (al M) = skew c) by (unfold M, rigid_mass; cbn [al]; destruct c; unf; f_equal; field; lra).
  rewrite Em, Er. replace (aa M) with I0 by reflexivity. fold Ic. destruct (eig Ic) as [s Q] eqn:EE. destruct Eg as [O D]. cbn [fst snd] in *.
  set (P := M3 0 0 1 0 1 0 1 0 0) in *.
  assert (X : exists Q' s', (if Rltb (det3 Q) 0 then mm Q P else Q) = Q' /\ SO3 Q' /\ mm Ic Q' = mm Q' (diag3 s') /\
     (s' = s \/ s' = V3 (vz s) (vy s) (vx s))).
  { unfold Rltb. destruct (Rlt_dec (det3 Q) 0) as [N | N].
    - exists (mm Q P), (V3 (vz s) (vy s) (vx s)). split; auto. split; [ | split; auto].
      + split; [rewrite tr_mm, <- mm_assoc, (mm_assoc (tr Q)), O, mm_1_l; unfold P; lin | ].
        rewrite det_mm. replace (det3 P) with (-1) by (unfold P; unf; ring). destruct (det_orth _ O); lra.
      + rewrite mm_assoc, D, <- !mm_assoc. f_equal. unfold P, diag3. cbn [vx vy vz]. lin.
    - exists Q, s. split; auto. split; auto. split; auto. destruct (det_orth _ O); lra. }
  destruct X as (Q' & s' & -> & SO & D' & Es).
  assert (S : SE3 (M4 Q' c zero3 1)) by (split; auto).
  exists (M4 Q' (V3 (m21 (skew c)) (m02 (skew c)) (m10 (skew c))) zero3 1), s', (M6 (diag3 s') zerom3 zerom3 (mscal m eye3)).
  replace (V3 (m21 (skew c)) (m02 (skew c)) (m10 (skew c))) with c by (destruct c; reflexivity).
  split; auto. split; auto. split; auto. split; [ | split; auto].
  rewrite (transport_eq _ _ _ _ Mm Ev S). f_equal. unfold M, rigid_mass. cbn [mm6 tr6 adjoint_ aa al la ll rot pos].
  assert (L := SO3_l _ SO).
  assert (E1 : mm (tr Q') (mm Ic Q') = diag3 s') by (rewrite D', mm_assoc, L, mm_1_l; reflexivity).
  clear D' Es O D Ev EE Q s P.
  assert (E2 : forall A B C D, M6 A B C D = M6 (diag3 s') zerom3 zerom3 (mscal m eye3) <-> A = diag3 s' /\ B = zerom3 /\ C = zerom3 /\ D = mscal m eye3)
    by (intros; split; [intros [= -> -> -> ->]; auto | intros (-> & -> & -> & ->); auto]).
  apply E2. clear E2. rewrite <- E1.
  assert (E4 : mscal m eye3 = mscal m (mm (tr Q') Q')) by (rewrite L; reflexivity). split; [ | split; [ | split; [ | refine (eq_trans _ (eq_sym E4))]]];
    unfold Ic; clear; destruct Q', c, I0; lin.
Qed.

(** ** Witnesses: a brick away from the origin *)
Definition wm : m6 := rigid_mass 1 zero3 (M3 2 0 0 0 3 0 0 0 4).
Lemma wm_mass : mass_of 1 wm.
Proof.
  replace wm with (diag6 2 3 4 1 1 1) by (unfold wm, rigid_mass, diag6; f_equal; lin). apply diag_mass; lra.
Qed.
Lemma wm_eig : eigvals_of wm [1; 2; 3; 4].
Proof.
  replace wm with (diag6 2 3 4 1 1 1) by (unfold wm, rigid_mass, diag6; f_equal; lin).
  intros x. split.
  - intros [<- | [<- | [<- | [<- | []]]]].
    + exists (V6 zero3 (V3 1 0 0)). split; [intros E; injection E; lra | unfold diag6; lin].
    + exists (V6 (V3 1 0 0) zero3). split; [intros E; injection E; lra | unfold diag6; lin].
    + exists (V6 (V3 0 1 0) zero3). split; [intros E; injection E; lra | unfold diag6; lin].
    + exists (V6 (V3 0 0 1) zero3). split; [intros E; injection E; lra | unfold diag6; lin].
  - intros ([[a1 a2 a3] [b1 b2 b3]] & N & E). unfold diag6 in E. unf. injection E as E1 E2 E3 E4 E5 E6.
    destruct (Req_dec x 1) as [-> | X1]; [cbn; auto | ]. destruct (Req_dec x 2) as [-> | X2]; [cbn; auto | ].
    destruct (Req_dec x 3) as [-> | X3]; [cbn; auto | ]. destruct (Req_dec x 4) as [-> | X4]; [cbn; auto 6 | ].
    exfalso. apply N. assert (Z : forall k a, x <> k -> (x - k) * a = 0 -> a = 0) by (intros k a K Q; apply Rmult_integral in Q; lra).
    f_equal; f_equal; (eapply Z; [exact X2 | lra]) || (eapply Z; [exact X3 | lra]) || (eapply Z; [exact X4 | lra]) || (eapply Z; [exact X1 | lra]).
Qed.
Example C37_witness : exists eigvals M1, eigvals_of wm (eigvals wm) /\ transport eigvals wm (transl 1 2 3) = Ok M1 /\
  M1 <> wm.
Proof.
  exists (fun _ => [1; 2; 3; 4]). eexists. split; [exact wm_eig | ]. split; [apply (transport_eq _ 1); [exact wm_mass | exact wm_eig | apply transl_SE3] | ].
  intros E. assert (X := f_equal (fun M => m01 (al M)) E). unfold wm, rigid_mass, transl in X. unf. lra.
Qed.
Example C38_witness : exists eigvals eig, eigvals_of wm (eigvals wm) /\
  eig_of (madd (aa wm) (mscal 1 (mm (skew zero3) (skew zero3)))) (eig (madd (aa wm) (mscal 1 (mm (skew zero3) (skew zero3))))).
Proof.
  exists (fun _ => [1; 2; 3; 4]), (fun _ => (V3 2 3 4, eye3)). split; [exact wm_eig | ]. split; cbn [fst snd]; unfold wm, rigid_mass, diag3; cbn [aa]; lin.
Qed.
