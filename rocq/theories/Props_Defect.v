(** C42, C80, C63 without restriction: the derivatives of the jacobians, the power and the energy balance, with their exact errors. *)
From Coq Require Import Lra Lia.
From Verif Require Import Spec_Defect Proof_Tree Proof_World Proof_World2 Proof_Dofs Proof_Register Proof_World4.
From Verif Require Import Proof_Linalg Proof_Deriv Proof_SE3 Proof_Joints Proof_Dyn Proof_Dyn2 Proof_Defect Props_Dyn.
Open Scope R_scope.

(** djacobian misses, for each joint between the body and the ground, the image of the jacobian of its first frame by the adjacency
    of [twist_error] *)
Theorem C42_djacobian_error : forall e sc h t f s fuel st (St : R -> store) (D : R -> wdyn),
  ready e h t -> rigid_scene e sc t (f s) -> world_motion t f s -> (height t < fuel)%nat ->
  (forall u, world_update_dynamic e sc h (f u) fuel st = Ok (St u, D u)) ->
  forall g js, above t (frame_body e g) js ->
  exists A dA P X, (forall u, frame_jac e sc (St u) g = Ok (A u)) /\ frame_djac e sc (St s) g = Ok dA /\ frame_pose e sc (St s) g = Ok P /\
    (forall j, In j js -> exists f0 f1 P0 A0, jframes h j = Some (f0, f1) /\ frame_pose e sc (St s) f0 = Ok P0 /\ frame_jac e sc (St s) f0 = Ok A0 /\
       forall c, X j c = joint_error (f s j) P P0 (A0 c)) /\
    forall c, dv6 (fun u => A u c) s (v6add (dA c) (v6suml (map (fun j => X j c) js))).
Proof.
  intros e sc h t f s fuel st St D Rd Ri M F HU g js (ps & P & ->).
  assert (G : forall u x qs, path t x qs -> St u x = attr (b_mass sc x) (kin_of sc h (f u) (map fst qs))).
  { intros u. destruct (world_ok e sc h t (f u) fuel st Rd (rigid_motion e sc t f s u Ri M) F) as (sd & d & Ed & Pd & _).
    rewrite HU in Ed. injection Ed as -> _. exact Pd. }
  assert (Bp := proj1 Ri).
  assert (X := fun u => proj1 (proj2 (proj2 (frame_ok e sc t (f u) h (St u) g (G u) Bp ps P)))). cbv zeta in X.
  destruct (frame_ok e sc t (f s) h (St s) g (G s) Bp ps P) as (EP & _ & _ & dA & EdA & HdA). cbv zeta in EP, EdA, HdA.
  set (P0 := fun j => match jframes h j with Some (f0, _) => match frame_pose e sc (St s) f0 with Ok p => p | Err _ => eye4 end | None => eye4 end).
  set (A0 := fun j => match jframes h j with Some (f0, _) => match frame_jac e sc (St s) f0 with Ok p => p | Err _ => fun _ => zero6 end | None => fun _ => zero6 end).
  assert (H1 : forall x j p qs f0 f1, path t x ((j, p) :: qs) -> jframes h j = Some (f0, f1) -> let K := kin_of sc h (f s) (map fst qs) in
     frame_pose e sc (St s) f0 = Ok (mm4 (k_pose K) (bpose sc f0)) /\ exists a, frame_jac e sc (St s) f0 = Ok a /\ forall c, a c = mv6 (iadjoint_ (bpose sc f0)) (k_jac K c)).
  { intros x j p qs f0 f1 Pj Ef K. destruct (path_walk e h t x _ (proj1 Rd) Pj) as ((((g0 & g1 & Eg & E0 & E1) & _) & _) & _). rewrite Ef in Eg. injection Eg as <- <-.
    assert (Pq := path_tail _ _ _ _ _ Pj). rewrite <- E0 in Pq. destruct (frame_ok e sc t (f s) h (St s) f0 (G s) Bp qs Pq) as (K1 & _ & K2 & _). cbv zeta in K1, K2. split; [exact K1 | exact K2]. }
  assert (H0 : forall x j p qs f0 f1, path t x ((j, p) :: qs) -> jframes h j = Some (f0, f1) -> let K := kin_of sc h (f s) (map fst qs) in
     P0 j = mm4 (k_pose K) (bpose sc f0) /\ forall c, A0 j c = mv6 (iadjoint_ (bpose sc f0)) (k_jac K c)).
  { intros x j p qs f0 f1 Pj Ef K. destruct (H1 _ _ _ _ _ _ Pj Ef) as (K1 & a & K2 & K3). unfold P0, A0. rewrite Ef, K1, K2. split; [reflexivity | exact K3]. }
  exists (fun u => match frame_jac e sc (St u) g with Ok A => A | Err _ => fun _ => zero6 end), dA,
    (mm4 (k_pose (kin_of sc h (f s) (map fst ps))) (bpose sc g)), (fun j c => joint_error (f s j) (mm4 (k_pose (kin_of sc h (f s) (map fst ps))) (bpose sc g)) (P0 j) (A0 j c)).
  split; [intros u; destruct (X u) as (A & -> & _); reflexivity | ]. split; [exact EdA | ]. split; [exact EP | ]. split.
  - intros j J. assert (Q : exists x p qs, path t x ((j, p) :: qs)).
    { clear - P J. revert P J. generalize (frame_body e g). induction ps as [ | (i, p) ps IH]; intros x P J; [destruct J | ]. destruct J as [<- | J]; [cbn; eauto | ]. exact (IH _ (path_tail _ _ _ _ _ P) J). }
    destruct Q as (x & p & qs & Pj). destruct (frames_of e h t Rd j) as (f0 & f1 & Ef); [apply (path_in _ _ _ Pj); now left | ].
    destruct (H1 _ _ _ _ _ _ Pj Ef) as (K1 & a & K2 & K3). exists f0, f1, (P0 j), (A0 j). split; [exact Ef | ]. unfold P0, A0. rewrite Ef, K1, K2. auto.
  - intros c. apply dv6_ext with (f := fun u => mv6 (iadjoint_ (bpose sc g)) (k_jac (kin_of sc h (f u) (map fst ps)) c)).
    { intros u. destruct (X u) as (A & -> & HA). apply HA. }
    rewrite HdA. assert (Z := dv6_mv6 s _ _ _ _ (dm6_const s (iadjoint_ (bpose sc g))) (kin_jac_defect e sc h t f s Rd Bp M P0 A0 H0 _ ps c P)).
    cbv beta in Z. rewrite mv6_0, v6add_0_l, mv6_add in Z. rewrite (errsum_move f s P0 A0 _ (bpose sc g)) in Z; [exact Z | | apply Bp | ].
    + eapply kin_SE3; eauto.
    + intros j J. eapply P0_SE3; eauto.
Qed.

Lemma gyro_ok m c I0 T : dot6 T (mv6 (body_nle (rigid_mass m c I0) T) T) = gyro_power m c T.
Proof.
  unfold gyro_power. destruct (Rle_dec m (1 / 10000000000)) as [L | L]; [ | apply nle_power; left; lra].
  unfold body_nle. cbn [rigid_mass ll al mscal eye3 m22]. rewrite Rmult_1_r. destruct (Rle_dec m (1 / 10000000000)) as [_ | ]; [ | contradiction]. unfold rigid_mass. dall. unf. ring.
Qed.
Lemma suml_plus f g l : suml (fun b => f b + g b) l = suml f l + suml g l.
Proof. induction l as [ | x l IH]; cbn [suml]; [ring | rewrite IH; ring]. Qed.

Lemma finite_choice2 {X Y} (Q : nat -> X -> Y -> Prop) l (x0 : X) (y0 : Y) : (forall b, In b l -> exists x y, Q b x y) -> exists Z W, forall b, In b l -> Q b (Z b) (W b).
Proof.
  induction l as [ | a l IH]; intros H; [exists (fun _ => x0), (fun _ => y0); intros b [] | ].
  destruct IH as (Z & W & K); [intros b J; apply H; now right | ]. destruct (H a (or_introl eq_refl)) as (x & y & q).
  exists (upd Z a x), (upd W a y). intros b J. unfold upd. destruct (Nat.eqb_spec b a) as [-> | Ne]; [exact q | ]. apply K. destruct J as [J | J]; [congruence | exact J].
Qed.

(** the acceleration lost by a body is the sum of the velocities times the missing columns *)
Lemma lost_of e sc h t f s fuel st (St : R -> store) (D : R -> wdyn) v :
  ready e h t -> rigid_scene e sc t (f s) -> world_motion t f s -> (height t < fuel)%nat ->
  (forall u, world_update_dynamic e sc h (f u) fuel st = Ok (St u, D u)) -> world_velocity e h t (f s) v ->
  forall b, In b (bodies t) -> exists A dA T W Z,
    (forall u, a_jac (St u b) = Some (A u)) /\ a_djac (St s b) = Some dA /\ a_twist (St s b) = Some T /\
    (forall c, dv6 (fun u => A u c) s (v6add (dA c) (Z c))) /\ lost_acceleration e sc h t (f s) (St s) (FBody b) W /\ W = sum6 (w_ndof h) (fun c => v6scal (v c) (Z c)).
Proof.
  intros Rd Ri M F HU Wv b Ib. destruct (path_of t b Ib) as [ps P]. set (js := map fst ps). assert (Ab : above t (frame_body e (FBody b)) js) by (exists ps; auto).
  destruct (C42_djacobian_error e sc h t f s fuel st St D Rd Ri M F HU (FBody b) js Ab) as (A & dA & Pb & X & EA & EdA & EP & HX & Dv).
  destruct (C40_twist_is_jacobian_gvel e sc h t (f s) v fuel st Rd Ri F Wv) as (sd & d & Ed & Tw). rewrite HU in Ed. injection Ed as <- <-.
  destruct (Tw (FBody b) Ib) as (T & A' & ET & _ & _).
  assert (Ge : forall {A} (o : option A) x, get o = Ok x -> o = Some x) by (intros ? [y | ] x Q; cbn in Q; congruence).
  exists A, dA, T. eexists. exists (fun c => v6suml (map (fun j => X j c) js)).
  split; [intros u; apply Ge, EA | ]. split; [apply Ge, EdA | ]. split; [apply Ge, ET | ]. split; [exact Dv | ]. split; [ | reflexivity].
  exists Pb, js, (fun j => sum6 (w_ndof h) (fun c => v6scal (v c) (X j c))). split; [exact EP | ]. split; [exact Ab | ]. split.
  - rewrite <- (sum6_v6suml (w_ndof h) (fun c j => v6scal (v c) (X j c))). apply sum6_ext. intros c _. rewrite v6suml_scal, map_map. reflexivity.
  - intros j J. destruct (HX j J) as (f0 & f1 & P0 & A0 & Ef & E0 & EA0 & EX).
    assert (Ij : In j (joints t)) by (apply (path_in _ _ _ P); exact J). destruct (path_joint e h t (proj1 Rd) j Ij) as (g0 & g1 & qs & Eg & Q0 & _). rewrite Ef in Eg. injection Eg as <- <-.
    destruct (Tw f0 (proj1 (path_in _ _ _ Q0))) as (T0 & A0' & ET0 & EA0' & E0' & _). rewrite EA0 in EA0'. injection EA0' as <-.
    exists f0, f1, P0, T0. split; [exact Ef | ]. split; [exact E0 | ]. split; [exact ET0 | ]. rewrite E0'. unfold joint_error. rewrite <- !sum6_mv6. apply sum6_ext. intros c _. rewrite EX. unfold joint_error. rewrite !mv6_scal. reflexivity.
Qed.

Lemma disjoint_kids b ks j s j' s' x : NoDup (bodies (Node b ks)) -> In (j, s) ks -> In (j', s') ks -> In x (bodies s) -> In x (bodies s') -> (j, s) = (j', s').
Proof.
  rewrite bodies_eq. intros N. apply NoDup_cons_iff in N. destruct N as (_ & N). induction ks as [ | (i, u) ks IH]; intros I I' X X'; [destruct I | ].
  cbn [flat_map] in N. apply NoDup_app_iff in N. destruct N as (_ & N & Dj).
  assert (Q : forall k w, In (k, w) ks -> In x (bodies w) -> In x (flat_map (fun js => bodies (snd js)) ks)) by (intros k w J K; apply in_flat_map; exists (k, w); auto).
  destruct I as [E | I], I' as [E' | I'].
  - congruence.
  - injection E as <- <-. destruct (Dj x X (Q _ _ I' X')).
  - injection E' as <- <-. destruct (Dj x X' (Q _ _ I X)).
  - apply IH; auto.
Qed.
Lemma kid_nodup b ks j s : NoDup (bodies (Node b ks)) -> In (j, s) ks -> NoDup (bodies s).
Proof.
  rewrite bodies_eq. intros N I. apply NoDup_cons_iff in N. destruct N as (_ & N). apply in_split in I. destruct I as (l1 & l2 & ->). rewrite flat_map_app in N. cbn [flat_map] in N.
  apply NoDup_app_iff in N. destruct N as (_ & N & _). apply NoDup_app_iff in N. apply N.
Qed.
Lemma path_fun t x ps : path t x ps -> NoDup (bodies t) -> forall ps', path t x ps' -> ps' = ps.
Proof.
  assert (RT : forall b ks j s x, NoDup (bodies (Node b ks)) -> In (j, s) ks -> In x (bodies s) -> x <> b).
  { intros b ks j s y N I X ->. rewrite bodies_eq in N. apply NoDup_cons_iff in N. destruct N as (N & _). apply N. apply in_flat_map. exists (j, s). auto. }
  induction 1 as [b ks | b ks j s x ps I P IH]; intros N ps' P'.
  - inversion P' as [ | ? ? j s ? qs I P]; subst; [reflexivity | ]. destruct (RT _ _ _ _ _ N I (proj1 (path_in _ _ _ P)) eq_refl).
  - inversion P' as [ | ? ? j' s' ? qs I' Q]; subst; [destruct (RT _ _ _ _ _ N I (proj1 (path_in _ _ _ P)) eq_refl) | ].
    assert (E := disjoint_kids _ _ _ _ _ _ x N I' I (proj1 (path_in _ _ _ Q)) (proj1 (path_in _ _ _ P))). injection E as -> ->. f_equal. apply IH; [eapply kid_nodup; eauto | exact Q].
Qed.
Lemma lost_fun e sc h t J st g W W' : NoDup (bodies t) -> lost_acceleration e sc h t J st g W -> lost_acceleration e sc h t J st g W' -> W = W'.
Proof.
  intros Rt (P & js & X & EP & (ps & Pp & ->) & -> & HX) (P' & js' & X' & EP' & (ps' & Pp' & ->) & -> & HX'). rewrite EP in EP'. injection EP' as <-.
  assert (ps' = ps) by (eapply path_fun; eauto). subst ps'. apply v6suml_ext. intros j Ij. destruct (HX j Ij) as (f0 & f1 & P0 & T0 & Ef & E0 & ET & ->), (HX' j Ij) as (f0' & f1' & P0' & T0' & Ef' & E0' & ET' & ->).
  rewrite Ef in Ef'. injection Ef' as <- <-. rewrite E0 in E0'. injection E0' as <-. rewrite ET in ET'. injection ET' as <-. reflexivity.
Qed.

(** ** C80 in general: v'(dM/dt)v / 2 - v' N v is the power of the lost accelerations, less the gyroscopic power of the bodies whose mass
    is under the threshold *)
Theorem C80_world : forall e sc h t f s v fuel st (St : R -> store) (D : R -> wdyn) m c I0,
  ready e h t -> rigid_scene e sc t (f s) -> world_motion t f s -> (height t < fuel)%nat ->
  (forall u, world_update_dynamic e sc h (f u) fuel st = Ok (St u, D u)) -> world_velocity e h t (f s) v ->
  (forall b, In b (tl (bodies t)) -> tr (I0 b) = I0 b /\ b_mass sc b = rigid_mass (m b) (c b) (I0 b)) ->
  exists dM T W, (forall k l, derivable_pt_lim (fun u => d_mass (D u) k l) s (dM k l)) /\
    (forall b, In b (bodies t) -> frame_twist e sc (St s) (FBody b) = Ok (T b) /\ lost_acceleration e sc h t (f s) (St s) (FBody b) (W b)) /\
    quad (w_ndof h) v dM v / 2 = quad (w_ndof h) v (d_nle (D s)) v +
      suml (fun b => dot6 (T b) (mv6 (b_mass sc b) (W b)) - gyro_power (m b) (c b) (T b)) (tl (bodies t)).
Proof.
  intros e sc h t f s v fuel st St D m c I0 Rd Ri M F HU Wv Ms.
  assert (G : forall u, (forall x qs, path t x qs -> St u x = attr (b_mass sc x) (kin_of sc h (f u) (map fst qs))) /\
     (forall k l, d_mass (D u) k l = suml (fun b => congr (k_jac (kin_at (St u) b)) (b_mass sc b) (k_jac (kin_at (St u) b)) k l) (tl (bodies t))) /\
     (forall k l, d_nle (D u) k l = suml (fun b => dot6 (k_jac (kin_at (St u) b) k)
        (v6add (mv6 (b_mass sc b) (k_djac (kin_at (St u) b) l))
               (mv6 (body_nle (b_mass sc b) (k_twist (kin_at (St u) b))) (k_jac (kin_at (St u) b) l)))) (tl (bodies t)))).
  { intros u. destruct (world_ok e sc h t (f u) fuel st Rd (rigid_motion e sc t f s u Ri M) F) as (sd & d & Ed & Pd & _ & Md & _ & Nd).
    rewrite HU in Ed. injection Ed as -> ->. auto. }
  assert (SY : forall m c I0 u w, tr I0 = I0 -> dot6 u (mv6 (rigid_mass m c I0) w) = dot6 w (mv6 (rigid_mass m c I0) u)).
  { intros m' c' I' u w E. rewrite <- dot6_comm, dot6_mv6. f_equal. f_equal. unfold rigid_mass, tr6. cbn [aa al la ll]. rewrite E. f_equal; lin. }
  set (K := fun u b => kin_at (St u) b).
  assert (CH : exists Z W, forall b, In b (bodies t) -> (forall c, dv6 (fun u => k_jac (K u b) c) s (v6add (k_djac (K s b) c) (Z b c))) /\
      lost_acceleration e sc h t (f s) (St s) (FBody b) (W b) /\ W b = sum6 (w_ndof h) (fun c => v6scal (v c) (Z b c))).
  { apply (finite_choice2 (fun b Z W => (forall c, dv6 (fun u => k_jac (K u b) c) s (v6add (k_djac (K s b) c) (Z c))) /\
      lost_acceleration e sc h t (f s) (St s) (FBody b) W /\ W = sum6 (w_ndof h) (fun c => v6scal (v c) (Z c))) (bodies t) (fun _ => zero6) zero6).
    intros b Ib.
    destruct (lost_of e sc h t f s fuel st St D v Rd Ri M F HU Wv b Ib) as (A & dA & T & W & Z & EA & EdA & ET & Dv & Lo & EW).
    exists Z, W. split; [ | split; assumption]. intros c'. destruct (path_of t b Ib) as [ps P].
    assert (EK : forall u, k_jac (K u b) = A u). { intros u. unfold K. rewrite (kin_at_attr _ _ _ _ (proj1 (G u) _ _ P)). specialize (EA u). rewrite (proj1 (G u) _ _ P) in EA. cbn [attr a_jac] in EA. congruence. }
    assert (EdK : k_djac (K s b) = dA). { unfold K. rewrite (kin_at_attr _ _ _ _ (proj1 (G s) _ _ P)). rewrite (proj1 (G s) _ _ P) in EdA. cbn [attr a_djac] in EdA. congruence. }
    rewrite EdK. eapply dv6_ext; [ | exact (Dv c')]. intros u. cbv beta. rewrite EK. reflexivity. }
  destruct CH as (Z & W & CH).
  assert (TLb : forall b, In b (tl (bodies t)) -> In b (bodies t)) by (intros b Ib; rewrite bodies_tail in *; right; exact Ib).
  set (dj := fun b c => v6add (k_djac (K s b) c) (Z b c)).
  exists (fun k l => suml (fun b => dot6 (dj b k) (mv6 (b_mass sc b) (k_jac (K s b) l)) +
                                    dot6 (k_jac (K s b) k) (mv6 (b_mass sc b) (dj b l))) (tl (bodies t))), (fun b => k_twist (K s b)), W.
  split; [ | split].
  - intros k l. eapply dext; [intros u; apply (proj1 (proj2 (G u))) | ]. cbv beta.
    apply (Dsuml (fun u b => congr (k_jac (K u b)) (b_mass sc b) (k_jac (K u b)) k l)).
    intros b Ib. unfold congr. destruct (CH b (TLb b Ib)) as (DJ & _).
    assert (X := dv6_mv6 s _ _ _ _ (dm6_const s (b_mass sc b)) (DJ l)). cbv beta in X. rewrite mv6_0, v6add_0_l in X.
    assert (Y := dot6_deriv s _ _ _ _ (DJ k) X). cbv beta in Y. exact Y.
  - intros b Ib. split; [ | apply (CH b Ib)]. destruct (path_of t b Ib) as [ps P]. unfold frame_twist, K. rewrite (kin_at_attr _ _ _ _ (proj1 (G s) _ _ P)), (proj1 (G s) _ _ P). reflexivity.
  - rewrite quad_suml. rewrite (quad_ext _ _ _ _ _ (proj2 (proj2 (G s)))), quad_suml.
    unfold Rdiv. rewrite Rmult_comm, <- suml_scal, <- suml_plus. apply suml_ext. intros b Ib. fold (K s b).
    destruct (Ms b Ib) as (Sy & EM). rewrite EM. set (mb := m b). set (cb := c b). set (Ic := I0 b) in *.
    destruct (CH b (TLb b Ib)) as (_ & _ & EW). destruct (path_of t b (TLb b Ib)) as [ps P].
    assert (TW : k_twist (K s b) = sum6 (w_ndof h) (fun c => v6scal (v c) (k_jac (K s b) c))).
    { unfold K. rewrite (kin_at_attr _ _ _ _ (proj1 (G s) _ _ P)). apply (kin_twist e sc h t (f s) v Rd Ri Wv). apply (path_in _ _ _ P). }
    set (MM := rigid_mass mb cb Ic) in *.
    rewrite quad_add.
    rewrite (quad_dot _ v (dj b) (fun l => mv6 MM (k_jac (K s b) l)) v).
    rewrite (quad_dot _ v (k_jac (K s b)) (fun l => mv6 MM (dj b l)) v).
    rewrite (quad_dot _ v (k_jac (K s b)) (fun l => v6add (mv6 MM (k_djac (K s b) l)) (mv6 (body_nle MM (k_twist (K s b))) (k_jac (K s b) l))) v).
    rewrite (sum6_ext _ (fun k => v6scal (v k) (v6add _ _)) (fun k => v6add (mv6 MM (v6scal (v k) (k_djac (K s b) k))) (mv6 (body_nle MM (k_twist (K s b))) (v6scal (v k) (k_jac (K s b) k)))))
      by (intros; rewrite v6scal_add, !mv6_scal; reflexivity).
    rewrite (sum6_ext _ (fun k => v6scal (v k) (mv6 MM (k_jac (K s b) k))) (fun k => mv6 MM (v6scal (v k) (k_jac (K s b) k)))) by (intros; rewrite mv6_scal; reflexivity).
    rewrite (sum6_ext _ (fun k => v6scal (v k) (mv6 MM (dj b k))) (fun k => mv6 MM (v6scal (v k) (dj b k)))) by (intros; rewrite mv6_scal; reflexivity).
    rewrite sum6_add, !sum6_mv6, <- TW.
    assert (Ed : sum6 (w_ndof h) (fun k => v6scal (v k) (dj b k)) = v6add (sum6 (w_ndof h) (fun k => v6scal (v k) (k_djac (K s b) k))) (W b)).
    { rewrite EW, <- sum6_add. apply sum6_ext. intros k _. unfold dj. apply v6scal_add. }
    rewrite Ed. set (dT := sum6 _ (fun k => v6scal (v k) (k_djac (K s b) k))).
    rewrite dot6_add_r. unfold MM at 4. rewrite (gyro_ok mb cb Ic).
    unfold MM. rewrite (SY mb cb Ic (v6add dT (W b))) by auto. rewrite !mv6_add, !dot6_add_r. fold MM. lra.
Qed.

(** the kinetic energy changes at the power of the forces, less the viscous dissipation, plus the power of the lost accelerations *)
Theorem C80_power : forall e sc h t f s (v : R -> nat -> R) a tau fuel st (St : R -> store) (D : R -> wdyn) m c I0,
  ready e h t -> rigid_scene e sc t (f s) -> world_motion t f s -> (height t < fuel)%nat ->
  (forall u, world_update_dynamic e sc h (f u) fuel st = Ok (St u, D u)) -> world_velocity e h t (f s) (v s) ->
  (forall k, (k < w_ndof h)%nat -> derivable_pt_lim (fun u => v u k) s (a k)) ->
  (forall k, (k < w_ndof h)%nat -> sumR (w_ndof h) (fun l => d_mass (D s) k l * a l) +
     sumR (w_ndof h) (fun l => (d_nle (D s) k l + d_visc (D s) k l) * v s l) = tau k) ->
  (forall b, In b (tl (bodies t)) -> tr (I0 b) = I0 b /\ b_mass sc b = rigid_mass (m b) (c b) (I0 b)) ->
  exists T W, (forall b, In b (bodies t) -> frame_twist e sc (St s) (FBody b) = Ok (T b) /\ lost_acceleration e sc h t (f s) (St s) (FBody b) (W b)) /\
  derivable_pt_lim (fun u => quad (w_ndof h) (v u) (d_mass (D u)) (v u) / 2) s
    (sumR (w_ndof h) (fun k => v s k * tau k) - quad (w_ndof h) (v s) (d_visc (D s)) (v s) +
      suml (fun b => dot6 (T b) (mv6 (b_mass sc b) (W b)) - gyro_power (m b) (c b) (T b)) (tl (bodies t))).
Proof.
  intros e sc h t f s v a tau fuel st St D m c I0 Rd Ri M F HU Wv Dv Eq Ms.
  destruct (C80_world e sc h t f s (v s) fuel st St D m c I0 Rd Ri M F HU Wv Ms) as (dM & T & W & DM & HTW & E).
  exists T, W. split; [exact HTW | ]. set (err := suml _ _) in *.
  set (n := w_ndof h) in *.
  assert (SYM : forall k l, d_mass (D s) k l = d_mass (D s) l k).
  { destruct (world_ok e sc h t (f s) fuel st Rd Ri F) as (sd & d & Ed & _ & _ & Md & _). rewrite HU in Ed. injection Ed as <- <-.
    intros k l. rewrite !Md. apply suml_ext. intros b Ib. destruct (Ms b Ib) as (Sy & ->). unfold congr.
    rewrite <- dot6_comm, dot6_mv6. f_equal. f_equal. unfold rigid_mass, tr6. cbn [aa al la ll]. rewrite Sy. f_equal; lin. }
  assert (X : derivable_pt_lim (fun u => quad n (v u) (d_mass (D u)) (v u)) s
     (quad n a (d_mass (D s)) (v s) + quad n (v s) dM (v s) + quad n (v s) (d_mass (D s)) a)).
  { unfold quad. rewrite <- !sumR_add. apply (DsumR (fun u k => sumR n (fun l => v u k * d_mass (D u) k l * v u l))).
    intros k Hk. rewrite <- !sumR_add. apply (DsumR (fun u l => v u k * d_mass (D u) k l * v u l)). intros l Hl.
    eapply dconv; [apply Dmult; [apply Dmult | ]; [apply Dv; auto | apply DM | apply Dv; auto] | cbv beta; ring]. }
  eapply dconv; [apply (Dmult _ (fun _ => / 2)); [exact X | apply Dconst] | ]. cbv beta.
  replace (quad n a (d_mass (D s)) (v s)) with (quad n (v s) (d_mass (D s)) a).
  2: { unfold quad. rewrite sumR_swap. apply sumR_ext; intros k _; apply sumR_ext; intros l _. rewrite (SYM l k). ring. }
  assert (Y : sumR n (fun k => v s k * tau k) = quad n (v s) (d_mass (D s)) a + quad n (v s) (d_nle (D s)) (v s) + quad n (v s) (d_visc (D s)) (v s)).
  { unfold quad. rewrite <- !sumR_add. apply sumR_ext. intros k Hk. rewrite <- (Eq k Hk), Rmult_plus_distr_l, <- !sumR_scal, <- !sumR_add.
    apply sumR_ext. intros; ring. }
  rewrite Y. lra.
Qed.
