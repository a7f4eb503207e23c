(** C82: the inertias in the collada document. *)
From Coq Require Import Lra Lia Permutation.
From Verif Require Import Spec_Dae Proof_SE3 Proof_Linalg Proof_Coll Props_Angles Props_Mass Props_Color Props_Color2 Proof_Draw Proof_Draw2 Props_Dyn Props_Draw Props_Draw2 Proof_Dae Proof_Dae2 Proof_Dae3 Proof_Dae4 Proof_Dae5 Props_Dae.
Open Scope R_scope.

Lemma F2_impl {A B} (P Q : A -> B -> Prop) l k : (forall a b, P a b -> Q a b) -> Forall2 P l k -> Forall2 Q l k.
Proof. intros H F. induction F; constructor; auto. Qed.
Lemma deg_rad a : deg a * (PI / 180) = a.
Proof. unfold deg. field. apply PI_neq0. Qed.
Lemma frame_rot_angles s m p z y x i : frame_rot (RB s m p [(V3 0 0 1, deg z); (V3 0 1 0, deg y); (V3 1 0 0, deg x)] i) = of_angles (z, y, x).
Proof.
  unfold frame_rot. cbn [rb_rots fold_right]. unfold about. cbn [fst snd]. rewrite !deg_rad. unfold of_angles, rotzyx. cbn [rot].
  lin.
Qed.
(** the principal inertia at the centre of mass, out of the transported mass matrix *)
Lemma principal_block m c I0 Q s : SO3 Q -> mm6 (tr6 (adjoint_ (M4 Q c zero3 1))) (mm6 (rigid_mass m c I0) (adjoint_ (M4 Q c zero3 1))) = M6 (diag3 s) zerom3 zerom3 (mscal m eye3) ->
  madd I0 (mscal m (mm (skew c) (skew c))) = mm Q (mm (diag3 s) (tr Q)).
Proof.
  intros SO E. apply (f_equal aa) in E. cbn [aa] in E.
  assert (B : aa (mm6 (tr6 (adjoint_ (M4 Q c zero3 1))) (mm6 (rigid_mass m c I0) (adjoint_ (M4 Q c zero3 1)))) = mm (tr Q) (mm (madd I0 (mscal m (mm (skew c) (skew c)))) Q)).
  { unfold rigid_mass. cbn [mm6 tr6 adjoint_ aa al la ll rot Model_Linalg.pos]. clear. destruct Q, c, I0. lin. }
  rewrite B in E. rewrite <- E. rewrite !mm_assoc, (SO3_r _ SO), mm_1_l, <- mm_assoc, (SO3_r _ SO). symmetry. apply mm_1_r.
Qed.
(** what rigid_of gives *)
Lemma rigid_spec eigvals eig M m c I0 s : has_inertia eigvals eig M m c I0 -> exists r Q, rigid_of eigvals eig M (Some s) = Ok r /\ rb_sid r = s /\ rb_mass r = m /\ rb_pos r = c /\ SO3 Q /\
  madd I0 (mscal m (mm (skew c) (skew c))) = mm Q (mm (diag3 (rb_inertia r)) (tr Q)) /\
  m3_near (2 * tol) (frame_rot r) Q /\ (tol <= Rabs (m00 Q) \/ tol <= Rabs (m10 Q) -> frame_rot r = Q) /\
  principalframe eigvals eig M = Ok (M4 Q c zero3 1) /\ transport eigvals M (M4 Q c zero3 1) = Ok (M6 (diag3 (rb_inertia r)) zerom3 zerom3 (mscal m eye3)).
Proof.
  intros (TI & -> & Mm & Ev & Eg). destruct (C38_principalframe eigvals eig m c I0 TI Mm Ev Eg) as (H & s0 & M1 & EH & SH & Pc & ET & -> & _).
  assert (EQ : H = M4 (rot H) c zero3 1). { destruct SH as (_ & B & O). destruct H as [Q p b o]. simpl in *. subst. reflexivity. }
  unfold rigid_of. rewrite EH. cbn [rbind]. rewrite ET. cbn [rbind]. destruct (C29_band_error H SH) as (((z, y), x) & Ea & Nr). rewrite Ea. cbn [rbind].
  assert (Ei : diag_of (M6 (diag3 s0) zerom3 zerom3 (mscal m eye3)) = s0) by (destruct s0; reflexivity).
  eexists _, (rot H). split; [reflexivity | ]. cbn [rb_sid rb_mass rb_pos rb_inertia]. rewrite Ei. split; [reflexivity | ]. split; [unf; ring | ]. split; [exact Pc | ]. split; [apply SH | ]. split.
  - apply (principal_block m c I0 (rot H) s0 (proj1 SH)). rewrite <- EQ. rewrite (transport_eq _ _ _ _ Mm Ev SH) in ET. apply Ok_inj in ET. exact ET.
  - rewrite frame_rot_angles. split; [exact Nr | ]. split.
    + intros C. destruct (C29_reproduces_rotation_partial H SH) as (a & E & F); [tauto | ]. rewrite Ea in E. apply Ok_inj in E. subst a. exact F.
    + rewrite <- EQ. auto.
Qed.

(** Both drivers write one rigid_body for each body whose mass matrix is not negligible: its mass is that of the body, its mass frame
    is at the centre of mass, and its inertia gives, in the axes of the mass frame, the inertia of the body at the centre of mass.
    The rotations of the mass frame are exact when its x axis is away from z by more than the tolerance; otherwise each entry of the
    rotation is within 2 tol.  With the base driver the sid is the name of the body. *)
Theorem C82_physics : forall argsort eigvals eig daenim S geo flat g0 h t fuel up cs scale update, argsort_ok argsort -> drawable_world S g0 h t fuel cs ->
  writable eigvals eig S geo h t up ->
  exists D, dae_world argsort eigvals eig daenim S geo flat fuel h up cs scale update = Ok D /\
    exists l, NoDup l /\ (forall b, In b l <-> has_body S t b) /\
      Forall2 (fun b r => forall m c I0, has_inertia eigvals eig (b_mass (ds_sc S) b) m c I0 ->
          rb_mass r = m /\ rb_pos r = c /\ (daenim = false -> ds_nm S (OFrame (FBody b)) = Some (rb_sid r)) /\
          exists Q, SO3 Q /\ madd I0 (mscal m (mm (skew c) (skew c))) = mm Q (mm (diag3 (rb_inertia r)) (tr Q)) /\
            m3_near (2 * tol) (frame_rot r) Q /\ (tol <= Rabs (m00 Q) \/ tol <= Rabs (m10 Q) -> frame_rot r = Q))
        l (v_phys (da_drv D)).
Proof.
  intros argsort eigvals eig daenim S geo flat g0 h t fuel up cs scale update Ha Dw Wr.
  destruct (written argsort eigvals eig daenim S geo flat g0 h t fuel up cs scale update Ha Dw Wr) as (D & ED & _ & Ed & _).
  destruct (drawn S flat g0 h t fuel cs Dw) as (d & evs & Ed' & Ep & Ni & _ & _ & _ & _ & _ & Nb & Ib & _). rewrite Ed in Ed'. apply Ok_inj in Ed'. subst d.
  exists D. split; [exact ED | ]. exists (item_bodies (rev (d_items (da_draw D)))).
  assert (Er : forall k, item_bodies (rev k) = rev (item_bodies k)).
  { unfold item_bodies. induction k as [ | (n, i) k IH]; cbn [rev flat_map]; [reflexivity | ]. rewrite flat_map_app, rev_app_distr, IH. cbn [flat_map]. rewrite app_nil_r. destruct i; reflexivity. }
  split; [rewrite Er; now apply NoDup_rev | ]. split; [intros b; rewrite Er, <- in_rev; apply Ib | ].
  assert (Ph := phys_world argsort eigvals eig daenim S geo flat fuel h up cs scale update evs D Ep Ni ED). unfold phys_inv, phys_ok in Ph.
  refine (F2_impl _ _ _ _ _ Ph). intros b r Hr m c I0 Hi. unfold sid_of in Hr.
  assert (X : exists s, (if daenim then Some EmptyString else ds_nm S (OFrame (FBody b))) = Some s). { destruct daenim; [eauto | ]. destruct (ds_nm S _); [eauto | ]. exfalso. unfold rigid_of in Hr. destruct (principalframe _ _ _); [ | discriminate]. cbn [rbind] in Hr. destruct (transport _ _ _); [ | discriminate]. cbn [rbind] in Hr. destruct (rotzyx_angles _) as [((z, y), x) | ]; discriminate. }
  destruct X as (s & Es). rewrite Es in Hr. destruct (rigid_spec eigvals eig _ m c I0 s Hi) as (r' & Q & E' & Sd & Mm & Pc & SQ & EI & Nr & Ex & _). rewrite Hr in E'. apply Ok_inj in E'. subst r'.
  split; [exact Mm | ]. split; [exact Pc | ]. split; [intros ->; congruence | ]. exists Q. auto.
Qed.
Print Assumptions C82_physics.

(** what an item becomes, for the Daenim driver *)
Lemma described_string d d' : String.eqb d' d = true <-> d' = d. Proof. apply String.eqb_eq. Qed.
Lemma ellipsoid_covers P N H radii : bot H = zero3 -> hom H = 1 -> dn_mesh N = MSphere -> dn_tfs N = [TMat H; TScale radii] -> forall x, covers P N x <-> in_ellipsoid (mm4 P H) radii x.
Proof.
  intros B Hm Em Et x. unfold covers, in_ellipsoid. rewrite Em, Et, tfs_two. cbn [tf_mat in_mesh]. split; intros (u & A & E); exists u; (split; [exact A | ]); rewrite E, ground_scale; reflexivity.
Qed.
Lemma inertia_made argsort eigvals eig S geo v b c o m cm I0 : made argsort eigvals eig true S geo v (IInertia b c) o -> has_inertia eigvals eig (b_mass (ds_sc S) b) m cm I0 ->
  exists N Q s, o = Some N /\ SO3 Q /\ madd I0 (mscal m (mm (skew cm) (skew cm))) = mm Q (mm (diag3 s) (tr Q)) /\
    (forall P x, covers P N x <-> in_ellipsoid (mm4 P (M4 Q cm zero3 1)) (vscal (op_factor (v_opt v)) s) x) /\
    (exists k, dn_mat N = Some k /\ nth_error (v_mats v) k = Some c) /\ dn_desc N = Some "inertia"%string.
Proof.
  intros (v0 & v1 & Eo & C & X) Hi. cbn [Model_Dae.create_item] in C. rewrite create_inertia_eq in C; unfold create_inertia_base in C. destruct (rigid_spec eigvals eig _ m cm I0 EmptyString Hi) as (r & Q & Er & _ & _ & _ & SQ & EI & _ & _ & EH & ET).
  rewrite Er in C. cbn [rbind] in C. rewrite EH in C. cbn [rbind] in C. rewrite ET in C. cbn [rbind] in C. destruct (ds_nm S _) as [s | ]; [ | discriminate]. destruct (geometry _ _ _ _ _ _) as (N, v2) eqn:G. injection C as <- <-.
  destruct (geometry_spec _ _ _ _ _ _ _ _ G) as (_ & _ & Em & Et & Ds & _). destruct (geometry_color _ _ _ _ _ _ _ _ G) as (k & K1 & K2).
  exists N, Q, (rb_inertia r). split; [reflexivity | ]. split; [exact SQ | ]. split; [exact EI | ]. split; [ | split; [exists k; split; [exact K1 | exact (color_ext _ _ _ _ X K2)] | exact Ds]].
  intros P x. apply ellipsoid_covers; try reflexivity; [exact Em | ]. rewrite Et. cbn [v_opt]. rewrite Eo. assert (Ei : diag_of (M6 (diag3 (rb_inertia r)) zerom3 zerom3 (mscal m eye3)) = rb_inertia r) by (destruct (rb_inertia r); reflexivity). now rewrite Ei.
Qed.
Lemma not_inertia argsort eigvals eig S geo v i o N : made argsort eigvals eig true S geo v i o -> o = Some N -> (forall b c, i <> IInertia b c) ->
  match dn_desc N with Some s => String.eqb s "inertia" | None => false end = false.
Proof.
  intros (v0 & v1 & Eo & C & X) -> Ns. destruct i as [ | p c | b c | s c]; cbn [Model_Dae.create_item] in C.
  - injection C as <- <-. reflexivity.
  - unfold create_line in C. cbv zeta in C. destruct (Rltb _ _); [ | discriminate]. destruct (zaligned_ _ _); [ | discriminate]. cbn [rbind] in C. destruct (geometry _ _ _ _ _ _) as (N', v2) eqn:G. injection C as <- <-.
    destruct (geometry_spec _ _ _ _ _ _ _ _ G) as (_ & _ & _ & _ & -> & _). reflexivity.
  - now destruct (Ns b c).
  - destruct (create_shape _ _ _ _ _ _) as [(N', v2) | ] eqn:G; [ | discriminate]. cbn [rbind] in C. injection C as <- <-.
    assert (Q : dn_desc N' = Some "shape"%string); [ | now rewrite Q].
    destruct (geo s) as [n0 d | | he | l r | r]; cbn [create_shape] in G.
    2-5: apply (f_equal (fun x => match x with Ok y => y | Err _ => (N', v0) end)) in G; destruct (geometry_spec _ _ _ _ _ _ _ _ G) as (_ & _ & _ & _ & -> & _); reflexivity.
    unfold create_plane in G. destruct (zaligned_ _ _) as [H | ]; [ | discriminate]. cbn [rbind] in G. destruct (op_plane _) as (hx, hy). apply (f_equal (fun x => match x with Ok y => y | Err _ => (N', v0) end)) in G.
    destruct (geometry_spec _ _ _ _ _ _ _ _ G) as (_ & _ & _ & _ & -> & _). reflexivity.
Qed.
(** The Daenim driver also shows each of these bodies as an ellipsoid, below its node, centred on the centre of mass: its axes are
    the principal axes of inertia and its radii 5 scale times the principal moments. *)
Theorem C82_ellipsoids : forall argsort eigvals eig S geo flat g0 h t fuel up cs scale update, argsort_ok argsort -> drawable_world S g0 h t fuel cs ->
  writable eigvals eig S geo h t up ->
  exists D, dae_world argsort eigvals eig true S geo flat fuel h up cs scale update = Ok D /\
    exists l, NoDup l /\ (forall b, In b l <-> has_body S t b) /\
      Forall2 (fun b x => forall m c I0, has_inertia eigvals eig (b_mass (ds_sc S) b) m c I0 ->
          exists P Q s k, lies_at S flat (da_draw D) (FBody b) (fst x) P /\ SO3 Q /\ madd I0 (mscal m (mm (skew c) (skew c))) = mm Q (mm (diag3 s) (tr Q)) /\
            (forall y, covers P (snd x) y <-> in_ellipsoid (mm4 P (M4 Q c zero3 1)) (vscal (5 * scale) s) y) /\
            colored D (snd x) k /\ get_color (ds_e S) (ds_nm S) (OFrame (FBody b)) (d_colors (da_draw D)) = Ok (k, d_colors (da_draw D)))
        l (described_as "inertia" D).
Proof.
  intros argsort eigvals eig S geo flat g0 h t fuel up cs scale update Ha Dw Wr.
  destruct (written argsort eigvals eig true S geo flat g0 h t fuel up cs scale update Ha Dw Wr) as (D & ED & (NL & IL & L & _ & _ & Et & Ei & Md & _) & Ed & _ & Eo).
  destruct (drawn S flat g0 h t fuel cs Dw) as (d & evs & Ed' & _ & _ & Po & Fr & _ & _ & _ & Nb & Ib & Bo & _). rewrite Ed in Ed'. apply Ok_inj in Ed'. subst d.
  exists D. split; [exact ED | ]. exists (item_bodies (d_items (da_draw D))). split; [exact Nb | ]. split; [exact Ib | ].
  unfold described_as. rewrite Ei.
  assert (Q : forall n b c o, In (n, IInertia b c, o) IL -> exists N P, o = Some N /\ lies_at S flat (da_draw D) (FBody b) n P /\ dn_desc N = Some "inertia"%string /\ colored D N c /\
     get_color (ds_e S) (ds_nm S) (OFrame (FBody b)) (d_colors (da_draw D)) = Ok (c, d_colors (da_draw D)) /\
     forall m cm I0, has_inertia eigvals eig (b_mass (ds_sc S) b) m cm I0 -> exists Q s, SO3 Q /\ madd I0 (mscal m (mm (skew cm) (skew cm))) = mm Q (mm (diag3 s) (tr Q)) /\
       forall y, covers P N y <-> in_ellipsoid (mm4 P (M4 Q cm zero3 1)) (vscal (5 * scale) s) y).
  { intros n b c o J. assert (J' : In (n, IInertia b c) (d_items (da_draw D))) by (rewrite Et; apply (in_map fst) in J; exact J). destruct (Bo n b c J') as (Fn & Gc).
    assert (Hb : has_body S t b) by (apply Ib; unfold item_bodies; apply in_flat_map; exists (n, IInertia b c); split; [exact J' | now left]).
    destruct (Po (FBody b)) as (n' & P & On & La & SP); [apply Fr; eauto | ]. assert (n' = n) by (destruct La as (La & _); congruence). subst n'.
    destruct (proj2 (proj2 Wr) b Hb) as ((m & cm & I0 & Hi) & _). destruct (inertia_made argsort eigvals eig S geo (da_drv D) b c o m cm I0 (Md _ _ _ J) Hi) as (N & Q0 & s0 & -> & _ & _ & _ & Co & De).
    exists N, P. split; [reflexivity | ]. split; [exact La | ]. split; [exact De | ]. split; [exact Co | ]. split; [exact Gc | ]. intros m' cm' I0' Hi'.
    destruct (inertia_made argsort eigvals eig S geo (da_drv D) b c (Some N) m' cm' I0' (Md _ _ _ J) Hi') as (N' & Q & s & E & SQ & EI & Cv & _). injection E as <-. exists Q, s. split; [exact SQ | ]. split; [exact EI | ]. intros y. rewrite (Cv P y), Eo. reflexivity. }
  assert (Q' : forall n i o N, In (n, i, o) IL -> o = Some N -> (forall b c, i <> IInertia b c) -> match dn_desc N with Some s => String.eqb s "inertia" | None => false end = false).
  { intros n i o N J E Nn. exact (not_inertia argsort eigvals eig S geo (da_drv D) i o N (Md _ _ _ J) E Nn). }
  rewrite Et. clear - Q Q'. induction IL as [ | ((n, i), o) IL IH]; cbn [map item_bodies flat_map filter fst snd]; [constructor | ].
  rewrite filter_app. fold (item_bodies (map fst IL)). apply Forall2_app.
  - destruct i as [ | p c | b c | s c].
    3: { destruct (Q n b c o (or_introl eq_refl)) as (N & P & -> & La & De & Co & Gc & F). unfold inst. cbn [snd fst filter]. rewrite De. cbn [String.eqb Ascii.eqb Bool.eqb]. constructor; [ | constructor]. intros m cm I0 Hi. destruct (F m cm I0 Hi) as (R0 & s & A1 & A2 & A3). exists P, R0, s, c. auto 10. }
    1-3: destruct o as [N | ]; [ | apply Forall2_nil]. 1-3: assert (E := Q' n _ _ N (or_introl eq_refl) eq_refl ltac:(congruence)). 1-3: unfold inst; cbn [snd fst filter]; rewrite E; apply Forall2_nil.
  - apply IH; [intros n' b c o' J; apply Q; now right | intros n' i' o' N J; apply (Q' n'); now right].
Qed.
Print Assumptions C82_ellipsoids.
