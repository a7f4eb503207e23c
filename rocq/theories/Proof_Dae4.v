(** A world that meets [writable] is written; what the items of the document are. *)
From Coq Require Import Lra Lia Permutation.
From Verif Require Import Spec_Dae Proof_SE3 Proof_Linalg Proof_Coll Props_Angles Props_Mass Proof_Dae Proof_Dae2 Proof_Dae3.
Open Scope R_scope.

Lemma norm_unit u : 0 < norm3 u -> norm3 (vdiv u (norm3 u)) = 1.
Proof.
  intros H. replace (vdiv u (norm3 u)) with (vscal (/ norm3 u) u) by (destruct u; unfold vdiv; unf; unfold Rdiv; f_equal; ring). rewrite norm3_scal, Rabs_right by (apply Rle_ge, Rlt_le, Rinv_0_lt_compat; exact H). apply Rinv_l. lra.
Qed.
Lemma sub_zero p : vsub p zero3 = p. Proof. destruct p. lin. Qed.
Lemma rgb_eqb_true a b : rgb_eqb a b = true <-> a = b.
Proof. destruct a as ((x, y), z), b as ((x', y'), z'). unfold rgb_eqb. rewrite !andb_true_iff, !Reqb_true. split; [intros ((-> & ->) & ->); reflexivity | intros E; injection E as <- <- <-; auto]. Qed.
Lemma color_index_nth c l i : color_index c l = Some i -> nth_error l i = Some c.
Proof.
  revert i. induction l as [ | x l IH]; intros i; cbn; [discriminate | ]. destruct (rgb_eqb x c) eqn:E.
  - intros Q. injection Q as <-. apply rgb_eqb_true in E. now subst.
  - destruct (color_index c l) as [j | ]; [ | discriminate]. cbn. intros Q. injection Q as <-. now apply IH.
Qed.
Lemma geometry_color o c g l ds v N v' : geometry o c g l ds v = (N, v') -> exists m, dn_mat N = Some m /\ nth_error (v_mats v') m = Some c.
Proof.
  unfold geometry. destruct (get_node o v) as (i, v1). unfold material. destruct (color_index c (v_mats v1)) as [k | ] eqn:C; intros E; injection E as <- <-; cbn.
  - exists k. split; [reflexivity | now apply color_index_nth].
  - exists (length (v_mats v1)). split; [reflexivity | ]. rewrite nth_error_app2, Nat.sub_diag by lia. reflexivity.
Qed.
Lemma color_ext v v' m c : ext v v' -> nth_error (v_mats v) m = Some c -> nth_error (v_mats v') m = Some c.
Proof. intros (_ & r & E) H. rewrite E. apply nth_error_app1 with (l' := r) in H || rewrite nth_error_app1; [exact H | ]. apply nth_error_Some. congruence. Qed.

Section Doc.
  Variables (argsort : v3 -> nat * nat * nat) (eigvals : m6 -> list R) (eig : m3 -> v3 * m3) (daenim : bool) (S : dscene) (geo : nat -> geom).
  Notation create_item := (create_item argsort eigvals eig daenim S geo).
  Notation draw_items := (draw_items argsort eigvals eig daenim S geo).
  Notation dae_event := (dae_event argsort eigvals eig daenim S geo).
  Notation dae_events := (dae_events argsort eigvals eig daenim S geo).
  Hypothesis Ha : argsort_ok argsort.

  Definition creatable (i : item) : Prop := forall v, exists o v', create_item i v = Ok (o, v').
  Lemma creatable_line p c : 0 < norm3 p -> creatable (ILine p c).
  Proof.
    intros Hp v. cbn [Model_Dae.create_item]. unfold create_line. destruct daenim; [ | eauto]. cbv zeta. rewrite sub_zero, (proj2 (Rltb_true _ _) Hp).
    destruct (zaligned_ok argsort _ Ha (norm_unit p Hp)) as (H & -> & _). cbn [rbind]. destruct (geometry _ _ _ _ _ _) as (N, v1). eauto.
  Qed.
  Lemma creatable_shape s c : sized (geo s) -> creatable (IShape s c).
  Proof.
    intros Hs v. cbn [Model_Dae.create_item]. destruct (geo s) as [n d | | he | l r | r]; cbn [create_shape sized] in *.
    - unfold create_plane. destruct (zaligned_ok argsort n Ha Hs) as (H & -> & _). cbn [rbind]. destruct (op_plane _) as (hx, hy). destruct (geometry _ _ _ _ _ _) as (N, v1). cbn [rbind]. eauto.
    - destruct (create_point _ _ _ _) as (N, v1). cbn [rbind]. eauto.
    - destruct (create_box _ _ _ _) as (N, v1). cbn [rbind]. eauto.
    - destruct (create_cylinder _ _ _ _) as (N, v1). cbn [rbind]. eauto.
    - destruct (create_sphere _ _ _ _) as (N, v1). cbn [rbind]. eauto.
  Qed.
  Lemma rigid_ok M m c I0 s : has_inertia eigvals eig M m c I0 -> exists r H, rigid_of eigvals eig M (Some s) = Ok r /\ principalframe eigvals eig M = Ok H /\ exists M1, transport eigvals M H = Ok M1.
  Proof.
    intros (TI & -> & Mm & Ev & Eg). destruct (C38_principalframe eigvals eig m c I0 TI Mm Ev Eg) as (H & s0 & M1 & EH & SH & _ & ET & _). unfold rigid_of. rewrite EH. cbn [rbind]. rewrite ET. cbn [rbind].
    destruct (C29_band_error H SH) as (((z, y), x) & -> & _). cbn [rbind]. eexists _, H. split; [reflexivity | ]. split; [reflexivity | ]. exists M1. exact ET.
  Qed.
  Lemma creatable_inertia b c m com I0 : has_inertia eigvals eig (b_mass (ds_sc S) b) m com I0 -> ds_nm S (OFrame (FBody b)) <> None -> creatable (IInertia b c).
  Proof.
    intros Hi Hn v. cbn [Model_Dae.create_item]. rewrite create_inertia_eq. destruct (ds_nm S _) as [s | ]; [ | congruence]. destruct daenim.
    - unfold create_inertia_base. destruct (rigid_ok _ _ _ _ EmptyString Hi) as (r & H & -> & -> & M1 & ET). cbn [rbind]. rewrite ET. cbn [rbind]. destruct (geometry _ _ _ _ _ _) as (N, v1). eauto.
    - unfold create_inertia_base. destruct (rigid_ok _ _ _ _ s Hi) as (r & H & -> & _). cbn [rbind]. eauto.
  Qed.
  Lemma items_ok l : (forall n i, In (n, i) l -> creatable i) -> forall its v, exists its' v', draw_items l its v = Ok (its', v').
  Proof.
    induction l as [ | (n, i) l IH]; intros C its v; cbn [Model_Dae.draw_items]; [eauto | ]. destruct (C n i (or_introl eq_refl) v) as (o & v1 & ->). cbn [rbind]. apply IH. intros n' i' I. apply (C n'). now right.
  Qed.
  Lemma draw_grows_all flat evs : forall d d', ~ In EInit evs -> draw_events S flat evs d = Ok d' -> exists l k, d_nodes d' = l ++ d_nodes d /\ d_items d' = k ++ d_items d /\ lines_ok k.
  Proof.
    induction evs as [ | ev evs IH]; intros d d' Ni E; cbn [draw_events] in E.
    - injection E as <-. exists [], []. auto using lines_nil.
    - destruct (draw_event S flat ev d) as [d1 | ] eqn:E1; [ | discriminate]. cbn [rbind] in E. destruct (draw_grows S flat ev d d1) as (l & k & A1 & A2 & A3); [intros ->; apply Ni; now left | exact E1 | ].
      destruct (IH d1 d') as (l' & k' & B1 & B2 & B3); [intros A; apply Ni; now right | exact E | ]. exists (l' ++ l), (k' ++ k). rewrite B1, B2, A1, A2, !app_assoc. auto using lines_app.
  Qed.
  Lemma events_ok flat evs : forall D d, ~ In EInit evs -> draw_events S flat evs (da_draw D) = Ok d -> (forall n i, In (n, i) (d_items d) -> creatable i) -> exists D', dae_events flat evs D = Ok D'.
  Proof.
    induction evs as [ | ev evs IH]; intros D d Ni E C; cbn [draw_events Model_Dae.dae_events] in *; [eauto | ].
    destruct (draw_event S flat ev (da_draw D)) as [d1 | ] eqn:E1; [ | discriminate]. cbn [rbind] in E. unfold Model_Dae.dae_event. rewrite E1. cbn [rbind].
    destruct (number_nodes S _ _ _) as (ids, v1). destruct (draw_grows_all flat evs d1 d) as (l' & k' & _ & B2 & _); [intros A; apply Ni; now right | exact E | ].
    destruct (items_ok (added (d_items (da_draw D)) (d_items d1))) with (its := da_items D) (v := v1) as (its & v2 & ->).
    { intros n i I. apply (C n). rewrite B2. apply in_or_app. right. unfold added in I. apply in_rev in I. rewrite <- (firstn_skipn (length (d_items d1) - length (d_items (da_draw D))) (d_items d1)). apply in_or_app. now left. }
    cbn [rbind]. apply (IH _ d); [intros A; apply Ni; now right | exact E | exact C].
  Qed.
  Lemma world_ok flat fuel h up cs scale update evs d : parse (ds_e S) fuel h = Ok (EInit :: evs) -> ~ In EInit evs -> draw_world S flat fuel h cs = Ok d -> up_ok up ->
    (forall s, In s (item_shapes (d_items d)) -> sized (geo s)) ->
    (forall b, In b (item_bodies (d_items d)) -> (exists m c I0, has_inertia eigvals eig (b_mass (ds_sc S) b) m c I0) /\ ds_nm S (OFrame (FBody b)) <> None) ->
    exists D, dae_world argsort eigvals eig daenim S geo flat fuel h up cs scale update = Ok D.
  Proof.
    intros Ep Ni Ed Up Hs Hb. unfold dae_world. assert (U : exists a, set_up_axis up = Ok a).
    { unfold set_up_axis. destruct (v3eqb up (V3 1 0 0)) eqn:E0; [eauto | ]. destruct (v3eqb up (V3 0 1 0)) eqn:E1; [eauto | ]. destruct (v3eqb up (V3 0 0 1)) eqn:E2; [eauto | ].
      exfalso. destruct Up as [-> | [-> | ->]]; [rewrite (proj2 (v3eqb_true _ _) eq_refl) in E0 | rewrite (proj2 (v3eqb_true _ _) eq_refl) in E1 | rewrite (proj2 (v3eqb_true _ _) eq_refl) in E2]; discriminate. }
    destruct U as (a & ->). cbn [rbind]. unfold draw_world in Ed. rewrite Ep in *. cbn [rbind] in *. cbn [draw_events draw_event rbind] in Ed. cbn [Model_Dae.dae_events]. unfold Model_Dae.dae_event. cbn [draw_event rbind da_draw new_draw d_nodes d_items d_moving d_colors]. unfold added. cbn [length Nat.sub firstn rev number_nodes Model_Dae.draw_items rbind da_ids da_items da_drv da_up].
    assert (Gr := draw_grows_all flat evs _ _ Ni Ed). destruct Gr as (l & k & _ & Gk & Lk). cbn [d_items] in Gk. rewrite app_nil_r in Gk.
    refine (events_ok flat evs _ d Ni _ _); [exact Ed | ]. intros n i I. destruct i as [ | p c | b c | s c].
    - intros v. cbn. eauto.
    - apply creatable_line. rewrite Gk in I. exact (Lk _ _ _ I).
    - destruct (Hb b) as ((m & cm & I0 & Hi) & Hn); [ | exact (creatable_inertia b c _ _ _ Hi Hn)]. unfold item_bodies. apply in_flat_map. exists (n, IInertia b c). split; [exact I | now left].
    - apply creatable_shape, Hs. unfold item_shapes. apply in_flat_map. exists (n, IShape s c). split; [exact I | now left].
  Qed.

  (** what a shape becomes *)
  Lemma shape_made v s c o P : made argsort eigvals eig daenim S geo v (IShape s c) o -> sized (geo s) -> SE3 P -> 0 <= op_point (v_opt v) -> 0 <= fst (op_plane (v_opt v)) -> snd (op_plane (v_opt v)) = fst (op_plane (v_opt v)) ->
    exists N, o = Some N /\ drawn_shape (op_point (v_opt v)) (fst (op_plane (v_opt v))) (geo s) P N /\ (exists m, dn_mat N = Some m /\ nth_error (v_mats v) m = Some c) /\ dn_desc N = described daenim "shape".
  Proof.
    intros (v0 & v1 & Eo & C & X) Hs SP H1 H2 H3. cbn [Model_Dae.create_item] in C. destruct (create_shape _ _ _ _ _ _) as [(N, w) | ] eqn:G; [ | discriminate]. cbn [rbind] in C. injection C as <- <-. exists N. split; [reflexivity | ].
    assert (Col : forall o1 g l, geometry o1 c g l (described daenim "shape") v0 = (N, w) -> dn_mesh N = g /\ dn_tfs N = l /\ (exists m, dn_mat N = Some m /\ nth_error (v_mats v) m = Some c) /\ dn_desc N = described daenim "shape").
    { intros o1 g l E. destruct (geometry_spec _ _ _ _ _ _ _ _ E) as (_ & _ & -> & -> & -> & _). destruct (geometry_color _ _ _ _ _ _ _ _ E) as (m & E1 & E2). split; [reflexivity | ]. split; [reflexivity | ]. split; [ | reflexivity]. exists m. split; [exact E1 | exact (color_ext _ _ _ _ X E2)]. }
    destruct (geo s) as [n d | | he | l r | r]; cbn [create_shape sized drawn_shape] in *.
    - unfold create_plane in G. destruct (zaligned_ok argsort n Ha Hs) as (H & EH & SH & ZH & PH). rewrite EH in G. cbn [rbind] in G. destruct (op_plane (v_opt v0)) as (hx, hy) eqn:Op. apply (f_equal (fun x => match x with Ok y => y | Err _ => (N, v0) end)) in G.
      destruct (Col _ _ _ G) as (Em & Et & Ec). split; [ | exact Ec]. rewrite <- Eo, Op in H2, H3 |- *. cbn [fst snd] in *. subst hy.
      destruct (plane_covers P N n d H hx hx SH ZH H2 H2 Em Et) as (Tr & Cv). eauto.
    - apply (f_equal (fun x => match x with Ok y => y | Err _ => (N, v0) end)) in G. destruct (Col _ _ _ G) as (Em & Et & Ec). split; [ | exact Ec]. rewrite Eo in Et. now apply sphere_covers.
    - apply (f_equal (fun x => match x with Ok y => y | Err _ => (N, v0) end)) in G. destruct (Col _ _ _ G) as (Em & Et & Ec). split; [ | exact Ec]. now apply box_covers.
    - apply (f_equal (fun x => match x with Ok y => y | Err _ => (N, v0) end)) in G. destruct (Col _ _ _ G) as (Em & Et & Ec). split; [ | exact Ec]. now apply cylinder_covers.
    - apply (f_equal (fun x => match x with Ok y => y | Err _ => (N, v0) end)) in G. destruct (Col _ _ _ G) as (Em & Et & Ec). split; [ | exact Ec]. now apply sphere_covers.
  Qed.
  Lemma not_shape v i o N : made argsort eigvals eig daenim S geo v i o -> o = Some N -> (forall s c, i <> IShape s c) ->
    daenim = true /\ match dn_desc N with Some s => String.eqb s "shape" | None => false end = false.
  Proof.
    intros (v0 & v1 & Eo & C & X) -> Ns. destruct i as [ | p c | b c | s c]; cbn [Model_Dae.create_item] in C.
    - unfold create_arrows in C. destruct daenim; [ | discriminate]. injection C as <- <-. auto.
    - unfold create_line in C. destruct daenim; [ | discriminate]. cbv zeta in C. destruct (Rltb _ _); [ | discriminate]. destruct (zaligned_ _ _); [ | discriminate]. cbn [rbind] in C. destruct (geometry _ _ _ _ _ _) as (N', v2) eqn:G. injection C as <- <-.
      destruct (geometry_spec _ _ _ _ _ _ _ _ G) as (_ & _ & _ & _ & -> & _). auto.
    - rewrite create_inertia_eq in C. destruct daenim.
      + destruct (create_inertia_base _ _ _ _ _) as [w | ]; [ | discriminate]. cbn [rbind] in C. destruct (principalframe _ _ _); [ | discriminate]. cbn [rbind] in C. destruct (transport _ _ _); [ | discriminate]. cbn [rbind] in C. destruct (ds_nm S _); [ | discriminate].
        destruct (geometry _ _ _ _ _ _) as (N', v2) eqn:G. injection C as <- <-. destruct (geometry_spec _ _ _ _ _ _ _ _ G) as (_ & _ & _ & _ & -> & _). auto.
      + destruct (create_inertia_base _ _ _ _ _) as [w | ]; [ | discriminate]. discriminate.
    - now destruct (Ns s c).
  Qed.
End Doc.
