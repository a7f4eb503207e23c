(** C81: the collada document shows the shapes of the world. *)
From Coq Require Import Lra Lia Permutation.
From Verif Require Import Spec_Dae Proof_SE3 Proof_Linalg Proof_Coll Props_Angles Props_Mass Props_Color Props_Color2 Proof_Draw Proof_Draw2 Props_Dyn Props_Draw Props_Draw2 Proof_Dae Proof_Dae2 Proof_Dae3 Proof_Dae4.
Open Scope R_scope.

(** the Drawer's scene *)
Lemma drawn S flat g0 h t fuel cs : drawable_world S g0 h t fuel cs ->
  exists d evs, draw_world S flat fuel h cs = Ok d /\ parse (ds_e S) fuel h = Ok (EInit :: evs) /\ ~ In EInit evs /\
    (forall f, in_world (ds_e S) h t f -> exists n P, one_node d (ds_e S) f n /\ lies_at S flat d f n P /\ SE3 P) /\
    (forall f, (exists n, d_frames d f = Some n) <-> in_world (ds_e S) h t f) /\
    NoDup (item_shapes (d_items d)) /\ (forall s, In s (item_shapes (d_items d)) <-> has_shape (ds_e S) h t s) /\
    (forall n s c, In (n, IShape s c) (d_items d) -> d_frames d (shape_frame (ds_e S) s) = Some n /\ get_color (ds_e S) (ds_nm S) (OShape s) (d_colors d) = Ok (c, d_colors d)) /\
    NoDup (item_bodies (d_items d)) /\ (forall b, In b (item_bodies (d_items d)) <-> has_body S t b) /\
    (forall n b c, In (n, IInertia b c) (d_items d) -> d_frames d (FBody b) = Some n /\ get_color (ds_e S) (ds_nm S) (OFrame (FBody b)) (d_colors d) = Ok (c, d_colors d)) /\
    dinv S flat (tree_link h t) d.
Proof.
  intros (R & Rd & Ri & F & (m & nb & N) & Dj & Ds & Iv & (st0 & Up)).
  assert (Dw : drawable S h t) by (split; [exact Dj | intros s A B; apply Ds; split; assumption]).
  destruct (C59_scene S flat g0 h t fuel m nb cs st0 R Rd Ri F N Dw Iv Up) as (d & Ed & Fr & Po & (N1 & S1 & S2) & (N2 & B1 & B2)).
  destruct (C39_poses (ds_e S) (ds_sc S) h t (ds_J S) fuel st0 Rd Ri F) as (sg & sd & dd & Ug & _ & Fp & _). rewrite Up in Ug. apply Ok_inj in Ug. subst sg.
  assert (Pb : flat = true -> forall b, In b (bodies t) -> exists P, a_pose (ds_st S b) = Some P). { intros _ b Ib. destruct (Fp (FBody b) Ib) as (H & _ & E & _). eauto. }
  destruct (draw_ok S flat g0 h t fuel cs R (proj1 Rd) (proj1 (proj2 Rd)) F (new_all_valid _ _ _ N) Pb) as (X & _). destruct (X Dw) as (d' & evs & Ep & Nd & Ed' & D & A & Me). rewrite Ed in Ed'. apply Ok_inj in Ed'. subst d'.
  exists d, evs. split; [exact Ed | ]. split; [exact Ep | ]. split; [now inversion Nd | ]. split.
  { intros f If. destruct (Po f If) as (n & P & On & EP & At). exists n, P. split; [exact On | ]. split.
    - split; [exact (proj1 On) | ]. split; [exact EP | ]. intros Fl Q. rewrite At. destruct f as [b | s | k]; try reflexivity. destruct flat; [ | reflexivity]. exfalso. destruct Fl as [Fl | Fl]; [discriminate | exact (Fl k eq_refl)].
    - destruct (Fp f (proj1 If)) as (H & SH & _ & _ & EH & _). rewrite EP in EH. apply Ok_inj in EH. subst P. apply SE3_mm4; [exact SH | apply Ri]. }
  split; [exact Fr | ]. split; [exact N1 | ]. split; [exact S1 | ]. split; [exact S2 | ]. split; [exact N2 | ]. split; [exact B1 | ]. split; [exact B2 | exact D].
Qed.
Lemma written argsort eigvals eig daenim S geo flat g0 h t fuel up cs scale update : argsort_ok argsort -> drawable_world S g0 h t fuel cs -> writable eigvals eig S geo h t up ->
  exists D, dae_world argsort eigvals eig daenim S geo flat fuel h up cs scale update = Ok D /\ doc_inv argsort eigvals eig daenim S geo D /\ draw_world S flat fuel h cs = Ok (da_draw D) /\
    set_up_axis up = Ok (da_up D) /\ v_opt (da_drv D) = default_options scale.
Proof.
  intros Ha Dw (Up & Ws & Wb). destruct (drawn S flat g0 h t fuel cs Dw) as (d & evs & Ed & Ep & Ni & _ & _ & _ & Is & _ & _ & Ib & _).
  destruct (world_ok argsort eigvals eig daenim S geo Ha flat fuel h up cs scale update evs d Ep Ni Ed Up) as (D & ED).
  - intros s I. apply Ws, Is, I.
  - intros b I. apply Wb, Ib, I.
  - exists D. split; [exact ED | ]. exact (doc_world argsort eigvals eig daenim S geo flat fuel h up cs scale update evs D Ep Ni ED).
Qed.

(** The world is written without an error by both drivers, and the instances of the document that stand for shapes are, one for one,
    the shapes of the world: each one hangs on the node of its frame, which lies at the pose of this frame, covers exactly the points
    of the shape (a point is shown as a ball of radius 0.008 scale, a plane as a square of half side scale around the foot of the
    origin on the plane n.u = d) and has the colour the generator gives to the shape. *)
Theorem C81_shapes : forall argsort eigvals eig daenim S geo flat g0 h t fuel up cs scale update, argsort_ok argsort -> drawable_world S g0 h t fuel cs ->
  writable eigvals eig S geo h t up -> 0 <= scale ->
  exists D, dae_world argsort eigvals eig daenim S geo flat fuel h up cs scale update = Ok D /\
    exists l, NoDup l /\ (forall s, In s l <-> has_shape (ds_e S) h t s) /\
      Forall2 (fun s x => exists P c, lies_at S flat (da_draw D) (shape_frame (ds_e S) s) (fst x) P /\
          drawn_shape (8 / 1000 * scale) scale (geo s) P (snd x) /\
          colored D (snd x) c /\ get_color (ds_e S) (ds_nm S) (OShape s) (d_colors (da_draw D)) = Ok (c, d_colors (da_draw D)))
        l (shape_instances daenim D).
Proof.
  intros argsort eigvals eig daenim S geo flat g0 h t fuel up cs scale update Ha Dw Wr Sc.
  destruct (written argsort eigvals eig daenim S geo flat g0 h t fuel up cs scale update Ha Dw Wr) as (D & ED & (NL & IL & L & _ & _ & Et & Ei & Md & _) & Ed & _ & Eo).
  destruct (drawn S flat g0 h t fuel cs Dw) as (d & evs & Ed' & _ & _ & Po & Fr & Ns & Is & Sh & _). rewrite Ed in Ed'. apply Ok_inj in Ed'. subst d.
  exists D. split; [exact ED | ]. exists (item_shapes (d_items (da_draw D))). split; [exact Ns | ]. split; [exact Is | ].
  unfold shape_instances. rewrite Ei.
  assert (Q : forall n s c o, In (n, IShape s c, o) IL -> exists N P, o = Some N /\ lies_at S flat (da_draw D) (shape_frame (ds_e S) s) n P /\ drawn_shape (8 / 1000 * scale) scale (geo s) P N /\ colored D N c /\
     get_color (ds_e S) (ds_nm S) (OShape s) (d_colors (da_draw D)) = Ok (c, d_colors (da_draw D)) /\ dn_desc N = described daenim "shape").
  { intros n s c o I. assert (I' : In (n, IShape s c) (d_items (da_draw D))) by (rewrite Et; apply (in_map fst) in I; exact I). destruct (Sh n s c I') as (Fn & Gc).
    assert (Hs : has_shape (ds_e S) h t s) by (apply Is; unfold item_shapes; apply in_flat_map; exists (n, IShape s c); split; [exact I' | now left]).
    destruct (Po (shape_frame (ds_e S) s)) as (n' & P & On & La & SP); [apply Fr; eauto | ].
    assert (n' = n) by (destruct La as (La & _); congruence). subst n'.
    destruct (shape_made argsort eigvals eig daenim S geo Ha (da_drv D) s c o P (Md _ _ _ I)) as (N & -> & Dr & Co & De).
    - apply Wr. exact Hs.
    - exact SP.
    - rewrite Eo. cbn. lra.
    - rewrite Eo. cbn. lra.
    - rewrite Eo. reflexivity.
    - rewrite Eo in Dr. cbn [op_point op_plane default_options fst] in Dr. rewrite Rmult_1_l in Dr. exists N, P. split; [reflexivity | ]. split; [exact La | ]. split; [exact Dr | ]. split; [exact Co | ]. split; [exact Gc | exact De]. }
  assert (Q' : forall n i o N, In (n, i, o) IL -> o = Some N -> (forall s c, i <> IShape s c) -> daenim = true /\ match dn_desc N with Some s => String.eqb s "shape" | None => false end = false).
  { intros n i o N I E Nn. exact (not_shape argsort eigvals eig daenim S geo (da_drv D) i o N (Md _ _ _ I) E Nn). }
  rewrite Et. clear - Q Q'. induction IL as [ | ((n, i), o) IL IH]; cbn [map item_shapes flat_map filter fst snd]; [constructor | ].
  rewrite filter_app. fold (item_shapes (map fst IL)). apply Forall2_app.
  - destruct i as [ | p c | b c | s c].
    4: { destruct (Q n s c o (or_introl eq_refl)) as (N & P & -> & La & Dr & Co & Gc & De). unfold inst. cbn [snd fst filter]. rewrite De. unfold described. destruct daenim; cbn [String.eqb Ascii.eqb Bool.eqb]; (constructor; [ | constructor]); exists P, c; auto. }
    1-3: destruct o as [N | ]; [ | apply Forall2_nil].
    1-3: destruct (Q' n _ _ N (or_introl eq_refl) eq_refl ltac:(congruence)) as (Ed & E). 1-3: unfold inst; cbn [snd fst filter]; rewrite Ed, E; apply Forall2_nil.
  - apply IH; [intros n' s c o' J; apply Q; now right | intros n' i' o' N J; apply (Q' n'); now right].
Qed.
Print Assumptions C81_shapes.
