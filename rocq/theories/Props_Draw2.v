(** C59, continued: where the nodes lie. *)
From Coq Require Import Lra Lia.
From Verif Require Import Spec_Draw Spec_Dyn Spec_Sim Proof_SE3 Props_Color Props_Color2.
From Verif Require Import Proof_Linalg Proof_Tree Proof_World Proof_World2 Proof_World3 Proof_Register Proof_World4 Proof_Draw Proof_Draw2 Props_Dyn Props_Draw.
Open Scope R_scope.

(** the frames of the world: those of the bodies of the tree *)
Definition in_world (e : env) (h : @heap R) (t : tree) (f : frame) : Prop := In (frame_body e f) (bodies t) /\ known h f.

Lemma frames_drawn S flat g0 h t d evs : reachable 0 (ds_e S) g0 h -> rep (ds_e S) h t -> root t = ground (ds_e S) ->
  ainv S (EInit :: evs) d ->  dinv S flat (tree_link h t) d ->
  (forall ev, In ev evs <-> match ev with
      | EInit => False
      | ELink f0 j f1 => In j (joints t) /\ jframes h j = Some (f0, f1)
      | ERegFrame f => In (frame_body (ds_e S) f) (bodies t) /\ known h f
      | ERegShape s => In s (w_shapes h) /\ In (frame_body (ds_e S) (shape_frame (ds_e S) s)) (bodies t)
      | ERegConstraint c => In c (w_constraints h)
      | ERegController a => In a (w_controllers h)
      end) -> forall f, d_frames d f <> None <-> in_world (ds_e S) h t f.
Proof.
  intros R Rt Er A D Me f. split.
  - intros Hf. destruct (a6 _ _ _ A f Hf) as [-> | [[Q | Hin] | (k0 & i & k1 & [Q | Hin] & E)]]; try discriminate.
    + split; [ | exact Logic.I]. cbn. rewrite <- Er, bodies_tail. now left.
    + exact (proj1 (Me _) Hin).
    + assert (Lk := proj1 (Me _) Hin). cbn in Lk. destruct (link_bodies _ _ _ _ _ _ Rt Lk) as (_ & I1 & Pj). assert (Ib : In (frame_body (ds_e S) k1) (bodies t)) by (rewrite bodies_tail; now right).
      destruct E as [-> | ->]; [ | split; [exact Ib | exact Logic.I]]. split; [exact Ib | ].
      destruct Lk as (Ij & Ef). destruct (subtree_joint t i Ij) as (b & ks & u & Su & Iu). assert (Rb := subtree_rep (ds_e S) h _ _ Su Rt). apply rep_inv in Rb. destruct Rb as (Eb & _). cbn in Eb.
      refine (proj2 (reachable_frames_known 0 (ds_e S) g0 h R b i k0 k1 _ Ef)). rewrite Eb. change i with (fst (i, u)). now apply in_map.
  - intros (Ib & Kn). apply (a2 _ _ _ A). right. apply Me. split; assumption.
Qed.

Lemma item_shapes_in l s : In s (item_shapes l) <-> exists n c, In (n, IShape s c) l.
Proof.
  unfold item_shapes. rewrite in_flat_map. split.
  - intros ((n, i) & Hi & Hs). destruct i; cbn in Hs; try destruct Hs as [ | []]; try contradiction. subst. eauto.
  - intros (n & c & Hi). exists (n, IShape s c). split; [exact Hi | now left].
Qed.
Lemma item_bodies_in l s : In s (item_bodies l) <-> exists n c, In (n, IInertia s c) l.
Proof.
  unfold item_bodies. rewrite in_flat_map. split.
  - intros ((n, i) & Hi & Hs). destruct i; cbn in Hs; try destruct Hs as [ | []]; try contradiction. subst. eauto.
  - intros (n & c & Hi). exists (n, IInertia s c). split; [exact Hi | now left].
Qed.
Lemma reg_shapes_in l s : In s (reg_shapes l) <-> In (ERegShape s) l.
Proof.
  unfold reg_shapes. rewrite in_flat_map. split.
  - intros (ev & Hi & Hs). destruct ev; cbn in Hs; try destruct Hs as [ | []]; try contradiction. now subst.
  - intros Hi. exists (ERegShape s). split; [exact Hi | now left].
Qed.
Lemma reg_bodies_in S l b : In b (reg_bodies S l) <-> In (ERegFrame (FBody b)) l /\ 10 / 100000000 < norm66 (b_mass (ds_sc S) b).
Proof.
  unfold reg_bodies. rewrite in_flat_map. split.
  - intros (ev & Hi & Hs). destruct ev as [ | | [k | k | k] | | | ]; cbn in Hs; try contradiction. destruct (Rltb _ _) eqn:Q; [ | destruct Hs]. destruct Hs as [<- | []]. apply Rltb_true in Q. auto.
  - intros (Hi & Hm). exists (ERegFrame (FBody b)). split; [exact Hi | ]. cbn. rewrite (proj2 (Rltb_true _ _) Hm). now left.
Qed.
Lemma nodup_reg_shapes l : NoDup l -> NoDup (reg_shapes l).
Proof.
  induction 1 as [ | ev l N D IH]; [constructor | ]. destruct ev; cbn [reg_shapes flat_map app]; try exact IH. fold (reg_shapes l). constructor; [ | exact IH]. now rewrite reg_shapes_in.
Qed.
Lemma nodup_reg_bodies S l : NoDup l -> NoDup (reg_bodies S l).
Proof.
  induction 1 as [ | ev l N D IH]; [constructor | ]. destruct ev as [ | | [k | k | k] | | | ]; cbn [reg_bodies flat_map app]; try exact IH. destruct (Rltb _ _); cbn [app]; [ | exact IH]. fold (reg_bodies S l). constructor; [ | exact IH]. rewrite reg_bodies_in. tauto.
Qed.

(** The scene drawn by [world.parse(drawer)], the poses of the bodies being up to date: it has exactly one node for each frame of the
    world, which lies at the pose of this frame (in flat mode a MovingSubFrame lies at its pose in its body instead); each shape is
    drawn once, below the node of its frame and in its own colour; each body which has a mass is drawn once, below its node. *)
Theorem C59_scene : forall S flat g0 h t fuel m nb cs st0, reachable 0 (ds_e S) g0 h -> ready (ds_e S) h t -> rigid_scene (ds_e S) (ds_sc S) t (ds_J S) ->
  (height t < fuel)%nat -> new_colors m nb = Ok cs -> drawable S h t -> inv4_spec (ds_inv S) ->
  world_update_geometric (ds_e S) (ds_sc S) h (ds_J S) fuel st0 = Ok (ds_st S) ->
  exists d, draw_world S flat fuel h cs = Ok d /\
    (forall f, (exists n, d_frames d f = Some n) <-> in_world (ds_e S) h t f) /\
    (forall f, in_world (ds_e S) h t f -> exists n P, one_node d (ds_e S) f n /\ frame_pose (ds_e S) (ds_sc S) (ds_st S) f = Ok P /\
        forall Q, at_pose n_pose (d_nodes d) n Q <-> Q = match f with FMov k => if flat then mov_bpose (ds_sc S) k else P | _ => P end) /\
    (NoDup (item_shapes (d_items d)) /\
     (forall s, In s (item_shapes (d_items d)) <-> In s (w_shapes h) /\ In (frame_body (ds_e S) (shape_frame (ds_e S) s)) (bodies t)) /\
     (forall n s c, In (n, IShape s c) (d_items d) -> d_frames d (shape_frame (ds_e S) s) = Some n /\ get_color (ds_e S) (ds_nm S) (OShape s) (d_colors d) = Ok (c, d_colors d))) /\
    (NoDup (item_bodies (d_items d)) /\
     (forall b, In b (item_bodies (d_items d)) <-> In b (bodies t) /\ 10 / 100000000 < norm66 (b_mass (ds_sc S) b)) /\
     (forall n b c, In (n, IInertia b c) (d_items d) -> d_frames d (FBody b) = Some n /\ get_color (ds_e S) (ds_nm S) (OFrame (FBody b)) (d_colors d) = Ok (c, d_colors d))).
Proof.
  intros S flat g0 h t fuel m nb cs st0 R Rd Ri F N Dw Iv Up. assert (Rt := proj1 Rd). assert (Er := proj1 (proj2 Rd)).
  destruct (C39_poses (ds_e S) (ds_sc S) h t (ds_J S) fuel st0 Rd Ri F) as (sg & sd & dd & Ug & _ & Fp & Gp & Jp & _). rewrite Up in Ug. apply Ok_inj in Ug. subst sg.
  assert (Po : flat = true -> forall b, In b (bodies t) -> exists P, a_pose (ds_st S b) = Some P). { intros _ b Ib. destruct (Fp (FBody b) Ib) as (H & _ & E & _). eauto. }
  destruct (draw_ok S flat g0 h t fuel cs R Rt Er F (new_all_valid _ _ _ N) Po) as (X & _). destruct (X Dw) as (d & evs & Ep & Nd & Ed & D & A & Me). clear X.
  assert (Fr := frames_drawn S flat g0 h t d evs R Rt Er A D Me).
  exists d. split; [exact Ed | ]. split.
  { intros f. rewrite <- Fr. destruct (d_frames d f); split; try (intros (? & ?)); try congruence; eauto. }
  split.
  { intros f If. destruct (one_node_of _ _ _ _ f D (proj2 (Fr f) If)) as (n & On). destruct (Fp f (proj1 If)) as (H & SH & EH & _ & EP & _). exists n, (mm4 H (bpose (ds_sc S) f)). split; [exact On | ]. split; [exact EP | ].
    set (P0 := match f with FMov k => if flat then mov_bpose (ds_sc S) k else mm4 H (bpose (ds_sc S) f) | _ => mm4 H (bpose (ds_sc S) f) end).
    assert (HP : at_pose n_pose (d_nodes d) n P0).
    { assert (Base : forall f P n, d_frames d f = Some n -> frame_pose (ds_e S) (ds_sc S) (ds_st S) f = Ok P -> (forall k, f = FMov k -> flat = true -> False) -> at_pose n_pose (d_nodes d) n P).
      { intros f' P' n' Ef' EP' Nm. refine (node_poses S flat h t d (ds_sc S) (ds_st S) (ds_J S) n_pose D Rt _ (proj1 Ri) Iv Gp _ _ _ n' f' P' Ef' EP' _).
        - intros g Hg. exact (proj1 (proj1 (Fr g) Hg)).
        - intros g Ig. destruct (Fp g Ig) as (Hg & ? & ? & _ & ? & _). eauto.
        - intros f0 j f1 (Ij & Ef). destruct (Jp j f0 f1 Ij Ef) as (F0 & F1 & _ & _ & E0 & E1 & ->). eauto.
        - intros k x Ik. destruct (s1 _ _ _ _ _ _ (proj1 D) k x Ik) as (_ & _ & _ & pf & _ & Pl). unfold config_of.
          destruct Pl as [(Fl & j & Lk & Ek & Epo) | [(Fl & s & -> & En & Ek & Epo) | [(s & En & -> & Ek & Epo) | [(mm & En & Epf' & Ek & Epo) | (Fl & b & En & -> & Ek & Epo)]]]].
          + split; [ | split; [congruence | split; [congruence | split; [ | congruence]]]].
            * intros pf' j' _ Lk' _. destruct (link_bodies _ _ _ _ _ _ Rt Lk) as (_ & _ & Q1). destruct (link_bodies _ _ _ _ _ _ Rt Lk') as (_ & _ & Q2). rewrite Q1 in Q2. injection Q2 as <-. exact Epo.
            * intros mm _ Em _. rewrite Em in Lk. destruct Lk as (Ij & Ef). exfalso. exact (proj1 Dw _ _ _ Ij Ef).
          + split; [congruence | ]. split; [ | split; [ | split; congruence]].
            * intros s' _ E' _ Ep'. exact Ep'.
            * intros s' E'. rewrite En in E'. discriminate.
          + split; [congruence | ]. split; [intros s' _ E'; rewrite En in E'; discriminate | ]. split; [ | split; [congruence | ]].
            * intros s' E' _ Ep'. exact Ep'.
            * congruence.
          + split; [ | split; [congruence | split; [congruence | split]]].
            * intros pf' j' _ Lk' _. rewrite En in Lk'. destruct Lk' as (Ij & Ef). exfalso. exact (proj1 Dw _ _ _ Ij Ef).
            * intros m' _ E' _. rewrite En in E'. injection E' as <-. exact Epo.
            * intros b _ E'. rewrite En in E'. discriminate.
          + split; [congruence | ]. split; [congruence | ]. split; [congruence | ]. split; [congruence | ]. intros b' _ E' _. rewrite En in E'. injection E' as <-. exact Epo.
        - intros m' E' Fl'. destruct (Nm m' E' Fl'). }
      destruct On as (Ef & On). destruct f as [b | s | k]; try (apply (Base _ _ _ Ef EP); discriminate).
      unfold P0. destruct flat eqn:Fl; [ | apply (Base _ _ _ Ef EP); intros; discriminate].
      destruct On as [(Q & _) | (x & Ix & Ex & _)]; [discriminate | ]. destruct (s1 _ _ _ _ _ _ (proj1 D) n x Ix) as (_ & _ & _ & pf & Epf & Pl).
      destruct Pl as [(Q & _) | [(Q & _) | [(s & En & _) | [(mm & En & Epf' & Ek & Epo) | (_ & b & En & _)]]]]; try congruence.
      rewrite Ex in En. injection En as <-. rewrite Epf' in Epf. rewrite (s0 _ _ _ _ _ _ (proj1 D)) in Epf. injection Epf as Ep0. rewrite <- Epo, <- (eye_l (n_pose x)). apply at_child; [exact Ix | ]. rewrite <- Ep0. constructor. }
    intros Q. split; [intros HQ; exact (at_pose_fun _ _ _ _ _ _ _ _ D HQ HP) | intros ->; exact HP]. }
  split.
  { split; [rewrite (a4 _ _ _ A); apply NoDup_rev, nodup_reg_shapes, Nd | ]. split.
    - intros s. rewrite (a4 _ _ _ A), <- in_rev, reg_shapes_in. split; [intros [Q | Hs]; [discriminate | exact (proj1 (Me _) Hs)] | intros Hs; right; exact (proj2 (Me (ERegShape s)) Hs)].
    - intros n s c Hi. destruct (i1 _ _ _ _ _ (proj2 D) n s c Hi) as (E1 & E2). split; [exact E1 | ]. now rewrite get_lookup, E2. }
  split; [rewrite (a5 _ _ _ A); apply NoDup_rev, nodup_reg_bodies, Nd | ]. split.
  - intros b. rewrite (a5 _ _ _ A), <- in_rev, reg_bodies_in. split; intros (H1 & H2); (split; [ | exact H2]).
    + destruct H1 as [Q | H1]; [discriminate | exact (proj1 (proj1 (Me _) H1))].
    + right. apply (Me (ERegFrame (FBody b))). split; [exact H1 | exact Logic.I].
  - intros n b c Hi. destruct (i2 _ _ _ _ _ (proj2 D) n b c Hi) as (E1 & E2). split; [exact E1 | ]. now rewrite get_lookup, E2.
Qed.
Print Assumptions C59_scene.
