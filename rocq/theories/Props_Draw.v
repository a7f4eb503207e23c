(** C59: the drawn scene graph matches the world. *)
From Coq Require Import Lra Lia.
From Verif Require Import Spec_Draw Spec_Dyn Proof_SE3 Props_Color Props_Color2.
From Verif Require Import Proof_Linalg Proof_Tree Proof_World Proof_World2 Proof_World3 Proof_Register Proof_World4 Proof_Draw Proof_Draw2 Props_Dyn.
Open Scope R_scope.

(** the joints of the tree and their frames *)
Definition tree_link (h : @heap R) (t : tree) (f0 : frame) (j : nat) (f1 : frame) : Prop := In j (joints t) /\ jframes h j = Some (f0, f1).
(** a world that can be drawn: no joint ends at a MovingSubFrame, each shape is of one of the five classes *)
Definition drawable (S : dscene) (h : @heap R) (t : tree) : Prop :=
  (forall j f0 m, In j (joints t) -> jframes h j <> Some (f0, FMov m)) /\
  (forall s, In s (w_shapes h) -> In (frame_body (ds_e S) (shape_frame (ds_e S) s)) (bodies t) -> ds_known S s = true).

Lemma link_bodies e h t f0 j f1 : rep e h t -> tree_link h t f0 j f1 -> In (frame_body e f0) (bodies t) /\ In (frame_body e f1) (tailb t) /\ parentjoint h (frame_body e f1) = Some j.
Proof.
  intros R (Ij & Ef). destruct (rep_joint_edge e h t j R Ij) as (p & c & ((g0 & g1 & Eg & <- & <-) & Pj) & Ip & Ic). rewrite Ef in Eg. injection Eg as <- <-. auto.
Qed.

(** the whole drawing *)
Lemma draw_ok S flat g0 h t fuel cs : reachable 0 (ds_e S) g0 h -> rep (ds_e S) h t -> root t = ground (ds_e S) -> (height t < fuel)%nat -> all_valid cs ->
  (flat = true -> forall b, In b (bodies t) -> exists P, a_pose (ds_st S b) = Some P) ->
  (drawable S h t -> exists d evs, parse (ds_e S) fuel h = Ok (EInit :: evs) /\ NoDup (EInit :: evs) /\ draw_world S flat fuel h cs = Ok d /\ dinv S flat (tree_link h t) d /\ ainv S (EInit :: evs) d /\
     (forall ev, In ev evs <-> match ev with
      | EInit => False
      | ELink f0 j f1 => In j (joints t) /\ jframes h j = Some (f0, f1)
      | ERegFrame f => In (frame_body (ds_e S) f) (bodies t) /\ known h f
      | ERegShape s => In s (w_shapes h) /\ In (frame_body (ds_e S) (shape_frame (ds_e S) s)) (bodies t)
      | ERegConstraint c => In c (w_constraints h)
      | ERegController a => In a (w_controllers h)
      end)) /\
  (~ drawable S h t -> draw_world S flat fuel h cs = Err ValueError).
Proof.
  intros R Rt Er F V Po. destruct (parse_all 0 (ds_e S) g0 h R) as (t' & Rt' & Er' & H). assert (t' = t) by (apply (rep_unique (ds_e S) h t' t Rt' Rt); congruence). subst t'.
  destruct (H fuel F) as (evs & Ep & Nd & Me & _ & Or). clear H.
  assert (ND : NoDup (bodies t)). { destruct (world_iterators (ds_e S) h (reachable_forest 0 _ _ _ R)) as (t2 & R2 & E2 & N2 & _). assert (t2 = t) by (apply (rep_unique (ds_e S) h t2 t R2 Rt); congruence). now subst. }
  unfold draw_world. rewrite Ep. cbn [rbind]. cbn [draw_events].
  destruct (init_dinv S flat (tree_link h t) cs (new_draw cs) V eq_refl) as (d0 & -> & D0 & A0). cbn [rbind].
  assert (Run := events_run S flat (tree_link h t)). specialize (Run ltac:(intros Fl f0 j f1 Lk; apply (Po Fl); destruct (link_bodies _ _ _ _ _ _ Rt Lk) as (_ & I1 & _); rewrite bodies_tail; now right) evs [EInit] d0 D0 A0).
  assert (Cond : forall a' ev b, evs = a' ++ ev :: b -> prereq (ds_e S) ([EInit] ++ a') ev /\ fresh_link S (tree_link h t) ([EInit] ++ a') ev).
  { intros a' ev b E. split.
    - refine (Or ([EInit] ++ a') ev b _). now rewrite E.
    - assert (Iev : In ev evs) by (rewrite E; apply in_or_app; right; now left). destruct ev as [ | f0 j f1 | | | | ]; cbn [fresh_link]; auto.
      + inversion Nd; subst. contradiction.
      + assert (Lk := proj1 (Me _) Iev). cbn in Lk. destruct (link_bodies _ _ _ _ _ _ Rt Lk) as (_ & I1 & Pj). split; [exact Lk | ]. split.
        * intros Eg. rewrite bodies_tail, Er in ND. apply NoDup_cons_iff in ND. apply (proj1 ND). now rewrite <- Eg.
        * intros k0 i k1 Hin Eq. assert (In (ELink k0 i k1) evs) as Hin'. { destruct Hin as [Q | Hin]; [discriminate | ]. rewrite E. apply in_or_app. now left. }
          assert (Lk' := proj1 (Me _) Hin'). cbn in Lk'. destruct (link_bodies _ _ _ _ _ _ Rt Lk') as (_ & _ & Pj'). rewrite Eq, Pj in Pj'. injection Pj' as <-.
          assert (k0 = f0 /\ k1 = f1) as (-> & ->) by (destruct Lk as (_ & Lk), Lk' as (_ & Lk'); rewrite Lk in Lk'; injection Lk'; auto).
          assert (Nd' : NoDup ((EInit :: a') ++ ELink f0 j f1 :: b)) by (rewrite E in Nd; exact Nd). apply NoDup_remove_2 in Nd'. apply Nd'. apply in_or_app. left. exact Hin. }
  specialize (Run Cond). split.
  - intros (Dr1 & Dr2). assert (Fa : forallb (ok_event S) evs = true).
    { apply forallb_forall. intros ev Iev. apply Me in Iev. destruct ev as [ | f0 j [b | s | m] | f | s | c | c]; cbn; auto.
      - exfalso. destruct Iev as (Ij & Ef). exact (Dr1 j f0 m Ij Ef).
      - destruct Iev. auto. }
    rewrite Fa in Run. destruct Run as (d & E & D & A). exists d, evs. split; [reflexivity | ]. auto.
  - intros Nd'. destruct (forallb (ok_event S) evs) eqn:Fa; [ | exact Run]. exfalso. apply Nd'. rewrite forallb_forall in Fa. split.
    + intros j f0 m Ij Ef. assert (Q := Fa (ELink f0 j (FMov m)) (proj2 (Me (ELink f0 j (FMov m))) (conj Ij Ef))). discriminate.
    + intros s Is Ib. exact (Fa (ERegShape s) (proj2 (Me (ERegShape s)) (conj Is Ib))).
Qed.

(** Drawing a world through World.parse never looks up a missing node (KeyError); it fails (ValueError) exactly when a joint ends at a
    MovingSubFrame or when a shape is of no known class. *)
Theorem C59_never_missing : forall S flat g0 h t fuel m nb cs, reachable 0 (ds_e S) g0 h -> rep (ds_e S) h t -> root t = ground (ds_e S) -> (height t < fuel)%nat ->
  new_colors m nb = Ok cs -> (flat = true -> forall b, In b (bodies t) -> exists P, a_pose (ds_st S b) = Some P) ->
  (drawable S h t -> exists d, draw_world S flat fuel h cs = Ok d) /\ (~ drawable S h t -> draw_world S flat fuel h cs = Err ValueError).
Proof.
  intros S flat g0 h t fuel m nb cs R Rt Er F N Po. destruct (draw_ok S flat g0 h t fuel cs R Rt Er F (new_all_valid _ _ _ N) Po) as (A & B).
  split; [ | exact B]. intros D. destruct (A D) as (d & _ & _ & _ & E & _). eauto.
Qed.
Print Assumptions C59_never_missing.

(** the nodes: one for each frame of the world *)
Definition one_node (d : draw) (e : env) (f : frame) (n : nat) : Prop :=
  d_frames d f = Some n /\
  ((f = FBody (ground e) /\ n = 0%nat /\ forall m y, In (m, y) (d_nodes d) -> n_frame y <> f) \/
   exists x, In (n, x) (d_nodes d) /\ n_frame x = f /\ forall m y, In (m, y) (d_nodes d) -> n_frame y = f -> m = n /\ y = x).
Lemma nodes_fun S flat L d n x y : dinv S flat L d -> In (n, x) (d_nodes d) -> In (n, y) (d_nodes d) -> x = y.
Proof.
  intros (A & _) Hx Hy. assert (Q := s3 _ _ _ _ _ _ A). clear A. induction (d_nodes d) as [ | (k, z) l IH]; [destruct Hx | ]. cbn in Q. inversion Q as [ | ? ? Q1 Q2]; subst.
  destruct Hx as [Hx | Hx], Hy as [Hy | Hy].
  - congruence.
  - injection Hx as -> ->. exfalso. apply Q1. change n with (fst (n, y)). now apply in_map.
  - injection Hy as -> ->. exfalso. apply Q1. change n with (fst (n, x)). now apply in_map.
  - exact (IH Hx Hy Q2).
Qed.
Lemma at_pose_fun S flat L d pz n P P' : dinv S flat L d -> at_pose pz (d_nodes d) n P -> at_pose pz (d_nodes d) n P' -> P = P'.
Proof.
  intros D H. revert P'. induction H as [ | n x P I H IH]; intros P' H'; inversion H' as [ | ? y Q I' H2]; subst.
  - reflexivity.
  - exfalso. destruct (s1 _ _ _ _ _ _ (proj1 D) _ _ I') as (Q0 & _). lia.
  - exfalso. destruct (s1 _ _ _ _ _ _ (proj1 D) _ _ I) as (Q0 & _). lia.
  - assert (x = y) by exact (nodes_fun _ _ _ _ _ _ _ D I I'). subst y. f_equal. now apply IH.
Qed.
Lemma one_node_of S flat L d f : dinv S flat L d -> d_frames d f <> None -> exists n, one_node d (ds_e S) f n.
Proof.
  intros D Hf. destruct (d_frames d f) as [n | ] eqn:E; [ | congruence]. exists n. split; [exact E | ]. destruct (s2 _ _ _ _ _ _ (proj1 D) f n E) as [(-> & ->) | (x & Ix & Ex)].
  - left. split; [reflexivity | ]. split; [reflexivity | ]. intros m y Iy Ey. destruct (s1 _ _ _ _ _ _ (proj1 D) m y Iy) as (Q & _ & Q' & _). rewrite Ey, E in Q'. injection Q' as <-. lia.
  - right. exists x. split; [exact Ix | ]. split; [exact Ex | ]. intros m y Iy Ey. destruct (s1 _ _ _ _ _ _ (proj1 D) m y Iy) as (_ & _ & Q' & _). rewrite Ey, E in Q'. injection Q' as <-. split; [reflexivity | exact (nodes_fun _ _ _ _ _ _ _ D Iy Ix)].
Qed.

(** the transforms [pz] of the nodes are those of the configuration [sc'], [st'], [J']; [bad] frames excepted *)
Definition config_of (S : dscene) (flat : bool) (h : @heap R) (t : tree) (sc' : scene) (st' : store) (J' : nat -> jstate) (pz : node -> m4) (x : node) : Prop :=
  (forall pf j, flat = false -> tree_link h t pf j (n_frame x) -> n_const x = false -> pz x = Model_Joints.pose (J' j)) /\
  (forall s, flat = false -> n_frame x = FBody (sub_body (ds_e S) s) -> n_const x = true -> n_pose x = ds_inv S (sub_bpose (ds_sc S) s) -> pz x = ds_inv S (sub_bpose sc' s)) /\
  (forall s, n_frame x = FSub s -> n_const x = true -> n_pose x = sub_bpose (ds_sc S) s -> pz x = sub_bpose sc' s) /\
  (forall m, flat = false -> n_frame x = FMov m -> n_const x = false -> pz x = mov_bpose sc' m) /\
  (forall b, flat = true -> n_frame x = FBody b -> n_const x = false -> a_pose (st' b) = Some (pz x)).
Lemma Ok_inj {A} (a b : A) : Ok a = Ok b -> a = b. Proof. congruence. Qed.
Lemma eye_l a : mm4 eye4 a = a. Proof. lin. Qed.
Lemma eye_r a : mm4 a eye4 = a. Proof. lin. Qed.
Lemma node_poses_sub S flat h t d sc' st' J' pz : dinv S flat (tree_link h t) d -> rep (ds_e S) h t ->
  (forall f, d_frames d f <> None -> In (frame_body (ds_e S) f) (bodies t)) ->
  (forall s, SE3 (sub_bpose sc' s)) -> inv4_spec (ds_inv S) ->
  a_pose (st' (ground (ds_e S))) = Some eye4 -> (forall f, In (frame_body (ds_e S) f) (bodies t) -> exists H, SE3 H /\ a_pose (st' (frame_body (ds_e S) f)) = Some H /\ frame_pose (ds_e S) sc' st' f = Ok (mm4 H (bpose sc' f))) ->
  (forall f0 j f1, tree_link h t f0 j f1 -> exists F0, frame_pose (ds_e S) sc' st' f0 = Ok F0 /\ frame_pose (ds_e S) sc' st' f1 = Ok (mm4 F0 (Model_Joints.pose (J' j)))) ->
  (forall n x, In (n, x) (d_nodes d) -> config_of S flat h t sc' st' J' pz x) ->
  forall n f P, d_frames d f = Some n -> frame_pose (ds_e S) sc' st' f = Ok P ->
    (forall m, f = FMov m -> flat = true -> forall x, In (n, x) (d_nodes d) -> pz x = P) -> at_pose pz (d_nodes d) n P.
Proof.
  intros D Rt Tr Ri Iv Eg Ep El Cf. induction n as [n IH] using (well_founded_induction lt_wf). intros f P Ef EP Mv.
  destruct (Ep f (Tr f ltac:(congruence))) as (H & SH & EH & EPf). rewrite EPf in EP. apply Ok_inj in EP.
  destruct (s2 _ _ _ _ _ _ (proj1 D) f n Ef) as [(-> & ->) | (x & Ix & Ex)].
  { cbn [frame_body bpose] in EH, EP. rewrite Eg in EH. injection EH as <-. rewrite eye_l in EP. subst P. constructor. }
  destruct (s1 _ _ _ _ _ _ (proj1 D) n x Ix) as (_ & Lt & _ & pf & Epf & Pl). destruct (Cf n x Ix) as (C1 & C2 & C3 & C4 & C5).
  assert (Par : forall Q, frame_pose (ds_e S) sc' st' pf = Ok Q -> (forall m, pf = FMov m -> flat = true -> False) -> at_pose pz (d_nodes d) (n_parent x) Q).
  { intros Q EQ Nm. apply (IH _ Lt pf Q Epf EQ). intros m Em Fl. destruct (Nm m Em Fl). }
  assert (G0 : frame_pose (ds_e S) sc' st' (FBody (ground (ds_e S))) = Ok eye4) by (unfold frame_pose; cbn [frame_body]; rewrite Eg; reflexivity).
  enough (X : exists Q, at_pose pz (d_nodes d) (n_parent x) Q /\ P = mm4 Q (pz x)) by (destruct X as (Q & HQ & ->); apply at_child; assumption).
  destruct Pl as [(Fl & j & Lk & Ek & _) | [(Fl & s & -> & En & Ek & Epo) | [(s & En & -> & Ek & Epo) | [(m & En & Epf' & Ek & Epo) | (Fl & b & En & -> & Ek & _)]]]].
  - rewrite Ex in *. destruct (El _ _ _ Lk) as (F0 & E0 & E1). exists F0. split; [apply Par; [exact E0 | intros; congruence] | ]. rewrite (C1 pf j Fl Lk Ek). rewrite EPf in E1. apply Ok_inj in E1. now rewrite <- EP, E1.
  - cbn [frame_body bpose] in En, Epo. assert (Ef' : f = FBody (sub_body (ds_e S) s)) by (rewrite <- Ex, En; reflexivity). rewrite Ef' in *. clear Ef'. cbn [frame_body bpose] in EP, EH. destruct (Ep (FSub s) (Tr (FSub s) ltac:(rewrite Epf; discriminate))) as (H' & SH' & EH' & EP'). exists (mm4 H' (sub_bpose sc' s)). split; [apply Par; [exact EP' | intros; congruence] | ].
    rewrite (C2 s Fl En Ek Epo). cbn [frame_body] in EH'. rewrite EH in EH'. injection EH' as <-. assert (SB := Ri s).
    rewrite (Iv (sub_bpose sc' s) (inv_ (sub_bpose sc' s)) SB (inv_r _ SB) (inv_l _ SB)). rewrite <- mm4_assoc, (inv_r _ SB). now rewrite <- EP.
  - rewrite Ex in En. rewrite En in *. clear En. exists H. split; [apply Par; [unfold frame_pose; cbn [frame_body] in EH |- *; rewrite EH; reflexivity | discriminate] | ]. rewrite (C3 s Ex Ek Epo). rewrite <- EP. reflexivity.
  - rewrite Ex in En. rewrite En in *. clear En. destruct flat eqn:Fl.
    + subst pf. exists eye4. split; [apply Par; [exact G0 | discriminate] | ]. rewrite eye_l. symmetry. exact (Mv m eq_refl eq_refl x Ix).
    + subst pf. exists H. split; [apply Par; [unfold frame_pose; cbn [frame_body] in EH |- *; rewrite EH; reflexivity | discriminate] | ]. rewrite (C4 m eq_refl Ex Ek). rewrite <- EP. reflexivity.
  - rewrite Ex in En. rewrite En in *. clear En. exists eye4. split; [apply Par; [exact G0 | discriminate] | ]. rewrite eye_l. assert (Q := C5 b Fl Ex Ek). cbn [frame_body bpose] in EH, EP. rewrite EH in Q. rewrite <- EP, eye_r. congruence.
Qed.
Lemma node_poses S flat h t d sc' st' J' pz : dinv S flat (tree_link h t) d -> rep (ds_e S) h t ->
  (forall f, d_frames d f <> None -> In (frame_body (ds_e S) f) (bodies t)) ->
  (forall f, SE3 (bpose sc' f)) -> inv4_spec (ds_inv S) ->
  a_pose (st' (ground (ds_e S))) = Some eye4 -> (forall f, In (frame_body (ds_e S) f) (bodies t) -> exists H, SE3 H /\ a_pose (st' (frame_body (ds_e S) f)) = Some H /\ frame_pose (ds_e S) sc' st' f = Ok (mm4 H (bpose sc' f))) ->
  (forall f0 j f1, tree_link h t f0 j f1 -> exists F0, frame_pose (ds_e S) sc' st' f0 = Ok F0 /\ frame_pose (ds_e S) sc' st' f1 = Ok (mm4 F0 (Model_Joints.pose (J' j)))) ->
  (forall n x, In (n, x) (d_nodes d) -> config_of S flat h t sc' st' J' pz x) ->
  forall n f P, d_frames d f = Some n -> frame_pose (ds_e S) sc' st' f = Ok P ->
    (forall m, f = FMov m -> flat = true -> forall x, In (n, x) (d_nodes d) -> pz x = P) -> at_pose pz (d_nodes d) n P.
Proof. intros D Rt Tr Ri. exact (node_poses_sub S flat h t d sc' st' J' pz D Rt Tr (fun s => Ri (FSub s))). Qed.
