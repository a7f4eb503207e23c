(** C85: which nodes of a scene an animation moves, and where. *)
From Coq Require Import Lra Lia.
From Verif Require Import Spec_Anim Spec_Dyn Proof_SE3 Proof_Linalg Proof_World Proof_World3 Proof_World4 Proof_Tree Proof_Draw Props_Dyn Props_Draw Props_Draw2 Props_Draw3.
Open Scope R_scope.

(** a node drawn with a constant transform is not one a SaveLogger records *)
Lemma const_not_logged S flat h t d U : dinv S flat (tree_link h t) d -> rep (ds_e S) h t -> root t = ground (ds_e S) -> NoDup (bodies t) -> su_e U = ds_e S ->
  iterjoints (ds_e S) (su_fuel U) h = Ok (joints t) ->
  forall n x, In (n, x) (d_nodes d) -> n_const x = true -> forall tg, ~ logged U h flat (n_frame x) tg.
Proof.
  intros D Rt Er Nb Eu Ij n x Ix Ek tg Lg. assert (S1 := s1 _ _ _ _ _ _ (proj1 D)).
  assert (Nx : forall a f n1 n2, d_frames d f = Some n1 -> In (n2, a) (d_nodes d) -> n_frame a = f -> n1 = n2) by (intros a f n1 n2 E1 J <-; destruct (S1 _ _ J) as (_ & _ & E & _); congruence).
  (* the node of the body of a link *)
  assert (Key : flat = false -> forall s pf j f1, tree_link h t pf j f1 -> frame_body (ds_e S) f1 = sub_body (ds_e S) s -> f1 <> FSub s ->
      forall m y, In (m, y) (d_nodes d) -> n_frame y = FSub s -> d_frames d (FBody (sub_body (ds_e S) s)) = Some (n_parent y)).
  { intros Fl s pf j f1 Lk Eb Nf m y Iy Ey. destruct (S1 _ _ Iy) as (_ & _ & _ & pf' & Epf & Pl).
    destruct Pl as [(_ & j' & Lk' & _) | [(_ & s' & _ & En & _) | [(s' & En & -> & _) | [(k & En & _) | (Fl' & _)]]]]; try congruence.
    exfalso. rewrite Ey in Lk'. destruct (link_bodies _ _ _ _ _ _ Rt Lk) as (_ & _ & Q1), (link_bodies _ _ _ _ _ _ Rt Lk') as (_ & _ & Q2). cbn [frame_body] in Q2. rewrite Eb in Q1. rewrite Q1 in Q2. injection Q2 as <-.
    destruct Lk as (_ & L1), Lk' as (_ & L2). rewrite L1 in L2. injection L2 as _ ->. congruence. }
  destruct (S1 _ _ Ix) as (_ & Lt & En & pf & Epf & Pl).
  inversion Lg as [b bs Fl Eb Hb E0 | j js k0 f1 Fl Ej Hj Ef E0 | k Hk E0]; subst.
  - destruct Pl as [(Fl & _) | [(Fl & _) | [(s & Es & _) | [(k & Es & _) | (_ & b' & Es & _ & Ek' & _)]]]]; congruence.
  - rewrite Eu, Ij in Ej. injection Ej as <-. assert (Lk : tree_link h t k0 j (n_frame x)) by (split; assumption).
    destruct Pl as [(_ & j' & _ & Q & _) | [(_ & s & -> & Es & _ & _) | [(s & Es & -> & _ & _) | [(k & _ & _ & Q & _) | (Q & _)]]]]; try congruence.
    + (* the body below the SubFrame s *)
      destruct (s2 _ _ _ _ _ _ (proj1 D) _ _ Epf) as [(Q & _) | (y & Iy & Ey)]; [discriminate | ]. cbn [frame_body] in Es.
      assert (Kp := Key eq_refl s k0 j (n_frame x) Lk (ltac:(rewrite Es; reflexivity)) (ltac:(rewrite Es; discriminate)) _ _ Iy Ey). rewrite Es in En. rewrite En in Kp. injection Kp as Kp. destruct (S1 _ _ Iy) as (_ & Lt' & _). lia.
    + (* the SubFrame s below its body *)
      destruct (s2 _ _ _ _ _ _ (proj1 D) _ _ Epf) as [(Q & _) | (y & Iy & Ey)].
      { (* the ground has no parent joint *) injection Q as Q. rewrite Es in Lk. destruct (link_bodies _ _ _ _ _ _ Rt Lk) as (_ & It & _). cbn [frame_body] in It. rewrite Q in It. rewrite bodies_tail, Er in Nb. inversion Nb; contradiction. }
      destruct (S1 _ _ Iy) as (_ & Lt' & _ & pf' & Epf' & Pl').
      destruct Pl' as [(_ & j' & Lk' & _) | [(_ & s' & -> & Es' & _ & _) | [(s' & Es' & _) | [(k & Es' & _) | (Q & _)]]]]; try congruence.
      * rewrite Ey in Lk'. rewrite Es in Lk. destruct (link_bodies _ _ _ _ _ _ Rt Lk) as (_ & _ & Q1), (link_bodies _ _ _ _ _ _ Rt Lk') as (_ & _ & Q2). cbn [frame_body] in Q1, Q2. rewrite Q1 in Q2. injection Q2 as <-. destruct Lk as (_ & L1), Lk' as (_ & L2). congruence.
      * cbn [frame_body] in Es'. rewrite Ey in Es'. injection Es' as Es'. destruct (s2 _ _ _ _ _ _ (proj1 D) _ _ Epf') as [(Q & _) | (z & Iz & Ez)]; [discriminate | ].
        assert (C : s' = s \/ s' <> s) by (destruct (Nat.eq_dec s' s); auto). destruct C as [-> | C].
        -- rewrite Es in En. rewrite En in Epf'. injection Epf' as Q. lia.
        -- rewrite Es in Lk. assert (Kp := Key eq_refl s' k0 j (FSub s) Lk (ltac:(cbn [frame_body]; congruence)) (ltac:(congruence)) _ _ Iz Ez). rewrite <- Es', Epf in Kp. injection Kp as Kp. destruct (S1 _ _ Iz) as (_ & Lt2 & _). lia.
  - destruct Pl as [(Fl & j' & _ & Q & _) | [(Fl & s & _ & Es & _) | [(s & Es & _) | [(k' & _ & _ & Q & _) | (Q & b & Es & _)]]]]; congruence.
Qed.

(** where the nodes lie when the moving ones receive the saved poses (as C59_animation, for poses of bodies that obey the joints) *)
Lemma anim_poses S flat h t d U v : dinv S flat (tree_link h t) d -> rep (ds_e S) h t ->
  (forall j f0 k, In j (joints t) -> jframes h j <> Some (f0, FMov k)) -> inv4_spec (ds_inv S) -> (forall f, d_frames d f <> None <-> in_world (ds_e S) h t f) ->
  su_e U = ds_e S -> sub_bpose (su_sc U) = sub_bpose (ds_sc S) -> iterbodies (ds_e S) (su_fuel U) h = Ok (bodies t) -> iterjoints (ds_e S) (su_fuel U) h = Ok (joints t) ->
  (forall s, SE3 (sub_bpose (scene_of U v) s)) -> a_pose (v_st v (ground (ds_e S))) = Some eye4 ->
  (forall f, In (frame_body (ds_e S) f) (bodies t) -> exists H, SE3 H /\ a_pose (v_st v (frame_body (ds_e S) f)) = Some H /\ frame_pose (ds_e S) (scene_of U v) (v_st v) f = Ok (mm4 H (bpose (scene_of U v) f))) ->
  (forall f0 j f1, tree_link h t f0 j f1 -> exists F0, frame_pose (ds_e S) (scene_of U v) (v_st v) f0 = Ok F0 /\ frame_pose (ds_e S) (scene_of U v) (v_st v) f1 = Ok (mm4 F0 (Model_Joints.pose (joints_of (v_s v) j)))) ->
  (exists pz, animated U v h flat (d_nodes d) pz) /\
  forall pz, animated U v h flat (d_nodes d) pz -> forall f, in_world (ds_e S) h t f ->
    exists n P, d_frames d f = Some n /\ frame_pose (ds_e S) (scene_of U v) (v_st v) f = Ok P /\ forall Q, at_pose pz (d_nodes d) n Q <-> Q = P.
Proof.
  intros D Rt Dj Iv Fr Eu Es Ib Ij Ri' Gp Fp Jp. split.
  - exists (fun x => if n_const x then n_pose x else
        match n_frame x with
        | FMov k => if flat then match frame_pose (ds_e S) (scene_of U v) (v_st v) (FMov k) with Ok P => P | Err _ => eye4 end else mov_bpose (scene_of U v) k
        | f => if flat then match frame_pose (ds_e S) (scene_of U v) (v_st v) f with Ok P => P | Err _ => eye4 end
               else match parentjoint h (frame_body (ds_e S) f) with Some j => Model_Joints.pose (joints_of (v_s v) j) | None => eye4 end
        end).
    intros n x Ix. destruct (n_const x) eqn:Ek; [reflexivity | ]. destruct (s1 _ _ _ _ _ _ (proj1 D) n x Ix) as (_ & _ & En' & pf & Epf & Pl).
    assert (Iw : in_world (ds_e S) h t (n_frame x)) by (apply Fr; congruence). destruct (Fp (n_frame x) (proj1 Iw)) as (H & SH & EH & EP).
    destruct Pl as [(Fl & j & Lk & _ & _) | [(Fl & s & -> & En & Ek' & _) | [(s & En & -> & Ek' & _) | [(k & En & Epf' & _ & _) | (Fl & b & En & -> & _ & _)]]]]; try congruence.
    + exists (TJoint j). split; [apply (logged_joint U h flat j (joints t) pf (n_frame x) Fl); [rewrite Eu; exact Ij | exact (proj1 Lk) | exact (proj2 Lk)] | ].
      cbn [target_pose]. rewrite Fl. destruct (link_bodies _ _ _ _ _ _ Rt Lk) as (_ & _ & Q). destruct (n_frame x) as [b | s | k] eqn:En; [now rewrite Q | now rewrite Q | ]. exfalso. exact (Dj _ _ _ (proj1 Lk) (proj2 Lk)).
    + exists (TMov k). rewrite En in *. split; [apply logged_mov; exact (proj2 Iw) | ]. cbn [target_pose]. rewrite Eu. destruct flat; [now rewrite EP | reflexivity].
    + exists (TBody b). rewrite En in *. split; [apply (logged_body U h flat b (bodies t) Fl); [rewrite Eu; exact Ib | exact (proj1 Iw)] | ]. cbn [target_pose]. rewrite Eu, Fl. now rewrite EP.
  - intros pz An f If. destruct (d_frames d f) as [n | ] eqn:Ef; [ | destruct (proj2 (Fr f) If Ef)]. destruct (Fp f (proj1 If)) as (H & SH & EH & EP).
    exists n, (mm4 H (bpose (scene_of U v) f)). split; [reflexivity | ]. split; [exact EP | ].
    assert (Lj : forall x f0 j tg, tree_link h t f0 j (n_frame x) -> logged U h flat (n_frame x) tg -> flat = false -> tg = TJoint j).
    { intros x f0 j tg Lk Lg Fl. inversion Lg as [b bs Fl' | j' js k0 k1 _ Ej' Hj' Ej2 | k Hk]; subst.
      - congruence.
      - rewrite Eu, Ij in Ej'. injection Ej' as <-. destruct (link_bodies _ _ _ _ _ _ Rt Lk) as (_ & _ & Q1). destruct (link_bodies _ _ _ _ _ _ Rt (conj Hj' Ej2 : tree_link h t k0 j' (n_frame x))) as (_ & _ & Q2). congruence.
      - destruct Lk as (Q1 & Q2). rewrite <- H0 in Q2. destruct (Dj _ _ _ Q1 Q2). }
    assert (Lm : forall x k tg, n_frame x = FMov k -> logged U h flat (n_frame x) tg -> tg = TMov k).
    { intros x k tg Ex Lg. inversion Lg as [b bs Fl' | j' js k0 k1 _ Ej' Hj' Ej2 | k' Hk]; subst; try congruence. rewrite Eu, Ij in Ej'. injection Ej' as <-. rewrite Ex in Ej2. destruct (Dj _ _ _ Hj' Ej2). }
    assert (HP : at_pose pz (d_nodes d) n (mm4 H (bpose (scene_of U v) f))).
    { refine (node_poses_sub S flat h t d (scene_of U v) (v_st v) (joints_of (v_s v)) pz D Rt _ Ri' Iv Gp _ _ _ n f _ Ef EP _).
      - intros g Hg. exact (proj1 (proj1 (Fr g) Hg)).
      - intros g Ig. destruct (Fp g Ig) as (Hg & ? & ? & ?). eauto.
      - exact Jp.
      - intros k x Ik. assert (An' := An k x Ik).  unfold config_of. split; [ | split; [ | split; [ | split]]].
        + intros pf j Fl Lk Ek. rewrite Ek in An'. destruct An' as (tg & Lg & Et). rewrite (Lj x pf j tg Lk Lg Fl) in Et. cbn [target_pose] in Et. now apply Ok_inj in Et.
        + intros s Fl En Ek Epo. rewrite Ek in An'. rewrite An', Epo, scene_of_sub, Es. reflexivity.
        + intros s En Ek Epo. rewrite Ek in An'. rewrite An', Epo, scene_of_sub, Es. reflexivity.
        + intros k' Fl En Ek. rewrite Ek in An'. destruct An' as (tg & Lg & Et). rewrite (Lm x k' tg En Lg) in Et. cbn [target_pose] in Et. rewrite Fl in Et. now apply Ok_inj in Et.
        + intros b Fl En Ek. rewrite Ek in An'. destruct An' as (tg & Lg & Et). rewrite En in Lg. inversion Lg as [b' bs Fl' Eb Hb | j' js k0 k1 Fl' Ej' Hj' Ej2 | ]; subst; [ | congruence].
          cbn [target_pose] in Et. rewrite Eu in Et. unfold frame_pose in Et. cbn [frame_body] in Et. destruct (a_pose (v_st v b)) as [P | ]; [ | discriminate]. cbn in Et. now apply Ok_inj in Et; subst.
      - intros k Ek Fl x Ix. assert (An' := An n x Ix). destruct (s1 _ _ _ _ _ _ (proj1 D) n x Ix) as (_ & _ & En' & pf & Epf & Pl).
        assert (Ex : n_frame x = f). { destruct (s2 _ _ _ _ _ _ (proj1 D) f n Ef) as [(_ & ->) | (y & Iy & Ey)]; [destruct (s1 _ _ _ _ _ _ (proj1 D) _ _ Ix); lia | ]. now rewrite (nodes_fun _ _ _ _ _ _ _ D Ix Iy). }
        rewrite Ek in *. assert (Ec : n_const x = false). { destruct Pl as [(Q & _) | [(Q & _) | [(s & En & _) | [(mm & En & Epf' & Ek' & Epo) | (_ & b & En & _)]]]]; try congruence. }
        rewrite Ec in An'. destruct An' as (tg & Lg & Et). rewrite (Lm x k tg Ex Lg) in Et. cbn [target_pose] in Et. rewrite Fl, Eu, EP in Et. now apply Ok_inj in Et. }
    intros Q. split; [intros HQ; exact (at_pose_fun _ _ _ _ _ _ _ _ D HQ HP) | intros ->; exact HP].
Qed.
