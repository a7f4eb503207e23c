(** C59, end: animating the scene with the poses saved by a SaveLogger; the moving subframes of a flat scene. *)
From Coq Require Import Lra Lia.
From Verif Require Import Spec_Draw Spec_Dyn Spec_Sim Proof_SE3 Props_Color Props_Color2.
From Verif Require Import Proof_Linalg Proof_Tree Proof_World Proof_World2 Proof_World3 Proof_Register Proof_World4 Proof_Draw Proof_Draw2 Props_Dyn Props_DynEx Props_Draw Props_Draw2.
Open Scope R_scope.

(** the transforms of the scene at a later instant [v]: the constant nodes are left as drawn, the others receive the pose saved by a
    SaveLogger (same mode) under the name of the node's frame *)
Definition animated (U : setup) (v : wview) (h : @heap R) (flat : bool) (nodes : list (nat * node)) (pz : node -> m4) : Prop :=
  forall n x, In (n, x) nodes -> if n_const x then pz x = n_pose x else exists tg, logged U h flat (n_frame x) tg /\ target_pose U v flat tg = Ok (pz x).

Lemma scene_of_sub U v : sub_bpose (scene_of U v) = sub_bpose (su_sc U).
Proof. unfold scene_of. generalize (su_sc U) as sc. induction (v_cs v) as [ | c l IH]; intros sc; [reflexivity | ]. cbn [fold_left]. rewrite IH. destruct c; reflexivity. Qed.

(** Whatever the later state of the same world, the saved poses put every node, moving subframes included, at the pose its frame has then. *)
Theorem C59_animation : forall S flat g0 h t fuel m nb cs st0 U v h' st1, reachable 0 (ds_e S) g0 h -> ready (ds_e S) h t ->
  rigid_scene (ds_e S) (ds_sc S) t (ds_J S) -> (height t < fuel)%nat -> new_colors m nb = Ok cs -> drawable S h t -> inv4_spec (ds_inv S) ->
  world_update_geometric (ds_e S) (ds_sc S) h (ds_J S) fuel st0 = Ok (ds_st S) ->
  su_e U = ds_e S -> sub_bpose (su_sc U) = sub_bpose (ds_sc S) -> (height t < su_fuel U)%nat ->
  ready (ds_e S) h' t -> (forall j, In j (joints t) -> jframes h' j = jframes h j) ->
  rigid_scene (ds_e S) (scene_of U v) t (joints_of (v_s v)) ->
  world_update_geometric (ds_e S) (scene_of U v) h' (joints_of (v_s v)) fuel st1 = Ok (v_st v) ->
  exists d, draw_world S flat fuel h cs = Ok d /\ (exists pz, animated U v h flat (d_nodes d) pz) /\
    forall pz, animated U v h flat (d_nodes d) pz -> forall f, in_world (ds_e S) h t f ->
      exists n P, d_frames d f = Some n /\ frame_pose (ds_e S) (scene_of U v) (v_st v) f = Ok P /\ forall Q, at_pose pz (d_nodes d) n Q <-> Q = P.
Proof.
  intros S flat g0 h t fuel m nb cs st0 U v h' st1 R Rd Ri F N Dw Iv Up Eu Es Fu Rd' Ej Ri' Up'. assert (Rt := proj1 Rd). assert (Er := proj1 (proj2 Rd)).
  destruct (C39_poses (ds_e S) (ds_sc S) h t (ds_J S) fuel st0 Rd Ri F) as (sg & sd & dd & Ug & _ & Fp0 & _). rewrite Up in Ug. apply Ok_inj in Ug. subst sg.
  assert (Po : flat = true -> forall b, In b (bodies t) -> exists P, a_pose (ds_st S b) = Some P). { intros _ b Ib. destruct (Fp0 (FBody b) Ib) as (H & _ & E & _). eauto. }
  destruct (draw_ok S flat g0 h t fuel cs R Rt Er F (new_all_valid _ _ _ N) Po) as (X & _). destruct (X Dw) as (d & evs & Ep & Nd & Ed & D & A & Me). clear X Fp0.
  assert (Fr := frames_drawn S flat g0 h t d evs R Rt Er A D Me).
  destruct (C39_poses (ds_e S) (scene_of U v) h' t (joints_of (v_s v)) fuel st1 Rd' Ri' F) as (sg & sd' & dd' & Ug & _ & Fp & Gp & Jp & _). rewrite Up' in Ug. apply Ok_inj in Ug. subst sg.
  destruct (world_iterators (ds_e S) h (reachable_forest 0 _ _ _ R)) as (t2 & R2 & E2 & N2 & _ & It). assert (t2 = t) by (apply (rep_unique (ds_e S) h t2 t R2 Rt); congruence). subst t2. destruct (It (su_fuel U)) as (It' & _). destruct (It' Fu) as (Ib & Ij). clear It It'.
  exists d. split; [exact Ed | ]. split.
  - exists (fun x => if n_const x then n_pose x else
        match n_frame x with
        | FMov k => if flat then match frame_pose (ds_e S) (scene_of U v) (v_st v) (FMov k) with Ok P => P | Err _ => eye4 end else mov_bpose (scene_of U v) k
        | f => if flat then match frame_pose (ds_e S) (scene_of U v) (v_st v) f with Ok P => P | Err _ => eye4 end
               else match parentjoint h (frame_body (ds_e S) f) with Some j => Model_Joints.pose (joints_of (v_s v) j) | None => eye4 end
        end).
    intros n x Ix. destruct (n_const x) eqn:Ek; [reflexivity | ]. destruct (s1 _ _ _ _ _ _ (proj1 D) n x Ix) as (_ & _ & En' & pf & Epf & Pl).
    assert (Iw : in_world (ds_e S) h t (n_frame x)) by (apply Fr; congruence). destruct (Fp (n_frame x) (proj1 Iw)) as (H & SH & EH & _ & EP & _).
    destruct Pl as [(Fl & j & Lk & _ & _) | [(Fl & s & -> & En & Ek' & _) | [(s & En & -> & Ek' & _) | [(k & En & Epf' & _ & _) | (Fl & b & En & -> & _ & _)]]]]; try congruence.
    + exists (TJoint j). split; [apply (logged_joint U h flat j (joints t) pf (n_frame x) Fl); [rewrite Eu; exact Ij | exact (proj1 Lk) | exact (proj2 Lk)] | ].
      cbn [target_pose]. rewrite Fl. destruct (link_bodies _ _ _ _ _ _ Rt Lk) as (_ & _ & Q). destruct (n_frame x) as [b | s | k] eqn:En; [now rewrite Q | now rewrite Q | ]. exfalso. exact (proj1 Dw _ _ _ (proj1 Lk) (proj2 Lk)).
    + exists (TMov k). rewrite En in *. split; [apply logged_mov; exact (proj2 Iw) | ]. cbn [target_pose]. rewrite Eu. destruct flat; [now rewrite EP | reflexivity].
    + exists (TBody b). rewrite En in *. split; [apply (logged_body U h flat b (bodies t) Fl); [rewrite Eu; exact Ib | exact (proj1 Iw)] | ]. cbn [target_pose]. rewrite Eu, Fl. now rewrite EP.
  - intros pz An f If. destruct (d_frames d f) as [n | ] eqn:Ef; [ | destruct (proj2 (Fr f) If Ef)]. destruct (Fp f (proj1 If)) as (H & SH & EH & _ & EP & _).
    exists n, (mm4 H (bpose (scene_of U v) f)). split; [reflexivity | ]. split; [exact EP | ].
    assert (Lj : forall x f0 j tg, tree_link h t f0 j (n_frame x) -> logged U h flat (n_frame x) tg -> flat = false -> tg = TJoint j).
    { intros x f0 j tg Lk Lg Fl. inversion Lg as [b bs Fl' | j' js k0 k1 _ Ej' Hj' Ej2 | k Hk]; subst.
      - congruence.
      - rewrite Eu, Ij in Ej'. injection Ej' as <-. destruct (link_bodies _ _ _ _ _ _ Rt Lk) as (_ & _ & Q1). destruct (link_bodies _ _ _ _ _ _ Rt (conj Hj' Ej2 : tree_link h t k0 j' (n_frame x))) as (_ & _ & Q2). congruence.
      - destruct Lk as (Q1 & Q2). rewrite <- H0 in Q2. destruct (proj1 Dw _ _ _ Q1 Q2). }
    assert (Lm : forall x k tg, n_frame x = FMov k -> logged U h flat (n_frame x) tg -> tg = TMov k).
    { intros x k tg Ex Lg. inversion Lg as [b bs Fl' | j' js k0 k1 _ Ej' Hj' Ej2 | k' Hk]; subst; try congruence. rewrite Eu, Ij in Ej'. injection Ej' as <-. rewrite Ex in Ej2. destruct (proj1 Dw _ _ _ Hj' Ej2). }
    assert (HP : at_pose pz (d_nodes d) n (mm4 H (bpose (scene_of U v) f))).
    { refine (node_poses S flat h t d (scene_of U v) (v_st v) (joints_of (v_s v)) pz D Rt _ (proj1 Ri') Iv Gp _ _ _ n f _ Ef EP _).
      - intros g Hg. exact (proj1 (proj1 (Fr g) Hg)).
      - intros g Ig. destruct (Fp g Ig) as (Hg & ? & ? & _ & ? & _). eauto.
      - intros f0 j f1 (Ij' & Ef'). rewrite <- (Ej j Ij') in Ef'. destruct (Jp j f0 f1 Ij' Ef') as (F0 & F1 & _ & _ & E0 & E1 & ->). eauto.
      - intros k x Ik. assert (An' := An k x Ik).  unfold config_of. split; [ | split; [ | split; [ | split]]].
        + intros pf j Fl Lk Ek. rewrite Ek in An'. destruct An' as (tg & Lg & Et). rewrite (Lj x pf j tg Lk Lg Fl) in Et. cbn [target_pose] in Et. now apply Ok_inj in Et.
        + intros s Fl En Ek Epo. rewrite Ek in An'. rewrite An', Epo, scene_of_sub, Es. reflexivity.
        + intros s En Ek Epo. rewrite Ek in An'. rewrite An', Epo, scene_of_sub, Es. reflexivity.
        + intros k' Fl En Ek. rewrite Ek in An'. destruct An' as (tg & Lg & Et). rewrite (Lm x k' tg En Lg) in Et. cbn [target_pose] in Et. rewrite Fl in Et. now apply Ok_inj in Et.
        + intros b Fl En Ek. rewrite Ek in An'. destruct An' as (tg & Lg & Et). rewrite En in Lg. inversion Lg as [b' bs Fl' Eb Hb | j' js k0 k1 Fl' Ej' Hj' Ej2 | ]; subst; [ | congruence].
          cbn [target_pose] in Et. rewrite Eu in Et. unfold frame_pose in Et. cbn [frame_body] in Et. destruct (a_pose (v_st v b)) as [P | ]; [ | discriminate]. cbn in Et. now apply Ok_inj in Et; subst.
      - intros k Ek Fl x Ix. assert (An' := An n x Ix). destruct (s1 _ _ _ _ _ _ (proj1 D) n x Ix) as (_ & _ & En' & pf & Epf & Pl).
        assert (Ex : n_frame x = f). { destruct (s2 _ _ _ _ _ _ (proj1 D) f n Ef) as [(_ & ->) | (y & Iy & Ey)]; [destruct (s1 _ _ _ _ _ _ (proj1 D) _ _ Ix); lia | ]. now rewrite (nodes_fun _ _ _ _ _ _ _ D Ix Iy). }
        rewrite Ek in *. assert (Ec : n_const x = false). { destruct Pl as [(Q & _) | [(Q & _) | [(s & En & _) | [(mm & En & Epf' & Ek' & Epo) | (_ & b & En & _)]]]]; try congruence. }
        rewrite Ec in An'. destruct An' as (tg & Lg & Et). rewrite (Lm x k tg Ex Lg) in Et. cbn [target_pose] in Et. rewrite Fl, Eu, EP in Et. now apply Ok_inj in Et. }
    intros Q. split; [intros HQ; exact (at_pose_fun _ _ _ _ _ _ _ _ D HQ HP) | intros ->; exact HP].
Qed.
Print Assumptions C59_animation.

(** ** A world: body 1 is attached through a SubFrame, and carries a sphere on this SubFrame and a MovingSubFrame *)
Definition dw_e : env := Env 0 (fun _ => 1%nat) (fun _ => 1%nat) (fun _ => FSub 0) (fun _ => []) (fun j => match j with 1%nat => 1%nat | _ => 0%nat end).
Definition dw_ops : list (@op R) := [AddLink (FBody 0) 1 (FSub 0); Register (OFrame (FMov 0)); Register (OShape 0); Init].
Definition dw_h : @heap R := run 0 dw_e 10 dw_ops (fresh dw_e (fun _ _ => 1)).
Definition dw_t : tree := Node 0 [(1%nat, Node 1 [])].
Definition dw_sc : scene := Scene (fun _ => eye6) (fun _ => eye6) (fun _ => transl 0 0 1) (fun _ => transl 0 1 0).
Definition dw_J (q : R) (j : nat) : jstate := JS TxJoint eye4 (fun _ => q) (fun _ => 1).
Definition dw_S (st : store) : dscene := DS dw_e (fun _ => None) dw_sc st (dw_J 2) (fun _ => true) inv_.

Lemma dw_ready : ready dw_e dw_h dw_t.
Proof. unfold dw_t. ch_ready. Qed.
Lemma dw_reachable : reachable 0 dw_e (fun _ _ => 1) dw_h.
Proof.
  unfold dw_h, dw_ops, run. cbn [fold_left].
  constructor; [ | exact Logic.I]. constructor; [ | exact Logic.I]. constructor; [ | exact Logic.I]. constructor; [constructor | ]. cbn [admissible].
  intros B. cbn [frame_body] in B. inversion B as [ | ? ? ? ? ? Ij]; subst. cbn in Ij. contradiction.
Qed.
Lemma dw_rigid q : rigid_scene dw_e dw_sc dw_t (dw_J q).
Proof. split; [intros [b | b | b]; auto using SE3_eye, transl_SE3 | ]. intros j Ij. cbn in Ij. destruct Ij as [<- | []]. split; [discriminate | reflexivity]. Qed.
Lemma dw_drawable st : drawable (dw_S st) dw_h dw_t.
Proof. split; [ | reflexivity]. intros j f0 m Ij. cbn in Ij. destruct Ij as [<- | []]. discriminate. Qed.
Lemma inv4_rigid : inv4_spec inv_.
Proof. intros H K SH E1 E2. transitivity (mm4 (mm4 (inv_ H) H) K); [rewrite <- mm4_assoc, E1; symmetry; apply eye_r | rewrite (inv_l _ SH); apply eye_l]. Qed.
Lemma dw_state q : exists st, world_update_geometric dw_e dw_sc dw_h (dw_J q) 10 (fun _ => no_attr) = Ok st /\ forall P, frame_pose dw_e dw_sc st (FMov 0) = Ok P -> pos P = V3 q 1 (-1).
Proof.
  destruct (C39_poses dw_e dw_sc dw_h dw_t (dw_J q) 10 (fun _ => no_attr) dw_ready (dw_rigid q) ltac:(cbn; lia)) as (sg & sd & dd & Ug & _ & Fp & Gp & Jp & _).
  exists sg. split; [exact Ug | ]. intros P EP. destruct (Jp 1%nat (FBody 0) (FSub 0) ltac:(cbn; auto) eq_refl) as (F0 & F1 & _ & _ & E0 & E1 & ->).
  destruct (Fp (FSub 0%nat) ltac:(cbn; auto)) as (H & SH & EH & _ & ES & _). destruct (Fp (FMov 0%nat) ltac:(cbn; auto)) as (H' & _ & EH' & _ & EM & _). cbn [frame_body dw_e] in EH, EH'. cbn in EH'. cbn in EH. rewrite EH in EH'. injection EH' as <-.
  rewrite EM in EP. apply Ok_inj in EP. rewrite E1 in ES. apply Ok_inj in ES. unfold frame_pose in E0. cbn [frame_body] in E0. change (a_pose (sg 0%nat) = Some eye4) in Gp. rewrite Gp in E0. cbn in E0. apply Ok_inj in E0. subst F0. rewrite eye_l in ES. cbn [bpose dw_sc sub_bpose mov_bpose] in ES, EP.
  assert (HH : H = mm4 (transl q 0 0) (transl 0 0 (-1))).
  { change (Model_Joints.pose (dw_J q 1)) with (transl q 0 0) in ES. rewrite ES, <- mm4_assoc. replace (mm4 (transl 0 0 1) (transl 0 0 (-1))) with eye4 by (clear; unfold transl; lin). now rewrite eye_r. }
  rewrite <- EP, HH. clear. unfold transl. unf. f_equal; ring.
Qed.

(** Finding: in flat mode a MovingSubFrame is drawn at its pose in its body, as if the body were at the origin *)
Theorem C59_flat_moving_refuted : exists S g0 h t st0 m nb cs d n P, reachable 0 (ds_e S) g0 h /\ ready (ds_e S) h t /\
  rigid_scene (ds_e S) (ds_sc S) t (ds_J S) /\ new_colors m nb = Ok cs /\ drawable S h t /\ inv4_spec (ds_inv S) /\
  world_update_geometric (ds_e S) (ds_sc S) h (ds_J S) 10 st0 = Ok (ds_st S) /\
  draw_world S true 10 h cs = Ok d /\ In (FMov 0) (w_subframes h) /\ d_frames d (FMov 0) = Some n /\
  frame_pose (ds_e S) (ds_sc S) (ds_st S) (FMov 0) = Ok P /\ ~ at_pose n_pose (d_nodes d) n P.
Proof.
  destruct (dw_state 2) as (st & Us & Ps). destruct (new_ok [] 1%nat ltac:(constructor)) as (cs & Ec & _).
  destruct (C59_scene (dw_S st) true (fun _ _ => 1) dw_h dw_t 10 [] 1 cs (fun _ => no_attr) dw_reachable dw_ready (dw_rigid 2) ltac:(cbn; lia) Ec (dw_drawable st) inv4_rigid Us) as (d & Ed & _ & Po & _).
  destruct (Po (FMov 0%nat) ltac:(split; cbn; auto)) as (n & P & (On & _) & EP & At).
  exists (dw_S st), (fun _ _ => 1), dw_h, dw_t, (fun _ => no_attr), [], 1%nat, cs, d, n, P. repeat (split; [first [exact dw_reachable | exact dw_ready | exact (dw_rigid 2) | exact Ec | exact (dw_drawable st) | exact inv4_rigid | exact Us | exact Ed | exact On | exact EP | cbn; auto] | ]).
  intros HP. apply At in HP. assert (Q := Ps P EP). rewrite HP in Q. cbn in Q. injection Q as Q _. lra.
Qed.
Print Assumptions C59_flat_moving_refuted.

(** Finding: a world whose joint ends at a MovingSubFrame is accepted by add_link but cannot be drawn *)
Theorem C59_moving_child_refuted : exists e g0 h t, reachable 0 e g0 h /\ ready e h t /\
  forall S flat m nb cs fuel, ds_e S = e -> (1 < fuel)%nat -> new_colors m nb = Ok cs -> (forall b, In b (bodies t) -> exists P, a_pose (ds_st S b) = Some P) -> draw_world S flat fuel h cs = Err ValueError.
Proof.
  set (ops := [AddLink (FBody 0) 1 (FMov 0); Init] : list (@op R)). set (h := run 0 dw_e 10 ops (fresh dw_e (fun _ _ => 1))).
  assert (Rd : ready dw_e h dw_t) by (unfold h, ops, dw_t; ch_ready).
  assert (Rc : reachable 0 dw_e (fun _ _ => 1) h).
  { unfold h, ops, run. cbn [fold_left]. constructor; [ | exact Logic.I]. constructor; [constructor | ]. cbn [admissible].
    intros B. cbn [frame_body] in B. inversion B as [ | ? ? ? ? ? Ij]; subst. cbn in Ij. contradiction. }
  exists dw_e, (fun _ _ => 1), h, dw_t. split; [exact Rc | ]. split; [exact Rd | ]. intros S flat m nb cs fuel Es F N Po.
  assert (Rd' := Rd). rewrite <- Es in Rd', Rc. refine (proj2 (C59_never_missing S flat _ h dw_t fuel m nb cs Rc (proj1 Rd') _ _ N _) _).
  - now rewrite Es.
  - cbn. lia.
  - intros _ b Ib. apply Po. exact Ib.
  - intros (D & _). exact (D 1%nat (FBody 0) 0%nat ltac:(cbn; auto) eq_refl).
Qed.
Print Assumptions C59_moving_child_refuted.

(** the hypotheses of C59_scene and C59_animation are met by this world, the joint being moved from 2 to [q] *)
Example C59_witness : forall q, exists st cs U v, new_colors [] 1 = Ok cs /\ reachable 0 (ds_e (dw_S st)) (fun _ _ => 1) dw_h /\ ready (ds_e (dw_S st)) dw_h dw_t /\
  rigid_scene (ds_e (dw_S st)) (ds_sc (dw_S st)) dw_t (ds_J (dw_S st)) /\ drawable (dw_S st) dw_h dw_t /\ inv4_spec (ds_inv (dw_S st)) /\
  world_update_geometric (ds_e (dw_S st)) (ds_sc (dw_S st)) dw_h (ds_J (dw_S st)) 10 (fun _ => no_attr) = Ok (ds_st (dw_S st)) /\
  su_e U = ds_e (dw_S st) /\ sub_bpose (su_sc U) = sub_bpose (ds_sc (dw_S st)) /\ (height dw_t < su_fuel U)%nat /\
  rigid_scene (ds_e (dw_S st)) (scene_of U v) dw_t (joints_of (v_s v)) /\
  world_update_geometric (ds_e (dw_S st)) (scene_of U v) dw_h (joints_of (v_s v)) 10 (fun _ => no_attr) = Ok (v_st v) /\
  In (FMov 0) (w_subframes dw_h) /\ In (FSub 0) (w_subframes dw_h) /\ In 0%nat (w_shapes dw_h) /\ Model_Joints.pose (joints_of (v_s v) 1%nat) = transl q 0 0.
Proof.
  intros q. destruct (dw_state 2) as (st & Us & _). destruct (new_ok [] 1%nat ltac:(constructor)) as (cs & Ec & _).
  set (s := WS dw_h (fun _ => TxJoint) (fun _ => eye4) (fun _ _ => q) wdyn0 vzero mzero mzero 0).
  set (U := SU dw_e dw_sc 10 (fun _ _ => None) (fun _ _ => mzero) (fun _ => []) (fun _ _ _ => None) (fun _ => []) (fun _ => (zero3, eye3)) (fun _ => EmptyString)).
  assert (Ri : rigid_scene dw_e dw_sc dw_t (joints_of s)).
  { split; [intros [b | b | b]; auto using SE3_eye, transl_SE3 | ]. intros j Ij. cbn in Ij. destruct Ij as [<- | []]. split; [discriminate | reflexivity]. }
  destruct (C39_poses dw_e dw_sc dw_h dw_t (joints_of s) 10 (fun _ => no_attr) dw_ready Ri ltac:(cbn; lia)) as (sg & sd & dd & Ug & _).
  exists st, cs, U, (WV s sg []). split; [exact Ec | ]. split; [exact dw_reachable | ]. split; [exact dw_ready | ]. split; [exact (dw_rigid 2) | ]. split; [exact (dw_drawable st) | ]. split; [exact inv4_rigid | ]. split; [exact Us | ].
  split; [reflexivity | ]. split; [reflexivity | ]. split; [cbn; lia | ]. split; [exact Ri | ]. split; [exact Ug | ]. cbn. auto 8.
Qed.
