(** C87: the messages to the viewer. *)
From Coq Require Import Lra Lia.
From Verif Require Import Spec_Com Spec_Step Spec_Dyn Proof_SE3 Proof_Linalg Proof_World Proof_World2 Proof_World3 Proof_Register Proof_World4 Proof_Tree Proof_Step Proof_Joints Proof_Sim Proof_Sim2 Proof_Sim3 Proof_Sim5 Proof_Draw Props_Dyn Props_Named Props_Sim2 Props_Draw Props_Draw2 Props_Draw3.
From Verif Require Import Props_Sim Props_Sim5 Props_Dae Props_Dae4 Proof_Anim Proof_Anim2 Props_Anim Proof_Com.
Open Scope R_scope.

(** what moves in the document and its names *)
Lemma logged_facts : forall argsort eigvals eig daenim str_id S geo flat g0 t fuel up cg scale update nm S1 D U O t0 ts obs x k v (A : anim),
  let h := s_heap (w_s (sm_w x)) in
  argsort_ok argsort -> showable S g0 h t fuel cg -> writable eigvals eig S1 geo h t up ->
  write_collada_scene argsort eigvals eig daenim str_id S geo flat fuel h up cg scale update nm = (sm_names x, Ok (S1, D)) ->
  well_named daenim S1 geo h t ->
  su_e U = ds_e S -> sub_bpose (su_sc U) = sub_bpose (ds_sc S) -> (height t < su_fuel U)%nat -> (forall j, In j (joints t) -> jndof (su_e U) j = ndof_of (s_ty (w_s (sm_w x)) j)) ->
  at_step U O t0 ts obs x k v -> let w := w_v (sm_w v) in rigid_scene (su_e U) (su_sc U) t (joints_of (v_s w)) ->
  (forall f tg, logged U h flat f tg -> sm_names x (id_frame f) <> None) /\ (forall f tg, logged U h flat f tg -> in_world (ds_e S) h t f) /\
  (forall f tg tg', logged U h flat f tg -> logged U h flat f tg' -> tg = tg') /\
  (forall f f' s, in_world (ds_e S) h t f -> in_world (ds_e S) h t f' -> sm_names x (id_frame f) = Some s -> sm_names x (id_frame f') = Some s -> f = f').
Proof.
  intros argsort eigvals eig daenim str_id S geo flat g0 t fuel up cg scale update nm S1 D U O t0 ts obs x k v A h Ha Sh Wr Ws Wn Eu Es Fu Hty As w Rv.
  (* the scene *)
  destruct (scene_names str_id (ds_e S) fuel h flat nm) as (nm1, r) eqn:En. assert (Er : nm1 = sm_names x /\ r = Ok tt).
  { unfold write_collada_scene in Ws. rewrite En in Ws. destruct r as [[] | ]; [ | discriminate]. injection Ws as -> _. auto. } destruct Er as (-> & ->).
  destruct (scene_written argsort eigvals eig daenim str_id S geo flat g0 h t fuel up cg scale update nm _ Ha Sh En) as (cs & st & Ug & Dw & Ew). rewrite Ew in Ws. injection Ws as Ws.
  set (S2 := named_scene S (sm_names x) st) in *. destruct (dae_world argsort eigvals eig daenim S2 geo flat fuel h up cs scale update) as [D2 | ] eqn:ED; [ | discriminate]. injection Ws as <- <-. rename D2 into D.
  destruct Sh as (Rc & Rd & Ri & F & _ & Dj & Mv & _ & Iv). assert (Rt := proj1 Rd). assert (Ero := proj1 (proj2 Rd)). assert (Nb := proj1 (proj2 (proj2 Rd))).
  destruct (world_iterators (ds_e S) h (reachable_forest 0 _ _ _ Rc)) as (t2 & R2 & E2 & N2 & _ & It). assert (t2 = t) by (apply (rep_unique (ds_e S) h t2 t R2 Rt); congruence). subst t2. destruct (It fuel) as (It1 & _). destruct (It1 F) as (Ib0 & Ij0). destruct (It (su_fuel U)) as (It2 & _). destruct (It2 Fu) as (Ib & Ij). clear It It1 It2.
  destruct (written argsort eigvals eig daenim S2 geo flat g0 h t fuel up cs scale update Ha Dw Wr) as (D' & ED' & _ & Ed & _). rewrite ED in ED'. apply Ok_inj in ED'. subst D'.
  destruct (drawn S2 flat g0 h t fuel cs Dw) as (d & evs & Ed' & _ & _ & _ & Fr & _ & _ & _ & _ & _ & _ & DI). rewrite Ed in Ed'. apply Ok_inj in Ed'. subst d.
  destruct Wn as (Dn & Ne & Ng). destruct (C84_ids argsort eigvals eig daenim S2 geo flat g0 h t fuel up cs scale update Ha Dw Wr Dn) as (D' & ED' & _ & Ids & _). rewrite ED in ED'. apply Ok_inj in ED'. subst D'.
  change (ds_e S2) with (ds_e S) in *. assert (Nm : forall f, ds_nm S2 (OFrame f) = sm_names x (id_frame f)) by reflexivity.
  (* the logged frames *)
  assert (Nl : forall f tg, logged U h flat f tg -> sm_names x (id_frame f) <> None).
  { apply (scene_named str_id (ds_e S) fuel h flat nm (sm_names x) U Eu); [intros bs Q; rewrite Ib in Q; congruence | intros js Q; rewrite Ij in Q; congruence | exact En]. }
  assert (Lw : forall f tg, logged U h flat f tg -> in_world (ds_e S) h t f).
  { intros f tg Lg. inversion Lg as [b bs Fl Eb Hb | j js f0 f1 Fl Ej Hj Ef' | m Im]; subst.
    - rewrite Eu, Ib in Eb. injection Eb as <-. split; [exact Hb | exact Logic.I].
    - rewrite Eu, Ij in Ej. injection Ej as <-. exact (link_known S g0 h t f0 j f Rc Rt (conj Hj Ef')).
    - split; [exact (Mv m Im) | exact Im]. }
  assert (Lf : forall f tg tg', logged U h flat f tg -> logged U h flat f tg' -> tg = tg').
  { intros f tg tg' L1 L2. inversion L1 as [b bs Fl Eb Hb | j js f0 f1 Fl Ej Hj Ef1 | m Im]; subst; inversion L2 as [b' bs' Fl' Eb' Hb' | j' js' f0' f1' Fl' Ej' Hj' Ef2 | m' Im']; subst; try congruence.
    - rewrite Eu, Ij in Ej, Ej'. injection Ej as <-. injection Ej' as <-. destruct (link_bodies _ _ _ _ _ _ Rt (conj Hj Ef1 : tree_link h t f0 j f)) as (_ & _ & Q1), (link_bodies _ _ _ _ _ _ Rt (conj Hj' Ef2 : tree_link h t f0' j' f)) as (_ & _ & Q2). congruence.
    - rewrite Eu, Ij in Ej. injection Ej as <-. destruct (Dj _ _ _ m' Hj Ef1) as (_ & Q). congruence.
    - rewrite Eu, Ij in Ej'. injection Ej' as <-. destruct (Dj _ _ _ m Hj' Ef2) as (_ & Q). congruence. }
  set (gnd := FBody (ground (ds_e S))).
  assert (Inj : forall f f' s, in_world (ds_e S) h t f -> in_world (ds_e S) h t f' -> sm_names x (id_frame f) = Some s -> sm_names x (id_frame f') = Some s -> f = f').
  { intros f f' s If If' N1 N2'. destruct (frame_eq_dec f gnd) as [G | G], (frame_eq_dec f' gnd) as [G' | G']; [congruence | | | ].
    - subst f. destruct (Ng f' (proj1 If') (proj2 If') G') as (_ & Q). rewrite !Nm in Q. exfalso. apply Q; [congruence | ]. fold gnd. congruence.
    - subst f'. destruct (Ng f (proj1 If) (proj2 If) G) as (_ & Q). rewrite !Nm in Q. exfalso. apply Q; [congruence | ]. fold gnd. congruence.
    - assert (X : TFrame f = TFrame f'); [ | now injection X]. apply (Dn (TFrame f) (TFrame f') s); [split; [apply If | split; [apply If | exact G]] | split; [apply If' | split; [apply If' | exact G']] | exact N1 | exact N2' | ]. intros ->. exact (Ne f (proj1 If) (proj2 If) N1). }
  auto.
Qed.
(** a document whose nodes are moved, at an instant, by the poses of the logged frames shows every frame where it is *)
Lemma channels_shown : forall argsort eigvals eig daenim str_id S geo flat g0 t fuel up cg scale update nm S1 D U O t0 ts obs x k v (A : anim),
  let h := s_heap (w_s (sm_w x)) in
  argsort_ok argsort -> showable S g0 h t fuel cg -> writable eigvals eig S1 geo h t up ->
  write_collada_scene argsort eigvals eig daenim str_id S geo flat fuel h up cg scale update nm = (sm_names x, Ok (S1, D)) ->
  well_named daenim S1 geo h t ->
  su_e U = ds_e S -> sub_bpose (su_sc U) = sub_bpose (ds_sc S) -> (height t < su_fuel U)%nat -> (forall j, In j (joints t) -> jndof (su_e U) j = ndof_of (s_ty (w_s (sm_w x)) j)) ->
  at_step U O t0 ts obs x k v -> let w := w_v (sm_w v) in rigid_scene (su_e U) (su_sc U) t (joints_of (v_s w)) ->
  forall k', an_doc A = D ->
  (forall f tg, logged U h flat f tg -> exists s M H, sm_names x (id_frame f) = Some s /\ dic_get (an_chan A) s = Ok M /\ nth_error M k' = Some H /\ target_pose U w flat tg = Ok H) ->
  (forall s M, dic_get (an_chan A) s = Ok M -> exists f tg, logged U h flat f tg /\ sm_names x (id_frame f) = Some s) ->
  forall f, in_world (ds_e S) h t f -> exists n P, d_frames (da_draw D) f = Some n /\ frame_pose (ds_e S) (scene_of U w) (v_st w) f = Ok P /\ forall Q, shown A k' n Q <-> Q = P.
Proof.
  intros argsort eigvals eig daenim str_id S geo flat g0 t fuel up cg scale update nm S1 D U O t0 ts obs x k v A h Ha Sh Wr Ws Wn Eu Es Fu Hty As w Rv k' EA Ch Ch'.
  (* the scene *)
  destruct (scene_names str_id (ds_e S) fuel h flat nm) as (nm1, r) eqn:En. assert (Er : nm1 = sm_names x /\ r = Ok tt).
  { unfold write_collada_scene in Ws. rewrite En in Ws. destruct r as [[] | ]; [ | discriminate]. injection Ws as -> _. auto. } destruct Er as (-> & ->).
  destruct (scene_written argsort eigvals eig daenim str_id S geo flat g0 h t fuel up cg scale update nm _ Ha Sh En) as (cs & st & Ug & Dw & Ew). rewrite Ew in Ws. injection Ws as Ws.
  set (S2 := named_scene S (sm_names x) st) in *. destruct (dae_world argsort eigvals eig daenim S2 geo flat fuel h up cs scale update) as [D2 | ] eqn:ED; [ | discriminate]. injection Ws as <- <-. rename D2 into D.
  destruct Sh as (Rc & Rd & Ri & F & _ & Dj & Mv & _ & Iv). assert (Rt := proj1 Rd). assert (Ero := proj1 (proj2 Rd)). assert (Nb := proj1 (proj2 (proj2 Rd))).
  destruct (world_iterators (ds_e S) h (reachable_forest 0 _ _ _ Rc)) as (t2 & R2 & E2 & N2 & _ & It). assert (t2 = t) by (apply (rep_unique (ds_e S) h t2 t R2 Rt); congruence). subst t2. destruct (It fuel) as (It1 & _). destruct (It1 F) as (Ib0 & Ij0). destruct (It (su_fuel U)) as (It2 & _). destruct (It2 Fu) as (Ib & Ij). clear It It1 It2.
  destruct (written argsort eigvals eig daenim S2 geo flat g0 h t fuel up cs scale update Ha Dw Wr) as (D' & ED' & _ & Ed & _). rewrite ED in ED'. apply Ok_inj in ED'. subst D'.
  destruct (drawn S2 flat g0 h t fuel cs Dw) as (d & evs & Ed' & _ & _ & _ & Fr & _ & _ & _ & _ & _ & _ & DI). rewrite Ed in Ed'. apply Ok_inj in Ed'. subst d.
  destruct Wn as (Dn & Ne & Ng). destruct (C84_ids argsort eigvals eig daenim S2 geo flat g0 h t fuel up cs scale update Ha Dw Wr Dn) as (D' & ED' & _ & Ids & _). rewrite ED in ED'. apply Ok_inj in ED'. subst D'.
  change (ds_e S2) with (ds_e S) in *. assert (Nm : forall f, ds_nm S2 (OFrame f) = sm_names x (id_frame f)) by reflexivity.
  (* the logged frames *)
  assert (Nl : forall f tg, logged U h flat f tg -> sm_names x (id_frame f) <> None).
  { apply (scene_named str_id (ds_e S) fuel h flat nm (sm_names x) U Eu); [intros bs Q; rewrite Ib in Q; congruence | intros js Q; rewrite Ij in Q; congruence | exact En]. }
  assert (Lw : forall f tg, logged U h flat f tg -> in_world (ds_e S) h t f).
  { intros f tg Lg. inversion Lg as [b bs Fl Eb Hb | j js f0 f1 Fl Ej Hj Ef' | m Im]; subst.
    - rewrite Eu, Ib in Eb. injection Eb as <-. split; [exact Hb | exact Logic.I].
    - rewrite Eu, Ij in Ej. injection Ej as <-. exact (link_known S g0 h t f0 j f Rc Rt (conj Hj Ef')).
    - split; [exact (Mv m Im) | exact Im]. }
  assert (Lf : forall f tg tg', logged U h flat f tg -> logged U h flat f tg' -> tg = tg').
  { intros f tg tg' L1 L2. inversion L1 as [b bs Fl Eb Hb | j js f0 f1 Fl Ej Hj Ef1 | m Im]; subst; inversion L2 as [b' bs' Fl' Eb' Hb' | j' js' f0' f1' Fl' Ej' Hj' Ef2 | m' Im']; subst; try congruence.
    - rewrite Eu, Ij in Ej, Ej'. injection Ej as <-. injection Ej' as <-. destruct (link_bodies _ _ _ _ _ _ Rt (conj Hj Ef1 : tree_link h t f0 j f)) as (_ & _ & Q1), (link_bodies _ _ _ _ _ _ Rt (conj Hj' Ef2 : tree_link h t f0' j' f)) as (_ & _ & Q2). congruence.
    - rewrite Eu, Ij in Ej. injection Ej as <-. destruct (Dj _ _ _ m' Hj Ef1) as (_ & Q). congruence.
    - rewrite Eu, Ij in Ej'. injection Ej' as <-. destruct (Dj _ _ _ m Hj' Ef2) as (_ & Q). congruence. }
  set (gnd := FBody (ground (ds_e S))).
  assert (Inj : forall f f' s, in_world (ds_e S) h t f -> in_world (ds_e S) h t f' -> sm_names x (id_frame f) = Some s -> sm_names x (id_frame f') = Some s -> f = f').
  { intros f f' s If If' N1 N2'. destruct (frame_eq_dec f gnd) as [G | G], (frame_eq_dec f' gnd) as [G' | G']; [congruence | | | ].
    - subst f. destruct (Ng f' (proj1 If') (proj2 If') G') as (_ & Q). rewrite !Nm in Q. exfalso. apply Q; [congruence | ]. fold gnd. congruence.
    - subst f'. destruct (Ng f (proj1 If) (proj2 If) G) as (_ & Q). rewrite !Nm in Q. exfalso. apply Q; [congruence | ]. fold gnd. congruence.
    - assert (X : TFrame f = TFrame f'); [ | now injection X]. apply (Dn (TFrame f) (TFrame f') s); [split; [apply If | split; [apply If | exact G]] | split; [apply If' | split; [apply If' | exact G']] | exact N1 | exact N2' | ]. intros ->. exact (Ne f (proj1 If) (proj2 If) N1). }
  destruct (step_posed U O t0 ts obs x k v g0 t) as (Gp & Fp & Jp); [rewrite Eu; exact Rc | rewrite Eu; exact Rt | rewrite Eu; exact Ero | exact Fu | exact Hty | exact As | exact Rv | ]. fold w in Gp, Fp, Jp. fold h in Jp. rewrite Eu in Gp, Fp, Jp.
  destruct (anim_poses S2 flat h t (da_draw D) U w DI Rt) as ((pz & An) & At); try assumption.
  { intros j f0 m Ij' Ef'. destruct (Dj j f0 (FMov m) m Ij' Ef') as (_ & Q). now apply Q. }
  { intros f'. change (ds_e S2) with (ds_e S). rewrite <- (Fr f'). split; [intros Q; destruct (d_frames (da_draw D) f') as [n | ]; [now exists n | congruence] | intros (n & ->); discriminate]. }
  { intros s. rewrite scene_of_sub, Es. exact (proj1 Ri (FSub s)). }
  { intros f0 j f1 (Ij' & Ef'). apply Jp; [split; assumption | intros m Q; destruct (Dj j f0 f1 m Ij' Ef'); contradiction | intros m Q; destruct (Dj j f0 f1 m Ij' Ef'); contradiction]. }
  assert (Nod : forall n z, In (n, z) (d_nodes (da_draw D)) -> in_world (ds_e S) h t (n_frame z) /\ n_frame z <> gnd /\ node_id D n = nonempty (sm_names x (id_frame (n_frame z)))).
  { intros n z J. destruct (s1 _ _ _ _ _ _ (proj1 DI) n z J) as (Q & _ & E1 & _). assert (Iw : in_world (ds_e S) h t (n_frame z)) by (apply Fr; eauto). assert (G : n_frame z <> gnd). { intros E. assert (Z := s0 _ _ _ _ _ _ (proj1 DI)). change (FBody (ground (ds_e S2))) with gnd in Z. rewrite <- E, E1 in Z. injection Z as ->. lia. }
    split; [exact Iw | ]. split; [exact G | ]. destruct (Ids (n_frame z) Iw G) as (n' & _ & E1' & Eid). rewrite E1 in E1'. injection E1' as <-. exact Eid. }
  assert (Cc : forall n z, In (n, z) (d_nodes (da_draw D)) -> n_const z = true -> forall M, ~ channel A n M).
  { intros n z J Ek M (s & Es' & EM). destruct (Nod n z J) as (Iw & G & Eid). rewrite EA in Es'. rewrite Eid in Es'. destruct (Ch' s M EM) as (f' & tg & Lg & En').
    assert (Ez : sm_names x (id_frame (n_frame z)) = Some s). { destruct (sm_names x (id_frame (n_frame z))) as [[ | a s'] | ]; cbn in Es'; congruence. }
    assert (f' = n_frame z) by (apply (Inj f' (n_frame z) s); [exact (Lw _ _ Lg) | exact Iw | exact En' | exact Ez]). subst f'. exact (const_not_logged S2 flat h t (da_draw D) U DI Rt Ero Nb Eu Ij n z J Ek tg Lg). }
  assert (Cm : forall n z, In (n, z) (d_nodes (da_draw D)) -> n_const z = false -> exists M, channel A n M /\ nth_error M k' = Some (pz z)).
  { intros n z J Ek. assert (Az := An n z J). rewrite Ek in Az. destruct Az as (tg & Lg & Et). destruct (Ch _ _ Lg) as (s & M & H & E1 & EM & Nth & EH). rewrite Et in EH. apply Ok_inj in EH. subst H. exists M. split; [ | exact Nth]. exists s. split; [ | exact EM].
    destruct (Nod n z J) as (Iw & G & Eid). rewrite EA. rewrite Eid, E1. destruct s; [ | reflexivity]. destruct (Ne (n_frame z) (proj1 Iw) (proj2 Iw)). exact E1. }
  assert (Cg : forall M, channel A 0 M -> nth_error M k' = Some eye4).
  { intros M (s & Es' & EM). rewrite ?EA in Es'; cbn in Es'. injection Es' as <-. destruct (Ch' _ M EM) as (f' & tg & Lg & En'). assert (Iw := Lw _ _ Lg). destruct (frame_eq_dec f' gnd) as [-> | G]; [ | destruct (Ng f' (proj1 Iw) (proj2 Iw) G) as (Q & _); now destruct Q].
    destruct (Ch _ _ Lg) as (s & M' & H & E1 & EM' & Nth & EH). rewrite En' in E1. injection E1 as <-. rewrite EM in EM'. apply Ok_inj in EM'. subst M'. rewrite Nth. f_equal.
    inversion Lg as [b bs Fl Eb Hb Q0 | j js f0 f1 Fl Ej Hj Ef' Q0 | m Im]; subst.
    - cbn [target_pose] in EH. rewrite Eu in EH. unfold frame_pose in EH. cbn [frame_body] in EH. rewrite Gp in EH. cbn in EH. now apply Ok_inj in EH.
    - exfalso. rewrite Eu, Ij in Ej. injection Ej as <-. destruct (link_bodies _ _ _ _ _ _ Rt (conj Hj Ef' : tree_link h t f0 j gnd)) as (_ & Tb & _). cbn [gnd frame_body] in Tb. rewrite <- Ero in Tb. rewrite bodies_tail in Nb. inversion Nb; contradiction. }
  assert (Fun : forall n M M', channel A n M -> channel A n M' -> M = M') by (intros n M M' (s & E1 & E3) (s' & E1' & E3'); congruence).
  assert (Eqv : forall n Q, shown A k' n Q <-> at_pose pz (d_nodes (da_draw D)) n Q).
  { intros n Q. split.
    - induction 1 as [_ | M H C N | n z P J C _ IH | n z M H P J C N _ IH].
      + constructor.
      + rewrite (Cg M C) in N. injection N as <-. constructor.
      + rewrite EA in J. assert (Ez : pz z = n_pose z). { assert (Az := An n z J). destruct (n_const z) eqn:Ek; [exact Az | ]. destruct (Cm n z J Ek) as (M & CM & _). destruct (C M CM). } rewrite <- Ez. now constructor.
      + rewrite EA in J. assert (Ez : pz z = H). { destruct (n_const z) eqn:Ek; [destruct (Cc n z J Ek M C) | ]. destruct (Cm n z J Ek) as (M' & CM & Nth). rewrite (Fun _ _ _ CM C), N in Nth. now injection Nth. } rewrite <- Ez. now constructor.
    - induction 1 as [ | n z P J _ IH].
      + destruct (dic_get (an_chan A) "ground"%string) as [M | e] eqn:E.
        * assert (C : channel A 0 M) by (exists "ground"%string; split; [rewrite EA; reflexivity | exact E]). exact (shown_ground_moved A k' M eye4 C (Cg M C)).
        * apply shown_ground. intros M (s & Es' & EM). rewrite ?EA in Es'; cbn in Es'. injection Es' as <-. change ground_id with "ground"%string in EM. rewrite E in EM. discriminate.
      + destruct (n_const z) eqn:Ek.
        * assert (Az := An n z J). rewrite Ek in Az. rewrite Az. apply shown_still; [rewrite EA; exact J | exact (Cc n z J Ek) | exact IH].
        * destruct (Cm n z J Ek) as (M & C & N). assert (J' := J); rewrite <- EA in J'; exact (shown_moved A k' n z M (pz z) P J' C N IH). }
  intros f If. destruct (At pz An f If) as (n & P & Ef' & EP & HP). exists n, P. split; [exact Ef' | ]. split; [exact EP | ]. intros Q. rewrite Eqv. apply HP.
Qed.
