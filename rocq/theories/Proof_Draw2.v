(** The Drawer along a parse. *)
From Coq Require Import Lra Lia.
From Verif Require Import Spec_Draw Proof_SE3 Props_Color Props_Color2.
From Verif Require Import Proof_Linalg Proof_World Proof_World2 Proof_Register Proof_Draw.
Open Scope R_scope.

Section D.
  Variables (S : dscene) (flat : bool) (L : frame -> nat -> frame -> Prop).
  Notation e := (ds_e S).
  Notation gnd := (FBody (ground e)).
  Notation dinv := (dinv S flat L).

  Definition ok_event (ev : event) : bool := match ev with ELink _ _ (FMov _) => false | ERegShape s => ds_known S s | _ => true end.
  Definition reg_shapes (evs : list event) : list nat := flat_map (fun ev => match ev with ERegShape s => [s] | _ => [] end) evs.
  Definition reg_bodies (evs : list event) : list nat :=
    flat_map (fun ev => match ev with ERegFrame (FBody b) => if Rltb (10 / 100000000) (norm66 (b_mass (ds_sc S) b)) then [b] else [] | _ => [] end) evs.
  Record ainv (a : list event) (d : draw) : Prop := {
    a1 : forall f, d_frames d f <> None -> frame_body e f = ground e \/ exists g0 i g1, In (ELink g0 i g1) a /\ frame_body e g1 = frame_body e f;
    a2 : forall f, In (ERegFrame f) a -> d_frames d f <> None;
    a3 : forall f0 j f1, In (ELink f0 j f1) a -> d_frames d f1 <> None /\ d_frames d (FBody (frame_body e f1)) <> None;
    a4 : item_shapes (d_items d) = rev (reg_shapes a);
    a5 : item_bodies (d_items d) = rev (reg_bodies a);
    a6 : forall f, d_frames d f <> None -> f = gnd \/ In (ERegFrame f) a \/ exists g0 i g1, In (ELink g0 i g1) a /\ (f = g1 \/ f = FBody (frame_body e g1))
  }.
  (** extension by one event: frames only grow *)
  Lemma ainv_grow a ev d d' : ainv a d -> (forall f, d_frames d f <> None -> d_frames d' f <> None) ->
    (forall f, d_frames d' f <> None -> d_frames d f <> None \/ match ev with ELink _ _ f1 => f = f1 \/ f = FBody (frame_body e f1) | ERegFrame g => f = g /\ (frame_body e g = ground e \/ exists g0 i g1, In (ELink g0 i g1) a /\ frame_body e g1 = frame_body e g) | _ => False end) ->
    match ev with ERegFrame f => d_frames d' f <> None | ELink _ _ f1 => d_frames d' f1 <> None /\ d_frames d' (FBody (frame_body e f1)) <> None | _ => True end ->
    item_shapes (d_items d') = (match ev with ERegShape s => [s] | _ => [] end) ++ item_shapes (d_items d) ->
    item_bodies (d_items d') = (match ev with ERegFrame (FBody b) => if Rltb (10 / 100000000) (norm66 (b_mass (ds_sc S) b)) then [b] else [] | _ => [] end) ++ item_bodies (d_items d) ->
    ainv (a ++ [ev]) d'.
  Proof.
    intros [A1 A2 A3 A4 A5 A6] G N H Es Eb. constructor.
    - intros f Hf. destruct (N f Hf) as [Hf' | Hf'].
      + destruct (A1 f Hf') as [? | (g0 & i & g1 & ? & ?)]; [now left | right]. exists g0, i, g1. split; [apply in_or_app; now left | assumption].
      + destruct ev as [ | f0 j f1 | g | s | c | c]; try contradiction.
        * right. exists f0, j, f1. split; [apply in_or_app; right; now left | ]. destruct Hf' as [-> | ->]; reflexivity.
        * destruct Hf' as (-> & [? | (g0 & i & g1 & ? & ?)]); [now left | right]. exists g0, i, g1. split; [apply in_or_app; now left | assumption].
    - intros f Hf. apply in_app_or in Hf. destruct Hf as [Hf | [-> | []]]; [auto | exact H].
    - intros f0 j f1 Hf. apply in_app_or in Hf. destruct Hf as [Hf | [-> | []]]; [destruct (A3 f0 j f1 Hf); auto | exact H].
    - rewrite Es, A4. unfold reg_shapes. rewrite flat_map_app, rev_app_distr. cbn. rewrite app_nil_r. destruct ev; reflexivity.
    - rewrite Eb, A5. unfold reg_bodies. rewrite flat_map_app, rev_app_distr. cbn. rewrite app_nil_r. destruct ev as [ | | [b | b | b] | | | ]; try reflexivity. destruct (Rltb _ _); reflexivity.
    - intros f Hf. destruct (N f Hf) as [Hf' | Hf'].
      + destruct (A6 f Hf') as [? | [? | (g0 & i & g1 & ? & ?)]]; [now left | right; left; apply in_or_app; now left | right; right]. exists g0, i, g1. split; [apply in_or_app; now left | assumption].
      + destruct ev as [ | f0 j f1 | g | s | c | c]; try contradiction.
        * right. right. exists f0, j, f1. split; [apply in_or_app; right; now left | assumption].
        * right. left. destruct Hf' as (-> & _). apply in_or_app. right. now left.
  Qed.
  Lemma dinv_color d d1 : dinv d -> d_next d1 = d_next d -> d_nodes d1 = d_nodes d -> d_frames d1 = d_frames d -> d_items d1 = d_items d -> all_valid (d_colors d1) ->
    (forall o' c', lookup e (ds_nm S) o' (d_colors d) = Some c' -> lookup e (ds_nm S) o' (d_colors d1) = Some c') -> dinv d1.
  Proof. intros (A & B) E1 E2 E3 E4 V K. split; rewrite ?E1, ?E2, ?E3, ?E4; [exact A | exact (iinv_color _ _ _ _ _ _ B V K)]. Qed.
  Lemma dinv_ext d d' : dinv d -> d_next d' = d_next d -> d_nodes d' = d_nodes d -> (forall f, d_frames d' f = d_frames d f) -> d_items d' = d_items d -> d_colors d' = d_colors d -> dinv d'.
  Proof.
    intros (A & B) E1 E2 E3 E4 E5. split; rewrite ?E1, ?E2, ?E4, ?E5; [exact (sinv_ext _ _ _ _ _ _ _ E3 A) | ]. apply (iinv_mono _ _ _ _ _ _ _ B); [auto | ]. intros f n H. now rewrite E3.
  Qed.
  Lemma color_dinv o b d : dinv d -> of_body e o b -> exists c d1, draw_color S o d = Ok (c, d1) /\ dinv d1 /\ d_frames d1 = d_frames d /\ d_items d1 = d_items d /\ d_next d1 = d_next d /\ lookup e (ds_nm S) o (d_colors d1) = Some c.
  Proof.
    intros D P. destruct (color_step S o b d (i0 _ _ _ _ _ (proj2 D)) P) as (c & d1 & E & E1 & E2 & E3 & E4 & _ & V & Lk & K). exists c, d1. split; [exact E | ]. split; [exact (dinv_color _ _ D E1 E2 E3 E4 V K) | auto].
  Qed.
  Lemma of_frame f : of_body e (OFrame f) (frame_body e f). Proof. left. eauto. Qed.
  Ltac gr Hd := intros ? ?; rewrite ?Hd; auto.

  (** the poses read in flat mode are available *)
  Variable poses : flat = true -> forall f0 j f1, L f0 j f1 -> exists P, a_pose (ds_st S (frame_body e f1)) = Some P.

  Lemma link_step a f0 j f1 d : dinv d -> ainv a d -> In (ERegFrame f0) a -> L f0 j f1 ->
    frame_body e f1 <> ground e -> (forall g0 i g1, In (ELink g0 i g1) a -> frame_body e g1 <> frame_body e f1) ->
    if ok_event (ELink f0 j f1) then exists d', draw_link S flat f0 j f1 d = Ok d' /\ dinv d' /\ ainv (a ++ [ELink f0 j f1]) d'
    else draw_link S flat f0 j f1 d = Err ValueError.
  Proof.
    intros D A I0 Lk Ng Nl.
    assert (Fr : forall f, frame_body e f = frame_body e f1 -> d_frames d f = None).
    { intros f Ef. destruct (d_frames d f) as [n | ] eqn:E; [exfalso | reflexivity]. destruct (a1 _ _ A f ltac:(congruence)) as [Q | (g0 & i & g1 & Q & Q')]; [congruence | ]. apply (Nl _ _ _ Q). congruence. }
    destruct (d_frames d f0) as [n0 | ] eqn:E0; [ | exfalso; exact (a2 _ _ A _ I0 E0)].
    assert (Gnd := s0 _ _ _ _ _ _ (proj1 D)).
    destruct f1 as [b | s | m]; cbn [ok_event draw_link]; [ | | reflexivity].
    - (* a body *)
      assert (Ef : flat = true \/ flat = false) by (destruct flat; auto). destruct Ef as [Ef | Ef]; [match goal with |- context [if flat then ?A else ?B] => replace (if flat then A else B) with A by (rewrite Ef; reflexivity) end | match goal with |- context [if flat then ?A else ?B] => replace (if flat then A else B) with B by (rewrite Ef; reflexivity) end].
      + destruct (poses Ef _ _ _ Lk) as (P & EP). unfold body_pose. cbn [frame_body] in EP |- *. rewrite EP. cbn [Model_Dyn.get rbind].
        destruct (color_dinv (OFrame (FBody b)) b d D (of_frame (FBody b))) as (c & d1 & Ec & D1 & F1 & I1 & _). rewrite Ec. cbn [rbind].
        destruct (add_frame 0 P false (FBody b) c d1) as (n, d2) eqn:Ea.
        destruct (add_step S flat L d1 gnd 0%nat P false (FBody b) c n d2 D1 ltac:(rewrite F1; exact Gnd)) as (_ & D2 & F2 & C2 & S2 & B2 & _).
        { right. right. right. right. split; [exact Ef | ]. exists b. repeat split. exact EP. } { rewrite F1. now apply Fr. } { exact Ea. }
        eexists. split; [reflexivity | ]. split; [exact D2 | ].
        apply (ainv_grow a (ELink f0 j (FBody b)) d _ A); cbn [set_frame d_frames d_items frame_body].
        * intros f Hf. destruct (frame_eqb f (FBody b)); [discriminate | ]. now rewrite F2, F1.
        * intros f. destruct (frame_eqb f (FBody b)) eqn:Eq; [apply frame_eqb_eq in Eq; auto | ]. rewrite F2, F1. auto.
        * rewrite frame_eqb_refl. split; discriminate.
        * rewrite S2, I1. reflexivity.
        * rewrite B2, I1. reflexivity.
      + unfold frame_node. rewrite E0. cbn [rbind].
        destruct (color_dinv (OFrame (FBody b)) b d D (of_frame (FBody b))) as (c & d1 & Ec & D1 & F1 & I1 & _). rewrite Ec. cbn [rbind].
        destruct (add_frame n0 (Model_Joints.pose (ds_J S j)) false (FBody b) c d1) as (n, d2) eqn:Ea.
        destruct (add_step S flat L d1 f0 n0 (Model_Joints.pose (ds_J S j)) false (FBody b) c n d2 D1 ltac:(rewrite F1; exact E0)) as (_ & D2 & F2 & C2 & S2 & B2 & _).
        { left. split; [exact Ef | ]. exists j. auto. } { rewrite F1. now apply Fr. } { exact Ea. }
        eexists. split; [reflexivity | ]. split; [apply (dinv_ext _ _ D2); reflexivity | ].
        apply (ainv_grow a (ELink f0 j (FBody b)) d _ A); cbn [set_frame set_moving d_frames d_items frame_body].
        * intros f Hf. destruct (frame_eqb f (FBody b)); [discriminate | ]. now rewrite F2, F1.
        * intros f. destruct (frame_eqb f (FBody b)) eqn:Eq; [apply frame_eqb_eq in Eq; auto | ]. rewrite F2, F1. auto.
        * rewrite frame_eqb_refl. split; discriminate.
        * rewrite S2, I1. reflexivity.
        * rewrite B2, I1. reflexivity.
    - (* a subframe *)
      set (bd := frame_body e (FSub s)) in *.
      assert (Nb : d_frames d (FBody bd) = None) by (apply Fr; reflexivity). assert (Ns : d_frames d (FSub s) = None) by (apply Fr; reflexivity).
      assert (Ef : flat = true \/ flat = false) by (destruct flat; auto). destruct Ef as [Ef | Ef]; [match goal with |- context [if flat then ?A else ?B] => replace (if flat then A else B) with A by (rewrite Ef; reflexivity) end | match goal with |- context [if flat then ?A else ?B] => replace (if flat then A else B) with B by (rewrite Ef; reflexivity) end].
      + destruct (poses Ef _ _ _ Lk) as (P & EP). unfold body_pose. fold bd in EP. rewrite EP. cbn [Model_Dyn.get rbind].
        destruct (color_dinv (OFrame (FBody bd)) bd d D (of_frame (FBody bd))) as (c & d1 & Ec & D1 & F1 & I1 & _). rewrite Ec. cbn [rbind].
        destruct (add_frame 0 P false (FBody bd) c d1) as (n, d2) eqn:Ea.
        destruct (add_step S flat L d1 gnd 0%nat P false (FBody bd) c n d2 D1 ltac:(rewrite F1; exact Gnd)) as (_ & D2 & F2 & C2 & S2 & B2 & _).
        { right. right. right. right. split; [exact Ef | ]. exists bd. repeat split. exact EP. } { rewrite F1. exact Nb. } { exact Ea. }
        destruct (color_dinv (OFrame (FSub s)) bd _ D2 (of_frame (FSub s))) as (c' & d3 & Ec' & D3 & F3 & I3 & N3 & _).
        assert (Ed : draw_color S (OFrame (FSub s)) d2 = Ok (c', Dr (d_next d3) (d_nodes d3) (d_frames d2) (d_moving d3) (d_items d3) (d_colors d3))).
        { unfold draw_color in Ec' |- *. cbn [set_frame d_colors d_next d_nodes d_frames d_moving d_items] in Ec'. destruct (get_color e (ds_nm S) (OFrame (FSub s)) (d_colors d2)) as [(c2, cs2) | ]; [ | discriminate]. cbn [rbind] in Ec' |- *. injection Ec' as <- <-. reflexivity. }
        rewrite Ed. cbn [rbind]. clear Ed.
        destruct (add_frame n (bpose (ds_sc S) (FSub s)) true (FSub s) c' d3) as (n', d4) eqn:Ea'.
        destruct (add_step S flat L d3 (FBody bd) n (bpose (ds_sc S) (FSub s)) true (FSub s) c' n' d4 D3) as (En & D4 & F4 & C4 & S4 & B4 & M4).
        { rewrite F3. cbn [set_frame d_frames]. now rewrite frame_eqb_refl. } { right. right. left. exists s. auto. } { rewrite F3. cbn [set_frame d_frames frame_eqb]. now rewrite F2, F1. } { exact Ea'. }
        assert (Ea2 : add_frame n (bpose (ds_sc S) (FSub s)) true (FSub s) c' (Dr (d_next d3) (d_nodes d3) (d_frames d2) (d_moving d3) (d_items d3) (d_colors d3)) = (n', Dr (d_next d4) (d_nodes d4) (d_frames d2) (d_moving d4) (d_items d4) (d_colors d4))).
        { unfold add_frame in Ea' |- *. cbn [d_next d_nodes d_frames d_moving d_items d_colors] in *. destruct (true && _); injection Ea' as <- <-; reflexivity. }
        rewrite Ea2. eexists. split; [reflexivity | ].
        assert (Fin : forall f, d_frames (set_frame (FSub s) n' (set_frame (FBody bd) n (Dr (d_next d4) (d_nodes d4) (d_frames d2) (d_moving d4) (d_items d4) (d_colors d4)))) f = d_frames (set_frame (FSub s) n' d4) f).
        { intros f. cbn [set_frame d_frames]. destruct (frame_eqb f (FSub s)); [reflexivity | ]. rewrite F4, F3. reflexivity. }
        split; [apply (dinv_ext _ _ D4); try reflexivity; exact Fin | ].
        apply (ainv_grow a (ELink f0 j (FSub s)) d _ A); cbn [d_items set_frame].
        * intros f Hf. cbn [set_frame d_frames]. destruct (frame_eqb f (FSub s)); [discriminate | ]. destruct (frame_eqb f (FBody bd)); [discriminate | ]. now rewrite F2, F1.
        * intros f. cbn [set_frame d_frames]. destruct (frame_eqb f (FSub s)) eqn:Q1; [apply frame_eqb_eq in Q1; auto | ]. destruct (frame_eqb f (FBody bd)) eqn:Q2; [apply frame_eqb_eq in Q2; auto | ]. rewrite F2, F1. auto.
        * cbn [set_frame d_frames]. rewrite frame_eqb_refl. cbn [frame_eqb]. fold bd. rewrite Nat.eqb_refl. split; discriminate.
        * cbn [d_items]. rewrite S4, I3. cbn [set_frame d_items]. rewrite S2, I1. reflexivity.
        * cbn [d_items]. rewrite B4, I3. cbn [set_frame d_items]. rewrite B2, I1. reflexivity.
      + unfold frame_node. rewrite E0. cbn [rbind].
        destruct (color_dinv (OFrame (FSub s)) bd d D (of_frame (FSub s))) as (c & d1 & Ec & D1 & F1 & I1 & _). rewrite Ec. cbn [rbind].
        destruct (add_frame n0 (Model_Joints.pose (ds_J S j)) false (FSub s) c d1) as (n, d2) eqn:Ea.
        destruct (add_step S flat L d1 f0 n0 (Model_Joints.pose (ds_J S j)) false (FSub s) c n d2 D1 ltac:(rewrite F1; exact E0)) as (_ & D2 & F2 & C2 & S2 & B2 & _).
        { left. split; [exact Ef | ]. exists j. auto. } { rewrite F1. exact Ns. } { exact Ea. }
        destruct (color_dinv (OFrame (FBody bd)) bd _ D2 (of_frame (FBody bd))) as (c' & d3 & Ec' & D3 & F3 & I3 & N3 & _).
        assert (Ed : draw_color S (OFrame (FBody bd)) d2 = Ok (c', Dr (d_next d3) (d_nodes d3) (d_frames d2) (d_moving d3) (d_items d3) (d_colors d3))).
        { unfold draw_color in Ec' |- *. cbn [set_frame d_colors d_next d_nodes d_frames d_moving d_items] in Ec'. destruct (get_color e (ds_nm S) (OFrame (FBody bd)) (d_colors d2)) as [(c2, cs2) | ]; [ | discriminate]. cbn [rbind] in Ec' |- *. injection Ec' as <- <-. reflexivity. }
        rewrite Ed. cbn [rbind]. clear Ed.
        destruct (add_frame n (ds_inv S (bpose (ds_sc S) (FSub s))) true (FBody bd) c' d3) as (n', d4) eqn:Ea'.
        destruct (add_step S flat L d3 (FSub s) n (ds_inv S (bpose (ds_sc S) (FSub s))) true (FBody bd) c' n' d4 D3) as (En & D4 & F4 & C4 & S4 & B4 & M4).
        { rewrite F3. cbn [set_frame d_frames]. now rewrite frame_eqb_refl. } { right. left. split; [exact Ef | ]. exists s. auto. } { rewrite F3. cbn [set_frame d_frames frame_eqb]. now rewrite F2, F1. } { exact Ea'. }
        assert (Ea2 : add_frame n (ds_inv S (bpose (ds_sc S) (FSub s))) true (FBody bd) c' (Dr (d_next d3) (d_nodes d3) (d_frames d2) (d_moving d3) (d_items d3) (d_colors d3)) = (n', Dr (d_next d4) (d_nodes d4) (d_frames d2) (d_moving d4) (d_items d4) (d_colors d4))).
        { unfold add_frame in Ea' |- *. cbn [d_next d_nodes d_frames d_moving d_items d_colors] in *. destruct (true && _); injection Ea' as <- <-; reflexivity. }
        rewrite Ea2. eexists. split; [reflexivity | ].
        assert (Fin : forall f, d_frames (set_moving (TKJoint j) n (set_frame (FSub s) n (set_frame (FBody bd) n' (Dr (d_next d4) (d_nodes d4) (d_frames d2) (d_moving d4) (d_items d4) (d_colors d4))))) f = d_frames (set_frame (FBody bd) n' d4) f).
        { intros f. cbn [set_frame set_moving d_frames]. rewrite F4, F3. cbn [set_frame d_frames]. destruct (frame_eqb f (FSub s)) eqn:Q; [ | reflexivity]. apply frame_eqb_eq in Q. subst f. reflexivity. }
        split; [apply (dinv_ext _ _ D4); try reflexivity; exact Fin | ].
        apply (ainv_grow a (ELink f0 j (FSub s)) d _ A); cbn [d_items set_frame set_moving].
        * intros f Hf. cbn [set_frame set_moving d_frames]. destruct (frame_eqb f (FSub s)); [discriminate | ]. destruct (frame_eqb f (FBody bd)); [discriminate | ]. now rewrite F2, F1.
        * intros f. cbn [set_frame set_moving d_frames]. destruct (frame_eqb f (FSub s)) eqn:Q1; [apply frame_eqb_eq in Q1; auto | ]. destruct (frame_eqb f (FBody bd)) eqn:Q2; [apply frame_eqb_eq in Q2; auto | ]. rewrite F2, F1. auto.
        * cbn [set_frame set_moving d_frames]. rewrite frame_eqb_refl. cbn [frame_eqb]. fold bd. rewrite Nat.eqb_refl. split; discriminate.
        * cbn [set_frame set_moving d_items]. rewrite S4, I3. cbn [set_frame d_items]. rewrite S2, I1. reflexivity.
        * cbn [set_frame set_moving d_items]. rewrite B4, I3. cbn [set_frame d_items]. rewrite B2, I1. reflexivity.
  Qed.

  Lemma body_drawn a b d : ainv a d -> d_frames d gnd = Some 0%nat -> prereq e a (ERegFrame (FBody b)) -> d_frames d (FBody b) <> None.
  Proof. intros A G [-> | (f0 & j & f1 & I & <-)]; [congruence | ]. apply (a3 _ _ A _ _ _ I). Qed.
  Lemma frame_step a f d : dinv d -> ainv a d -> prereq e a (ERegFrame f) -> exists d', draw_frame S flat f d = Ok d' /\ dinv d' /\ ainv (a ++ [ERegFrame f]) d'.
  Proof.
    intros D A Pr. assert (Gnd := s0 _ _ _ _ _ _ (proj1 D)).
    assert (Bd : forall b, d_frames d (FBody b) <> None -> b = ground e \/ exists g0 i g1, In (ELink g0 i g1) a /\ frame_body e g1 = b) by (intros b Hb; exact (a1 _ _ A _ Hb)).
    destruct f as [b | s | m]; cbn [draw_frame].
    - destruct (color_dinv (OFrame (FBody b)) b d D (of_frame (FBody b))) as (c & d1 & Ec & D1 & F1 & I1 & _ & Lk). rewrite Ec. cbn [rbind].
      assert (Nb := body_drawn a b d A Gnd Pr). destruct (Rltb _ _) eqn:Em.
      + unfold frame_node. destruct (d_frames d1 (FBody b)) as [n | ] eqn:En; [ | congruence]. cbn [rbind]. eexists. split; [reflexivity | ]. split.
        * destruct D1 as (Ds & Di). split; [exact Ds | ]. cbn. apply iinv_item; [exact Di | auto].
        * apply (ainv_grow a (ERegFrame (FBody b)) d _ A); cbn [add_item d_frames d_items]; rewrite ?F1; auto.
          -- cbn. rewrite I1. reflexivity.
          -- rewrite Em. cbn. rewrite I1. reflexivity.
      + exists d1. split; [reflexivity | ]. split; [exact D1 | ].
        apply (ainv_grow a (ERegFrame (FBody b)) d _ A); rewrite ?F1, ?I1, ?Em; auto.
    - destruct (d_frames d (FSub s)) as [n | ] eqn:En.
      { exists d. split; [reflexivity | ]. split; [exact D | ]. apply (ainv_grow a (ERegFrame (FSub s)) d _ A); auto. congruence. }
      destruct (color_dinv (OFrame (FSub s)) (sub_body e s) d D (of_frame (FSub s))) as (c & d1 & Ec & D1 & F1 & I1 & _ & Lk). rewrite Ec. cbn [rbind].
      assert (Nb := a2 _ _ A _ Pr). unfold frame_node. rewrite F1. destruct (d_frames d (FBody (frame_body e (FSub s)))) as [n0 | ] eqn:E0; [ | congruence]. cbn [rbind].
      destruct (add_frame n0 (bpose (ds_sc S) (FSub s)) true (FSub s) c d1) as (n, d2) eqn:Ea.
      destruct (add_step S flat L d1 (FBody (frame_body e (FSub s))) n0 (bpose (ds_sc S) (FSub s)) true (FSub s) c n d2 D1 ltac:(rewrite F1; exact E0)) as (_ & D2 & F2 & C2 & S2 & B2 & _).
      { right. right. left. exists s. auto. } { now rewrite F1. } { exact Ea. }
      eexists. split; [reflexivity | ]. split; [exact D2 | ].
      apply (ainv_grow a (ERegFrame (FSub s)) d _ A); cbn [set_frame d_frames d_items].
      + intros f Hf. destruct (frame_eqb f (FSub s)); [discriminate | ]. now rewrite F2, F1.
      + intros f. destruct (frame_eqb f (FSub s)) eqn:Q; [ | rewrite F2, F1; auto]. apply frame_eqb_eq in Q. intros _. right. split; [exact Q | ]. apply (Bd _ (a2 _ _ A _ Pr)).
      + rewrite frame_eqb_refl. discriminate.
      + rewrite S2, I1. reflexivity.
      + rewrite B2, I1. reflexivity.
    - destruct (d_frames d (FMov m)) as [n | ] eqn:En.
      { exists d. split; [reflexivity | ]. split; [exact D | ]. apply (ainv_grow a (ERegFrame (FMov m)) d _ A); auto. congruence. }
      destruct (color_dinv (OFrame (FMov m)) (mov_body e m) d D (of_frame (FMov m))) as (c & d1 & Ec & D1 & F1 & I1 & _ & Lk). rewrite Ec. cbn [rbind].
      assert (Nb := a2 _ _ A _ Pr).
      assert (X : exists n0, (if flat then Ok 0%nat else frame_node (FBody (frame_body e (FMov m))) d1) = Ok n0 /\ d_frames d1 (if flat then gnd else FBody (mov_body e m)) = Some n0).
      { rewrite F1. destruct flat; [exists 0%nat; auto | ]. unfold frame_node. rewrite F1. cbn [frame_body] in Nb |- *. destruct (d_frames d (FBody (mov_body e m))) as [n0 | ]; [exists n0; auto | congruence]. }
      destruct X as (n0 & -> & E0). cbn [rbind].
      destruct (add_frame n0 (bpose (ds_sc S) (FMov m)) false (FMov m) c d1) as (n, d2) eqn:Ea.
      destruct (add_step S flat L d1 (if flat then gnd else FBody (mov_body e m)) n0 (bpose (ds_sc S) (FMov m)) false (FMov m) c n d2 D1 E0) as (_ & D2 & F2 & C2 & S2 & B2 & _).
      { right. right. right. left. exists m. auto. } { now rewrite F1. } { exact Ea. }
      eexists. split; [reflexivity | ]. split; [apply (dinv_ext _ _ D2); reflexivity | ].
      apply (ainv_grow a (ERegFrame (FMov m)) d _ A); cbn [set_frame set_moving d_frames d_items].
      + intros f Hf. destruct (frame_eqb f (FMov m)); [discriminate | ]. now rewrite F2, F1.
      + intros f. destruct (frame_eqb f (FMov m)) eqn:Q; [ | rewrite F2, F1; auto]. apply frame_eqb_eq in Q. intros _. right. split; [exact Q | ]. apply (Bd _ (a2 _ _ A _ Pr)).
      + rewrite frame_eqb_refl. discriminate.
      + rewrite S2, I1. reflexivity.
      + rewrite B2, I1. reflexivity.
  Qed.
  Lemma shape_step a s d : dinv d -> ainv a d -> prereq e a (ERegShape s) ->
    if ds_known S s then exists d', draw_shape S s d = Ok d' /\ dinv d' /\ ainv (a ++ [ERegShape s]) d' else draw_shape S s d = Err ValueError.
  Proof.
    intros D A Pr. unfold draw_shape. destruct (color_dinv (OShape s) (frame_body e (shape_frame e s)) d D) as (c & d1 & Ec & D1 & F1 & I1 & _ & Lk); [right; eauto | ].
    rewrite Ec. cbn [rbind]. destruct (ds_known S s); [ | reflexivity]. assert (Nf := a2 _ _ A _ Pr). unfold frame_node. destruct (d_frames d1 (shape_frame e s)) as [n | ] eqn:En; [ | congruence]. cbn [rbind].
    eexists. split; [reflexivity | ]. split.
    - destruct D1 as (Ds & Di). split; [exact Ds | ]. cbn. apply iinv_item; [exact Di | auto].
    - apply (ainv_grow a (ERegShape s) d _ A); cbn [add_item d_frames d_items]; rewrite ?F1; auto; cbn; rewrite I1; reflexivity.
  Qed.

  (** all the events *)
  Definition fresh_link (a : list event) (ev : event) : Prop :=
    match ev with
    | EInit => False
    | ELink f0 j f1 => L f0 j f1 /\ frame_body e f1 <> ground e /\ forall g0 i g1, In (ELink g0 i g1) a -> frame_body e g1 <> frame_body e f1
    | _ => True
    end.
  Lemma events_run : forall evs a d, dinv d -> ainv a d ->
    (forall a' ev b, evs = a' ++ ev :: b -> prereq e (a ++ a') ev /\ fresh_link (a ++ a') ev) ->
    if forallb ok_event evs then exists d', draw_events S flat evs d = Ok d' /\ dinv d' /\ ainv (a ++ evs) d' else draw_events S flat evs d = Err ValueError.
  Proof.
    induction evs as [ | ev evs IH]; intros a d D A H; cbn [forallb draw_events].
    - exists d. rewrite app_nil_r. auto.
    - destruct (H [] ev evs eq_refl) as (Pr & Fl). rewrite app_nil_r in Pr, Fl.
      assert (X : if ok_event ev then exists d', draw_event S flat ev d = Ok d' /\ dinv d' /\ ainv (a ++ [ev]) d' else draw_event S flat ev d = Err ValueError).
      { destruct ev as [ | f0 j f1 | f | s | c | c]; cbn [draw_event].
        - destruct Fl.
        - destruct Fl as (Lk & Ng & Nl). apply link_step; auto.
        - apply frame_step; auto.
        - exact (shape_step a s d D A Pr).
        - exists d. split; [reflexivity | ]. split; [exact D | ]. apply (ainv_grow a (ERegConstraint c) d d A); auto.
        - exists d. split; [reflexivity | ]. split; [exact D | ]. apply (ainv_grow a (ERegController c) d d A); auto. }
      destruct (ok_event ev); cbn [andb].
      + destruct X as (d1 & -> & D1 & A1'). cbn [rbind]. specialize (IH (a ++ [ev]) d1 D1 A1'). rewrite <- app_assoc in IH. apply IH.
        intros a' ev' b E. rewrite <- app_assoc. apply (H (ev :: a') ev' b). now rewrite E.
      + rewrite X. reflexivity.
  Qed.
  Lemma init_dinv cs d0 : all_valid cs -> d_colors d0 = cs -> exists d, draw_event S flat EInit d0 = Ok d /\ dinv d /\ ainv [EInit] d.
  Proof.
    intros V <-. eexists. split; [reflexivity | ]. split.
    - split; cbn.
      + constructor; cbn; auto.
        * now rewrite Nat.eqb_refl.
        * tauto.
        * intros f n. destruct (frame_eqb f gnd) eqn:E; [ | discriminate]. apply frame_eqb_eq in E. intros Q. injection Q as <-. now left.
        * constructor.
      + constructor; cbn; auto; tauto.
    - constructor; cbn; try reflexivity.
      + intros f. destruct (frame_eqb f gnd) eqn:E; [ | congruence]. apply frame_eqb_eq in E. subst. now left.
      + intros f [Q | []]; discriminate.
      + intros f0 j f1 [Q | []]; discriminate.
      + intros f. destruct (frame_eqb f gnd) eqn:E; [ | congruence]. apply frame_eqb_eq in E. now left.
  Qed.
End D.
