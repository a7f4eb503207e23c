(** C59, end: the table of the transforms (Drawer.transform_nodes), that an animation moves. *)
From Coq Require Import Lra Lia.
From Verif Require Import Spec_Draw Spec_Dyn Proof_SE3 Props_Color Props_Color2.
From Verif Require Import Proof_Linalg Proof_Tree Proof_World Proof_World2 Proof_World3 Proof_Register Proof_World4 Proof_Draw Proof_Draw2 Props_Dyn Props_DynEx Props_Draw Props_Draw2.
Open Scope R_scope.

Section T.
  Variables (S : dscene) (flat : bool).
  (** the node [n] carries the frame [f] *)
  Definition carries (d : draw) (n : nat) (f : frame) : Prop := exists x, In (n, x) (d_nodes d) /\ n_frame x = f.
  Record tinv (a : list event) (d : draw) : Prop := {
    t1 : forall k n, In (k, n) (d_moving d) -> match k with TKJoint j => flat = false /\ exists f0 f1, In (ELink f0 j f1) a /\ carries d n f1 | TKMov m => carries d n (FMov m) end;
    t2 : flat = false -> forall f0 j f1, In (ELink f0 j f1) a -> exists n, In (TKJoint j, n) (d_moving d);
    t3 : forall m, d_frames d (FMov m) <> None -> exists n, In (TKMov m, n) (d_moving d) }.
  Lemma color_same o d c d1 : draw_color S o d = Ok (c, d1) -> d_moving d1 = d_moving d /\ d_nodes d1 = d_nodes d /\ d_frames d1 = d_frames d.
  Proof. unfold draw_color. destruct (get_color _ _ _ _) as [(c', cs) | ]; cbn [rbind]; intros E; [injection E as <- <-; auto | discriminate]. Qed.
  Lemma add_same p P k f c d n d' : add_frame p P k f c d = (n, d') -> d_moving d' = d_moving d /\ d_nodes d' = (n, Nd p P k f) :: d_nodes d /\ d_frames d' = d_frames d.
  Proof. unfold add_frame. intros E. injection E as <- <-. destruct (k && _); auto. Qed.
  Lemma tinv_grow a ev d d' : tinv a d -> (forall x, In x (d_nodes d) -> In x (d_nodes d')) ->
    (exists new, d_moving d' = new ++ d_moving d /\
      (forall k n, In (k, n) new -> match k with TKJoint j => flat = false /\ exists f0 f1, ev = ELink f0 j f1 /\ carries d' n f1 | TKMov m => carries d' n (FMov m) end) /\
      (flat = false -> forall f0 j f1, ev = ELink f0 j f1 -> exists n, In (TKJoint j, n) new) /\
      (forall m, d_frames d' (FMov m) <> None -> d_frames d (FMov m) <> None \/ exists n, In (TKMov m, n) new)) -> tinv (a ++ [ev]) d'.
  Proof.
    intros [A1 A2 A3] Hn (new & Em & N1 & N2 & N3). assert (Cm : forall n f, carries d n f -> carries d' n f) by (intros n f (x & Ix & Ex); exists x; auto). constructor.
    - intros k n I. rewrite Em in I. apply in_app_or in I. destruct I as [I | I].
      + specialize (N1 k n I). destruct k as [j | m]; [ | exact N1]. destruct N1 as (Fl & f0 & f1 & -> & C). split; [exact Fl | ]. exists f0, f1. split; [apply in_or_app; right; now left | exact C].
      + specialize (A1 k n I). destruct k as [j | m]; [ | auto]. destruct A1 as (Fl & f0 & f1 & Il & C). split; [exact Fl | ]. exists f0, f1. split; [apply in_or_app; now left | auto].
    - intros Fl f0 j f1 I. rewrite Em. apply in_app_or in I. destruct I as [I | [-> | []]].
      + destruct (A2 Fl _ _ _ I) as (n & In'). exists n. apply in_or_app. now right.
      + destruct (N2 Fl f0 j f1 eq_refl) as (n & In'). exists n. apply in_or_app. now left.
    - intros m Hm. rewrite Em. destruct (N3 m Hm) as [H | (n & H)]; [destruct (A3 m H) as (n & H'); exists n; apply in_or_app; now right | exists n; apply in_or_app; now left].
  Qed.
  Lemma tinv_same a ev d d' : tinv a d -> (forall f0 j f1, ev = ELink f0 j f1 -> flat = true) -> (forall x, In x (d_nodes d) -> In x (d_nodes d')) -> d_moving d' = d_moving d ->
    (forall m, d_frames d' (FMov m) <> None -> d_frames d (FMov m) <> None) -> tinv (a ++ [ev]) d'.
  Proof.
    intros T Ne Hn Em Hf. apply (tinv_grow a ev d d' T Hn). exists []. split; [exact Em | ]. split; [intros k n [] | ]. split; [ | auto]. intros Fl f0 j f1 E. rewrite (Ne _ _ _ E) in Fl. discriminate.
  Qed.
  Lemma tinv_step a ev d d' : tinv a d -> ev <> EInit -> draw_event S flat ev d = Ok d' -> tinv (a ++ [ev]) d'.
  Proof.
    intros T Ni E. destruct ev as [ | f0 j f1 | f | s | c | c]; [congruence | | | | injection E as <-; apply (tinv_same _ _ d _ T); auto; discriminate | injection E as <-; apply (tinv_same _ _ d _ T); auto; discriminate].
    - cbn [draw_event] in E. unfold draw_link in E. destruct f1 as [b | s | m]; [ | | discriminate]; destruct flat eqn:Fl.
      + destruct (body_pose S _); [ | discriminate]. cbn [rbind] in E. destruct (draw_color _ _ d) as [(c, d1) | ] eqn:Ec; [ | discriminate]. cbn [rbind] in E. destruct (color_same _ _ _ _ Ec) as (M1 & N1 & F1).
        destruct (add_frame _ _ _ _ _ d1) as (n, d2) eqn:Ea. destruct (add_same _ _ _ _ _ _ _ _ Ea) as (M2 & N2 & F2). injection E as <-.
        apply (tinv_same _ _ d _ T); [intros; exact Fl | cbn [set_frame d_nodes]; rewrite N2, N1; now right | cbn [set_frame d_moving]; congruence | ].
        intros m. cbn [set_frame d_frames frame_eqb]. rewrite F2, F1. auto.
      + destruct (frame_node f0 d); [ | discriminate]. cbn [rbind] in E. destruct (draw_color _ _ d) as [(c, d1) | ] eqn:Ec; [ | discriminate]. cbn [rbind] in E. destruct (color_same _ _ _ _ Ec) as (M1 & N1 & F1).
        destruct (add_frame _ _ _ _ _ d1) as (n, d2) eqn:Ea. destruct (add_same _ _ _ _ _ _ _ _ Ea) as (M2 & N2 & F2). injection E as <-.
        apply (tinv_grow _ _ d _ T); [cbn [set_moving set_frame d_nodes]; rewrite N2, N1; now right | ]. exists [(TKJoint j, n)]. cbn [set_moving set_frame d_moving d_frames frame_eqb]. split; [rewrite M2, M1; reflexivity | ].
        split; [ | split; [intros _ ? ? ? Q; injection Q as <- <- <-; exists n; now left | intros m; rewrite F2, F1; auto]].
        intros k n' [Q | []]. injection Q as <- <-. split; [exact Fl | ]. do 2 eexists. split; [reflexivity | ]. eexists. split; [cbn [d_nodes set_moving set_frame]; rewrite N2; now left | reflexivity].
      + destruct (body_pose S _); [ | discriminate]. cbn [rbind] in E. destruct (draw_color _ _ d) as [(c, d1) | ] eqn:Ec; [ | discriminate]. cbn [rbind] in E. destruct (color_same _ _ _ _ Ec) as (M1 & N1 & F1).
        destruct (add_frame _ _ _ _ _ d1) as (n, d2) eqn:Ea. destruct (add_same _ _ _ _ _ _ _ _ Ea) as (M2 & N2 & F2).
        destruct (draw_color _ _ d2) as [(c', d3) | ] eqn:Ec'; [ | discriminate]. cbn [rbind] in E. destruct (color_same _ _ _ _ Ec') as (M3 & N3 & F3).
        destruct (add_frame _ _ _ _ _ d3) as (n', d4) eqn:Ea'. destruct (add_same _ _ _ _ _ _ _ _ Ea') as (M4 & N4 & F4). injection E as <-.
        apply (tinv_same _ _ d _ T); [intros; exact Fl | cbn [set_frame d_nodes]; rewrite N4, N3, N2, N1; intros x Ix; right; now right | cbn [set_frame d_moving]; congruence | ].
        intros m. cbn [set_frame d_frames frame_eqb]. rewrite F4, F3, F2, F1. auto.
      + destruct (frame_node f0 d); [ | discriminate]. cbn [rbind] in E. destruct (draw_color _ _ d) as [(c, d1) | ] eqn:Ec; [ | discriminate]. cbn [rbind] in E. destruct (color_same _ _ _ _ Ec) as (M1 & N1 & F1).
        destruct (add_frame _ _ _ _ _ d1) as (n, d2) eqn:Ea. destruct (add_same _ _ _ _ _ _ _ _ Ea) as (M2 & N2 & F2).
        destruct (draw_color _ _ d2) as [(c', d3) | ] eqn:Ec'; [ | discriminate]. cbn [rbind] in E. destruct (color_same _ _ _ _ Ec') as (M3 & N3 & F3).
        destruct (add_frame _ _ _ _ _ d3) as (n', d4) eqn:Ea'. destruct (add_same _ _ _ _ _ _ _ _ Ea') as (M4 & N4 & F4). injection E as <-.
        apply (tinv_grow _ _ d _ T); [cbn [set_moving set_frame d_nodes]; rewrite N4, N3, N2, N1; intros x Ix; right; now right | ]. exists [(TKJoint j, n)]. cbn [set_moving set_frame d_moving d_frames frame_eqb]. split; [rewrite M4, M3, M2, M1; reflexivity | ].
        split; [ | split; [intros _ ? ? ? Q; injection Q as <- <- <-; exists n; now left | intros m; rewrite F4, F3, F2, F1; auto]].
        intros k n'' [Q | []]. injection Q as <- <-. split; [exact Fl | ]. do 2 eexists. split; [reflexivity | ]. eexists. split; [cbn [d_nodes set_moving set_frame]; rewrite N4, N3, N2; right; now left | reflexivity].
    - cbn [draw_event] in E. unfold draw_frame in E. destruct f as [b | s | m].
      + destruct (draw_color _ _ d) as [(c, d1) | ] eqn:Ec; [ | discriminate]. cbn [rbind] in E. destruct (color_same _ _ _ _ Ec) as (M1 & N1 & F1).
        destruct (Rltb _ _); [destruct (frame_node _ d1); [ | discriminate]; cbn [rbind] in E | ]; injection E as <-; apply (tinv_same _ _ d _ T); try discriminate; cbn [add_item d_nodes d_moving d_frames]; rewrite ?N1, ?M1, ?F1; auto.
      + destruct (d_frames d (FSub s)) eqn:Q; [injection E as <-; apply (tinv_same _ _ d _ T); auto; discriminate | ].
        destruct (draw_color _ _ d) as [(c, d1) | ] eqn:Ec; [ | discriminate]. cbn [rbind] in E. destruct (color_same _ _ _ _ Ec) as (M1 & N1 & F1). destruct (frame_node _ d1); [ | discriminate]; cbn [rbind] in E.
        destruct (add_frame _ _ _ _ _ d1) as (n, d2) eqn:Ea. destruct (add_same _ _ _ _ _ _ _ _ Ea) as (M2 & N2 & F2). injection E as <-.
        apply (tinv_same _ _ d _ T); [discriminate | cbn [set_frame d_nodes]; rewrite N2, N1; now right | cbn [set_frame d_moving]; congruence | ].
        intros m. cbn [set_frame d_frames frame_eqb]. rewrite F2, F1. auto.
      + destruct (d_frames d (FMov m)) eqn:Q; [injection E as <-; apply (tinv_same _ _ d _ T); auto; discriminate | ].
        destruct (draw_color _ _ d) as [(c, d1) | ] eqn:Ec; [ | discriminate]. cbn [rbind] in E. destruct (color_same _ _ _ _ Ec) as (M1 & N1 & F1). match type of E with rbind ?x _ = _ => destruct x; [ | discriminate] end; cbn [rbind] in E.
        destruct (add_frame _ _ _ _ _ d1) as (n, d2) eqn:Ea. destruct (add_same _ _ _ _ _ _ _ _ Ea) as (M2 & N2 & F2). injection E as <-.
        apply (tinv_grow _ _ d _ T); [cbn [set_moving set_frame d_nodes]; rewrite N2, N1; now right | ]. exists [(TKMov m, n)]. cbn [set_moving set_frame d_moving d_frames]. split; [rewrite M2, M1; reflexivity | ].
        split; [ | split; [discriminate | ]].
        * intros k n' [Q' | []]. injection Q' as <- <-. eexists. split; [cbn [d_nodes set_moving set_frame]; rewrite N2; now left | reflexivity].
        * intros m'. rewrite F2, F1. destruct (frame_eqb (FMov m') (FMov m)) eqn:Qm; [ | auto]. apply frame_eqb_eq in Qm. injection Qm as ->. intros _. right. exists n. now left.
    - cbn [draw_event] in E. unfold draw_shape in E. destruct (draw_color _ _ d) as [(c, d1) | ] eqn:Ec; [ | discriminate]. cbn [rbind] in E. destruct (color_same _ _ _ _ Ec) as (M1 & N1 & F1).
      destruct (ds_known S s); [ | discriminate]. destruct (frame_node _ d1); [ | discriminate]; cbn [rbind] in E. injection E as <-. apply (tinv_same _ _ d _ T); try discriminate; cbn [add_item d_nodes d_moving d_frames]; rewrite ?N1, ?M1, ?F1; auto.
  Qed.
  Lemma tinv_steps evs : forall a d d', tinv a d -> ~ In EInit evs -> draw_events S flat evs d = Ok d' -> tinv (a ++ evs) d'.
  Proof.
    induction evs as [ | ev evs IH]; intros a d d' T Ni E; cbn [draw_events] in E; [injection E as <-; now rewrite app_nil_r | ].
    destruct (draw_event S flat ev d) as [d1 | ] eqn:E1; [ | discriminate]. cbn [rbind] in E. replace (a ++ ev :: evs) with ((a ++ [ev]) ++ evs) by now rewrite <- app_assoc.
    apply (IH _ d1 d'); [apply (tinv_step a ev d d1 T); [intros ->; apply Ni; now left | exact E1] | intros I; apply Ni; now right | exact E].
  Qed.
End T.

(** Drawing a world leaves in the table of transforms exactly the nodes an animation has to move: the node of every registered moving subframe of a body of the world and, unless the scene is
    flat, for every joint of the world, the node of the frame this joint moves (its second frame). *)
Theorem C59_transforms : forall S flat g0 h t fuel m nb cs, reachable 0 (ds_e S) g0 h -> rep (ds_e S) h t -> root t = ground (ds_e S) -> (height t < fuel)%nat ->
  new_colors m nb = Ok cs -> drawable S h t -> (flat = true -> forall b, In b (bodies t) -> exists P, a_pose (ds_st S b) = Some P) ->
  exists d, draw_world S flat fuel h cs = Ok d /\
    (forall j n, In (TKJoint j, n) (d_moving d) <-> flat = false /\ In j (joints t) /\ exists f0 f1, jframes h j = Some (f0, f1) /\ d_frames d f1 = Some n) /\
    (forall k n, In (TKMov k, n) (d_moving d) <-> In (frame_body (ds_e S) (FMov k)) (bodies t) /\ In (FMov k) (w_subframes h) /\ d_frames d (FMov k) = Some n).
Proof.
  intros S flat g0 h t fuel m nb cs R Rt Er F N Dw Po.
  destruct (draw_ok S flat g0 h t fuel cs R Rt Er F (new_all_valid _ _ _ N) Po) as (X & _). destruct (X Dw) as (d & evs & Ep & Nd & Ed & D & A & Me). clear X.
  exists d. split; [exact Ed | ]. assert (Fr := frames_drawn S flat g0 h t d evs R Rt Er A D Me).
  assert (T : tinv flat ([] ++ evs) d).
  { unfold draw_world in Ed. rewrite Ep in Ed. cbn [rbind draw_events draw_event] in Ed. refine (tinv_steps S flat evs [] _ d _ _ Ed).
    - constructor; [intros k n [] | intros _ ? ? ? [] | ]. intros k. cbn. congruence.
    - intros I. exact (proj1 (Me EInit) I). }
  cbn [app] in T. destruct T as [T1 T2 T3].
  assert (Cr : forall n f, carries d n f -> d_frames d f = Some n) by (intros n f (x & Ix & <-); exact (proj1 (proj2 (proj2 (s1 _ _ _ _ _ _ (proj1 D) n x Ix))))).
  split.
  - intros j n. split.
    + intros I. destruct (T1 _ _ I) as (Fl & f0 & f1 & Il & C). apply Me in Il. destruct Il as (Ij & Ef). split; [exact Fl | ]. split; [exact Ij | ]. exists f0, f1. auto.
    + intros (Fl & Ij & f0 & f1 & Ef & En). destruct (T2 Fl f0 j f1) as (n' & I); [apply Me; auto | ]. destruct (T1 _ _ I) as (_ & g & g1 & Il & C). apply Me in Il. destruct Il as (_ & Eg). rewrite Ef in Eg. injection Eg as <- <-.
      rewrite (Cr _ _ C) in En. injection En as <-. exact I.
  - intros k n. split.
    + intros I. assert (C := T1 _ _ I). cbn beta iota in C. apply Cr in C. assert (W : in_world (ds_e S) h t (FMov k)) by (apply Fr; congruence). destruct W as (W1 & W2). split; [exact W1 | ]. split; [exact W2 | exact C].
    + intros (_ & _ & En). destruct (T3 k ltac:(congruence)) as (n' & I). assert (C := T1 _ _ I). cbn beta iota in C. apply Cr in C. rewrite C in En. injection En as <-. exact I.
Qed.
Print Assumptions C59_transforms.
