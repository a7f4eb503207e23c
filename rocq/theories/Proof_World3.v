(** replace_joint by one joint, histories, dof slices and velocity views. *)
From Verif Require Import Model_Base Model_World Spec_World Proof_Tree Proof_World Proof_World2.
From Coq Require Import Permutation.

Section P.
  Context {V : Type} (zero : V) (e : env).
  Notation heap := (@heap V).
  Implicit Types h : heap.

  Definition rl (old new j : nat) : nat := if Nat.eqb j old then new else j.

  Lemma rep_relabel h h' old new t :
    (forall b, childrenjoints h' b = map (rl old new) (childrenjoints h b)) ->
    (forall b j c, edge e h b j c -> edge e h' b (rl old new j) c) ->
    rep e h t -> rep e h' (relabel old new t).
  Proof.
    intros Hc He. induction t as [b ks IH] using tree_rect_in. intros R.
    apply rep_inv in R. destruct R as [C R]. rewrite relabel_eq. apply rep_intro.
    - rewrite Hc, C, !map_map. reflexivity.
    - intros j s I. apply in_map_iff in I. destruct I as ([i u] & [= <- <-] & I). cbn [fst snd].
      destruct (R i u I) as [Ei Ru]. rewrite root_relabel. split; [apply He; auto|eapply IH; eauto].
  Qed.

  Lemma map_rl_notin old new l : ~ In old l -> map (rl old new) l = l.
  Proof.
    induction l as [|x l IH]; cbn; [reflexivity|]. intros N. unfold rl at 1.
    destruct (Nat.eqb_spec x old); [tauto|]. rewrite IH; auto.
  Qed.

  (** exact effect of the one-joint syntax on the graph *)
  Lemma single_effect h g0 old g1 new :
    let b0 := frame_body e g0 in let b1 := frame_body e g1 in
    let h' := chain_result e h b0 old b1 [(g0, new, g1)] in
    forest e h -> edge e h b0 old b1 -> jframes h old = Some (g0, g1) -> In old (childrenjoints h b0) ->
    can_links e (set_frames (set_parent h b1 None) old None) [(g0, new, g1)] ->
    (forall b, childrenjoints h' b = map (rl old new) (childrenjoints h b)) /\
    (forall b, parentjoint h' b = option_map (rl old new) (parentjoint h b)) /\
    (forall j, jframes h' j = if Nat.eqb j new then Some (g0, g1) else
                              if Nat.eqb j old then None else jframes h j) /\
    (forall b j c, edge e h b j c -> edge e h' b (rl old new j) c).
  Proof.
    intros b0 b1 h' F E Ef I C. destruct (in_split _ _ I) as (l1 & l2 & Es).
    pose proof (forest_children_nodup e h b0 F) as D. rewrite Es in D.
    pose proof (NoDup_remove_2 _ _ _ D) as Nd. rewrite in_app_iff in Nd.
    destruct (chain_result_children e h b0 old b1 [(g0, new, g1)] l1 l2 Es) as (news & n & En & C0 & Cb);
      [tauto|exists (g0, new, g1); split; [now left|reflexivity]|].
    cbn in En. unfold l_from in En; cbn in En. fold b0 in En. rewrite Nat.eqb_refl in En.
    cbn in En. destruct news as [|? [|? ?]]; try discriminate. injection En as <-.
    rewrite app_nil_r in C0.
    destruct C as [[Cj _] _]. cbn in Cj. unfold l_joint, upd in Cj; cbn in Cj.
    assert (Hp : forall b, parentjoint h' b = if Nat.eqb b b1 then Some new else parentjoint h b).
    { intros b. unfold h'. cbn. unfold upd. destruct (register_frame_graph g1 (register_frame g0
         (set_children (set_parent (set_frames (set_frames (set_parent h b1 None) old None) new (Some (g0, g1)))
           (frame_body e g1) (Some new)) (frame_body e g0)
           (childrenjoints h (frame_body e g0) ++ [new])))) as (_ & P & _).
      cbn in P. rewrite P. destruct (register_frame_graph g0
         (set_children (set_parent (set_frames (set_frames (set_parent h b1 None) old None) new (Some (g0, g1)))
           (frame_body e g1) (Some new)) (frame_body e g0)
           (childrenjoints h (frame_body e g0) ++ [new]))) as (_ & P' & _).
      cbn in P'. rewrite P'. unfold upd. fold b1. now destruct (Nat.eqb b b1). }
    assert (Hj : forall j, jframes h' j = if Nat.eqb j new then Some (g0, g1) else
                              if Nat.eqb j old then None else jframes h j).
    { intros j. destruct (chain_result_pf e h b0 old b1 [(g0, new, g1)]) as [_ J]. unfold h'. rewrite J. cbn [do_links].
      destruct (do_link_linked e (set_frames (set_parent h b1 None) old None) (g0, new, g1)) as (_ & _ & K).
      rewrite K. reflexivity. }
    assert (Hn : forall j f, jframes h j = Some f -> j <> old -> j <> new).
    { intros j f Hf No ->. destruct (Nat.eqb_spec new old); congruence. }
    repeat split; auto.
    - intros b. destruct (Nat.eq_dec b b0) as [->|N].
      + unfold h'. rewrite C0, Es, map_app. cbn. rewrite !map_rl_notin by tauto. unfold rl.
        now rewrite Nat.eqb_refl.
      + unfold h'. rewrite Cb by auto. cbn. unfold l_from; cbn. fold b0. destruct (Nat.eqb_spec b b0); [contradiction|].
        cbn. rewrite app_nil_r. symmetry. apply map_rl_notin. intros K.
        destruct (forest_edge e h b old F K) as [c Ec]. destruct (edge_fun _ _ _ _ _ _ _ E Ec). congruence.
    - intros b. rewrite Hp. destruct (Nat.eqb_spec b b1) as [->|N].
      + destruct E as [_ ->]. cbn. unfold rl. now rewrite Nat.eqb_refl.
      + destruct (parentjoint h b) as [j|] eqn:Ep; [|reflexivity]. cbn. f_equal. unfold rl.
        destruct (Nat.eqb_spec j old) as [->|]; [|reflexivity]. exfalso.
        destruct (F b) as (t & (R & Nr & _) & Ib). rewrite bodies_tail in Ib. destruct Ib as [<-|Ib]; [congruence|].
        destruct (rep_edge_body e h t b R Ib) as (p & j & Ej & _). destruct (Ej) as [_ Pj].
        assert (j = old) by congruence. subst j. destruct (edge_fun _ _ _ _ _ _ _ E Ej). congruence.
    - destruct H as [(f0 & f1 & Hf & E0 & E1) P]. unfold rl. destruct (Nat.eqb_spec j old) as [->|No].
      + exists g0, g1. rewrite Hj, Nat.eqb_refl. rewrite Ef in Hf. injection Hf as <- <-. auto.
      + exists f0, f1. rewrite Hj. destruct (Nat.eqb_spec j new) as [->|_]; [exfalso; eapply Hn; eauto|].
        destruct (Nat.eqb_spec j old); [contradiction|auto].
    - rewrite Hp. destruct H as [(f0 & f1 & Hf & E0 & E1) P]. unfold rl.
      destruct (Nat.eqb_spec j old) as [->|No].
      + rewrite Ef in Hf. injection Hf as <- <-. destruct (Nat.eqb_spec c b1); [reflexivity|].
        exfalso; apply n. symmetry. exact E1.
      + destruct (Nat.eqb_spec c b1) as [->|]; [|auto]. destruct E as [_ P']. congruence.
  Qed.

  Lemma single_whole_tree h g0 old g1 new t :
    let b0 := frame_body e g0 in let b1 := frame_body e g1 in
    let h' := chain_result e h b0 old b1 [(g0, new, g1)] in
    forest e h -> edge e h b0 old b1 -> jframes h old = Some (g0, g1) -> In old (childrenjoints h b0) ->
    can_links e (set_frames (set_parent h b1 None) old None) [(g0, new, g1)] ->
    whole_tree e h t -> whole_tree e h' (relabel old new t).
  Proof.
    intros b0 b1 h' F E Ef I C (R & N & D).
    destruct (single_effect h g0 old g1 new F E Ef I C) as (Hc & Hp & Hj & He).
    repeat split.
    - apply (rep_relabel h); auto.
    - rewrite root_relabel. unfold h', b0, b1. rewrite Hp, N. reflexivity.
    - now rewrite bodies_relabel.
  Qed.

  (** the checks at the head of [replace_joint] *)
  Lemma replace_joint_checks fuel old args h h' u :
    replace_joint zero e fuel (OJoint old) args h = (h', Ok u) ->
    exists g0 g1, jframes h old = Some (g0, g1) /\
      In old (childrenjoints h (frame_body e g0)) /\
      edge e h (frame_body e g0) old (frame_body e g1) /\
      replace_chain zero e fuel old
        (match args with [new] => [OFrame g0; new; OFrame g1] | _ => args end) h = (h', Ok u).
  Proof.
    unfold replace_joint. destruct (jframes h old) as [[g0 g1]|] eqn:Ef; [|discriminate].
    destruct (existsb _ _ && _) eqn:Eb; [|discriminate].
    apply andb_prop in Eb. destruct Eb as [E1 E2]. apply existsb_exists in E1.
    destruct E1 as (x & Ix & Ex). apply Nat.eqb_eq in Ex. subst x.
    destruct (parentjoint h (frame_body e g1)) as [j|] eqn:Ep; [|discriminate].
    apply Nat.eqb_eq in E2. subst j. intros H. exists g0, g1. repeat split; auto.
    - exists g0, g1; auto.
    - destruct args as [|a [|b args]]; [discriminate|exact H|].
      destruct (Nat.eqb _ _); [exact H|discriminate].
  Qed.

  Lemma init_ok_graph fuel h h' u : init zero e fuel h = (h', Ok u) -> same_graph h h'.
  Proof. intros H. pose proof (init_graph zero e fuel h) as S. rewrite H in S. exact S. Qed.

  (** ** Admissible histories *)
  Notation admissible := (Spec_World.admissible zero e).
  Notation reachable := (Spec_World.reachable zero e).


  Lemma fresh_forest (g0 : nat -> nat -> V) : forest e (fresh e g0).
  Proof.
    intros b. exists (Node b []). split; [|cbn; auto]. split; [|split]; cbn; auto.
    - apply rep_intro; [reflexivity|intros j s []].
    - constructor; [intros []|constructor].
  Qed.

  Lemma register_graph o h : same_graph h (fst (register e o h)).
  Proof.
    destruct o; cbn; try apply same_graph_refl.
    - apply register_frame_graph.
    - eapply same_graph_trans; [|apply register_frame_graph]. repeat split.
    - destruct (existsb _ _); [apply same_graph_refl|]. cbn.
      enough (H : forall l h1, same_graph h1 (fold_left (fun acc f => register_frame f acc) l h1)).
      { eapply same_graph_trans; [|apply H]. repeat split. }
      induction l as [|f l IH]; intros h1; cbn; [apply same_graph_refl|].
      eapply same_graph_trans; [apply register_frame_graph|apply IH].
    - repeat split.
  Qed.

  Lemma write_graph j k v h : same_graph h (fst (write_gvel j k v h)).
  Proof. unfold write_gvel. destruct (Nat.ltb _ _); repeat split. Qed.

  Lemma replace_forest fuel old args h h' u :
    forest e h ->
    (length args <> 1 -> forall ls g0 g1, args = flatten ls -> jframes h old = Some (g0, g1) ->
           acyclic_links e (detach h (frame_body e g0) old (frame_body e g1)) ls) ->
    replace_joint zero e fuel (OJoint old) args h = (h', Ok u) -> forest e h'.
  Proof.
    intros F Ac H. apply replace_joint_checks in H.
    destruct H as (g0 & g1 & Ef & I & E & H). apply replace_chain_ok_inv in H.
    destruct H as (g0' & g1' & ls & Ef' & Nl & Ea & Eb0 & Eb1 & C & Hi).
    rewrite Ef in Ef'. injection Ef' as <- <-.
    apply init_ok_graph in Hi. eapply same_graph_forest; [exact Hi|].
    apply chain_forest; auto.
    - destruct ls as [|l ls]; [contradiction|]. exists l. split; [now left|auto].
    - destruct args as [|a [|b args]].
      + apply Ac; auto; cbn; lia.
      + destruct ls as [|[[k0 i] k1] ls]; [contradiction|]. cbn in Ea.
        injection Ea as -> -> -> Ea. destruct ls as [|[[? ?] ?] ?]; [|discriminate].
        cbn. split; [|auto]. unfold l_to, l_from; cbn.
        exact (proj2 (detach_forest e h _ old _ F E I)).
      + apply Ac; auto; cbn; lia.
  Qed.

  Lemma step_forest fuel h o : forest e h -> admissible fuel h o -> forest e (fst (step zero e fuel h o)).
  Proof.
    intros F A. destruct o as [f0 j f1|old args|o| |j k v]; cbn [step] in *.
    - destruct (add_link1_cases e h f0 j f1) as [[C ->]|[[N ->]|[N [P ->]]]]; cbn [fst].
      + eapply linked_forest; eauto using do_link_linked.
      + exact F.
      + apply set_frames_forest; auto.
    - destruct A as [[u Hu] Ac]. cbn [step] in Hu.
      destruct (replace_joint zero e fuel (OJoint old) args h) as [h' r] eqn:Er. cbn in *. subst r.
      eapply replace_forest; eauto.
    - eapply same_graph_forest; [apply register_graph|exact F].
    - eapply same_graph_forest; [apply init_graph|exact F].
    - eapply same_graph_forest; [apply write_graph|exact F].
  Qed.

  Lemma reachable_forest g0 h : reachable g0 h -> forest e h.
  Proof. induction 1; [apply fresh_forest|now apply step_forest]. Qed.

  (** parent and child links agree, each child listed once, by one body only *)
  Lemma forest_parent_child h c j : forest e h -> parentjoint h c = Some j ->
    exists f0 f1, jframes h j = Some (f0, f1) /\ frame_body e f1 = c /\
      count_occ Nat.eq_dec (childrenjoints h (frame_body e f0)) j = 1 /\
      forall b, b <> frame_body e f0 -> ~ In j (childrenjoints h b).
  Proof.
    intros F P. destruct (F c) as (t & (R & N & D) & I). rewrite bodies_tail in I.
    destruct I as [<-|I]; [congruence|].
    assert (K : forall t, rep e h t -> In c (tailb t) -> exists p i, edge e h p i c /\ In i (childrenjoints h p)).
    { clear t R N D I. induction t as [b ks IH] using tree_rect_in. intros R I.
      apply rep_inv in R. destruct R as [C R]. rewrite tailb_eq, in_flat_map in I.
      destruct I as ([i s] & I & Ic). cbn in Ic. destruct (R i s I) as [Ei Rs].
      rewrite bodies_tail in Ic. destruct Ic as [<-|Ic]; [|eapply IH; eauto].
      exists b, i. split; [auto|]. rewrite C. apply in_map_iff. exists (i, s); auto. }
    destruct (K t R I) as (p & i & Ei & Ii). assert (i = j) by (destruct Ei as [_ Pi]; congruence). subst i.
    pose proof Ei as Ei'. destruct Ei as [(f0 & f1 & Ef & E0 & E1) _]. exists f0, f1. repeat split; auto.
    - rewrite E0. assert (Hc : count_occ Nat.eq_dec (childrenjoints h p) j <= 1).
      { apply (proj1 (NoDup_count_occ Nat.eq_dec _)). now apply (forest_children_nodup e). }
      apply (count_occ_In Nat.eq_dec) in Ii. lia.
    - intros b Nb Ib. destruct (forest_edge e h b j F Ib) as (c' & Ec). destruct (edge_fun _ _ _ _ _ _ _ Ec Ei').
      congruence.
  Qed.
  Lemma forest_child_parent h b j : forest e h -> In j (childrenjoints h b) ->
    exists f0 f1, jframes h j = Some (f0, f1) /\ frame_body e f0 = b /\
      parentjoint h (frame_body e f1) = Some j.
  Proof.
    intros F I. destruct (forest_edge e h b j F I) as (c & (f0 & f1 & Ef & E0 & E1) & P).
    exists f0, f1. subst c. auto.
  Qed.
End P.
