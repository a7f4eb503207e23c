(** The object graph stays a forest. *)
From Verif Require Import Model_Base Model_World Spec_World Proof_Tree.
From Coq Require Import Permutation.

Section P.
  Context {V : Type} (e : env).
  Notation heap := (@heap V).
  Implicit Types h : heap.

  (** ** Basic facts on [rep] *)
  Lemma rep_inv h b ks : rep e h (Node b ks) ->
    childrenjoints h b = map fst ks /\
    forall j s, In (j, s) ks -> edge e h b j (root s) /\ rep e h s.
  Proof.
    intros H. inversion H as [? ? Hc Hf]; subst. split; auto.
    intros j s I. rewrite Forall_forall in Hf. apply (Hf (j, s) I).
  Qed.

  Lemma rep_intro h b ks : childrenjoints h b = map fst ks ->
    (forall j s, In (j, s) ks -> edge e h b j (root s) /\ rep e h s) -> rep e h (Node b ks).
  Proof.
    intros Hc Hf. constructor; auto. apply Forall_forall. intros [j s] I. now apply Hf.
  Qed.

  Lemma tree_rect_in (P : tree -> Prop) :
    (forall b ks, (forall j s, In (j, s) ks -> P s) -> P (Node b ks)) -> forall t, P t.
  Proof.
    intros H. induction t as [b ks IH] using tree_ind'. apply H. intros j s I.
    rewrite Forall_forall in IH. apply (IH (j, s) I).
  Qed.

  Lemma edge_fun h b1 b2 j c1 c2 : edge e h b1 j c1 -> edge e h b2 j c2 -> b1 = b2 /\ c1 = c2.
  Proof.
    intros [(f0 & f1 & E & <- & <-) _] [(g0 & g1 & E' & <- & <-) _].
    rewrite E in E'. injection E' as <- <-. auto.
  Qed.

  Lemma rep_parent h t : rep e h t ->
    map (parentjoint h) (tailb t) = map Some (joints t).
  Proof.
    induction t as [b ks IH] using tree_rect_in. intros R.
    apply rep_inv in R. destruct R as [_ R]. rewrite tailb_eq, joints_eq.
    induction ks as [|[j s] ks IHk]; cbn; [reflexivity|].
    rewrite !map_app. destruct (R j s (or_introl eq_refl)) as [[_ E] Rs].
    rewrite bodies_tail. cbn. rewrite E, (IH j s) by (auto; now left). f_equal. f_equal.
    apply IHk; intros; [eapply IH; [right; eauto|auto]|apply R; now right].
  Qed.

  Lemma rep_edge_body h t x : rep e h t -> In x (tailb t) ->
    exists p j, edge e h p j x /\ In p (bodies t) /\ In j (joints t).
  Proof.
    induction t as [b ks IH] using tree_rect_in. intros R I.
    apply rep_inv in R. destruct R as [_ R]. rewrite tailb_eq, in_flat_map in I.
    destruct I as ([j s] & I & Ix). cbn in Ix. destruct (R j s I) as [E Rs].
    rewrite bodies_tail in Ix. destruct Ix as [<-|Ix].
    - exists b, j. repeat split; try apply E; [apply in_bodies; auto|].
      apply in_joints. exists j, s; auto.
    - destruct (IH j s I Rs Ix) as (p & i & E' & Ip & Ii). exists p, i. repeat split; try apply E'.
      + apply in_bodies. right. exists j, s; auto.
      + apply in_joints. exists j, s; auto.
  Qed.

  Lemma rep_joint_edge h t j : rep e h t -> In j (joints t) ->
    exists p c, edge e h p j c /\ In p (bodies t) /\ In c (tailb t).
  Proof.
    induction t as [b ks IH] using tree_rect_in. intros R I.
    apply rep_inv in R. destruct R as [_ R]. apply in_joints in I.
    destruct I as (i & s & I & H). destruct (R i s I) as [E Rs]. destruct H as [->|H].
    - exists b, (root s). repeat split; try apply E; [apply in_bodies; auto|].
      rewrite tailb_eq, in_flat_map. exists (i, s). split; [auto|apply root_in_bodies].
    - destruct (IH i s I Rs H) as (p & c & E' & Ip & Ic). exists p, c. repeat split; try apply E'.
      + apply in_bodies. right. exists i, s; auto.
      + rewrite tailb_eq, in_flat_map. exists (i, s). split; [auto|]. rewrite bodies_tail. now right.
  Qed.

  Lemma rep_root_of_no_parent h t x :
    rep e h t -> In x (bodies t) -> parentjoint h x = None -> x = root t.
  Proof.
    intros R I N. rewrite bodies_tail in I. destruct I as [->|I]; [reflexivity|].
    destruct (rep_edge_body h t x R I) as (p & j & [_ E] & _). congruence.
  Qed.

  Lemma rep_nodup_joints h t : rep e h t -> NoDup (bodies t) -> NoDup (joints t).
  Proof.
    intros R ND. pose proof (rep_parent h t R) as E. rewrite bodies_tail in ND.
    apply NoDup_cons_iff in ND. destruct ND as [_ ND].
    assert (N : NoDup (map (parentjoint h) (tailb t))).
    { assert (Inj : forall x y, In x (tailb t) -> In y (tailb t) ->
                parentjoint h x = parentjoint h y -> x = y).
      { intros x y Ix Iy Exy. destruct (rep_edge_body h t x R Ix) as (p & j & Ej & _).
        destruct (rep_edge_body h t y R Iy) as (q & i & Ei & _).
        assert (j = i) by (destruct Ej as [_ A], Ei as [_ B]; congruence). subst i.
        now destruct (edge_fun _ _ _ _ _ _ Ej Ei). }
      clear E. revert ND Inj. generalize (tailb t) as l. clear R t.
      induction l as [|a l IH]; cbn; intros ND Inj; [constructor|].
      apply NoDup_cons_iff in ND. destruct ND as [Na ND]. constructor.
      - rewrite in_map_iff. intros (y & Ey & Iy). apply Na.
        rewrite (Inj a y); auto.
      - apply IH; auto. }
    rewrite E in N. now apply NoDup_map_inv in N.
  Qed.

  Lemma rep_unique h t : forall t', rep e h t -> rep e h t' -> root t = root t' -> t = t'.
  Proof.
    induction t as [b ks IH] using tree_rect_in. intros [b' ks'] R R' E. cbn in E. subst b'.
    apply rep_inv in R, R'. destruct R as [C R], R' as [C' R']. f_equal.
    rewrite C in C'. clear C. revert ks' C' R'.
    induction ks as [|[j s] ks IHk]; intros [|[j' s'] ks'] C' R'; cbn in C'; try discriminate; [reflexivity|].
    injection C' as -> C'. destruct (R j' s (or_introl eq_refl)) as [Ej Rs].
    destruct (R' j' s' (or_introl eq_refl)) as [Ej' Rs']. destruct (edge_fun _ _ _ _ _ _ Ej Ej') as [_ Er].
    rewrite (IH j' s (or_introl eq_refl) s' Rs Rs' Er). f_equal.
    apply IHk; auto.
    - intros i u I. apply (IH i u). now right.
    - intros i u I. apply R. now right.
    - intros i u I. apply R'. now right.
  Qed.

  (** ** Walking up *)
  Fixpoint walk h (x : nat) (ps : list (nat * nat)) : Prop :=
    match ps with
    | [] => True
    | (j, p) :: ps' => edge e h p j x /\ walk h p ps'
    end.
  Fixpoint walk_end (x : nat) (ps : list (nat * nat)) : nat :=
    match ps with [] => x | (_, p) :: ps' => walk_end p ps' end.

  Lemma walk_app h x ps j b :
    walk h x ps -> edge e h b j (walk_end x ps) -> walk h x (ps ++ [(j, b)]).
  Proof.
    revert x; induction ps as [|[i p] ps IH]; cbn; intros x W E; [auto|].
    destruct W as [Ei W]. auto.
  Qed.
  Lemma walk_end_app x ps j b : walk_end x (ps ++ [(j, b)]) = b.
  Proof. revert x; induction ps as [|[i p] ps IH]; cbn; auto. Qed.

  Lemma path_walk h t x ps : rep e h t -> path t x ps -> walk h x ps /\ walk_end x ps = root t.
  Proof.
    intros R P. revert R. induction P as [b ks|b ks j s x ps I P IH]; intros R; [cbn; auto|].
    apply rep_inv in R. destruct R as [_ R]. destruct (R j s I) as [Ej Rs].
    destruct (IH Rs) as [W We]. split; [|now rewrite walk_end_app].
    apply walk_app; auto. now rewrite We.
  Qed.

  Lemma path_exists t x : In x (bodies t) -> exists ps, path t x ps.
  Proof.
    induction t as [b ks IH] using tree_rect_in. intros I. apply in_bodies in I.
    destruct I as [->|(j & s & I & Ix)]; [exists []; constructor|].
    destruct (IH j s I Ix) as [ps P]. exists (ps ++ [(j, b)]). econstructor; eauto.
  Qed.

  Lemma walk_det h ps : forall x ps', walk h x ps -> walk h x ps' ->
    parentjoint h (walk_end x ps) = None -> parentjoint h (walk_end x ps') = None -> ps = ps'.
  Proof.
    induction ps as [|[j p] ps IH]; intros x [|[j' p'] ps'] W W' N N'; cbn in *; auto.
    - destruct W' as [[_ E] _]. congruence.
    - destruct W as [[_ E] _]. congruence.
    - destruct W as [E W], W' as [E' W'].
      assert (j = j') by (destruct E as [_ A], E' as [_ B]; congruence). subst j'.
      destruct (edge_fun _ _ _ _ _ _ E E') as [<- _]. f_equal. eapply IH; eauto.
  Qed.

  Lemma whole_tree_unique h t t' x : whole_tree e h t -> whole_tree e h t' ->
    In x (bodies t) -> In x (bodies t') -> t = t'.
  Proof.
    intros (R & N & _) (R' & N' & _) I I'.
    destruct (path_exists _ _ I) as [ps P], (path_exists _ _ I') as [ps' P'].
    destruct (path_walk _ _ _ _ R P) as [W We], (path_walk _ _ _ _ R' P') as [W' We'].
    apply (rep_unique h); auto. rewrite <- We, <- We'. f_equal.
    apply (walk_det h ps x ps'); auto; congruence.
  Qed.

  Lemma below_rep h t y : rep e h t -> (below e h (root t) y <-> In y (bodies t)).
  Proof.
    intros R. split.
    - intros B. remember (root t) as x eqn:Ex. revert t R Ex.
      induction B as [x|x j f0 f1 y I F B IH]; intros [b ks] R Ex; cbn in Ex; subst.
      + apply in_bodies; auto.
      + apply rep_inv in R. destruct R as [C R]. rewrite C in I. apply in_map_iff in I.
        destruct I as ([i s] & <- & I). destruct (R i s I) as [[(g0 & g1 & E & _ & Es) _] Rs].
        cbn in F. rewrite F in E. injection E as <- <-.
        apply in_bodies. right. exists i, s. split; [auto|]. apply IH; auto.
    - revert R. induction t as [b ks IH] using tree_rect_in. intros R I. cbn.
      apply rep_inv in R. destruct R as [C R]. apply in_bodies in I.
      destruct I as [->|(j & s & I & Iy)]; [constructor|].
      destruct (R j s I) as [[(f0 & f1 & E & _ & Es) _] Rs].
      apply (below_step e h b j f0 f1 y); auto.
      + rewrite C. apply in_map_iff. exists (j, s); auto.
      + rewrite Es. eapply IH; eauto.
  Qed.

  (** ** Frame rule *)
  Lemma edge_ext h h' b j c : jframes h' j = jframes h j -> parentjoint h' c = parentjoint h c ->
    edge e h b j c -> edge e h' b j c.
  Proof. intros Ef Ep [(f0 & f1 & E) P]. split; [exists f0, f1; rewrite Ef; auto|congruence]. Qed.

  Lemma rep_ext h h' t :
    (forall b, In b (bodies t) -> childrenjoints h' b = childrenjoints h b) ->
    (forall b, In b (tailb t) -> parentjoint h' b = parentjoint h b) ->
    (forall j, In j (joints t) -> jframes h' j = jframes h j) ->
    rep e h t -> rep e h' t.
  Proof.
    induction t as [b ks IH] using tree_rect_in. intros Hb Hp Hj R.
    apply rep_inv in R. destruct R as [C R]. apply rep_intro.
    - rewrite Hb; auto. apply in_bodies; auto.
    - intros j s I. destruct (R j s I) as [E Rs].
      assert (It : forall x, In x (bodies s) -> In x (tailb (Node b ks))).
      { intros x Ix. rewrite tailb_eq, in_flat_map. exists (j, s); auto. }
      split.
      + apply (edge_ext h); auto.
        * apply Hj, in_joints. exists j, s; auto.
        * apply Hp, It, root_in_bodies.
      + apply (IH j s I); auto.
        * intros x Ix. apply Hb, in_bodies. right. exists j, s; auto.
        * intros x Ix. apply Hp, It. rewrite bodies_tail. now right.
        * intros i Ii. apply Hj, in_joints. exists j, s; auto.
  Qed.

  Definition same_graph h h' : Prop :=
    (forall b, childrenjoints h' b = childrenjoints h b) /\
    (forall b, parentjoint h' b = parentjoint h b) /\
    (forall j, jframes h' j = jframes h j).
  Lemma same_graph_refl h : same_graph h h. Proof. repeat split. Qed.
  Lemma same_graph_rep h h' t : same_graph h h' -> rep e h t -> rep e h' t.
  Proof. intros (A & B & C). apply rep_ext; auto. Qed.
  Lemma same_graph_forest h h' : same_graph h h' -> forest e h -> forest e h'.
  Proof.
    intros S F b. destruct (F b) as (t & (R & N & D) & I). exists t. repeat split; auto.
    - eapply same_graph_rep; eauto.
    - destruct S as (_ & S & _). now rewrite S.
  Qed.

  (** ** Grafting *)
  Lemma rep_graft h h' p j tc t :
    rep e h t -> In p (bodies t) \/ True ->
    ~ In (root tc) (tailb t) -> ~ In j (joints t) ->
    (forall b, In b (bodies t) ->
       childrenjoints h' b = childrenjoints h b ++ (if Nat.eqb b p then [j] else [])) ->
    (forall b, In b (tailb t) -> parentjoint h' b = parentjoint h b) ->
    (forall i, In i (joints t) -> jframes h' i = jframes h i) ->
    edge e h' p j (root tc) -> rep e h' tc ->
    rep e h' (graft p j tc t).
  Proof.
    intros R _ Nc Nj Hb Hp Hj E Rc. revert R Nc Nj Hb Hp Hj.
    induction t as [b ks IH] using tree_rect_in. intros R Nc Nj Hb Hp Hj.
    apply rep_inv in R. destruct R as [C R]. rewrite graft_eq. apply rep_intro.
    - rewrite Hb by (apply in_bodies; auto). rewrite C, map_app, map_map. cbn.
      destruct (Nat.eqb b p); reflexivity.
    - intros i s I. apply in_app_iff in I. destruct I as [I|I].
      + apply in_map_iff in I. destruct I as ([i' s'] & [= <- <-] & I). cbn [fst snd].
        destruct (R i' s' I) as [Es Rs]. rewrite root_graft.
        assert (It : forall x, In x (bodies s') -> In x (tailb (Node b ks))).
        { intros x Ix. rewrite tailb_eq, in_flat_map. exists (i', s'); auto. }
        assert (Ij : forall x, In x (joints s') -> In x (joints (Node b ks))).
        { intros x Ix. apply in_joints. exists i', s'; auto. }
        split.
        * apply (edge_ext h); auto.
          -- apply Hj, in_joints. exists i', s'; auto.
          -- apply Hp, It, root_in_bodies.
        * apply (IH i' s' I); auto.
          -- intros K. apply Nc, It. rewrite bodies_tail. now right.
          -- intros x Ix. apply Hb, in_bodies. right. exists i', s'; auto.
          -- intros x Ix. apply Hp, It. rewrite bodies_tail. now right.
      + destruct (Nat.eqb_spec b p) as [->|]; [|destruct I]. destruct I as [I|[]].
        injection I as <- <-. auto.
  Qed.

  (** ** Single link *)
  Notation l_from := (Spec_World.l_from e).
  Notation l_to := (Spec_World.l_to e).
  Notation linked := (Spec_World.linked e).
  Notation can_link := (Spec_World.can_link e).
  Notation do_link := (Spec_World.do_link e).
  Notation do_links := (Spec_World.do_links e).
  Notation can_links := (Spec_World.can_links e).
  Notation acyclic_links := (Spec_World.acyclic_links e).

  Lemma joint_not_in_trees h t j : rep e h t -> jframes h j = None -> ~ In j (joints t).
  Proof.
    intros R N I. destruct (rep_joint_edge h t j R I) as (p & c & [(f0 & f1 & E & _) _] & _). congruence.
  Qed.

  Lemma linked_forest h l h' :
    forest e h -> can_link h l -> linked h l h' -> ~ below e h (l_to l) (l_from l) -> forest e h'.
  Proof.
    destruct l as [[f0 j] f1]. unfold can_link, linked, l_from, l_joint, l_to; cbn.
    set (p := frame_body e f0). set (c := frame_body e f1).
    intros F (Nj & Np) (Hc & Hp & Hj) Nb x.
    destruct (F c) as (tc & (Rc & Nc & Dc) & Ic).
    assert (Erc : root tc = c) by (symmetry; eapply rep_root_of_no_parent; eauto).
    assert (Npc : ~ In p (bodies tc)) by (rewrite <- (below_rep h tc p Rc), Erc; exact Nb).
    destruct (F p) as (tp & Wp & Ip). assert (Wp' := Wp). destruct Wp' as (Rp & Nrp & Dp).
    assert (Ncp : ~ In c (bodies tp)).
    { intros K. assert (tp = tc) by (eapply whole_tree_unique; eauto; repeat split; auto). subst; auto. }
    assert (Rc' : rep e h' tc).
    { apply (rep_ext h); auto.
      - intros b Ib. rewrite Hc. destruct (Nat.eqb_spec b p) as [->|]; [contradiction|now rewrite app_nil_r].
      - intros b Ib. rewrite Hp. destruct (Nat.eqb_spec b c) as [->|]; auto.
        rewrite bodies_tail, Erc in Dc. apply NoDup_cons_iff in Dc. tauto.
      - intros i Ii. rewrite Hj. destruct (Nat.eqb_spec i j) as [->|]; auto.
        exfalso. exact (joint_not_in_trees h tc j Rc Nj Ii). }
    assert (Ntail : forall t b, rep e h t -> In b (tailb t) -> b <> c).
    { intros t b R I ->. destruct (rep_edge_body h t c R I) as (q & i & [_ K] & _). congruence. }
    set (tg := graft p j tc tp).
    assert (Wg : whole_tree e h' tg).
    { repeat split.
      - apply (rep_graft h); auto.
        + rewrite Erc. intros K. now apply (Ntail tp c).
        + eapply joint_not_in_trees; eauto.
        + intros b Ib. rewrite Hp. destruct (Nat.eqb_spec b c) as [->|]; auto. now destruct (Ntail tp c Rp Ib).
        + intros i Ii. rewrite Hj. destruct (Nat.eqb_spec i j) as [->|]; auto.
          exfalso. exact (joint_not_in_trees h tp j Rp Nj Ii).
        + split; [exists f0, f1; rewrite Hj, Nat.eqb_refl; auto|].
          rewrite Hp, Erc, Nat.eqb_refl. reflexivity.
      - unfold tg. rewrite root_graft, Hp. destruct (Nat.eqb_spec (root tp) c) as [E|]; auto.
        exfalso. apply Ncp. rewrite <- E. apply root_in_bodies.
      - unfold tg. eapply Permutation_NoDup; [symmetry; apply bodies_graft; auto|].
        apply NoDup_app_iff. repeat split; auto. intros y Iy Iy'.
        apply Npc. assert (tp = tc) by (eapply (whole_tree_unique h tp tc y); eauto; repeat split; auto).
        now subst. }
    destruct (F x) as (tx & Wx & Ix).
    destruct (in_dec Nat.eq_dec x (bodies tp ++ bodies tc)) as [K|K].
    - exists tg. split; auto. eapply Permutation_in; [symmetry; apply bodies_graft; auto|auto].
    - rewrite in_app_iff in K. exists tx. split; [|auto]. destruct Wx as (Rx & Nx & Dx).
      assert (Npx : ~ In p (bodies tx)).
      { intros Ipx. apply K. left. replace tp with tx; auto.
        apply (whole_tree_unique h tx tp p); auto; repeat split; auto. }
      assert (Ncx : ~ In c (bodies tx)).
      { intros Icx. apply K. right. replace tc with tx; auto.
        apply (whole_tree_unique h tx tc c); auto; repeat split; auto. }
      repeat split; auto.
      + apply (rep_ext h); auto.
        * intros b Ib. rewrite Hc. destruct (Nat.eqb_spec b p) as [->|]; [contradiction|now rewrite app_nil_r].
        * intros b Ib. rewrite Hp. destruct (Nat.eqb_spec b c) as [->|]; auto. now destruct (Ntail tx c Rx Ib).
        * intros i Ii. rewrite Hj. destruct (Nat.eqb_spec i j) as [->|]; auto.
          exfalso. exact (joint_not_in_trees h tx j Rx Nj Ii).
      + rewrite Hp. destruct (Nat.eqb_spec (root tx) c) as [E|]; auto.
        exfalso. apply Ncx. rewrite <- E. apply root_in_bodies.
  Qed.

  (** ** The model's [add_link] on lists of links *)

  Lemma register_frame_graph f h : same_graph h (register_frame f h).
  Proof. destruct f; repeat split. Qed.
  Lemma same_graph_trans h1 h2 h3 : same_graph h1 h2 -> same_graph h2 h3 -> same_graph h1 h3.
  Proof. intros (A & B & C) (A' & B' & C'). repeat split; intros; congruence. Qed.


  Lemma do_link_linked h l : linked h l (do_link h l).
  Proof.
    destruct l as [[f0 j] f1]. unfold do_link.
    set (h3 := set_children _ _ _).
    assert (S : same_graph h3 (register_frame f1 (register_frame f0 h3))).
    { eapply same_graph_trans; apply register_frame_graph. }
    destruct S as (A & B & C). unfold linked, l_from, l_to, l_joint; cbn.
    repeat split; intros x; rewrite ?A, ?B, ?C; unfold h3; cbn; unfold upd.
    - destruct (Nat.eqb_spec x (frame_body e f0)) as [->|]; [reflexivity|now rewrite app_nil_r].
    - reflexivity.
    - reflexivity.
  Qed.

  (** one step of [add_link] *)
  Lemma add_link_step h f0 j f1 rest :
    add_link e (OFrame f0 :: OJoint j :: OFrame f1 :: rest) h =
    match jframes h j with
    | Some _ => (h, Err AssertionError)
    | None =>
        if Nat.eqb (length rest mod 3) 0 then
          match parentjoint h (frame_body e f1) with
          | Some _ => (set_frames h j (Some (f0, f1)), Err ValueError)
          | None => match rest with
                    | [] => (do_link h (f0, j, f1), Ok tt)
                    | _ => add_link e rest (do_link h (f0, j, f1))
                    end
          end
        else (h, Err AssertionError)
    end.
  Proof.
    cbn [add_link]. destruct (jframes h j); [reflexivity|].
    destruct (Nat.eqb (length rest mod 3) 0); reflexivity.
  Qed.


  Lemma length_flatten ls : length (flatten ls) = 3 * length ls.
  Proof. induction ls as [|[[f0 j] f1] ls IH]; cbn [flatten length]; [reflexivity|lia]. Qed.
  Lemma flatten_mod ls : Nat.eqb (length (flatten ls) mod 3) 0 = true.
  Proof. rewrite length_flatten, Nat.mul_comm, Nat.mod_mul by lia. reflexivity. Qed.

  Lemma add_link_ok_links ls : forall h, ls <> [] -> can_links h ls ->
    add_link e (flatten ls) h = (do_links h ls, Ok tt).
  Proof.
    induction ls as [|[[f0 j] f1] ls IH]; intros h N C; [contradiction|].
    cbn [flatten]. rewrite add_link_step. destruct C as [[Cj Cp] C]. cbn in Cj, Cp.
    unfold l_to in Cp; cbn in Cp. rewrite Cj, flatten_mod, Cp.
    destruct ls as [|l ls]; [reflexivity|].
    specialize (IH (do_link h (f0, j, f1)) ltac:(discriminate) C).
    change (do_links h ((f0, j, f1) :: l :: ls)) with (do_links (do_link h (f0, j, f1)) (l :: ls)).
    rewrite <- IH. destruct l as [[? ?] ?]. reflexivity.
  Qed.

  Lemma add_link_ok_inv n : forall args h h' u, length args <= n -> add_link e args h = (h', Ok u) ->
    exists ls, ls <> [] /\ args = flatten ls /\ can_links h ls /\ h' = do_links h ls.
  Proof.
    induction n as [|n IH]; intros args h h' u L A.
    - destruct args; [discriminate|cbn in L; lia].
    - destruct args as [|a0 [|aj [|a1 rest]]]; try discriminate.
      destruct a0 as [f0| | | | |]; try discriminate.
      destruct a1 as [f1| | | | |]; try discriminate.
      destruct aj as [|j| | | |]; try discriminate.
      rewrite add_link_step in A. destruct (jframes h j) eqn:Ej; [discriminate|].
      destruct (Nat.eqb _ _); [|discriminate]. destruct (parentjoint h (frame_body e f1)) eqn:Ep; [discriminate|].
      destruct rest as [|r rest].
      + injection A as <- _. exists [(f0, j, f1)]. repeat split; auto; discriminate.
      + apply IH in A; [|cbn in *; lia]. destruct A as (ls & N & E & C & ->).
        exists ((f0, j, f1) :: ls). repeat split; auto; [discriminate|]. cbn [flatten]. now rewrite E.
  Qed.


  Lemma do_links_forest ls : forall h, forest e h -> can_links h ls -> acyclic_links h ls ->
    forest e (do_links h ls).
  Proof.
    induction ls as [|l ls IH]; intros h F C A; [exact F|]. destruct C as [C Cs], A as [A As].
    cbn. apply IH; auto. eapply linked_forest; eauto using do_link_linked.
  Qed.

  (** a refused single link keeps the forest *)
  Lemma set_frames_forest h j v : forest e h -> jframes h j = None -> forest e (set_frames h j v).
  Proof.
    intros F N b. destruct (F b) as (t & (R & Nr & D) & I). exists t. repeat split; auto.
    apply (rep_ext h); auto. intros i Ii. cbn. unfold upd. destruct (Nat.eqb_spec i j) as [->|]; auto.
    exfalso. exact (joint_not_in_trees h t j R N Ii).
  Qed.

  Lemma add_link1_cases h f0 j f1 :
    (can_link h (f0, j, f1) /\ add_link e [OFrame f0; OJoint j; OFrame f1] h = (do_link h (f0, j, f1), Ok tt)) \/
    (jframes h j <> None /\ add_link e [OFrame f0; OJoint j; OFrame f1] h = (h, Err AssertionError)) \/
    (jframes h j = None /\ parentjoint h (frame_body e f1) <> None /\
     add_link e [OFrame f0; OJoint j; OFrame f1] h = (set_frames h j (Some (f0, f1)), Err ValueError)).
  Proof.
    rewrite add_link_step. unfold can_link, l_joint, l_to; cbn.
    destruct (jframes h j); [right; left; split; [discriminate|reflexivity]|].
    destruct (parentjoint h (frame_body e f1)); [right; right; repeat split; discriminate|left; auto].
  Qed.

  (** ** Permuting children *)
  Lemma rep_perm h h' :
    (forall b, Permutation (childrenjoints h b) (childrenjoints h' b)) ->
    (forall b, parentjoint h' b = parentjoint h b) -> (forall j, jframes h' j = jframes h j) ->
    forall t, rep e h t -> exists t', rep e h' t' /\ root t' = root t /\ Permutation (bodies t) (bodies t').
  Proof.
    intros Hc Hp Hj. induction t as [b ks IH] using tree_rect_in. intros R.
    apply rep_inv in R. destruct R as [C R].
    pose proof (Hc b) as P. rewrite C in P. symmetry in P. apply Permutation_map_inv in P.
    destruct P as (ks1 & E1 & P1).
    assert (K : exists ks2, map fst ks2 = map fst ks1 /\
       (forall j s, In (j, s) ks2 -> edge e h' b j (root s) /\ rep e h' s) /\
       Permutation (flat_map (fun jt => bodies (snd jt)) ks1) (flat_map (fun jt => bodies (snd jt)) ks2)).
    { assert (Sub : forall j s, In (j, s) ks1 -> In (j, s) ks).
      { intros j s I. eapply Permutation_in; [symmetry; exact P1|auto]. }
      clear E1 P1 C. induction ks1 as [|[j s] ks1 IHk].
      { exists []. split; [reflexivity|]. split; [intros j s []|reflexivity]. }
      destruct IHk as (ks2 & Em & Hk & Pk); [intros i u I; apply Sub; now right|].
      assert (I : In (j, s) ks) by (apply Sub; now left).
      destruct (R j s I) as [Ej Rs]. destruct (IH j s I Rs) as (s' & Rs' & Er & Ps).
      exists ((j, s') :: ks2). cbn. rewrite Em. split; [reflexivity|]. split.
      - intros i u [[= <- <-]|H]; [|apply Hk; auto]. split; [|auto].
        rewrite Er. eapply edge_ext; eauto.
      - now apply Permutation_app. }
    destruct K as (ks2 & Em & Hk & Pk). exists (Node b ks2). split; [|split].
    - apply rep_intro; [congruence|auto].
    - reflexivity.
    - rewrite !bodies_eq. constructor. rewrite <- Pk.
      apply Permutation_flat_map. exact P1.
  Qed.

  Lemma forest_perm h h' :
    (forall b, Permutation (childrenjoints h b) (childrenjoints h' b)) ->
    (forall b, parentjoint h' b = parentjoint h b) -> (forall j, jframes h' j = jframes h j) ->
    forest e h -> forest e h'.
  Proof.
    intros Hc Hp Hj F b. destruct (F b) as (t & (R & N & D) & I).
    destruct (rep_perm h h' Hc Hp Hj t R) as (t' & R' & Er & P). exists t'. repeat split; auto.
    - now rewrite Er, Hp.
    - eapply Permutation_NoDup; eauto.
    - eapply Permutation_in; eauto.
  Qed.
End P.
