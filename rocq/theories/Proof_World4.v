(** Glue for the property theorems on the world structure. *)
From Verif Require Import Model_Base Model_World Spec_World Proof_Tree Proof_World Proof_World2
  Proof_World3 Proof_Dofs Proof_Register.

Lemma subtree_contiguous u t : subtree u t ->
  (exists l1 l2, bodies t = l1 ++ bodies u ++ l2) /\ (exists l1 l2, joints t = l1 ++ joints u ++ l2).
Proof.
  induction 1 as [t|u b ks j s I Su [(a1 & a2 & A) (c1 & c2 & C)]].
  - split; exists [], []; cbn; now rewrite app_nil_r.
  - apply in_split in I. destruct I as (k1 & k2 & ->). rewrite bodies_eq, joints_eq, !flat_map_app.
    cbn [flat_map fst snd]. rewrite A, C. split.
    + exists (b :: flat_map (fun jt => bodies (snd jt)) k1 ++ a1), (a2 ++ flat_map (fun jt => bodies (snd jt)) k2).
      cbn. now rewrite !app_assoc.
    + exists (flat_map (fun jt => fst jt :: joints (snd jt)) k1 ++ j :: c1), (c2 ++ flat_map (fun jt => fst jt :: joints (snd jt)) k2).
      rewrite <- !app_assoc. cbn. now rewrite <- !app_assoc.
Qed.

Section P.
  Context {V : Type} (zero : V) (e : env).
  Notation heap := (@heap V).
  Implicit Types h : heap.

  Lemma forest_unique h : forest e h -> forall b, exists! t, whole_tree e h t /\ In b (bodies t).
  Proof.
    intros F b. destruct (F b) as (t & W & I). exists t. split; [auto|].
    intros t' [W' I']. eapply whole_tree_unique; eauto.
  Qed.

  (** ** cycles *)
  Lemma walk_closed h ps : forall x y, walk e h x ps -> In y (x :: map snd ps) ->
    y = walk_end x ps \/ exists j p, edge e h p j y /\ In p (map snd ps).
  Proof.
    induction ps as [|[j p] ps IH]; intros x y W I; cbn in *.
    - destruct I as [<-|[]]. now left.
    - destruct W as [E W]. destruct I as [<-|I].
      + right. exists j, p. auto.
      + destruct (IH p y W I) as [->|(i & q & E' & I')]; [now left|]. right. exists i, q. auto.
  Qed.

  Lemma closed_set_no_tree h (S : nat -> Prop) :
    (forall x, S x -> exists j p, edge e h p j x /\ S p) ->
    forall t, rep e h t -> ~ S (root t) -> forall x, In x (bodies t) -> ~ S x.
  Proof.
    intros Cl t. induction t as [b ks IH] using tree_rect_in. intros R N x I Sx.
    apply rep_inv in R. destruct R as [C R]. apply in_bodies in I. destruct I as [->|(j & s & I & Ix)]; [auto|].
    destruct (R j s I) as [E Rs]. refine (IH j s I Rs _ x Ix Sx). intros Sr.
    destruct (Cl _ Sr) as (i & p & E' & Sp). destruct E as [Ef Ep], E' as [Ef' Ep'].
    rewrite Ep in Ep'. injection Ep' as <-.
    destruct Ef as (a0 & a1 & Ea & Eb & _), Ef' as (c0 & c1 & Ec & Ed & _). rewrite Ea in Ec. injection Ec as <- <-.
    cbn in N. apply N. congruence.
  Qed.

  Lemma cycle_accepted h f0 j f1 : forest e h -> jframes h j = None -> parentjoint h (frame_body e f1) = None ->
    below e h (frame_body e f1) (frame_body e f0) ->
    exists h', add_link e [OFrame f0; OJoint j; OFrame f1] h = (h', Ok tt) /\ ~ forest e h' /\
      forall t, whole_tree e h' t -> ~ In (frame_body e f1) (bodies t).
  Proof.
    intros F J P B. exists (do_link e h (f0, j, f1)).
    assert (N : forall t, whole_tree e (do_link e h (f0, j, f1)) t -> ~ In (frame_body e f1) (bodies t)).
    { destruct (F (frame_body e f1)) as (u & (Ru & Pu & Du) & Iu).
      pose proof (rep_root_of_no_parent e h u _ Ru Iu P) as Er.
      rewrite Er in B. apply (below_rep e h u _ Ru) in B.
      destruct (path_exists u _ B) as (ps & Pa). destruct (path_walk e h u _ ps Ru Pa) as [W We].
      destruct (do_link_linked e h (f0, j, f1)) as (_ & Hp & Hj). unfold l_to, l_joint in Hp, Hj; cbn in Hp, Hj.
      assert (Sedge : forall p i y, edge e h p i y -> edge e (do_link e h (f0, j, f1)) p i y).
      { intros p i y ((k0 & k1 & Ek & E0 & E1) & Ep). split.
        - exists k0, k1. split; [|auto]. rewrite Hj. destruct (Nat.eqb_spec i j) as [->|]; [congruence|auto].
        - rewrite Hp. destruct (Nat.eqb_spec y (frame_body e f1)) as [->|]; [congruence|auto]. }
      assert (Enew : edge e (do_link e h (f0, j, f1)) (frame_body e f0) j (frame_body e f1)).
      { split; [exists f0, f1; rewrite Hj, Nat.eqb_refl; auto|rewrite Hp, Nat.eqb_refl; auto]. }
      assert (Cl : forall x, In x (frame_body e f0 :: map snd ps) ->
         exists i p, edge e (do_link e h (f0, j, f1)) p i x /\ In p (frame_body e f0 :: map snd ps)).
      { intros x Ix. destruct (walk_closed h ps _ x W Ix) as [->|(i & p & E & Ip)].
        - rewrite We, <- Er. exists j, (frame_body e f0). split; [auto|now left].
        - exists i, p. split; [auto|now right]. }
      assert (Sto : In (frame_body e f1) (frame_body e f0 :: map snd ps)).
      { rewrite Er, <- We. clear. generalize (frame_body e f0).
        induction ps as [|[i p] ps IH]; intros x; cbn; [auto|]. right. apply IH. }
      intros t (R & Pr & D) I. refine (closed_set_no_tree _ _ Cl t R _ _ I Sto).
      intros Sr. destruct (Cl _ Sr) as (i & p & [_ E] & _). congruence. }
    split; [|split].
    - destruct (add_link1_cases e h f0 j f1) as [[_ E]|[[K _]|[_ [K _]]]]; [auto|contradiction|].
      contradiction.
    - intros F'. destruct (F' (frame_body e f1)) as (t & W & I). exact (N t W I).
    - exact N.
  Qed.

  (** ** add_link *)
  Lemma add_link_parented h f0 j f1 : jframes h j = None -> parentjoint h (frame_body e f1) <> None ->
    exists h', add_link e [OFrame f0; OJoint j; OFrame f1] h = (h', Err ValueError) /\
      (forall b, childrenjoints h' b = childrenjoints h b) /\ (forall b, parentjoint h' b = parentjoint h b).
  Proof.
    intros J P. destruct (add_link1_cases e h f0 j f1) as [[[_ K] _]|[[K _]|[_ [_ ->]]]]; [contradiction|contradiction|].
    eexists. split; [reflexivity|]. split; reflexivity.
  Qed.

  (** what one accepted link does to the registration lists *)
  Lemma register_frame_subs f h : w_subframes (register_frame f h) =
    match f with FBody _ => w_subframes h
    | _ => if in_dec frame_eq_dec f (w_subframes h) then w_subframes h else w_subframes h ++ [f] end.
  Proof.
    destruct f as [b|s|s]; cbn [register_frame set_registered w_subframes]; [reflexivity| |]; unfold add_once.
    - destruct (existsb _ _) eqn:E; destruct (in_dec _ _ _) as [I|I]; auto.
      + apply existsb_frame in E. contradiction.
      + apply existsb_frame in I. congruence.
    - destruct (existsb _ _) eqn:E; destruct (in_dec _ _ _) as [I|I]; auto.
      + apply existsb_frame in E. contradiction.
      + apply existsb_frame in I. congruence.
  Qed.
  Lemma register_frame_known_any f h : known (register_frame f h) f.
  Proof.
    destruct f as [b|s|s]; cbn [known]; [exact I| |]; rewrite register_frame_subs;
    (destruct (in_dec _ _ _); [auto|apply in_app_iff; right; now left]).
  Qed.
  Lemma register_frame_mono f g h : known h g -> known (register_frame f h) g.
  Proof.
    destruct g as [b|s|s]; cbn [known]; [auto| |]; rewrite register_frame_subs; destruct f; auto;
    destruct (in_dec _ _ _); auto; intros; apply in_app_iff; auto.
  Qed.
  Lemma register_frame_keep f h x : In x (w_subframes h) -> In x (w_subframes (register_frame f h)).
  Proof.
    intros I. rewrite register_frame_subs. destruct f; auto; destruct (in_dec _ _ _); auto; apply in_app_iff; auto.
  Qed.
  Lemma register_frame_only f h x : In x (w_subframes (register_frame f h)) -> In x (w_subframes h) \/ x = f.
  Proof.
    rewrite register_frame_subs. destruct f; auto; destruct (in_dec _ _ _); auto;
    rewrite in_app_iff; cbn; intuition.
  Qed.
  Lemma register_frame_rest f h : w_shapes (register_frame f h) = w_shapes h /\
    w_constraints (register_frame f h) = w_constraints h /\ w_controllers (register_frame f h) = w_controllers h.
  Proof. destruct f; repeat split. Qed.

  Lemma add_link_effect h f0 j f1 h' : add_link e [OFrame f0; OJoint j; OFrame f1] h = (h', Ok tt) ->
    linked e h (f0, j, f1) h' /\ known h' f0 /\ known h' f1 /\
    (forall x, In x (w_subframes h') -> In x (w_subframes h) \/ x = f0 \/ x = f1) /\
    (forall x, In x (w_subframes h) -> In x (w_subframes h')) /\
    w_shapes h' = w_shapes h /\ w_constraints h' = w_constraints h /\ w_controllers h' = w_controllers h /\
    same_store h h'.
  Proof.
    intros E. destruct (add_link1_cases e h f0 j f1) as [[C E']|[[_ E']|[_ [_ E']]]]; rewrite E' in E; try discriminate.
    assert (Eh : h' = do_link e h (f0, j, f1)) by congruence. clear E E'. subst h'. split; [apply do_link_linked|].
    cbn [do_link]. set (h3 := set_children _ _ _).
    split; [apply register_frame_mono, register_frame_known_any|].
    split; [apply register_frame_known_any|]. split; [|split; [|split; [|split; [|split]]]].
    - intros x I. apply register_frame_only in I. destruct I as [I| ->]; [|auto].
      apply register_frame_only in I. destruct I as [I| ->]; auto.
    - intros x I. apply register_frame_keep, register_frame_keep. exact I.
    - now destruct f0, f1.
    - now destruct f0, f1.
    - now destruct f0, f1.
    - exact (do_link_store e h (f0, j, f1)).
  Qed.

  (** several links are the successive single calls, including on failure *)
  Lemma add_link_cons l ls h : add_link e (flatten (l :: ls)) h =
    match add_link e (flatten [l]) h with
    | (h1, Ok u) => match ls with [] => (h1, Ok u) | _ => add_link e (flatten ls) h1 end
    | (h1, Err x) => (h1, Err x)
    end.
  Proof.
    destruct l as [[f0 j] f1]. cbn [flatten]. rewrite !add_link_step.
    destruct (jframes h j); [reflexivity|]. rewrite flatten_mod. cbn [length Nat.modulo Nat.eqb].
    change (Nat.eqb (0 mod 3) 0) with true. cbn iota.
    destruct (parentjoint h (frame_body e f1)); [reflexivity|].
    destruct ls as [|[[g0 i] g1] ls]; reflexivity.
  Qed.
  Lemma add_link_shape args h h' u : add_link e args h = (h', Ok u) -> exists ls, ls <> [] /\ args = flatten ls.
  Proof.
    intros E. destruct (add_link_ok_inv e (length args) args h h' u (Nat.le_refl _) E) as (ls & N & A & _). eauto.
  Qed.

  Lemma add_link_refused h f0 j f1 h' x : add_link e [OFrame f0; OJoint j; OFrame f1] h = (h', Err x) ->
    (x = AssertionError /\ h' = h /\ jframes h j <> None) \/
    (x = ValueError /\ jframes h j = None /\ h' = set_frames h j (Some (f0, f1))).
  Proof.
    intros E. destruct (add_link1_cases e h f0 j f1) as [[C E']|[[N E']|[N [_ E']]]]; rewrite E' in E; try discriminate;
    injection E as <- <-; auto.
  Qed.
  Lemma add_link_no_retry h f0 j f1 h' : add_link e [OFrame f0; OJoint j; OFrame f1] h = (h', Err ValueError) ->
    jframes h j = None /\ jframes h' j = Some (f0, f1) /\
    forall g0 g1, add_link e [OFrame g0; OJoint j; OFrame g1] h' = (h', Err AssertionError).
  Proof.
    intros E. destruct (add_link_refused _ _ _ _ _ _ E) as [[K _]|[_ [J ->]]]; [discriminate|].
    assert (J' : jframes (set_frames h j (Some (f0, f1))) j = Some (f0, f1)) by (cbn; unfold upd; now rewrite Nat.eqb_refl).
    repeat split; auto. intros g0 g1. rewrite add_link_step, J'. reflexivity.
  Qed.

  (** ** iterators *)
  Lemma iter_bodies_fuel h t : rep e h t -> forall fuel l,
    iter_descendant_bodies e fuel h (root t) = Ok l -> l = tailb t.
  Proof.
    intros R fuel l E. destruct (Nat.lt_ge_cases (height t) fuel) as [L|L].
    - rewrite (iter_bodies_ok e h t R fuel L) in E. congruence.
    - rewrite (iter_bodies_deep e h t R fuel L) in E. discriminate.
  Qed.
  Lemma forest_subtree h b : forest e h -> exists u, rep e h u /\ root u = b /\ NoDup (bodies u).
  Proof.
    intros F. destruct (F b) as (t & (R & P & D) & I). destruct (subtree_at t b I) as (u & Su & Eu).
    exists u. split; [eapply subtree_rep; eauto|]. split; [auto|eapply subtree_nodup; eauto].
  Qed.

  Lemma world_iterators h : forest e h -> exists t, rep e h t /\ root t = ground e /\
    NoDup (bodies t) /\ NoDup (joints t) /\
    forall fuel, (height t < fuel -> iterbodies e fuel h = Ok (bodies t) /\ iterjoints e fuel h = Ok (joints t)) /\
                 (fuel <= height t -> iterbodies e fuel h = Err RecursionError).
  Proof.
    intros F. destruct (forest_subtree h (ground e) F) as (u & R & Er & D). exists u.
    split; [auto|]. split; [auto|]. split; [auto|]. split; [eapply rep_nodup_joints; eauto|].
    intros fuel. split; intros L.
    - unfold iterbodies, iterjoints. rewrite <- Er, (iter_bodies_ok e h u R fuel L), (iter_joints_ok e h u R fuel L).
      cbn. now rewrite <- bodies_tail.
    - unfold iterbodies. now rewrite <- Er, (iter_bodies_deep e h u R fuel L).
  Qed.

  Lemma forest_path h x : forest e h -> exists t ps, whole_tree e h t /\ In x (bodies t) /\ path t x ps /\
    forall fuel, length ps < fuel ->
      iter_ancestor_bodies e fuel h x = Ok (map snd ps) /\ iter_ancestor_joints e fuel h x = Ok (map fst ps).
  Proof.
    intros F. destruct (F x) as (t & (R & P & D) & I). destruct (path_exists t x I) as (ps & Pa).
    exists t, ps. split; [repeat split; auto|]. split; [auto|]. split; [auto|]. intros fuel L.
    destruct (path_walk e h t x ps R Pa) as [W We]. apply iter_ancestors; auto. now rewrite We.
  Qed.

  Lemma edge_below h a c p j u : forest e h -> edge e h p j c -> rep e h u -> root u = a -> In p (bodies u) -> In c (tailb u).
  Proof.
    intros F E R Er I. destruct (subtree_at u p I) as (v & Sv & Ev). pose proof (subtree_rep e h v u Sv R) as Rv.
    destruct v as [b ks]. cbn in Ev. subst b. apply rep_inv in Rv. destruct Rv as [C Rk].
    destruct E as [(f0 & f1 & Ef & E0 & E1) Ep]. destruct (forest_parent_child e h c j F Ep) as (k0 & k1 & Ek & Ec & Cn & _).
    rewrite Ef in Ek. injection Ek as <- <-. rewrite E0, C in Cn.
    assert (Ij : In j (map fst ks)) by (apply (count_occ_In Nat.eq_dec); lia).
    apply in_map_iff in Ij. destruct Ij as ([j' s] & Ej & Is). cbn in Ej. subst j'.
    destruct (Rk j s Is) as [[(g0 & g1 & Eg & _ & Eg1) _] _]. rewrite Ef in Eg. injection Eg as <- <-.
    eapply subtree_tailb; [exact Sv|]. rewrite tailb_eq. apply in_flat_map. exists (j, s). split; [auto|]. cbn.
    rewrite <- E1, Eg1. apply root_in_bodies.
  Qed.

  Lemma ancestor_descendant h a c fuel1 fuel2 la ld : forest e h ->
    iter_ancestor_bodies e fuel1 h c = Ok la -> iter_descendant_bodies e fuel2 h a = Ok ld ->
    (In a la <-> In c ld).
  Proof.
    intros F Ha Hd. destruct (forest_subtree h a F) as (u & Ru & Er & Du). rewrite <- Er in Hd.
    apply (iter_bodies_fuel h u Ru) in Hd. subst ld.
    assert (exists ps, la = map snd ps /\ walk e h c ps /\ parentjoint h (walk_end c ps) = None) as (ps & -> & W & Pn).
    { clear u Ru Er Du. revert c la Ha. induction fuel1 as [|n IH]; intros c la Ha; [discriminate|]. cbn in Ha.
      destruct (parentjoint h c) as [j|] eqn:Ep.
      - destruct (parent_body e h j) as [p|] eqn:Eb; [|discriminate]. cbn in Ha.
        destruct (iter_ancestor_bodies e n h p) as [l|] eqn:El; [|discriminate]. cbn in Ha. injection Ha as <-.
        destruct (IH p l El) as (ps & -> & W & Pn). exists ((j, p) :: ps). split; [reflexivity|]. split; [|exact Pn].
        cbn. split; [|exact W]. destruct (forest_parent_child e h c j F Ep) as (f0 & f1 & Ef & E1 & _).
        unfold parent_body in Eb. rewrite Ef in Eb. injection Eb as <-. split; [eauto|auto].
      - injection Ha as <-. exists []. repeat split; auto. }
    split.
    - intros I. clear Pn Ha. revert c W I. induction ps as [|[j p] ps IH]; intros c W I; [destruct I|].
      cbn in W, I. destruct W as [E W]. eapply edge_below; eauto. destruct I as [->|I].
      + rewrite <- Er. apply root_in_bodies.
      + rewrite bodies_tail. right. now apply IH.
    - intros I. assert (Ib : In c (bodies u)) by (rewrite bodies_tail; now right).
      destruct (path_exists u c Ib) as (ps1 & Pa). destruct (path_walk e h u c ps1 Ru Pa) as [W1 E1].
      (* ps1 is a prefix of ps *)
      assert (N1 : ps1 <> []).
      { intros ->. cbn in E1. subst c. rewrite bodies_tail in Du. apply NoDup_cons_iff in Du. now apply Du. }
      assert (G : forall q x r, walk e h x q -> walk e h x r -> parentjoint h (walk_end x r) = None -> q <> [] ->
                 In (walk_end x q) (map snd r)).
      { clear. induction q as [|[j p] q IH]; intros x r Wq Wr Pn N; [contradiction|]. cbn in Wq. destruct Wq as [E Wq].
        destruct r as [|[i p'] r]; cbn in Wr.
        - cbn in Pn. destruct E as [_ E]. congruence.
        - destruct Wr as [E' Wr]. destruct E as [(a0 & a1 & Ea & Ea0 & _) Ep], E' as [(c0 & c1 & Ec & Ec0 & _) Ep'].
          rewrite Ep in Ep'. injection Ep' as <-. rewrite Ea in Ec. injection Ec as <- <-.
          assert (p = p') by congruence. subst p'. cbn [walk_end map snd]. destruct q as [|jp q]; [now left|].
          right. rewrite Ea0 in Wr, Pn. apply (IH p r Wq Wr Pn). discriminate. }
      rewrite <- Er, <- E1. apply G; auto.
  Qed.

  Lemma iter_joints_deep h t : rep e h t -> forall fuel, fuel <= height t ->
    forall js, iter_descendant_joints e fuel h (root t) = Ok js -> False.
  Proof.
      induction t as [b ks IH] using tree_rect_in. intros R fuel L js Ej.
      destruct fuel as [|n]; [discriminate|]. cbn [root iter_descendant_joints] in Ej.
      apply rep_inv in R. destruct R as [C R]. rewrite C in Ej.
      assert (K : exists j s, In (j, s) ks /\ n <= height s).
      { clear -L. rewrite height_eq in L. revert L. induction ks as [|[j s] ks IHk]; cbn [fold_right snd]; intros L; [lia|].
        assert (O : n <= height s \/ S n <= fold_right (fun jt n => Nat.max (S (height (snd jt))) n) 0 ks) by lia.
        destruct O as [O|O].
        - exists j, s. split; [now left|auto].
        - destruct (IHk O) as (i & u & I & Hh). exists i, u. split; [now right|auto]. }
      destruct K as (j & s & I & Hh). clear L C. revert js Ej. induction ks as [|[i u] ks IHk]; [destruct I|].
      intros js Ej. cbn [map fst rconcat] in Ej.
      destruct (R i u (or_introl eq_refl)) as [Eu Ru]. rewrite (child_body_edge e h b i (root u) Eu) in Ej.
      cbn [rbind] in Ej. destruct (iter_descendant_joints e n h (root u)) as [lu|] eqn:Elu; [|discriminate].
      cbn [rbind] in Ej.
      destruct I as [K|I].
      + injection K as -> ->. exact (IH j s (or_introl eq_refl) Ru n Hh lu Elu).
      + match type of Ej with context [rconcat ?f ?l] => destruct (rconcat f l) as [lr|] eqn:Elr; [|discriminate] end.
        eapply IHk; eauto. intros a c Ia. apply (IH a c). now right. intros a c Ia. apply R. now right.
  Qed.

  (** ** init re-indexes *)
  Lemma init_indexed h fuel h' : forest e h -> vinv e h -> init zero e fuel h = (h', Ok tt) ->
    exists js, iterjoints e fuel h' = Ok js /\ NoDup js /\ w_ndof h' = total_ndof e js /\
      (forall l1 j l2, js = l1 ++ j :: l2 -> jdof h' j = Some (total_ndof e l1, total_ndof e l1 + jndof e j)).
  Proof.
    intros F Vi E. destruct (world_iterators h F) as (t & R & Er & D & Dj & It).
    destruct (Nat.lt_ge_cases (height t) fuel) as [L|L].
    - destruct (init_spec zero e h t fuel Vi R Er D L) as (k & Ek & En & Hd & _).
      rewrite E in Ek. injection Ek as <-.
      exists (joints t). split; [|split; [auto|split; [auto|]]].
      + pose proof (init_ok_graph zero e fuel h h' tt E) as G. pose proof (same_graph_rep e h h' t G R) as R'.
        unfold iterjoints. rewrite <- Er. now apply iter_joints_ok.
      + intros l1 j l2 K. apply (Hd l1 j l2 K).
    - exfalso. unfold init in E. destruct (iterjoints e fuel h) as [js|x] eqn:Ej; [|discriminate].
      unfold iterjoints in Ej. rewrite <- Er in Ej. exact (iter_joints_deep h t R fuel L js Ej).
  Qed.

  (** ** replace_joint *)
  Lemma replace_single h fuel old new h' : forest e h -> vinv e h ->
    replace_joint zero e fuel (OJoint old) [OJoint new] h = (h', Ok tt) ->
    exists g0 g1, jframes h old = Some (g0, g1) /\
      (forall b, childrenjoints h' b = map (fun j => if Nat.eqb j old then new else j) (childrenjoints h b)) /\
      (forall b, parentjoint h' b = option_map (fun j => if Nat.eqb j old then new else j) (parentjoint h b)) /\
      (forall j, jframes h' j = if Nat.eqb j new then Some (g0, g1) else
                                if Nat.eqb j old then None else jframes h j) /\
      (forall t, whole_tree e h t -> whole_tree e h' (relabel old new t)) /\
      (exists js, iterjoints e fuel h' = Ok js /\ NoDup js /\ w_ndof h' = total_ndof e js /\
        (forall l1 j l2, js = l1 ++ j :: l2 -> jdof h' j = Some (total_ndof e l1, total_ndof e l1 + jndof e j))).
  Proof.
    intros F Vi E. destruct (replace_joint_checks zero e _ _ _ _ _ _ E) as (g0 & g1 & Ef & I & Ed & H).
    cbn iota in H. destruct (replace_chain_ok_inv zero e _ _ _ _ _ _ H) as (k0 & k1 & ls & Ek & N & Ea & _ & _ & C & Hi).
    rewrite Ef in Ek. injection Ek as <- <-.
    assert (ls = [(g0, new, g1)]) as ->.
    { destruct ls as [|[[f0 j] f1] ls]; [contradiction|]. cbn in Ea. injection Ea as <- <- <- Ea.
      destruct ls as [|[[? ?] ?] ?]; [reflexivity|discriminate]. }
    set (hc := chain_result e h (frame_body e g0) old (frame_body e g1) [(g0, new, g1)]) in *.
    destruct (single_effect e h g0 old g1 new F Ed Ef I C) as (S1 & S2 & S3 & S4). fold hc in S1, S2, S3, S4.
    pose proof (init_ok_graph zero e fuel hc h' tt Hi) as G. pose proof G as (Gc & Gp & Gj).
    exists g0, g1. split; [auto|]. split; [intros b; rewrite Gc; apply S1|]. split; [intros b; rewrite Gp; apply S2|].
    split; [intros j; rewrite Gj; apply S3|].
    assert (Wt : forall t, whole_tree e h t -> whole_tree e hc (relabel old new t)).
    { intros t. apply (single_whole_tree e h g0 old g1 new t F Ed Ef I C). }
    split.
    - intros t W. destruct (Wt t W) as (R & P & D). split; [eapply same_graph_rep; eauto|]. split; [|auto]. now rewrite Gp.
    - eapply init_indexed; [| |exact Hi].
      + intros b. destruct (F b) as (t & W & Ib). exists (relabel old new t). split; [auto|]. now rewrite bodies_relabel.
      + eapply same_store_vinv; [apply chain_store|auto].
  Qed.

  Lemma replace_chain_effect h fuel old ls h' : forest e h -> length ls >= 1 ->
    replace_joint zero e fuel (OJoint old) (flatten ls) h = (h', Ok tt) ->
    exists g0 g1 A B news n, let b0 := frame_body e g0 in
      jframes h old = Some (g0, g1) /\ childrenjoints h b0 = A ++ old :: B /\
      map l_joint (filter (fun l => Nat.eqb b0 (l_from e l)) ls) = news ++ [n] /\
      childrenjoints h' b0 = A ++ n :: B ++ news /\
      (forall b, b <> b0 -> childrenjoints h' b =
         childrenjoints h b ++ map l_joint (filter (fun l => Nat.eqb b (l_from e l)) ls)) /\
      (forall j f0 f1, In (f0, j, f1) ls -> jframes h' j = Some (f0, f1) /\ parentjoint h' (frame_body e f1) = Some j) /\
      (forall j, ~ In j (map l_joint ls) -> jframes h' j = if Nat.eqb j old then None else jframes h j) /\
      (forall b, ~ In b (map (l_to e) ls) -> parentjoint h' b = if Nat.eqb b (frame_body e g1) then None else parentjoint h b) /\
      In (frame_body e g1) (map (l_to e) ls).
  Proof.
    intros F L E. destruct (replace_joint_checks zero e _ _ _ _ _ _ E) as (g0 & g1 & Ef & I & Ed & H).
    assert (Em : match flatten ls with [new] => [OFrame g0; new; OFrame g1] | _ => flatten ls end = flatten ls).
    { destruct ls as [|[[? ?] ?] ?]; [cbn in L; lia|reflexivity]. }
    rewrite Em in H. destruct (replace_chain_ok_inv zero e _ _ _ _ _ _ H) as (k0 & k1 & ls' & Ek & N & Ea & Eb0 & Eb1 & C & Hi).
    rewrite Ef in Ek. injection Ek as <- <-.
    assert (ls' = ls) as ->.
    { clear -Ea. revert ls' Ea. induction ls as [|[[a b] c] ls IH]; intros [|[[a' b'] c'] ls'] Ea; cbn in Ea; try discriminate; auto.
      injection Ea as <- <- <- Ea. f_equal. auto. }
    destruct (in_split _ _ I) as (A & B & Es).
    pose proof (forest_children_nodup e h (frame_body e g0) F) as D. rewrite Es in D.
    pose proof (NoDup_remove_2 _ _ _ D) as Nd. rewrite in_app_iff in Nd.
    destruct (chain_result_children e h (frame_body e g0) old (frame_body e g1) ls A B Es) as (news & n & En & C0 & Cb); [tauto| |].
    { destruct ls as [|l ls]; [contradiction|]. exists l. split; [now left|auto]. }
    pose proof (init_ok_graph zero e fuel _ h' tt Hi) as (Gc & Gp & Gj).
    destruct (chain_result_pf e h (frame_body e g0) old (frame_body e g1) ls) as [P J].
    exists g0, g1, A, B, news, n. cbv zeta. split; [auto|]. split; [auto|]. split; [auto|].
    split; [now rewrite Gc|]. split; [intros b Nb; rewrite Gc; auto|].
    set (h2 := set_frames (set_parent h (frame_body e g1) None) old None) in *.
    assert (Fj : forall ls h, can_links e h ls ->
       (forall j f0 f1, In (f0, j, f1) ls -> jframes (do_links e h ls) j = Some (f0, f1) /\ parentjoint (do_links e h ls) (frame_body e f1) = Some j) /\
       (forall j, ~ In j (map l_joint ls) -> jframes (do_links e h ls) j = jframes h j) /\
       (forall b, ~ In b (map (l_to e) ls) -> parentjoint (do_links e h ls) b = parentjoint h b) /\
       (forall j, jframes h j <> None -> ~ In j (map l_joint ls)) /\
       (forall b, parentjoint h b <> None -> ~ In b (map (l_to e) ls))).
    { clear. induction ls as [|l ls IH]; intros h C; cbn [do_links map In].
      - repeat split; try tauto.
      - destruct C as [[C1 C2] C]. destruct (do_link_linked e h l) as (_ & Lp & Lj).
        destruct (IH _ C) as (A1 & A2 & A3 & A4 & A5).
        assert (Nj : ~ In (l_joint l) (map l_joint ls)) by (apply A4; rewrite Lj, Nat.eqb_refl; discriminate).
        assert (Nb : ~ In (l_to e l) (map (l_to e) ls)) by (apply A5; rewrite Lp, Nat.eqb_refl; discriminate).
        split; [|split; [|split; [|split]]].
        + intros j f0 f1 [-> |I]; [|auto]. change j with (l_joint (f0, j, f1)). change (frame_body e f1) with (l_to e (f0, j, f1)).
          rewrite A2, A3 by auto. rewrite Lj, Lp, !Nat.eqb_refl. auto.
        + intros j K. rewrite A2 by tauto. rewrite Lj. destruct (Nat.eqb_spec j (l_joint l)) as [->|]; [tauto|auto].
        + intros b K. rewrite A3 by tauto. rewrite Lp. destruct (Nat.eqb_spec b (l_to e l)) as [->|]; [tauto|auto].
        + intros j K [<-|I]; [auto|]. refine (A4 j _ I). rewrite Lj. destruct (Nat.eqb_spec j (l_joint l)); [discriminate|auto].
        + intros b K [<-|I]; [auto|]. refine (A5 b _ I). rewrite Lp. destruct (Nat.eqb_spec b (l_to e l)); [discriminate|auto]. }
    destruct (Fj ls h2 C) as (A1 & A2 & A3 & _).
    split; [|split; [|split]].
    - intros j f0 f1 Il. rewrite Gj, Gp, J, P. auto.
    - intros j Nj. rewrite Gj, J, A2 by auto. cbn. unfold upd. reflexivity.
    - intros b Nb. rewrite Gp, P, A3 by auto. cbn. unfold upd. reflexivity.
    - rewrite Eb1. destruct (in_last ls N) as (l' & x & ->). rewrite last_last, map_app. apply in_app_iff. right. now left.
  Qed.

  (** failing calls: the head checks leave no trace *)
  Lemma replace_checks_atomic h fuel old args h' x :
    replace_joint zero e fuel (OJoint old) args h = (h', Err x) ->
    h' = h \/
    exists g0 g1, jframes h old = Some (g0, g1) /\ In old (childrenjoints h (frame_body e g0)) /\
      parentjoint h (frame_body e g1) = Some old /\
      (length args = 1 \/ exists f0 f1, hd OOther args = OFrame f0 /\ last args OOther = OFrame f1 /\
         frame_body e f0 = frame_body e g0 /\ frame_body e f1 = frame_body e g1 /\ length args mod 3 = 0).
  Proof.
    unfold replace_joint. destruct (jframes h old) as [[g0 g1]|] eqn:Ef; [|intros [= <- _]; auto].
    destruct (existsb (Nat.eqb old) (childrenjoints h (frame_body e g0))) eqn:Ex; cbn [andb]; [|intros [= <- _]; auto].
    destruct (parentjoint h (frame_body e g1)) as [j|] eqn:Ep; [|intros [= <- _]; auto].
    destruct (Nat.eqb_spec j old) as [->|]; [|intros [= <- _]; auto].
    apply existsb_nat in Ex.
    assert (G : forall a, replace_chain zero e fuel old a h = (h', Err x) -> h' = h \/
       exists f0 f1, hd OOther a = OFrame f0 /\ last a OOther = OFrame f1 /\
         frame_body e f0 = frame_body e g0 /\ frame_body e f1 = frame_body e g1).
    { intros a. unfold replace_chain. rewrite Ef.
      destruct (hd OOther a) as [f0| | | | | ]; try (intros [= <- _]; auto; fail).
      destruct (last a OOther) as [f1| | | | | ]; try (intros [= <- _]; auto; fail).
      destruct (Nat.eqb_spec (frame_body e g0) (frame_body e f0)) as [E0|]; cbn [andb]; [|intros [= <- _]; auto].
      destruct (Nat.eqb_spec (frame_body e g1) (frame_body e f1)) as [E1|]; cbn [andb]; [|intros [= <- _]; auto].
      intros _. right. exists f0, f1. auto. }
    destruct args as [|a [|b args]]; [intros [= <- _]; auto| |].
    - intros K. right. exists g0, g1. auto 6.
    - destruct (Nat.eqb_spec (length (a :: b :: args) mod 3) 0) as [M|]; [|intros [= <- _]; auto].
      intros K. destruct (G _ K) as [->|(f0 & f1 & K1 & K2 & K3 & K4)]; [auto|].
      right. exists g0, g1. split; [auto|]. split; [auto|]. split; [auto|]. right. exists f0, f1. auto.
  Qed.

  (** replacing by a joint that is already attached: refused, but the old joint is gone *)
  Lemma replace_not_atomic h fuel old new g0 g1 : jframes h old = Some (g0, g1) ->
    In old (childrenjoints h (frame_body e g0)) -> parentjoint h (frame_body e g1) = Some old ->
    new <> old -> jframes h new <> None ->
    exists h', replace_joint zero e fuel (OJoint old) [OJoint new] h = (h', Err AssertionError) /\
      jframes h' old = None /\ parentjoint h' (frame_body e g1) = None /\
      In old (childrenjoints h' (frame_body e g0)) /\
      forall n, iter_descendant_bodies e (S n) h' (frame_body e g0) = Err AttributeError.
  Proof.
    intros Ef I Ep N En. set (h2 := set_frames (set_parent h (frame_body e g1) None) old None).
    exists h2. split; [|split; [|split; [|split]]].
    - unfold replace_joint. rewrite Ef. apply existsb_nat in I. rewrite I, Ep, Nat.eqb_refl. cbn [andb].
      unfold replace_chain. rewrite Ef. cbn [hd last]. rewrite !Nat.eqb_refl. cbn [andb]. fold h2.
      rewrite add_link_step. assert (E2 : jframes h2 new = jframes h new).
      { cbn. unfold upd. destruct (Nat.eqb_spec new old); congruence. }
      rewrite E2. destruct (jframes h new); [reflexivity|contradiction].
    - cbn. unfold upd. now rewrite Nat.eqb_refl.
    - cbn. unfold upd. now rewrite Nat.eqb_refl.
    - exact I.
    - intros n. cbn [iter_descendant_bodies].
      assert (G : forall l, In old l -> rmapM (child_body e h2) l = Err AttributeError).
      { induction l as [|j l IH]; intros K; [destruct K|]. cbn [rmapM].
        unfold child_body at 1. destruct (jframes h2 j) as [[a0 a1]|] eqn:Ej; [|reflexivity].
        cbn [rbind]. destruct K as [->|K].
        - cbn in Ej. unfold upd in Ej. rewrite Nat.eqb_refl in Ej. discriminate.
        - now rewrite (IH K). }
      change (childrenjoints h2) with (childrenjoints h). now rewrite (G _ I).
  Qed.

  (** ** register *)
  Lemma fold_register_frame l : forall h,
    let h' := fold_left (fun acc f => register_frame f acc) l h in
    w_shapes h' = w_shapes h /\ w_constraints h' = w_constraints h /\ w_controllers h' = w_controllers h /\
    forall f, known h' f <-> known h f \/ In f l.
  Proof.
    induction l as [|g l IH]; intros h; cbn [fold_left In].
    - repeat split; auto. intros [K|[]]; auto.
    - destruct (IH (register_frame g h)) as (A & B & C & K). cbv zeta in *.
      destruct (register_frame_rest g h) as (A' & B' & C').
      rewrite A, B, C, A', B', C'. repeat split; auto.
      + intros Kf. apply K in Kf. destruct Kf as [Kf|Kf]; [|auto].
        destruct f as [b|s|s]; cbn [known] in *; auto; apply register_frame_only in Kf; destruct Kf as [Kf|Kf]; auto.
      + intros [Kf|[<-|Kf]]; apply K; [left; now apply register_frame_mono|left; apply register_frame_known_any|now right].
  Qed.

  (** what a call to [register] brings in: exactly the object and what it carries *)
  Definition brings (o : obj) (f : frame) : Prop :=
    match o with
    | OFrame g => f = g
    | OShape s => f = shape_frame e s
    | OConstraint c => In f (con_children e c)
    | _ => False
    end.
  Lemma existsb_nat_false n l : existsb (Nat.eqb n) l = false -> ~ In n l.
  Proof. intros E I. apply existsb_nat in I. congruence. Qed.
  Lemma add_once_in n l x : In x (add_once Nat.eqb n l) <-> In x l \/ x = n.
  Proof.
    unfold add_once. destruct (existsb _ _) eqn:E.
    - apply existsb_nat in E. intuition congruence.
    - rewrite in_app_iff. cbn. intuition congruence.
  Qed.
  Lemma register_members o h h' : reg_inv e h -> register e o h = (h', Ok tt) ->
    (forall f, known h' f <-> known h f \/ brings o f) /\
    (forall s, In s (w_shapes h') <-> In s (w_shapes h) \/ o = OShape s) /\
    (forall c, In c (w_constraints h') <-> In c (w_constraints h) \/ o = OConstraint c) /\
    (forall a, In a (w_controllers h') <-> In a (w_controllers h) \/ o = OController a).
  Proof.
    intros Hi. destruct o as [f|j|s|c|a|]; cbn [register brings]; try discriminate.
    - intros E. assert (h' = register_frame f h) as -> by congruence.
      destruct (register_frame_rest f h) as (A & B & C). rewrite A, B, C.
      split; [|repeat split; auto; intros [|]; auto; discriminate].
      intros g. split.
      + intros K. destruct g as [b|s|s]; cbn [known] in *; auto; apply register_frame_only in K; destruct K; auto.
      + intros [K| ->]; [now apply register_frame_mono|apply register_frame_known_any].
    - intros E. set (h1 := set_registered h (w_subframes h) (add_once Nat.eqb s (w_shapes h)) (w_constraints h) (w_controllers h)) in E.
      assert (h' = register_frame (shape_frame e s) h1) as -> by congruence.
      destruct (register_frame_rest (shape_frame e s) h1) as (A & B & C). rewrite A, B, C.
      split; [|split; [|split]].
      + intros g. split.
        * intros K. destruct g as [b|x|x]; cbn [known] in *; auto; apply register_frame_only in K; destruct K; auto.
        * intros [K| ->]; [apply register_frame_mono; destruct g; auto|apply register_frame_known_any].
      + intros x. cbn [h1 set_registered w_shapes]. rewrite add_once_in. intuition congruence.
      + intros x. cbn. intuition discriminate.
      + intros x. cbn. intuition discriminate.
    - destruct (existsb (Nat.eqb c) (w_constraints h)) eqn:Ex.
      + intros [= <-]. apply existsb_nat in Ex. repeat split; auto.
        * intros [K|K]; [auto|]. eapply ri_con_frames; eauto.
        * intros [K|K]; [auto|discriminate].
        * intros [K|K]; [auto|congruence].
        * intros [K|K]; [auto|discriminate].
      + intros E. set (h1 := set_registered h (w_subframes h) (w_shapes h) (w_constraints h ++ [c]) (w_controllers h)) in E.
        assert (h' = fold_left (fun acc f => register_frame f acc) (con_children e c) h1) as -> by congruence.
        destruct (fold_register_frame (con_children e c) h1) as (A & B & C & K). cbv zeta in *. rewrite A, B, C.
        split; [|split; [|split]].
        * intros f. rewrite K. assert (known h1 f <-> known h f) by (destruct f; reflexivity). tauto.
        * intros x. cbn. intuition discriminate.
        * intros x. cbn [h1 set_registered w_constraints]. rewrite in_app_iff. cbn. intuition congruence.
        * intros x. cbn. intuition discriminate.
    - intros E. assert (h' = set_registered h (w_subframes h) (w_shapes h) (w_constraints h) (add_once Nat.eqb a (w_controllers h))) as -> by congruence.
      split; [|split; [|split]].
      + intros f. assert (known (set_registered h (w_subframes h) (w_shapes h) (w_constraints h) (add_once Nat.eqb a (w_controllers h))) f <-> known h f) by (destruct f; reflexivity). tauto.
      + intros x. cbn. intuition discriminate.
      + intros x. cbn. intuition discriminate.
      + intros x. cbn [set_registered w_controllers]. rewrite add_once_in. intuition congruence.
  Qed.

  (** ** dofs *)
  Lemma slices_cover js : forall n, n < total_ndof e js -> exists l1 j l2, js = l1 ++ j :: l2 /\
     total_ndof e l1 <= n < total_ndof e l1 + jndof e j.
  Proof.
    induction js as [|i js IH]; intros n L; [rewrite total_nil in L; lia|]. rewrite total_cons in L.
    destruct (Nat.lt_ge_cases n (jndof e i)) as [K|K].
    - exists [], i, js. split; [reflexivity|]. rewrite total_nil. lia.
    - destruct (IH (n - jndof e i)) as (l1 & j & l2 & -> & B); [lia|].
      exists (i :: l1), j, l2. split; [reflexivity|]. rewrite total_cons. lia.
  Qed.

  Lemma init_fuel h fuel h' : forest e h -> vinv e h -> init zero e fuel h = (h', Ok tt) ->
    exists t, rep e h t /\ root t = ground e /\ NoDup (bodies t) /\ height t < fuel.
  Proof.
    intros F Vi E. destruct (world_iterators h F) as (t & R & Er & D & Dj & It). exists t.
    repeat split; auto. destruct (init_indexed h fuel h' F Vi E) as (js & Hj & _).
    destruct (Nat.lt_ge_cases (height t) fuel) as [L|L]; [auto|exfalso].
    unfold init in E. destruct (iterjoints e fuel h) as [ks|] eqn:Ek; [|discriminate].
    unfold iterjoints in Ek. rewrite <- Er in Ek. exact (iter_joints_deep h t R fuel L ks Ek).
  Qed.

  Lemma init_twice g0 h fuel h1 h2 : reachable zero e g0 h ->
    init zero e fuel h = (h1, Ok tt) -> init zero e fuel h1 = (h2, Ok tt) ->
    w_ndof h2 = w_ndof h1 /\ (forall j, jdof h2 j = jdof h1 j) /\ world_gvel h2 = world_gvel h1 /\
    (forall j, joint_gvel h2 j = joint_gvel h1 j).
  Proof.
    intros R E1 E2. pose proof (reachable_forest zero e g0 h R) as F. pose proof (reachable_vinv zero e g0 h R) as Vi.
    destruct (init_fuel h fuel h1 F Vi E1) as (t & Rt & Er & D & L).
    destruct (init_spec zero e h t fuel Vi Rt Er D L) as (k1 & K1 & N1 & S1 & O1 & W1 & _).
    rewrite E1 in K1. injection K1 as <-.
    pose proof (init_ok_graph zero e fuel h h1 tt E1) as G. pose proof (same_graph_rep e h h1 t G Rt) as Rt1.
    assert (Vi1 : vinv e h1).
    { replace h1 with (fst (init zero e fuel h)) by now rewrite E1. apply init_vinv; auto.
      intros js. now apply forest_iter_nodup. }
    destruct (init_spec zero e h1 t fuel Vi1 Rt1 Er D L) as (k2 & K2 & N2 & S2 & O2 & W2 & _).
    rewrite E2 in K2. injection K2 as <-.
    pose proof (init_keeps_gvel zero e h t fuel h1 Vi Rt Er D L E1) as Kg1.
    split; [congruence|]. split; [|split].
    - intros j. destruct (in_dec Nat.eq_dec j (joints t)) as [I|I].
      + destruct (in_split _ _ I) as (l1 & l2 & Es). destruct (S1 _ _ _ Es) as [A _], (S2 _ _ _ Es) as [B _]. congruence.
      + now apply O2.
    - rewrite W2, W1. f_equal. apply map_ext. auto.
    - exact (init_keeps_gvel zero e h1 t fuel h2 Vi1 Rt1 Er D L E2).
  Qed.

  Lemma joints_list_ok g0 h js : reachable zero e g0 h -> (forall j, In j js -> jdof h j <> None) ->
    exists d, joints_list_dof h js = Ok d /\ denote d = flat_map (range_of h) js.
  Proof.
    intros R N. destruct (init_dof_loop_ok h js (DSlice 0 0)) as (d & E & K); [|lia|exists d; auto].
    intros j I. split; [|auto]. pose proof (reachable_dofs zero e g0 h R j) as Dj. unfold dof_ok.
    destruct (jdof h j) as [[s t]|]; lia.
  Qed.

  Lemma getjoints_after_init g0 h h' fuel : reachable zero e g0 h ->
    init zero e fuel h = (h', Ok tt) -> getjoints_dof e fuel h' = Ok (DSlice 0 (w_ndof h')).
  Proof.
    intros R E. destruct (init_indexed h fuel h' (reachable_forest zero e g0 h R) (reachable_vinv zero e g0 h R) E)
      as (js & Ej & D & N & S).
    unfold getjoints_dof. rewrite Ej, N. cbn [rbind]. exact (init_dof_loop_slice e h' js 0 S).
  Qed.

  Lemma parse_all g0 h : reachable zero e g0 h ->
    exists t, rep e h t /\ root t = ground e /\ forall fuel, height t < fuel ->
    exists evs, parse e fuel h = Ok (EInit :: evs) /\ NoDup (EInit :: evs) /\
    (forall ev, In ev evs <->
      match ev with
      | EInit => False
      | ELink f0 j f1 => In j (joints t) /\ jframes h j = Some (f0, f1)
      | ERegFrame f => In (frame_body e f) (bodies t) /\ known h f
      | ERegShape s => In s (w_shapes h) /\ In (frame_body e (shape_frame e s)) (bodies t)
      | ERegConstraint c => In c (w_constraints h)
      | ERegController a => In a (w_controllers h)
      end) /\
    links_of (EInit :: evs) = joints t /\
    forall a ev b, EInit :: evs = a ++ ev :: b ->
      match ev with
      | ELink f0 _ _ => In (ERegFrame f0) a
      | ERegShape s => In (ERegFrame (shape_frame e s)) a
      | ERegFrame (FBody c) => c = ground e \/ exists f0 j f1, In (ELink f0 j f1) a /\ frame_body e f1 = c
      | ERegFrame f => In (ERegFrame (FBody (frame_body e f))) a
      | _ => True
      end.
  Proof.
    intros R. destruct (world_iterators h (reachable_forest zero e g0 h R)) as (t & Rt & Er & D & Dj & _).
    pose proof (reachable_reg zero e g0 h R) as Ri. pose proof (reachable_frames_known zero e g0 h R) as Fk.
    exists t. split; [auto|]. split; [auto|]. intros fuel L.
    destruct (parse_members e h t fuel Ri Rt Er D L) as (evs & E & N & M). exists evs.
    split; [auto|]. split; [auto|]. split; [auto|]. split.
    - exact (parse_link_order e h t fuel _ Ri Rt Er D L E).
    - exact (parse_ordered e h t fuel _ Ri Fk Rt Er D L E).
  Qed.
End P.
