(** Iterators, replace_joint and histories. *)
From Verif Require Import Model_Base Model_World Spec_World Proof_Tree Proof_World.
From Coq Require Import Permutation.

(** remove every edge called [old] (with what hangs below it) *)
Fixpoint cut (old : nat) (t : tree) : tree :=
  match t with
  | Node b ks =>
      Node b ((fix go (l : list (nat * tree)) : list (nat * tree) :=
                 match l with
                 | [] => []
                 | (i, s) :: l' => if Nat.eqb i old then go l' else (i, cut old s) :: go l'
                 end) ks)
  end.
Lemma cut_eq old b ks :
  cut old (Node b ks) =
  Node b (map (fun jt => (fst jt, cut old (snd jt))) (filter (fun jt => negb (Nat.eqb (fst jt) old)) ks)).
Proof.
  cbn [cut]. f_equal. induction ks as [|[i s] ks IH]; cbn; [reflexivity|].
  rewrite IH. now destruct (Nat.eqb i old).
Qed.
Lemma root_cut old t : root (cut old t) = root t.
Proof. destruct t; now rewrite cut_eq. Qed.

Lemma in_bodies_cut old t x : In x (bodies (cut old t)) -> In x (bodies t).
Proof.
  induction t as [b ks IH] using tree_rect_in. rewrite cut_eq, !in_bodies.
  intros [->|(j & s & I & Ix)]; [auto|]. right. apply in_map_iff in I.
  destruct I as ([i u] & [= <- <-] & I). apply filter_In in I. destruct I as [I _].
  exists i, u. split; [auto|]. eapply IH; eauto.
Qed.
Lemma nodup_cut old t : NoDup (bodies t) -> NoDup (bodies (cut old t)).
Proof.
  induction t as [b ks IH] using tree_rect_in. intros D. rewrite cut_eq, bodies_eq.
  rewrite bodies_eq, NoDup_cons_iff in D. destruct D as [Nb D]. constructor.
  - intros K. apply Nb. apply in_flat_map in K. destruct K as ([i u] & I & Iu).
    apply in_map_iff in I. destruct I as ([i' u'] & [= <- <-] & I). apply filter_In in I.
    apply in_flat_map. exists (i', u'). split; [tauto|]. eapply in_bodies_cut; exact Iu.
  - clear Nb. induction ks as [|[i s] ks IHk]; cbn; [constructor|].
    cbn in D. apply NoDup_app_iff in D. destruct D as (D1 & D2 & D3).
    assert (R : NoDup (flat_map (fun jt => bodies (snd jt))
       (map (fun jt => (fst jt, cut old (snd jt))) (filter (fun jt => negb (Nat.eqb (fst jt) old)) ks)))).
    { apply IHk; auto. intros j u I. apply (IH j u). now right. }
    destruct (Nat.eqb i old); cbn; [exact R|]. apply NoDup_app_iff. split; [|split; [exact R|]].
    + apply (IH i s); [now left|auto].
    + intros x Ix K. apply in_bodies_cut in Ix. apply (D3 x Ix).
      apply in_flat_map in K. destruct K as ([i2 u2] & I & Iu).
      apply in_map_iff in I. destruct I as ([i' u'] & [= <- <-] & I). apply filter_In in I.
      apply in_flat_map. exists (i', u'). split; [tauto|]. eapply in_bodies_cut; exact Iu.
Qed.

(** every body of [t] is the root of a subtree of [t] *)
Inductive subtree : tree -> tree -> Prop :=
| sub_refl : forall t, subtree t t
| sub_kid : forall u b ks j s, In (j, s) ks -> subtree u s -> subtree u (Node b ks).
Lemma subtree_at t x : In x (bodies t) -> exists u, subtree u t /\ root u = x.
Proof.
  induction t as [b ks IH] using tree_rect_in. intros I. apply in_bodies in I.
  destruct I as [->|(j & s & I & Ix)]; [eexists; split; [constructor|reflexivity]|].
  destruct (IH j s I Ix) as (u & Su & E). exists u. split; [econstructor; eauto|auto].
Qed.
Lemma subtree_bodies u t x : subtree u t -> In x (bodies u) -> In x (bodies t).
Proof.
  induction 1 as [|u b ks j s I S IH]; intros Ix; [auto|]. apply in_bodies. right. eauto.
Qed.
Lemma subtree_tailb u t x : subtree u t -> In x (tailb u) -> In x (tailb t).
Proof.
  induction 1 as [|u b ks j s I S IH]; intros Ix; [auto|]. rewrite tailb_eq, in_flat_map.
  exists (j, s). split; [auto|]. rewrite bodies_tail. right; auto.
Qed.
Lemma subtree_nodup u t : subtree u t -> NoDup (bodies t) -> NoDup (bodies u).
Proof. induction 1 as [|u b ks j s I S IH]; intros D; [auto|]. apply IH. eapply NoDup_kid; eauto. Qed.

Section P.
  Context {V : Type} (zero : V) (e : env).
  Notation heap := (@heap V).
  Implicit Types h : heap.

  Lemma subtree_rep h u t : subtree u t -> rep e h t -> rep e h u.
  Proof.
    induction 1 as [|u b ks j s I S IH]; intros R; [auto|]. apply IH.
    apply rep_inv in R. destruct R as [_ R]. eapply R; eauto.
  Qed.

  (** ** Iterators *)
  Lemma child_body_edge h b j c : edge e h b j c -> child_body e h j = Ok c.
  Proof. intros [(f0 & f1 & E & _ & <-) _]. unfold child_body. now rewrite E. Qed.
  Lemma parent_body_edge h b j c : edge e h b j c -> parent_body e h j = Ok b.
  Proof. intros [(f0 & f1 & E & <- & _) _]. unfold parent_body. now rewrite E. Qed.

  Lemma rmapM_child h b ks :
    (forall j s, In (j, s) ks -> edge e h b j (root s) /\ rep e h s) ->
    rmapM (child_body e h) (map fst ks) = Ok (map (fun jt => root (snd jt)) ks).
  Proof.
    induction ks as [|[j s] ks IH]; intros H; cbn; [reflexivity|].
    rewrite (child_body_edge h b j (root s)) by (apply H; now left). cbn.
    rewrite IH by (intros; apply H; now right). reflexivity.
  Qed.

  Lemma iter_bodies_ok h t : rep e h t -> forall fuel, height t < fuel ->
    iter_descendant_bodies e fuel h (root t) = Ok (tailb t).
  Proof.
    induction t as [b ks IH] using tree_rect_in. intros R fuel L.
    apply rep_inv in R. destruct R as [C R]. destruct fuel as [|n]; [lia|].
    cbn [root iter_descendant_bodies]. rewrite C, (rmapM_child h b ks R). cbn [rbind].
    assert (Hh : forall j s, In (j, s) ks -> height s < n).
    { intros j s I. apply (height_kid b) in I. lia. }
    rewrite tailb_eq. clear C L. induction ks as [|[j s] ks IHk]; cbn; [reflexivity|].
    destruct (R j s (or_introl eq_refl)) as [Ej Rs].
    rewrite (IH j s (or_introl eq_refl) Rs n) by (apply (Hh j s); now left). cbn.
    rewrite IHk.
    - cbn. rewrite (bodies_tail s). reflexivity.
    - intros i u I. apply (IH i u). now right.
    - intros i u I. apply R. now right.
    - intros i u I. apply (Hh i u). now right.
  Qed.

  Lemma iter_joints_ok h t : rep e h t -> forall fuel, height t < fuel ->
    iter_descendant_joints e fuel h (root t) = Ok (joints t).
  Proof.
    induction t as [b ks IH] using tree_rect_in. intros R fuel L.
    apply rep_inv in R. destruct R as [C R]. destruct fuel as [|n]; [lia|].
    cbn [root iter_descendant_joints]. rewrite C.
    assert (Hh : forall j s, In (j, s) ks -> height s < n).
    { intros j s I. apply (height_kid b) in I. lia. }
    rewrite joints_eq. clear C L. induction ks as [|[j s] ks IHk]; cbn; [reflexivity|].
    destruct (R j s (or_introl eq_refl)) as [Ej Rs]. rewrite (child_body_edge _ _ _ _ Ej). cbn.
    rewrite (IH j s (or_introl eq_refl) Rs n) by (apply (Hh j s); now left). cbn.
    rewrite IHk; [reflexivity| | |].
    - intros i u I. apply (IH i u). now right.
    - intros i u I. apply R. now right.
    - intros i u I. apply (Hh i u). now right.
  Qed.

  (** too deep a tree exhausts the recursion budget *)
  Lemma iter_bodies_deep h t : rep e h t -> forall fuel, fuel <= height t ->
    iter_descendant_bodies e fuel h (root t) = Err RecursionError.
  Proof.
    induction t as [b ks IH] using tree_rect_in. intros R fuel L.
    apply rep_inv in R. destruct R as [C R]. destruct fuel as [|n]; [reflexivity|].
    cbn [root iter_descendant_bodies]. rewrite C, (rmapM_child h b ks R). cbn [rbind]. clear C.
    rewrite height_eq in L. induction ks as [|[j s] ks IHk]; cbn [fold_right snd] in L; [lia|].
    cbn [map snd rconcat]. destruct (R j s (or_introl eq_refl)) as [Ej Rs].
    destruct (le_lt_dec n (height s)) as [Ls|Ls].
    - rewrite (IH j s (or_introl eq_refl) Rs n Ls). reflexivity.
    - rewrite (iter_bodies_ok h s Rs n Ls). cbn [rbind]. rewrite IHk; [reflexivity| | |].
      + intros i u I. apply (IH i u). now right.
      + intros i u I. apply R. now right.
      + lia.
  Qed.

  Lemma iter_ancestors h ps : forall x fuel, walk e h x ps ->
    parentjoint h (walk_end x ps) = None -> length ps < fuel ->
    iter_ancestor_bodies e fuel h x = Ok (map snd ps) /\
    iter_ancestor_joints e fuel h x = Ok (map fst ps).
  Proof.
    induction ps as [|[j p] ps IH]; intros x [|n] W N L; cbn in *; try lia.
    - now rewrite N.
    - destruct W as [E W]. destruct E as [(f0 & f1 & Ef & Ep & Ec) P]. rewrite P. cbn.
      unfold parent_body. rewrite Ef. cbn. rewrite Ep.
      destruct (IH p n W N) as [-> ->]; [lia|]. auto.
  Qed.

  (** ** replace_joint *)

  Lemma filter_map_fst old (ks : list (nat * tree)) :
    map fst (map (fun jt => (fst jt, cut old (snd jt))) (filter (fun jt => negb (Nat.eqb (fst jt) old)) ks))
    = remove Nat.eq_dec old (map fst ks).
  Proof.
    induction ks as [|[i s] ks IH]; cbn; [reflexivity|].
    destruct (Nat.eq_dec old i) as [->|N].
    - now rewrite Nat.eqb_refl.
    - destruct (Nat.eqb_spec i old) as [->|]; [congruence|]. cbn. now rewrite IH.
  Qed.

  Lemma remove_notin (x : nat) l : ~ In x l -> remove Nat.eq_dec x l = l.
  Proof.
    induction l as [|y l IH]; cbn; [reflexivity|]. intros N. destruct (Nat.eq_dec x y); [subst; tauto|].
    rewrite IH; auto.
  Qed.

  Lemma rep_cut h b0 old b1 t : edge e h b0 old b1 -> rep e h t ->
    rep e (detach h b0 old b1) (cut old t).
  Proof.
    intros E. induction t as [b ks IH] using tree_rect_in. intros R.
    apply rep_inv in R. destruct R as [C R]. rewrite cut_eq. apply rep_intro.
    - rewrite filter_map_fst, <- C. cbn. unfold upd. destruct (Nat.eqb_spec b b0) as [->|N]; [reflexivity|].
      symmetry. apply remove_notin. rewrite C, in_map_iff. intros ([j s] & Ej & I). cbn in Ej. subst j.
      destruct (R old s I) as [E' _]. destruct (edge_fun _ _ _ _ _ _ _ E E'). congruence.
    - intros j s I. apply in_map_iff in I. destruct I as ([i u] & [= <- <-] & I).
      apply filter_In in I. destruct I as [I N]. cbn in N. destruct (Nat.eqb_spec i old) as [|N']; [discriminate|].
      destruct (R i u I) as [Ei Ru]. split; [|eapply IH; eauto]. cbn [fst snd]. rewrite root_cut.
      apply (edge_ext e h); auto.
      + cbn. unfold upd. now destruct (Nat.eqb_spec i old).
      + cbn. unfold upd. destruct (Nat.eqb_spec (root u) b1) as [Eu|]; [|reflexivity].
        destruct E as [_ P], Ei as [_ Pi]. congruence.
  Qed.

  Lemma rep_detached_sub h b0 old b1 s : edge e h b0 old b1 -> rep e h s -> root s = b1 ->
    NoDup (bodies s) -> ~ In b0 (bodies s) -> rep e (detach h b0 old b1) s.
  Proof.
    intros E R Er D N. apply (rep_ext e h); auto.
    - intros b Ib. cbn. unfold upd. destruct (Nat.eqb_spec b b0) as [->|]; [contradiction|reflexivity].
    - intros b Ib. cbn. unfold upd. destruct (Nat.eqb_spec b b1) as [->|]; [|reflexivity].
      rewrite bodies_tail, Er in D. apply NoDup_cons_iff in D. tauto.
    - intros j Ij. cbn. unfold upd. destruct (Nat.eqb_spec j old) as [->|]; [|reflexivity].
      destruct (rep_joint_edge e h s old R Ij) as (p & c & E' & Ip & _).
      destruct (edge_fun _ _ _ _ _ _ _ E E') as [<- _]. contradiction.
  Qed.

  Lemma in_cut_or h b0 old b1 s t x : edge e h b0 old b1 -> rep e h s -> root s = b1 ->
    rep e h t -> In x (bodies t) -> In x (bodies (cut old t)) \/ In x (bodies s).
  Proof.
    intros E Rs Er. induction t as [b ks IH] using tree_rect_in. intros R I.
    apply rep_inv in R. destruct R as [C R]. apply in_bodies in I. rewrite cut_eq.
    destruct I as [->|(j & u & I & Ix)]; [left; apply in_bodies; auto|].
    destruct (R j u I) as [Ej Ru]. destruct (Nat.eqb_spec j old) as [->|N].
    - destruct (edge_fun _ _ _ _ _ _ _ E Ej) as [_ Eu]. right.
      replace s with u; auto. apply (rep_unique e h); auto. congruence.
    - destruct (IH j u I Ru Ix) as [K|K]; [|auto]. left. apply in_bodies. right.
      exists j, (cut old u). split; [|auto]. apply in_map_iff. exists (j, u). split; [reflexivity|].
      apply filter_In. split; [auto|]. cbn. destruct (Nat.eqb_spec j old); [contradiction|reflexivity].
  Qed.

  (** the kid reached through a listed joint *)
  Lemma forest_kid h b0 old : forest e h -> In old (childrenjoints h b0) ->
    exists t s ks, whole_tree e h t /\ subtree (Node b0 ks) t /\ In (old, s) ks.
  Proof.
    intros F I. destruct (F b0) as (t & W & Ib). destruct (subtree_at t b0 Ib) as ([b ks] & Su & E).
    cbn in E. subst b. pose proof (subtree_rep h _ _ Su (proj1 W)) as R. apply rep_inv in R.
    destruct R as [C R]. rewrite C, in_map_iff in I. destruct I as ([j s] & Ej & I). cbn in Ej. subst j.
    exists t, s, ks. auto.
  Qed.

  Lemma detach_forest h b0 old b1 : forest e h -> edge e h b0 old b1 -> In old (childrenjoints h b0) ->
    forest e (detach h b0 old b1) /\ ~ below e (detach h b0 old b1) b1 b0.
  Proof.
    intros F E I. destruct (forest_kid h b0 old F I) as (t0 & s & ks & W0 & Su & Is).
    destruct W0 as (R0 & N0 & D0). pose proof (subtree_rep h _ _ Su R0) as Rk.
    pose proof (subtree_nodup _ _ Su D0) as Dk. apply rep_inv in Rk. destruct Rk as [_ Rk].
    destruct (Rk old s Is) as [Es Rs]. destruct (edge_fun _ _ _ _ _ _ _ E Es) as [_ Er].
    assert (Ds : NoDup (bodies s)) by (eapply NoDup_kid; eauto).
    assert (Ns : ~ In b0 (bodies s)) by (eapply NoDup_kid_root; eauto).
    assert (Rs' : rep e (detach h b0 old b1) s) by (apply rep_detached_sub; auto).
    split.
    - intros x. destruct (F x) as (t & (R & N & D) & Ix).
      destruct (in_cut_or h b0 old b1 s t x E Rs (eq_sym Er) R Ix) as [K|K].
      + exists (cut old t). repeat split; auto.
        * apply rep_cut; auto.
        * rewrite root_cut. cbn. unfold upd. destruct (Nat.eqb_spec (root t) b1) as [Eb|]; auto.
        * now apply nodup_cut.
      + exists s. repeat split; auto. cbn. unfold upd. rewrite <- Er, Nat.eqb_refl. reflexivity.
    - rewrite Er at 2. rewrite (below_rep e); auto.
  Qed.

  (** do_links does not read the children lists *)
  Lemma do_links_children (ls : list link) : forall h b,
    childrenjoints (do_links e h ls) b =
    childrenjoints h b ++ map l_joint (filter (fun l => Nat.eqb b (l_from e l)) ls).
  Proof.
    induction ls as [|l ls IH]; intros h b; cbn [do_links filter map]; [now rewrite app_nil_r|].
    rewrite IH. destruct (do_link_linked e h l) as (C & _ & _). rewrite C.
    destruct (Nat.eqb b (l_from e l)); cbn [app map]; rewrite <- app_assoc; reflexivity.
  Qed.
  Lemma do_links_pf ls : forall h h',
    (forall b, parentjoint h' b = parentjoint h b) -> (forall j, jframes h' j = jframes h j) ->
    (forall b, parentjoint (do_links e h' ls) b = parentjoint (do_links e h ls) b) /\
    (forall j, jframes (do_links e h' ls) j = jframes (do_links e h ls) j) /\
    (can_links e h ls -> can_links e h' ls).
  Proof.
    induction ls as [|l ls IH]; intros h h' Hp Hj; cbn; [auto|].
    destruct (do_link_linked e h l) as (_ & P & J), (do_link_linked e h' l) as (_ & P' & J').
    destruct (IH (do_link e h l) (do_link e h' l)) as (A & B & C).
    - intros b. now rewrite P, P', Hp.
    - intros j. now rewrite J, J', Hj.
    - split; [exact A|]. split; [exact B|]. intros [[H1 H2] H]. split; [|auto].
      unfold can_link. now rewrite Hp, Hj.
  Qed.

  (** parents and frames after a list of links *)
  Fixpoint last_link_to (b : nat) (ls : list (@link)) : option nat :=
    match ls with
    | [] => None
    | l :: ls' => match last_link_to b ls' with
                  | Some j => Some j
                  | None => if Nat.eqb b (l_to e l) then Some (l_joint l) else None
                  end
    end.
  Lemma do_links_parent ls : forall h b,
    parentjoint (do_links e h ls) b =
    match last_link_to b ls with Some j => Some j | None => parentjoint h b end.
  Proof.
    induction ls as [|l ls IH]; intros h b; cbn; [reflexivity|]. rewrite IH.
    destruct (last_link_to b ls); [reflexivity|]. destruct (do_link_linked e h l) as (_ & P & _).
    rewrite P. now destruct (Nat.eqb b (l_to e l)).
  Qed.

  Lemma list_index_app j A B : ~ In j A -> list_index j (A ++ j :: B) = Some (length A).
  Proof.
    induction A as [|a A IH]; cbn; intros N; [now rewrite Nat.eqb_refl|].
    destruct (Nat.eqb_spec a j) as [->|]; [tauto|]. rewrite IH by auto. reflexivity.
  Qed.
  Lemma assign_pop_app A old B n :
    assign_pop (length A) ((A ++ old :: B) ++ [n]) = A ++ n :: B.
  Proof.
    unfold assign_pop. rewrite last_last, removelast_last, firstn_app, Nat.sub_diag, firstn_all.
    cbn [firstn]. rewrite app_nil_r, skipn_app. f_equal. f_equal.
    rewrite skipn_all2 by lia. replace (S (length A) - length A) with 1 by lia. reflexivity.
  Qed.

  (** children lists hold no duplicates in a forest *)
  Lemma forest_children_nodup h b : forest e h -> NoDup (childrenjoints h b).
  Proof.
    intros F. destruct (F b) as (t & (R & N & D) & I). destruct (subtree_at t b I) as ([b' ks] & Su & E).
    cbn in E. subst b'. pose proof (subtree_rep h _ _ Su R) as Rk.
    pose proof (rep_nodup_joints e h _ Rk (subtree_nodup _ _ Su D)) as Dj.
    apply rep_inv in Rk. destruct Rk as [-> _]. rewrite joints_eq in Dj.
    clear - Dj. induction ks as [|[j s] ks IH]; cbn in *; [constructor|].
    apply NoDup_cons_iff in Dj. destruct Dj as [Nj Dj]. apply NoDup_app_iff in Dj. destruct Dj as (_ & Dj & _).
    constructor; [|auto]. intros K. apply Nj, in_app_iff. right. apply in_map_iff in K.
    destruct K as ([i u] & Ei & I). cbn in Ei. subst i. apply in_flat_map. exists (j, u). split; [auto|now left].
  Qed.

  Lemma forest_edge h b j : forest e h -> In j (childrenjoints h b) -> exists c, edge e h b j c.
  Proof.
    intros F I. destruct (forest_kid h b j F I) as (t & s & ks & (R & _) & Su & Ik).
    pose proof (subtree_rep h _ _ Su R) as Rk. apply rep_inv in Rk. exists (root s). now apply Rk.
  Qed.

  Lemma init_graph fuel h : same_graph h (fst (init zero e fuel h)).
  Proof.
    unfold init. destruct (iterjoints e fuel h) as [js|x]; [|repeat split].
    destruct (assign_dofs e js 0 (jdof h)) as [n d].
    destruct (copy_gvels _ _ _ _ _) as [[a g]|x]; repeat split.
  Qed.

  (** the substituted heap, before [init] *)
  Definition chain_result h (b0 old b1 : nat) (ls : list (@link)) : heap :=
    let h3 := do_links e (set_frames (set_parent h b1 None) old None) ls in
    set_children h3 b0
      (assign_pop (match list_index old (childrenjoints h3 b0) with Some i => i | None => 0 end)
         (childrenjoints h3 b0)).

  Lemma replace_chain_ok_inv fuel old args h h' u :
    replace_chain zero e fuel old args h = (h', Ok u) ->
    exists g0 g1 ls,
      jframes h old = Some (g0, g1) /\ ls <> [] /\ args = flatten ls /\
      frame_body e g0 = match ls with l :: _ => l_from e l | [] => 0 end /\
      frame_body e g1 = l_to e (last ls (g0, 0, g1)) /\
      can_links e (set_frames (set_parent h (frame_body e g1) None) old None) ls /\
      init zero e fuel (chain_result h (frame_body e g0) old (frame_body e g1) ls) = (h', Ok u).
  Proof.
    unfold replace_chain. destruct (jframes h old) as [[g0 g1]|] eqn:Ef; [|discriminate].
    destruct (hd OOther args) as [f0| | | | |] eqn:Eh; try discriminate.
    destruct (last args OOther) as [f1| | | | |] eqn:El; try discriminate.
    destruct (Nat.eqb_spec (frame_body e g0) (frame_body e f0)) as [E0|]; [|discriminate].
    destruct (Nat.eqb_spec (frame_body e g1) (frame_body e f1)) as [E1|]; [|discriminate].
    cbn [andb]. destruct (add_link e args _) as [h3 [u3|x]] eqn:A; [|discriminate].
    intros H. rewrite <- E0, <- E1 in *.
    apply (add_link_ok_inv e (length args)) in A; [|lia].
    destruct A as (ls & N & -> & C & ->).
    exists g0, g1, ls. repeat split; auto.
    - destruct ls as [|[[k0 i] k1] ls]; [contradiction|]. cbn in Eh. injection Eh as ->. exact E0.
    - rewrite E1. clear - El N. revert N El. induction ls as [|[[k0 i] k1] ls IH]; [contradiction|].
      intros _. destruct ls as [|l ls]; [cbn; intros [= <-]; reflexivity|]. intros El.
      change (last ((k0, i, k1) :: l :: ls) (g0, 0, g1)) with (last (l :: ls) (g0, 0, g1)).
      apply IH; [discriminate|]. rewrite <- El. destruct l as [[? ?] ?]. reflexivity.
    - destruct (list_index old _) as [i|] eqn:Ei; [|discriminate].
      unfold chain_result. rewrite Ei. exact H.
  Qed.

  Lemma in_last {A} (l : list A) : l <> [] -> exists l' x, l = l' ++ [x].
  Proof.
    intros N. destruct (exists_last N) as (l' & x & ->). eauto.
  Qed.

  (** children of the substituted heap *)
  Lemma chain_result_children h b0 old b1 ls A B :
    childrenjoints h b0 = A ++ old :: B -> ~ In old A ->
    (exists l, In l ls /\ l_from e l = b0) ->
    exists news n,
      map l_joint (filter (fun l => Nat.eqb b0 (l_from e l)) ls) = news ++ [n] /\
      childrenjoints (chain_result h b0 old b1 ls) b0 = A ++ n :: B ++ news /\
      forall b, b <> b0 -> childrenjoints (chain_result h b0 old b1 ls) b =
         childrenjoints h b ++ map l_joint (filter (fun l => Nat.eqb b (l_from e l)) ls).
  Proof.
    intros E N (l & Il & Ef).
    destruct (@in_last _ (map l_joint (filter (fun l => Nat.eqb b0 (l_from e l)) ls))) as (news & n & En).
    { intros K. apply map_eq_nil in K. assert (I : In l (filter (fun l => Nat.eqb b0 (l_from e l)) ls)).
      { apply filter_In. split; [auto|]. rewrite Ef. apply Nat.eqb_refl. }
      rewrite K in I. destruct I. }
    exists news, n. split; [exact En|]. unfold chain_result.
    set (h2 := set_frames _ _ _). set (h3 := do_links e h2 ls).
    assert (C3 : forall b, childrenjoints h3 b = childrenjoints h b ++ map l_joint (filter (fun l => Nat.eqb b (l_from e l)) ls)).
    { intros b. unfold h3. rewrite do_links_children. reflexivity. }
    split.
    - cbn. unfold upd. rewrite Nat.eqb_refl, C3, En, E.
      replace ((A ++ old :: B) ++ news ++ [n]) with (A ++ old :: (B ++ news ++ [n])) by (rewrite <- app_assoc; reflexivity).
      rewrite list_index_app by auto.
      replace (A ++ old :: B ++ news ++ [n]) with ((A ++ old :: (B ++ news)) ++ [n])
        by (rewrite <- !app_assoc; cbn; rewrite <- !app_assoc; reflexivity).
      apply assign_pop_app.
    - intros b Nb. cbn. unfold upd. destruct (Nat.eqb_spec b b0); [contradiction|]. apply C3.
  Qed.

  Lemma chain_result_pf h b0 old b1 ls :
    let h2 := set_frames (set_parent h b1 None) old None in
    (forall b, parentjoint (chain_result h b0 old b1 ls) b = parentjoint (do_links e h2 ls) b) /\
    (forall j, jframes (chain_result h b0 old b1 ls) j = jframes (do_links e h2 ls) j).
  Proof. split; reflexivity. Qed.

  Lemma remove_perm_app (A B : list nat) old :
    ~ In old A -> ~ In old B -> remove Nat.eq_dec old (A ++ old :: B) = A ++ B.
  Proof.
    intros NA NB. rewrite remove_app, (remove_notin old A) by auto. cbn.
    destruct (Nat.eq_dec old old); [|congruence]. now rewrite remove_notin.
  Qed.

  Lemma chain_forest h b0 old b1 ls :
    forest e h -> edge e h b0 old b1 -> In old (childrenjoints h b0) ->
    (exists l, In l ls /\ l_from e l = b0) ->
    can_links e (set_frames (set_parent h b1 None) old None) ls ->
    acyclic_links e (detach h b0 old b1) ls ->
    forest e (chain_result h b0 old b1 ls).
  Proof.
    intros F E I X C A. destruct (detach_forest h b0 old b1 F E I) as [Fd _].
    destruct (in_split _ _ I) as (l1 & l2 & Es).
    pose proof (forest_children_nodup h b0 F) as D. rewrite Es in D.
    pose proof (NoDup_remove_2 _ _ _ D) as Nd. rewrite in_app_iff in Nd.
    destruct (chain_result_children h b0 old b1 ls l1 l2 Es) as (news & n & En & C0 & Cb); auto.
    set (h2 := set_frames (set_parent h b1 None) old None) in *.
    destruct (do_links_pf ls h2 (detach h b0 old b1)) as (P & J & Cd); [reflexivity|reflexivity|].
    apply (forest_perm e (do_links e (detach h b0 old b1) ls)).
    - intros b. rewrite do_links_children. destruct (Nat.eq_dec b b0) as [->|N].
      + rewrite C0, En. cbn. unfold upd. rewrite Nat.eqb_refl, Es, remove_perm_app by auto.
        rewrite <- app_assoc. apply Permutation_app_head.
        rewrite (Permutation_app_comm news [n]). cbn. symmetry. apply Permutation_middle.
      + rewrite Cb by auto. cbn. unfold upd. destruct (Nat.eqb_spec b b0); [contradiction|]. reflexivity.
    - intros b. rewrite P. reflexivity.
    - intros j. rewrite J. reflexivity.
    - apply do_links_forest; auto.
  Qed.
End P.
