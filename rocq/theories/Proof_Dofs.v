(** World.init: dof slices, velocity storage; JointsList. *)
From Verif Require Import Model_Base Model_World Spec_World Proof_Tree Proof_World Proof_World2 Proof_World3.

Section P.
  Context {V : Type} (zero : V) (e : env).
  Notation heap := (@heap V).
  Implicit Types h : heap.
  Notation total_ndof := (Spec_World.total_ndof e).


  Lemma total_cons j l : total_ndof (j :: l) = jndof e j + total_ndof l.
  Proof. reflexivity. Qed.
  Lemma total_nil : total_ndof [] = 0. Proof. reflexivity. Qed.
  Ltac tot := rewrite ?total_cons, ?total_nil in *.

  Lemma assign_dofs_spec js : forall n d n' d', assign_dofs e js n d = (n', d') -> NoDup js ->
    n' = n + total_ndof js /\
    (forall l1 j l2, js = l1 ++ j :: l2 ->
       d' j = Some (n + total_ndof l1, n + total_ndof l1 + jndof e j)) /\
    (forall j, ~ In j js -> d' j = d j).
  Proof.
    induction js as [|x js IH]; intros n d n' d' H D; cbn in H.
    - injection H as <- <-. tot. repeat split; [lia|].
      intros [|? ?] j l2 K; discriminate.
    - apply NoDup_cons_iff in D. destruct D as [Nx D].
      destruct (IH _ _ _ _ H D) as (E1 & E2 & E3). repeat split.
      + rewrite E1. tot. lia.
      + intros l1 j l2 K. destruct l1 as [|y l1]; cbn in K; injection K as -> K.
        * rewrite E3 by auto. unfold upd. rewrite Nat.eqb_refl. tot.
          f_equal. f_equal; lia.
        * rewrite (E2 l1 j l2 K). tot. f_equal. f_equal; lia.
      + intros j N. rewrite E3 by (intros K; apply N; now right). unfold upd.
        destruct (Nat.eqb_spec j x) as [->|]; [exfalso; apply N; now left|reflexivity].
  Qed.

  (** ** velocity storage invariant *)
  Definition disjoint_views (a b : view) : Prop :=
    v_arr a <> v_arr b \/ v_start a + v_len a <= v_start b \/ v_start b + v_len b <= v_start a.
  Record vinv h : Prop := {
    vi_len : forall j, v_len (jgvel h j) = jndof e j;
    vi_bound : forall j, v_start (jgvel h j) + v_len (jgvel h j) <= length (arr h (v_arr (jgvel h j)));
    vi_own : forall j, match v_arr (jgvel h j) with AJoint i => i = j | AWorld k => k < next_arr h end;
    vi_disj : forall i j, i <> j -> disjoint_views (jgvel h i) (jgvel h j);
    vi_world : match w_gvel h with AJoint _ => False | AWorld k => k < next_arr h end
  }.

  Lemma vinv_fresh (g0 : nat -> nat -> V) : vinv (fresh e g0).
  Proof.
    constructor; cbn; auto; try lia.
    - intros j. rewrite map_length, seq_length. lia.
    - intros i j N. left. cbn. congruence.
  Qed.

  Lemma length_read (a : aid -> list V) v : v_start v + v_len v <= length (a (v_arr v)) ->
    length (read a v) = v_len v.
  Proof. intros L. unfold read. rewrite firstn_length, skipn_length. lia. Qed.

  Lemma length_splice (x : list V) s l : s + length l <= length x -> length (splice x s l) = length x.
  Proof.
    intros L. unfold splice. rewrite !app_length, firstn_length, skipn_length. lia.
  Qed.

  Lemma aid_eqb_spec a b : reflect (a = b) (aid_eqb a b).
  Proof.
    destruct a, b; cbn; try (constructor; congruence);
      (destruct (Nat.eqb_spec j j0) || destruct (Nat.eqb_spec k k0)); constructor; congruence.
  Qed.

  Lemma splice_fill (pre l : list V) m : length l <= m ->
    splice (pre ++ repeat zero m) (length pre) l = (pre ++ l) ++ repeat zero (m - length l).
  Proof.
    intros L. unfold splice. rewrite firstn_app, Nat.sub_diag, firstn_all. cbn [firstn].
    rewrite app_nil_r, skipn_app, skipn_all2 by lia. cbn [app].
    replace (length pre + length l - length pre) with (length l) by lia.
    rewrite <- app_assoc. f_equal. f_equal.
    replace m with (length l + (m - length l)) at 1 by lia.
    rewrite repeat_app, skipn_app, repeat_length, Nat.sub_diag, skipn_all2 by (rewrite repeat_length; lia).
    reflexivity.
  Qed.

  Lemma copy_gvels_spec d w js : forall (a : aid -> list V) (g : nat -> view) pre,
    NoDup js ->
    (forall j, In j js -> v_arr (g j) <> w) ->
    (forall j, In j js -> length (read a (g j)) = jndof e j) ->
    (forall l1 j l2, js = l1 ++ j :: l2 ->
       d j = Some (length pre + total_ndof l1, length pre + total_ndof l1 + jndof e j)) ->
    a w = pre ++ repeat zero (total_ndof js) ->
    exists a' g', copy_gvels d w js a g = Ok (a', g') /\
      (forall x, x <> w -> a' x = a x) /\
      a' w = pre ++ concat (map (fun j => read a (g j)) js) /\
      (forall l1 j l2, js = l1 ++ j :: l2 -> g' j = View w (length pre + total_ndof l1) (jndof e j)) /\
      (forall j, ~ In j js -> g' j = g j).
  Proof.
    induction js as [|j js IH]; intros a g pre D Hw Hl Hd Ha.
    - exists a, g. cbn in *. repeat split; auto. intros [|? ?] ? ? K; discriminate.
    - apply NoDup_cons_iff in D. destruct D as [Nj D]. cbn [copy_gvels].
      rewrite (Hd [] j js eq_refl). tot. rewrite Nat.add_0_r. set (x := read a (g j)).
      assert (Lx : length x = jndof e j) by (apply Hl; now left).
      replace (length pre + jndof e j - length pre) with (jndof e j) by lia.
      rewrite Lx, Nat.eqb_refl.
      set (a1 := upd_arr a w (splice (a w) (length pre) x)).
      set (g1 := upd g j (View w (length pre) (jndof e j))).
      assert (Hread : forall i, In i js -> read a1 (g1 i) = read a (g i)).
      { intros i Ii. unfold a1, g1, read, upd_arr, upd.
        destruct (Nat.eqb_spec i j) as [->|]; [contradiction|].
        destruct (aid_eqb_spec (v_arr (g i)) w) as [E|]; [|reflexivity].
        exfalso. apply (Hw i); [now right|auto]. }
      destruct (IH a1 g1 (pre ++ x)) as (a' & g' & E & A1 & A2 & G1 & G2).
      + exact D.
      + intros i Ii. unfold g1, upd. destruct (Nat.eqb_spec i j) as [->|]; [contradiction|]. apply Hw. now right.
      + intros i Ii. rewrite Hread by auto. apply Hl. now right.
      + intros l1 i l2 K. rewrite (Hd (j :: l1) i l2) by now rewrite K.
        rewrite app_length, Lx. tot. f_equal. f_equal; lia.
      + unfold a1, upd_arr. destruct (aid_eqb_spec w w); [|congruence].
        rewrite Ha, splice_fill by (rewrite Lx; tot; lia). f_equal. f_equal. rewrite Lx. tot. lia.
      + exists a', g'. split; [exact E|]. split; [|split; [|split]].
        * intros y Ny. rewrite A1 by auto. unfold a1, upd_arr. now destruct (aid_eqb_spec y w).
        * rewrite A2. cbn [map concat]. rewrite <- app_assoc. f_equal. f_equal. f_equal.
          apply map_ext_in. exact Hread.
        * intros l1 i l2 K. destruct l1 as [|y l1]; cbn in K; injection K as -> K.
          -- rewrite G2 by auto. unfold g1, upd. rewrite Nat.eqb_refl.
             tot. f_equal. lia.
          -- rewrite (G1 l1 i l2 K), app_length, Lx. tot. f_equal. lia.
        * intros i Ni. rewrite G2 by (intros K; apply Ni; now right). unfold g1, upd.
          destruct (Nat.eqb_spec i j) as [->|]; [exfalso; apply Ni; now left|reflexivity].
  Qed.

  (** ** init *)
  Lemma init_spec h t fuel : vinv h -> rep e h t -> root t = ground e -> NoDup (bodies t) ->
    height t < fuel ->
    exists h', init zero e fuel h = (h', Ok tt) /\
      w_ndof h' = total_ndof (joints t) /\
      (forall l1 j l2, joints t = l1 ++ j :: l2 ->
         jdof h' j = Some (total_ndof l1, total_ndof l1 + jndof e j) /\
         jgvel h' j = View (w_gvel h') (total_ndof l1) (jndof e j)) /\
      (forall j, ~ In j (joints t) -> jdof h' j = jdof h j /\ jgvel h' j = jgvel h j) /\
      world_gvel h' = concat (map (joint_gvel h) (joints t)) /\
      w_gvel h' = AWorld (next_arr h) /\ next_arr h' = S (next_arr h) /\
      (forall x, x <> w_gvel h' -> arr h' x = arr h x).
  Proof.
    intros Vi R Er D L. pose proof (rep_nodup_joints e h t R D) as Dj. unfold init, iterjoints.
    rewrite <- Er, (iter_joints_ok e h t R fuel L).
    destruct (assign_dofs e (joints t) 0 (jdof h)) as [n d] eqn:Ad.
    destruct (assign_dofs_spec _ _ _ _ _ Ad Dj) as (En & Ed & Ed').
    set (w := AWorld (next_arr h)). set (a0 := upd_arr (arr h) w (repeat zero n)).
    assert (Hw : forall j, v_arr (jgvel h j) <> w).
    { intros j K. pose proof (vi_own h Vi j) as O. rewrite K in O. unfold w in O. lia. }
    assert (Hr : forall j, read a0 (jgvel h j) = joint_gvel h j).
    { intros j. unfold joint_gvel, read, a0, upd_arr.
      destruct (aid_eqb_spec (v_arr (jgvel h j)) w) as [E|]; [|reflexivity]. now destruct (Hw j). }
    destruct (copy_gvels_spec d w (joints t) a0 (jgvel h) []) as (a' & g' & E & A1 & A2 & G1 & G2); auto.
    - intros j _. rewrite Hr. unfold joint_gvel. rewrite length_read by apply (vi_bound h Vi). apply (vi_len h Vi).
    - unfold a0, upd_arr. destruct (aid_eqb_spec w w); [|congruence]. now rewrite En.
    - rewrite E. cbn [fst snd]. eexists. split; [reflexivity|]. cbn.
      split; [exact En|]. split; [|split; [|split; [|split; [|split]]]].
      + intros l1 j l2 K. split; [now apply (Ed l1 j l2)|]. now rewrite (G1 l1 j l2 K).
      + intros j N. auto.
      + unfold world_gvel; cbn. rewrite A2. cbn. f_equal. apply map_ext. exact Hr.
      + reflexivity.
      + reflexivity.
      + intros x Nx. rewrite A1 by auto. unfold a0, upd_arr. now destruct (aid_eqb_spec x w).
  Qed.

  Lemma total_app l1 l2 : total_ndof (l1 ++ l2) = total_ndof l1 + total_ndof l2.
  Proof. unfold total_ndof. now rewrite map_app, list_sum_app. Qed.

  Lemma length_concat_read h l : vinv h -> length (concat (map (joint_gvel h) l)) = total_ndof l.
  Proof.
    intros Vi. induction l as [|j l IH]; cbn; [reflexivity|]. rewrite app_length, IH.
    unfold joint_gvel. rewrite length_read by apply (vi_bound h Vi). rewrite (vi_len h Vi). reflexivity.
  Qed.

  (** consecutive slices of distinct joints are disjoint *)
  Lemma slices_disjoint js i j l1 l2 k1 k2 : js = l1 ++ i :: l2 -> js = k1 ++ j :: k2 -> i <> j ->
    total_ndof l1 + jndof e i <= total_ndof k1 \/ total_ndof k1 + jndof e j <= total_ndof l1.
  Proof.
    revert l1 k1. induction js as [|x js IH]; intros l1 k1 E1 E2 N; [destruct l1; discriminate|].
    destruct l1 as [|y l1], k1 as [|z k1]; cbn in E1, E2; injection E1 as -> E1; injection E2 as E0 E2.
    - congruence.
    - left. subst z. tot. lia.
    - right. subst y. tot. lia.
    - subst y. specialize (IH l1 k1 E1 E2 N). tot. lia.
  Qed.

  Lemma init_vinv fuel h : vinv h -> (forall js, iterjoints e fuel h = Ok js -> NoDup js) ->
    vinv (fst (init zero e fuel h)).
  Proof.
    intros Vi Hd. unfold init. destruct (iterjoints e fuel h) as [js|x] eqn:Ej; [|exact Vi].
    specialize (Hd js eq_refl).
    destruct (assign_dofs e js 0 (jdof h)) as [n d] eqn:Ad.
    destruct (assign_dofs_spec _ _ _ _ _ Ad Hd) as (En & Ed & Ed').
    set (w := AWorld (next_arr h)). set (a0 := upd_arr (arr h) w (repeat zero n)).
    assert (Hw : forall j, v_arr (jgvel h j) <> w).
    { intros j K. pose proof (vi_own h Vi j) as O. rewrite K in O. unfold w in O. lia. }
    assert (Hr : forall j, read a0 (jgvel h j) = joint_gvel h j).
    { intros j. unfold joint_gvel, read, a0, upd_arr.
      destruct (aid_eqb_spec (v_arr (jgvel h j)) w) as [E|]; [|reflexivity]. now destruct (Hw j). }
    destruct (copy_gvels_spec d w js a0 (jgvel h) []) as (a' & g' & E & A1 & A2 & G1 & G2); auto.
    - intros j _. rewrite Hr. unfold joint_gvel. rewrite length_read by apply (vi_bound h Vi). apply (vi_len h Vi).
    - unfold a0, upd_arr. destruct (aid_eqb_spec w w); [|congruence]. now rewrite En.
    - rewrite E. cbn [fst].
      assert (Hx : forall x, x <> w -> a' x = arr h x).
      { intros x Nx. rewrite A1 by auto. unfold a0, upd_arr. now destruct (aid_eqb_spec x w). }
      assert (Lw : length (a' w) = total_ndof js).
      { rewrite A2. cbn. rewrite (map_ext _ (joint_gvel h)) by exact Hr. now apply length_concat_read. }
      assert (Hg : forall j, (exists l1 l2, js = l1 ++ j :: l2 /\ g' j = View w (total_ndof l1) (jndof e j)) \/
                 (~ In j js /\ g' j = jgvel h j)).
      { intros j. destruct (in_dec Nat.eq_dec j js) as [I|I]; [left|right; auto].
        destruct (in_split _ _ I) as (l1 & l2 & K). exists l1, l2. split; [auto|]. now rewrite (G1 l1 j l2 K). }
      constructor; cbn.
      + intros j. destruct (Hg j) as [(l1 & l2 & K & ->)|[_ ->]]; [reflexivity|apply (vi_len h Vi)].
      + intros j. destruct (Hg j) as [(l1 & l2 & K & ->)|[_ ->]]; cbn.
        * rewrite Lw, K, total_app. tot. lia.
        * rewrite Hx by auto. apply (vi_bound h Vi).
      + intros j. destruct (Hg j) as [(l1 & l2 & K & ->)|[_ ->]]; cbn; [lia|].
        pose proof (vi_own h Vi j) as O. destruct (v_arr (jgvel h j)); [auto|lia].
      + intros i j N. unfold disjoint_views.
        destruct (Hg i) as [(l1 & l2 & K & ->)|[_ ->]], (Hg j) as [(k1 & k2 & K' & ->)|[_ ->]]; cbn.
        * right. eapply slices_disjoint; eauto.
        * left. intros Ew. now apply (Hw j).
        * left. apply Hw.
        * apply (vi_disj h Vi); auto.
      + lia.
  Qed.

  Lemma write_vinv j k v h : vinv h -> vinv (fst (write_gvel j k v h)).
  Proof.
    intros Vi. unfold write_gvel. destruct (Nat.ltb_spec k (length (joint_gvel h j))) as [L|]; [|exact Vi].
    unfold joint_gvel in L. rewrite length_read in L by apply (vi_bound h Vi).
    destruct Vi as [I1 I2 I3 I4 I5]. constructor; cbn; auto.
    intros i. unfold upd_arr. destruct (aid_eqb_spec (v_arr (jgvel h i)) (v_arr (jgvel h j))) as [E|]; [|auto].
    rewrite length_splice; [|cbn; specialize (I2 j); lia]. rewrite <- E. auto.
  Qed.

  (** storage is untouched by the structural calls *)
  Definition same_store h h' : Prop :=
    arr h' = arr h /\ jgvel h' = jgvel h /\ w_gvel h' = w_gvel h /\ next_arr h' = next_arr h /\
    jdof h' = jdof h /\ w_ndof h' = w_ndof h.
  Lemma same_store_vinv h h' : same_store h h' -> vinv h -> vinv h'.
  Proof.
    intros (A & G & W & N & _) [I1 I2 I3 I4 I5].
    constructor; rewrite ?A, ?G, ?W, ?N; auto.
  Qed.
  Lemma same_store_refl h : same_store h h. Proof. repeat split. Qed.
  Lemma same_store_trans h1 h2 h3 : same_store h1 h2 -> same_store h2 h3 -> same_store h1 h3.
  Proof.
    intros (A & B & C & D & E & F) (A' & B' & C' & D' & E' & F'). repeat split; congruence.
  Qed.
  Lemma register_frame_store f h : same_store h (register_frame f h).
  Proof. destruct f; repeat split. Qed.
  Lemma register_store o h : same_store h (fst (register e o h)).
  Proof.
    destruct o; cbn; try apply same_store_refl.
    - apply register_frame_store.
    - eapply same_store_trans; [|apply register_frame_store]. repeat split.
    - destruct (existsb _ _); [apply same_store_refl|]. cbn.
      enough (H : forall l h1, same_store h1 (fold_left (fun acc f => register_frame f acc) l h1)).
      { eapply same_store_trans; [|apply H]. repeat split. }
      induction l as [|f l IH]; intros h1; cbn; [apply same_store_refl|].
      eapply same_store_trans; [apply register_frame_store|apply IH].
    - repeat split.
  Qed.
  Lemma do_link_store h l : same_store h (do_link e h l).
  Proof.
    destruct l as [[f0 j] f1]. unfold do_link. eapply same_store_trans; [|apply register_frame_store].
    eapply same_store_trans; [|apply register_frame_store]. repeat split.
  Qed.
  Lemma do_links_store ls : forall h, same_store h (do_links e h ls).
  Proof.
    induction ls as [|l ls IH]; intros h; cbn; [apply same_store_refl|].
    eapply same_store_trans; [apply do_link_store|apply IH].
  Qed.
  Lemma chain_store h b0 old b1 ls : same_store h (chain_result e h b0 old b1 ls).
  Proof.
    unfold chain_result. set (h2 := set_frames _ _ _).
    pose proof (do_links_store ls h2) as S.
    eapply same_store_trans; [|eapply same_store_trans; [exact S|]]; repeat split.
  Qed.

  (** in a forest, the joints enumerated from the ground are pairwise distinct *)
  Lemma iter_joints_fuel h t : rep e h t -> forall fuel js,
    iter_descendant_joints e fuel h (root t) = Ok js -> js = joints t.
  Proof.
    induction t as [b ks IH] using tree_rect_in. intros R fuel js H.
    apply rep_inv in R. destruct R as [C R]. destruct fuel as [|n]; [discriminate|].
    cbn [root iter_descendant_joints] in H. rewrite C in H. rewrite joints_eq. clear C.
    revert js H. induction ks as [|[j s] ks IHk]; intros js H; cbn in H; [injection H as <-; reflexivity|].
    destruct (R j s (or_introl eq_refl)) as [Ej Rs]. rewrite (child_body_edge _ _ _ _ _ Ej) in H. cbn in H.
    destruct (iter_descendant_joints e n h (root s)) as [l|] eqn:E1; [|discriminate]. cbn in H.
    apply (IH j s (or_introl eq_refl) Rs) in E1. subst l.
    destruct (rconcat _ (map fst ks)) as [z|] eqn:E2; [|discriminate]. injection H as <-.
    cbn. f_equal. f_equal. apply IHk; auto.
    - intros i u I. apply (IH i u). now right.
    - intros i u I. apply R. now right.
  Qed.
  Lemma forest_iter_nodup h fuel : forest e h -> forall js, iterjoints e fuel h = Ok js -> NoDup js.
  Proof.
    intros F js H. destruct (F (ground e)) as (t & (R & N & D) & I).
    destruct (subtree_at t _ I) as (u & Su & Eu). unfold iterjoints in H. rewrite <- Eu in H.
    pose proof (subtree_rep e h u t Su R) as Ru. rewrite (iter_joints_fuel h u Ru fuel js H).
    apply (rep_nodup_joints e h); auto. eapply subtree_nodup; eauto.
  Qed.

  Lemma step_vinv fuel h o : forest e h -> vinv h -> admissible zero e fuel h o ->
    vinv (fst (step zero e fuel h o)).
  Proof.
    intros F Vi A. destruct o as [f0 j f1|old args|o| |j k v]; cbn [step] in *.
    - destruct (add_link1_cases e h f0 j f1) as [[C ->]|[[N ->]|[N [P ->]]]]; cbn [fst]; auto.
      + eapply same_store_vinv; [apply do_link_store|auto].
      + eapply same_store_vinv; [|exact Vi]. repeat split.
    - destruct A as [[u Hu] Ac]. cbn [step] in Hu.
      destruct (replace_joint zero e fuel (OJoint old) args h) as [h' r] eqn:Er. cbn in *. subst r.
      assert (Er' := Er). apply replace_joint_checks in Er.
      destruct Er as (g0 & g1 & Ef & I & E & H). apply replace_chain_ok_inv in H.
      destruct H as (g0' & g1' & ls & Ef' & Nl & Ea & Eb0 & Eb1 & C & Hi).
      replace h' with (fst (init zero e fuel (chain_result e h (frame_body e g0') old (frame_body e g1') ls)))
        by now rewrite Hi.
      apply init_vinv.
      + eapply same_store_vinv; [apply chain_store|auto].
      + apply forest_iter_nodup.
        apply (same_graph_forest e h'); [|eapply replace_forest; eauto].
        apply init_ok_graph in Hi. destruct Hi as (X & Y & Z). repeat split; intros; symmetry; auto.
    - eapply same_store_vinv; [apply register_store|auto].
    - apply init_vinv; auto. now apply forest_iter_nodup.
    - now apply write_vinv.
  Qed.
  Lemma reachable_vinv g0 h : reachable zero e g0 h -> vinv h.
  Proof.
    induction 1; [apply vinv_fresh|]. apply step_vinv; auto. eapply reachable_forest; eauto.
  Qed.

  (** ground tree of a forest (ground without parent) *)
  Lemma read_slice l1 j l2 h (w : list V) : vinv h ->
    w = concat (map (joint_gvel h) (l1 ++ j :: l2)) ->
    firstn (jndof e j) (skipn (total_ndof l1) w) = joint_gvel h j.
  Proof.
    intros Vi ->. rewrite map_app, concat_app. cbn [map concat].
    rewrite skipn_app, skipn_all2 by (rewrite length_concat_read; auto).
    rewrite length_concat_read, Nat.sub_diag by auto. cbn [skipn app].
    assert (Lj : length (joint_gvel h j) = jndof e j).
    { unfold joint_gvel. rewrite length_read by apply (vi_bound h Vi). apply (vi_len h Vi). }
    rewrite firstn_app, Lj, Nat.sub_diag. cbn [firstn]. rewrite app_nil_r, <- Lj. apply firstn_all.
  Qed.

  Lemma init_keeps_gvel h t fuel h' : vinv h -> rep e h t -> root t = ground e -> NoDup (bodies t) ->
    height t < fuel -> init zero e fuel h = (h', Ok tt) ->
    forall j, joint_gvel h' j = joint_gvel h j.
  Proof.
    intros Vi R Er D L Hi j.
    destruct (init_spec h t fuel Vi R Er D L) as (h1 & H1 & Hn & Hs & Ho & Hg & Hw & Hnx & Ha).
    rewrite Hi in H1. injection H1 as <-.
    destruct (in_dec Nat.eq_dec j (joints t)) as [I|I].
    - destruct (in_split _ _ I) as (l1 & l2 & K). destruct (Hs l1 j l2 K) as [_ G].
      unfold joint_gvel at 1, read. rewrite G. cbn. change (arr h' (w_gvel h')) with (world_gvel h').
      apply (read_slice l1 j l2); auto. now rewrite <- K.
    - destruct (Ho j I) as [_ G]. unfold joint_gvel, read. rewrite G.
      rewrite Ha; [reflexivity|]. rewrite Hw. intros K. pose proof (vi_own h Vi j) as O. rewrite K in O. lia.
  Qed.

  (** writing through a view *)
  Lemma nth_error_splice1 (x : list V) s v i : s < length x ->
    nth_error (splice x s [v]) i = if Nat.eqb i s then Some v else nth_error x i.
  Proof.
    intros L. unfold splice. cbn [length]. destruct (Nat.eqb_spec i s) as [->|N].
    - rewrite nth_error_app2; rewrite firstn_length_le by lia; [|lia]. now rewrite Nat.sub_diag.
    - destruct (lt_dec i s) as [Li|Li].
      + rewrite nth_error_app1 by (rewrite firstn_length_le; lia).
        rewrite <- (firstn_skipn s x) at 2. rewrite nth_error_app1 by (rewrite firstn_length_le; lia). reflexivity.
      + rewrite nth_error_app2 by (rewrite firstn_length_le; lia). rewrite firstn_length_le by lia.
        destruct (i - s) as [|m] eqn:Em; [lia|]. cbn.
        rewrite <- (firstn_skipn (s + 1) x) at 2. rewrite nth_error_app2 by (rewrite firstn_length_le; lia).
        rewrite firstn_length_le by lia. f_equal. lia.
  Qed.

  Lemma nth_error_read (a : aid -> list V) w i :
    nth_error (read a w) i = if Nat.ltb i (v_len w) then nth_error (a (v_arr w)) (v_start w + i) else None.
  Proof.
    unfold read. destruct (Nat.ltb_spec i (v_len w)) as [L|L].
    - assert (forall (l : list V) n m, n < m -> nth_error (firstn m l) n = nth_error l n) as F.
      { intros l n m. revert l n. induction m as [|m IH]; intros l n Hn; [lia|].
        destruct l; [destruct n; reflexivity|]. destruct n; [reflexivity|]. cbn. apply IH. lia. }
      rewrite F by auto. assert (forall (l : list V) n m, nth_error (skipn m l) n = nth_error l (m + n)) as S.
      { intros l n m. revert l. induction m as [|m IH]; intros l; [reflexivity|].
        destruct l; [destruct n; reflexivity|]. cbn. apply IH. }
      apply S.
    - apply nth_error_None. rewrite firstn_length. lia.
  Qed.

  Lemma list_ext {A} (l l' : list A) : (forall i, nth_error l i = nth_error l' i) -> l = l'.
  Proof.
    revert l'. induction l as [|x l IH]; intros [|y l'] H; auto.
    - specialize (H 0). discriminate.
    - specialize (H 0). discriminate.
    - f_equal; [specialize (H 0); cbn in H; congruence|]. apply IH. intros i. apply (H (S i)).
  Qed.

  Lemma write_effect h j k v : vinv h -> k < jndof e j ->
    exists h', write_gvel j k v h = (h', Ok tt) /\
      (forall i, nth_error (joint_gvel h' j) i = if Nat.eqb i k then Some v else nth_error (joint_gvel h j) i) /\
      (forall i, i <> j -> joint_gvel h' i = joint_gvel h i) /\
      (v_arr (jgvel h j) = w_gvel h -> forall i, nth_error (world_gvel h') i =
         if Nat.eqb i (v_start (jgvel h j) + k) then Some v else nth_error (world_gvel h) i) /\
      (v_arr (jgvel h j) <> w_gvel h -> world_gvel h' = world_gvel h).
  Proof.
    intros Vi L. assert (Lj : length (joint_gvel h j) = jndof e j).
    { unfold joint_gvel. rewrite length_read by apply (vi_bound h Vi). apply (vi_len h Vi). }
    unfold write_gvel. destruct (Nat.ltb_spec k (length (joint_gvel h j))) as [_|]; [|lia].
    eexists. split; [reflexivity|]. set (w := jgvel h j) in *.
    pose proof (vi_bound h Vi j) as B. fold w in B. pose proof (vi_len h Vi j) as Lw. fold w in Lw.
    split; [|split; [|split]].
    - intros i. unfold joint_gvel. rewrite !nth_error_read. cbn [set_dofs arr jgvel]. fold w. unfold upd_arr.
      destruct (aid_eqb_spec (v_arr w) (v_arr w)); [|congruence].
      rewrite nth_error_splice1 by lia. destruct (Nat.ltb_spec i (v_len w)) as [Li|Li].
      + destruct (Nat.eqb_spec (v_start w + i) (v_start w + k)), (Nat.eqb_spec i k); try lia; reflexivity.
      + destruct (Nat.eqb_spec i k); [lia|reflexivity].
    - intros i N. unfold joint_gvel. apply list_ext. intros m. rewrite !nth_error_read. cbn [set_dofs arr jgvel]. unfold upd_arr.
      destruct (Nat.ltb_spec m (v_len (jgvel h i))) as [Lm|]; [|reflexivity].
      destruct (aid_eqb_spec (v_arr (jgvel h i)) (v_arr w)) as [Ea|]; [|reflexivity].
      rewrite nth_error_splice1 by lia. destruct (vi_disj h Vi i j N) as [K|K]; [now destruct (K Ea)|].
      fold w in K. destruct (Nat.eqb_spec (v_start (jgvel h i) + m) (v_start w + k)); [lia|]. now rewrite Ea.
    - intros Ea i. unfold world_gvel; cbn. unfold upd_arr. rewrite <- Ea.
      destruct (aid_eqb_spec (v_arr w) (v_arr w)); [|congruence]. apply nth_error_splice1. lia.
    - intros Na. unfold world_gvel; cbn. unfold upd_arr.
      destruct (aid_eqb_spec (w_gvel h) (v_arr w)); [congruence|reflexivity].
  Qed.

  (** ** JointsList *)
  Definition dof_ok h j := match jdof h j with Some (s, t) => s <= t | None => True end.

  Lemma init_dof_loop_ok h js : forall d,
    (forall j, In j js -> dof_ok h j /\ jdof h j <> None) ->
    match d with DSlice a b => a <= b | DList _ => True end ->
    exists d', init_dof_loop h js d = Ok d' /\ denote d' = denote d ++ flat_map (range_of h) js.
  Proof.
    induction js as [|j js IH]; intros d Hj Hd; cbn; [exists d; split; [auto|now rewrite app_nil_r]|].
    destruct (Hj j (or_introl eq_refl)) as [Ok1 Nn]. unfold dof_ok in Ok1. unfold range_of at 1.
    destruct (jdof h j) as [[s t]|] eqn:Ej; [|congruence].
    assert (Hj' : forall i, In i js -> dof_ok h i /\ jdof h i <> None) by (intros; apply Hj; now right).
    destruct d as [a b|l].
    - destruct (Nat.eqb_spec b s) as [->|N].
      + destruct (IH (DSlice a t) Hj') as (d' & E & D); [lia|]. exists d'. split; [auto|].
        rewrite D. cbn [denote]. rewrite app_assoc. f_equal.
        replace (t - a) with ((s - a) + (t - s)) by lia. rewrite seq_app. f_equal. f_equal. lia.
      + destruct (IH (DList (seq a (b - a) ++ seq s (t - s))) Hj' I) as (d' & E & D). exists d'. split; [auto|].
        rewrite D. cbn [denote]. now rewrite app_assoc.
    - destruct (IH (DList (l ++ seq s (t - s))) Hj' I) as (d' & E & D). exists d'. split; [auto|].
      rewrite D. cbn [denote]. now rewrite app_assoc.
  Qed.
  Lemma init_dof_loop_err h js : forall d, (exists j, In j js /\ jdof h j = None) ->
    init_dof_loop h js d = Err ValueError.
  Proof.
    induction js as [|x js IH]; intros d (j & I & N); [destruct I|]. cbn.
    destruct (jdof h x) as [[s t]|] eqn:Ex; [|reflexivity].
    destruct I as [->|I]; [congruence|].
    destruct d as [a b|l]; [destruct (Nat.eqb b s)|]; apply IH; eauto.
  Qed.

  (** contiguous from 0: stays a slice *)
  Lemma init_dof_loop_slice h js : forall n,
    (forall l1 j l2, js = l1 ++ j :: l2 -> jdof h j = Some (n + total_ndof l1, n + total_ndof l1 + jndof e j)) ->
    init_dof_loop h js (DSlice 0 n) = Ok (DSlice 0 (n + total_ndof js)).
  Proof.
    induction js as [|x js IH]; intros n H; cbn [init_dof_loop]; [tot; now rewrite Nat.add_0_r|].
    rewrite (H [] x js eq_refl). rewrite !total_nil, Nat.add_0_r, Nat.eqb_refl.
    rewrite (IH (n + jndof e x)).
    - f_equal. f_equal. tot. lia.
    - intros l1 j l2 K. rewrite (H (x :: l1) j l2) by now rewrite K.
      tot. f_equal. f_equal; lia.
  Qed.

  (** slices recorded in reachable heaps are well ordered *)
  Lemma assign_dofs_ok js : forall n d n' d', assign_dofs e js n d = (n', d') ->
    (forall j, match d j with Some (s, t) => t = s + jndof e j | None => True end) ->
    forall j, match d' j with Some (s, t) => t = s + jndof e j | None => True end.
  Proof.
    induction js as [|x js IH]; intros n d n' d' H Hd; cbn in H; [injection H as <- <-; auto|].
    eapply IH; [exact H|]. intros j. unfold upd. destruct (Nat.eqb_spec j x) as [->|]; [reflexivity|apply Hd].
  Qed.
  Definition dofs_ok h := forall j, match jdof h j with Some (s, t) => t = s + jndof e j | None => True end.
  Lemma init_dofs_ok fuel h : dofs_ok h -> dofs_ok (fst (init zero e fuel h)).
  Proof.
    intros H. unfold init. destruct (iterjoints e fuel h); [|exact H].
    destruct (assign_dofs e a 0 (jdof h)) as [n d] eqn:Ad.
    destruct (copy_gvels _ _ _ _ _) as [[? ?]|]; [|exact H]. exact (assign_dofs_ok _ _ _ _ _ Ad H).
  Qed.
  Lemma same_store_dofs h h' : same_store h h' -> dofs_ok h -> dofs_ok h'.
  Proof. intros (_ & _ & _ & _ & E & _) H j. rewrite E. apply H. Qed.
  Lemma reachable_dofs g0 h : reachable zero e g0 h -> dofs_ok h.
  Proof.
    induction 1 as [|h fuel o Hr IH A]; [intros j; exact I|].
    destruct o as [f0 j f1|old args|o| |j k v]; cbn [step] in *.
    - destruct (add_link1_cases e h f0 j f1) as [[C ->]|[[N ->]|[N [P ->]]]]; cbn [fst]; auto.
      eapply same_store_dofs; [apply do_link_store|auto].
    - destruct A as [[u Hu] Ac]. cbn [step] in Hu.
      destruct (replace_joint zero e fuel (OJoint old) args h) as [h' r] eqn:Er. cbn in *. subst r.
      apply replace_joint_checks in Er.
      destruct Er as (g0' & g1 & Ef & I & E & H). apply replace_chain_ok_inv in H.
      destruct H as (g0'' & g1' & ls & Ef' & Nl & Ea & Eb0 & Eb1 & C & Hi).
      replace h' with (fst (init zero e fuel (chain_result e h (frame_body e g0'') old (frame_body e g1') ls)))
        by now rewrite Hi.
      apply init_dofs_ok. eapply same_store_dofs; [apply chain_store|auto].
    - eapply same_store_dofs; [apply register_store|auto].
    - now apply init_dofs_ok.
    - unfold write_gvel. destruct (Nat.ltb _ _); exact IH.
  Qed.
End P.
