(** C91: which robots are generated, and where the generator fails. *)
From Verif Require Import Proof_Matlab3 Props_Matlab.
Open Scope R_scope.

Lemma lookup_some n m : In n (map fst m) -> exists i, lookup n m = Some i.
Proof.
  induction m as [|[k v] m IH]; cbn; [intros []|]. intros H. destruct (name_eqb_spec n k) as [->|N]; [exists v; reflexivity|].
  destruct H as [->|H]; [destruct (N eq_refl)|apply IH; exact H].
Qed.
Lemma lookup_none n m : ~ In n (map fst m) -> lookup n m = None.
Proof.
  induction m as [|[k v] m IH]; cbn; [reflexivity|]. intros H. destruct (name_eqb_spec n k) as [->|N]; [destruct H; left; reflexivity|].
  apply IH. intros Hn. apply H. right. exact Hn.
Qed.

Section P.
  Variables (e : env) (sc : scene) (h : @heap R) (J : nat -> jstate) (nm : obj -> option string) (geo : nat -> geom).
  Definition shape_body (s : nat) : nat := frame_body e (shape_frame e s).

  Lemma shapes_ok m ss : (forall s, In s ss -> In (body_name nm (shape_body s)) (map fst m)) -> (forall s n d, In s ss -> geo s <> Plane n d) ->
    forall cnt cur, exists l, gen_shapes e sc nm geo m ss cnt cur = (l, Ok tt).
  Proof.
    induction ss as [|s ss IH]; intros Hb Hp cnt cur; cbn [gen_shapes]; [exists []; reflexivity|].
    destruct (lookup_some _ _ (Hb s (or_introl eq_refl))) as [[br bd] Lk]. unfold shape_body in Lk. rewrite Lk.
    assert (St : exists ty dims, shape_text (geo s) cur = Some (ty, dims)).
    { specialize (Hp s). destruct (geo s) as [n d| |he|len r|r]; cbn [shape_text]; eauto. destruct (Hp n d (or_introl eq_refl) eq_refl). }
    destruct St as (ty & dims & St). rewrite St.
    edestruct IH as [l El]; [intros s' Hs'; apply Hb; right; exact Hs'|intros s' n d Hs'; apply Hp; right; exact Hs'|].
    rewrite El. eexists. reflexivity.
  Qed.
  Lemma shapes_err m ss s : In s ss -> ~ In (body_name nm (shape_body s)) (map fst m) ->
    forall cnt cur, exists l x, gen_shapes e sc nm geo m ss cnt cur = (l, Err x) /\ (x = KeyError \/ x = NameError).
  Proof.
    intros Hs Hn. induction ss as [|s' ss IH]; [destruct Hs|]. intros cnt cur. cbn [gen_shapes].
    destruct (lookup _ m) as [[br bd]|] eqn:Lk; [|eexists _, _; split; [reflexivity|left; reflexivity]].
    destruct (shape_text (geo s') cur) as [[ty dims]|]; [|eexists _, _; split; [reflexivity|right; reflexivity]].
    destruct Hs as [->|Hs].
    - exfalso. apply Hn. apply lookup_in in Lk. apply in_map_iff. eexists. split; [|exact Lk]. reflexivity.
    - match goal with |- context [gen_shapes _ _ _ _ m ss ?c ?u] => destruct (IH Hs c u) as (l & x & -> & Hx) end.
      eexists _, _. split; [reflexivity|exact Hx].
  Qed.
  Lemma marked t l a br' : marks e sc h J nm t (1, 1)%nat l a br' -> map fst (named nm ((root t, (1, 1)%nat) :: a)) = map (body_name nm) (bodies t).
  Proof.
    intros Mk. pose proof (proj1 (marks_bodies e sc h J nm) _ _ _ _ _ Mk) as Bo. unfold named. rewrite map_map. cbn [map fst].
    rewrite <- (map_map fst (body_name nm)), Bo. destruct t; reflexivity.
  Qed.
  Lemma in_marked t l a br' n g : marks e sc h J nm t (1, 1)%nat l a br' ->
    In n (map fst (rev (named nm ((root t, (1, 1)%nat) :: a)) ++ g_map g)) <-> In n (map (body_name nm) (bodies t)) \/ In n (map fst (g_map g)).
  Proof.
    intros Mk. rewrite map_app, in_app_iff, map_rev, <- in_rev, (marked _ _ _ _ Mk). reflexivity.
  Qed.

  (** make_robot accepts every robot in a free joint whose other joints, at least one, are hinges, if each shape of the world is on it and none is a plane. *)
  Theorem C91_accepts : forall fuel root t name,
    robot e h root t -> (height t < fuel)%nat -> jt (J root) = FreeJoint -> (forall j, In j (joints t) -> hinge (jt (J j))) -> joints t <> [] ->
    (forall s, In s (w_shapes h) -> In (frame_body e (shape_frame e s)) (bodies t)) -> (forall s n d, In s (w_shapes h) -> geo s <> Plane n d) ->
    exists g' ls, make_robot e sc h J nm geo (S fuel) root name new_gen = (g', ls, Ok tt) /\ ~ In MMad ls.
  Proof.
    intros fuel root t name Rb Hf Tr Hh Nj Hs Hp.
    destruct (make_robot_run e sc h J nm geo fuel root t name new_gen Rb Hf Tr Hh) as (l & a & br' & Mk & E). cbv zeta in E.
    unfold gen_all_shapes in E. cbn [g_map g_js new_gen app] in E.
    match type of E with context [gen_shapes _ _ _ _ ?m ?ss ?c ?u] => destruct (shapes_ok m ss) with (cnt := c) (cur := u) as [l2 El] end.
    { intros s Is. apply (in_marked t l a br' _ new_gen Mk). left. apply in_map. exact (Hs s Is). }
    { exact Hp. }
    rewrite El in E. destruct (joints t) as [|j0 js] eqn:Js; [destruct (Nj eq_refl)|]. cbn [map gen_finish] in E.
    eexists _, _. split; [exact E|]. destruct Rb as (R0 & Nd & f0 & f1 & F & B1).
    assert (Nl : forall j br bd, attached h j -> line e sc h J nm j br bd <> MMad).
    { intros j br bd At. unfold line. destruct (jframes h j) as [[g0 g1]|] eqn:G; [discriminate|destruct (At G)]. }
    assert (Nm : ~ In MMad l).
    { assert (At : forall j, In j (joints t) -> attached h j) by (intros j Ij; apply (rep_attached e h t); assumption).
      clear - Mk Nl At. revert At.
      refine (proj1 (marks_others e sc h J nm (fun t p l a br' _ => (forall j, In j (joints t) -> attached h j) -> ~ In MMad l)
        (fun ks p br l a br' _ => (forall j, In j (below_kids ks) -> attached h j) -> ~ In MMad l) _ _ _ _) _ _ _ _ _ Mk).
      - intros b br bd _ [].
      - intros b j s ks br bd l1 a1 br1 l2 a2 br2 M1 H1 M2 H2 At. rewrite joints_eq in At. cbn [flat_map fst snd] in At. intros [X|X].
        + exact (Nl _ _ _ (At j (or_introl eq_refl)) X).
        + apply in_app_or in X. destruct X as [X|X].
          * exact (H1 (fun i Hi => At i (or_intror (in_or_app _ _ _ (or_introl Hi)))) X).
          * exact (H2 (fun i Hi => At i (or_intror (in_or_app _ _ _ (or_intror Hi)))) X).
      - intros p br _ [].
      - intros j s ks p br l1 a1 br1 l2 a2 br2 M1 H1 M2 H2 At. cbn [below_kids flat_map fst snd] in At. intros [X|[X|X]]; [discriminate X| |].
        + exact (Nl _ _ _ (At j (or_introl eq_refl)) X).
        + apply in_app_or in X. destruct X as [X|X].
          * exact (H1 (fun i Hi => At i (or_intror (in_or_app _ _ _ (or_introl Hi)))) X).
          * exact (H2 (fun i Hi => At i (or_intror (in_or_app _ _ _ (or_intror Hi)))) X). }
    assert (Ns : forall m ss cnt cur l r, gen_shapes e sc nm geo m ss cnt cur = (l, r) -> ~ In MMad l).
    { clear. induction ss as [|s ss IH]; intros cnt cur l r E; cbn [gen_shapes] in E.
      - injection E as <- <-. intros [].
      - destruct (lookup _ m) as [[br bd]|]; [|injection E as <- <-; intros []].
        destruct (shape_text (geo s) cur) as [[ty dims]|]; [|injection E as <- <-; intros []].
        destruct (gen_shapes _ _ _ _ _ ss _ _) as [l0 r0] eqn:E0. injection E as <- <-. intros [X|X]; [discriminate X|exact (IH _ _ _ _ E0 X)]. }
    intros X. cbn [app] in X. destruct X as [X|[X|[X|X]]]; try discriminate X.
    - apply (Nl root 1%nat 1%nat); [unfold attached; rewrite F; discriminate|exact X].
    - rewrite !in_app_iff in X. destruct X as [X|[[X|X]|[X|[]]]]; [exact (Nm X)|exact (Ns _ _ _ _ _ _ El X)| |discriminate X].
      destruct (Nat.eqb _ 0); [destruct X as [X|[]]; discriminate X|destruct X].
  Qed.

  (** It refuses the others: nothing is written when the first joint is not free; when another joint is not a hinge the text ends by saying that it must not be used. *)
  Theorem C91_refuses : forall fuel root t name g,
    (jt (J root) <> FreeJoint -> make_robot e sc h J nm geo (S fuel) root name g = (g, [], Err RuntimeError)) /\
    (robot e h root t -> (height t < fuel)%nat -> jt (J root) = FreeJoint -> (exists j, In j (joints t) /\ ~ hinge (jt (J j))) ->
     exists g' ls, make_robot e sc h J nm geo (S fuel) root name g = (g', ls ++ [MMad], Err RuntimeError)).
  Proof.
    intros fuel root t name g. split.
    - intros N. unfold make_robot. destruct (jt (J root)); try reflexivity. destruct (N eq_refl).
    - intros (R0 & Nd & f0 & f1 & F & B1) Hf Tr Bad. unfold make_robot. rewrite Tr, traverse_step. unfold one_link.
      assert (Ax : gen_axis (jt (J root)) 1 1 = Ok (axes (J root))) by (apply axis_free; exact Tr).
      rewrite (link_ok e sc h J nm root 1 1 g _ f0 f1 F B1 Ax). cbn [g_map g_js].
      match goal with |- context [Model_Matlab.gen_traverse _ _ _ _ _ fuel _ 1 2 ?g] =>
        destruct (traverse_err e sc h J nm t fuel 1%nat 1%nat g R0 Hf (le_n 1) (le_n 1) Bad) as (g' & l & ->) end.
      eexists _, _. rewrite app_assoc. reflexivity.
  Qed.

  (** What fails.  A free body alone is a robot, but the generator does not accept it. *)
  Theorem C91_lone_refuted : forall fuel root t name,
    robot e h root t -> (height t < fuel)%nat -> jt (J root) = FreeJoint -> joints t = [] ->
    exists g' ls x, make_robot e sc h J nm geo (S fuel) root name new_gen = (g', ls ++ [MMad], Err x).
  Proof.
    intros fuel root t name Rb Hf Tr Nj.
    destruct (make_robot_run e sc h J nm geo fuel root t name new_gen Rb Hf Tr) as (l & a & br' & Mk & E); [unfold good; rewrite Nj; intros j []|].
    cbv zeta in E. rewrite E, Nj. destruct (gen_all_shapes _ _ _ _ _ _) as [l2 [u|x]]; cbn [map gen_finish g_js new_gen app];
      eexists _, (_ :: _ :: _ :: l ++ l2), _; cbn [app]; rewrite <- app_assoc; reflexivity.
  Qed.
  (** A world with a shape elsewhere, for instance on the ground, is not accepted: neither are the grounds made by add_groundplane and by MatlabConverter. *)
  Theorem C91_outside_refuted : forall fuel root t name s,
    robot e h root t -> (height t < fuel)%nat -> jt (J root) = FreeJoint -> (forall j, In j (joints t) -> hinge (jt (J j))) ->
    In s (w_shapes h) -> ~ In (nm (OFrame (FBody (frame_body e (shape_frame e s))))) (map (fun b => nm (OFrame (FBody b))) (bodies t)) ->
    exists g' ls x, make_robot e sc h J nm geo (S fuel) root name new_gen = (g', ls ++ [MMad], Err x) /\ (x = KeyError \/ x = NameError).
  Proof.
    intros fuel root t name s Rb Hf Tr Hh Is Ns.
    destruct (make_robot_run e sc h J nm geo fuel root t name new_gen Rb Hf Tr Hh) as (l & a & br' & Mk & E). cbv zeta in E.
    rewrite E. unfold gen_all_shapes.
    match goal with |- context [gen_shapes _ _ _ _ ?m ?ss ?c ?u] => destruct (shapes_err m ss s Is) with (cnt := c) (cur := u) as (l2 & x & -> & Hx) end.
    { intros X. apply (in_marked t l a br' _ new_gen Mk) in X. destruct X as [X|[]]. exact (Ns X). }
    eexists _, (_ :: _ :: _ :: l ++ l2), x. split; [|exact Hx]. cbn [app]. rewrite <- app_assoc. reflexivity.
  Qed.
  (** A plane is written as the shape before it. *)
  Theorem C91_plane_refuted : forall m s1 s2 r n d l u, geo s1 = Sphere r -> geo s2 = Plane n d ->
    gen_shapes e sc nm geo m [s1; s2] (fun _ => O) None = (l, Ok u) -> exists l1 br bd k, l = [l1; MShape br bd k "sphere" [r] (bpose sc (shape_frame e s2))].
  Proof.
    intros m s1 s2 r n d l u E1 E2 E. cbn [gen_shapes] in E. rewrite E1, E2 in E.
    destruct (lookup _ m) as [[b1 d1]|]; [|discriminate E]. cbn [shape_text] in E.
    destruct (lookup _ m) as [[b2 d2]|]; [|discriminate E]. injection E as <- _. eexists _, _, _, _. reflexivity.
  Qed.
  (** Two bodies with the same name, for instance without name as those that MatlabConverter adds: the shape of the first is put on the second. *)
  Theorem C91_unnamed_refuted : forall fuel root name b c j s,
    let t := Node b [(j, Node c [])] in
    robot e h root t -> (2 < fuel)%nat -> jt (J root) = FreeJoint -> hinge (jt (J j)) -> nm (OFrame (FBody b)) = nm (OFrame (FBody c)) ->
    w_shapes h = [s] -> frame_body e (shape_frame e s) = b -> (forall n d, geo s <> Plane n d) ->
    exists g' ls num, make_robot e sc h J nm geo (S fuel) root name new_gen = (g', ls, Ok tt) /\
      Forall2 (describes e sc h J nm num) (body_lines ls) [root; j] /\ num b <> num c /\
      exists k ty dims H, shape_lines ls = [MShape (fst (num c)) (snd (num c)) k ty dims H].
  Proof.
    intros fuel root name b c j s t Rb Hf Tr Hj Nm Ws Sb Hp.
    assert (Hh : forall i, In i (joints t) -> hinge (jt (J i))) by (intros i [<-|[]]; exact Hj).
    assert (Hft : (height t < fuel)%nat) by (cbn; lia).
    destruct (C91_accepts fuel root t name Rb Hft Tr Hh) as (g' & ls & Ok1 & _).
    { discriminate. }
    { intros s' Is. rewrite Ws in Is. destruct Is as [<-|[]]. rewrite Sb. left. reflexivity. }
    { intros s' n d Is. rewrite Ws in Is. destruct Is as [<-|[]]. apply Hp. }
    destruct (C91_robot e sc h J nm geo fuel root t name g' ls Rb Hft Hh Ok1) as (num & De & (Nb & _) & Mo & Co & _ & _ & _).
    exists g', ls, num. split; [exact Ok1|]. split; [exact De|].
    assert (Ne : num b <> num c).
    { cbn [bodies t map consecutive app] in Co. destruct Co as [[Q|Q] _]; intros X; rewrite <- X in Q; cbn [Spec_Tree.root t] in Nb; rewrite Nb in Q; discriminate Q. }
    split; [exact Ne|].
    destruct (make_robot_run e sc h J nm geo fuel root t name new_gen Rb Hft Tr Hh) as (l & a & br' & Mk & E). cbv zeta in E.
    rewrite Ok1 in E. unfold gen_all_shapes in E. rewrite Ws in E.
    assert (Ea : exists i, a = [(c, i)] /\ i = (1, 2)%nat /\ l = [line e sc h J nm j 1 2]).
    { unfold t in Mk. remember (Node b [(j, Node c [])]) as tt eqn:Et. remember (1, 1)%nat as p eqn:Ep.
      destruct Mk as [|b0 j0 s0 ks0 br0 bd0 l1 a1 br1 l2 a2 br2 M1 M2]; [discriminate Et|]. injection Et as -> -> -> ->. injection Ep as -> ->.
      inversion M2; subst. inversion M1; subst. exists (1, 2)%nat. repeat split. }
    destruct Ea as (i & -> & -> & ->).
    assert (Dc : num c = (1, 2)%nat).
    { assert (Lb : body_lines ls = [line e sc h J nm root 1 1; line e sc h J nm j 1 2]).
      { destruct Rb as (R0 & Nd & f0 & f1 & F & B1).
        assert (At : attached h j) by (apply (rep_attached e h t); [exact R0|left; reflexivity]).
        assert (Ar : attached h root) by (unfold attached; rewrite F; discriminate).
        destruct (gen_shapes _ _ _ _ _ _ _ _) as [l2 [u|x]] eqn:E2; [|discriminate E]. cbn [gen_finish g_js new_gen app map joints t] in E.
        injection E as -> ->. pose proof (shapes_lines _ _ _ _ _ _ _ _ _ _ E2) as [S1 _].
        match goal with |- body_lines (_ :: _ :: ?k) = _ => change (body_lines k = [line e sc h J nm root 1 1; line e sc h J nm j 1 2]) end.
        rewrite !body_lines_cons by assumption. rewrite !body_lines_app, S1. reflexivity. }
      rewrite Lb in De. inversion De as [|? ? ? ? _ D2]; subst. inversion D2 as [|? ? ? ? D3 _]; subst.
      destruct D3 as (f0 & f1 & M' & F & _ & El). unfold line in El. rewrite F in El.
      destruct Rb as (R0 & _). apply rep_inv in R0. destruct R0 as [_ Fk]. destruct (Fk j _ (or_introl eq_refl)) as [[(g0 & g1 & G & B0 & B1) _] _].
      cbn in B1. rewrite F in G. injection G as -> ->. rewrite B1 in El. injection El as E1 E2. rewrite (surjective_pairing (num c)), <- E1, <- E2. reflexivity. }
    destruct (gen_shapes _ _ _ _ _ _ _ _) as [l2 [u|x]] eqn:E2; [|discriminate E]. cbn [gen_finish g_js new_gen app map joints t] in E.
    injection E as -> ->. cbn [gen_shapes g_map new_gen] in E2.
    assert (Lk : lookup (body_name nm (frame_body e (shape_frame e s))) (rev (named nm [(Spec_Tree.root t, (1, 1)%nat); (c, (1, 2)%nat)]) ++ []) = Some (1, 2)%nat).
    { rewrite Sb. cbn [named map rev app fst snd lookup Spec_Tree.root t]. unfold body_name. rewrite Nm.
      destruct (name_eqb_spec (nm (OFrame (FBody c))) (nm (OFrame (FBody c)))) as [_|Q]; [reflexivity|destruct (Q eq_refl)]. }
    rewrite Lk in E2. destruct (shape_text (geo s) None) as [[ty dims]|] eqn:St; [|discriminate E2].
    injection E2 as <- _. rewrite Dc. eexists _, ty, dims, _.
    assert (N1 : forall i br bd k, shape_lines (line e sc h J nm i br bd :: k) = shape_lines k) by (intros; unfold line; destruct (jframes h i) as [[? ?]|]; reflexivity).
    match goal with |- shape_lines (_ :: _ :: ?k) = _ => change (shape_lines (MTree name :: MBranch 1 (0, 0)%nat :: k)) with (shape_lines k) end.
    rewrite !N1. reflexivity.
  Qed.
End P.
(** A generator that is used for a second robot gives it the position of the first one. *)
Theorem C91_reuse_refuted : forall e sc h J nm geo fuel ra ta rb tb na nb g1 g2 la lb,
  robot e h ra ta -> robot e h rb tb -> (height ta < fuel)%nat -> (height tb < fuel)%nat ->
  (forall j, In j (joints ta) -> hinge (jt (J j))) -> (forall j, In j (joints tb) -> hinge (jt (J j))) -> jt (J rb) = FreeJoint ->
  make_robot e sc h J nm geo (S fuel) ra na new_gen = (g1, la, Ok tt) -> make_robot e sc h J nm geo (S fuel) rb nb g1 = (g2, lb, Ok tt) ->
  exists q T, last lb MMad = MState (gposH (J ra)) q T.
Proof.
  intros e sc h J nm geo fuel ra ta rb tb na nb g1 g2 la lb Ra Rb Ha Hb Ga Gb Tb E1 E2.
  assert (Ta : jt (J ra) = FreeJoint) by (unfold make_robot in E1; destruct (jt (J ra)); try discriminate E1; reflexivity).
  destruct (make_robot_run e sc h J nm geo fuel ra ta na new_gen Ra Ha Ta Ga) as (l & a & br & Mk & Q). cbv zeta in Q. rewrite E1 in Q.
  destruct (gen_all_shapes _ _ _ _ _ _) as [l2 [u|x]]; [|discriminate Q].
  assert (G1 : g_js g1 = J ra :: map J (joints ta)) by (destruct (gen_finish _); [injection Q as -> _; reflexivity|discriminate Q]).
  destruct (make_robot_run e sc h J nm geo fuel rb tb nb g1 Rb Hb Tb Gb) as (l' & a' & br' & Mk' & Q'). cbv zeta in Q'. rewrite E2 in Q'. rewrite G1 in Q'.
  destruct (gen_all_shapes _ _ _ _ _ (rev _ ++ _)) as [l2' [u'|x]]; [|discriminate Q']. cbn [app gen_finish] in Q'.
  destruct (map J (joints ta) ++ J rb :: map J (joints tb)) as [|x xs] eqn:Em; [destruct (map J (joints ta)); discriminate Em|].
  injection Q' as -> ->. eexists _, _. rewrite !app_comm_cons, !app_assoc, last_last. reflexivity.
Qed.
Print Assumptions C91_accepts.
Print Assumptions C91_unnamed_refuted.
