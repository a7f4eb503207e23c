(** C91: A generated matlab robot is the robot. *)
From Verif Require Import Proof_Matlab2 Proof_Linalg.
Open Scope R_scope.

Lemma flip_inertia M : same_inertia M (flip M).
Proof. intros v w. destruct M as [A B C D]. destruct v, w. unf. dall. cbn. ring. Qed.

Lemma F2_map_l {A B C} (P : B -> C -> Prop) (f : A -> B) l : forall l', Forall2 (fun x y => P (f x) y) l l' -> Forall2 P (map f l) l'.
Proof. induction l as [|x l IH]; intros l' H; inversion H; subst; cbn; constructor; auto. Qed.

Section P.
  Variables (e : env) (sc : scene) (h : @heap R) (J : nat -> jstate) (nm : obj -> option string) (geo : nat -> geom).

  Lemma shapes_lines m ss : forall cnt cur l r, gen_shapes e sc nm geo m ss cnt cur = (l, r) -> body_lines l = [] /\ branch_lines l = [].
  Proof.
    induction ss as [|s ss IH]; intros cnt cur l r E; cbn [gen_shapes] in E.
    - injection E as <- <-. split; reflexivity.
    - destruct (lookup _ m) as [[br bd]|]; [|injection E as <- <-; split; reflexivity].
      destruct (shape_text (geo s) cur) as [[ty dims]|] eqn:St; [|injection E as <- <-; split; reflexivity].
      destruct (gen_shapes _ _ _ _ _ ss _ _) as [l0 r0] eqn:E0. destruct (IH _ _ _ _ E0) as [H1 H2].
      injection E as <- <-. split; [exact H1|exact H2].
  Qed.
  Lemma all_shapes_lines m l r : gen_all_shapes e sc h nm geo m = (l, r) -> body_lines l = [] /\ branch_lines l = [].
  Proof.
    unfold gen_all_shapes. destruct (gen_shapes _ _ _ _ _ _ _ _) as [l0 [u|x]] eqn:E0; intros E; injection E as <- <-; destruct (shapes_lines _ _ _ _ _ _ E0) as [H1 H2].
    - rewrite body_lines_app, branch_lines_app, H1, H2. destruct (Nat.eqb _ 0); split; reflexivity.
    - split; assumption.
  Qed.

  Lemma describes_all num l a js :
    Forall2 (fun x (jb : nat * (nat * (nat * nat))) => x = line e sc h J nm (fst jb) (fst (snd (snd jb))) (snd (snd (snd jb)))) (body_lines l) (combine js a) ->
    length a = length js -> Forall2 (fun j c => exists f0 f1, jframes h j = Some (f0, f1) /\ frame_body e f1 = c) js (map fst a) ->
    (forall x, In x a -> num (fst x) = snd x) -> Forall2 (describes e sc h J nm num) (body_lines l) js.
  Proof.
    generalize (body_lines l) as bl. revert a. induction js as [|j js IH]; intros a bl Li Le Ch Hn.
    - destruct a; [|discriminate Le]. cbn in Li. inversion Li; subst. constructor.
    - destruct a as [|[b i] a]; [discriminate Le|]. cbn [combine] in Li. inversion Li as [|x y bl' r E1 E2]; subst. cbn [map fst] in Ch.
      inversion Ch as [|? ? ? ? C1 C2]; subst. constructor.
      + destruct C1 as (f0 & f1 & F & B). exists f0, f1, (flip (b_mass sc (frame_body e f1))). split; [exact F|]. split; [apply flip_inertia|].
        unfold line. cbn [fst snd]. rewrite F, B. pose proof (Hn (b, i) (or_introl eq_refl)) as Hb. cbn in Hb. rewrite Hb. reflexivity.
      + apply (IH a); [exact E2|injection Le as Le; exact Le|exact C2|]. intros x Hx. apply Hn. right. exact Hx.
  Qed.

  Lemma name_eqb_spec a b : reflect (a = b) (name_eqb a b).
  Proof.
    destruct a as [x|], b as [y|]; cbn; try (constructor; congruence). destruct (String.eqb_spec x y) as [->|N]; constructor; congruence.
  Qed.
  Lemma lookup_in n m i : lookup n m = Some i -> In (n, i) m.
  Proof.
    induction m as [|[k v] m IH]; cbn; [discriminate|]. destruct (name_eqb_spec n k) as [->|N]; intros E; [injection E as ->; left; reflexivity|right; apply IH; exact E].
  Qed.
  Lemma shapes_shown num (A : list (nat * (nat * nat))) sb bs : told_apart nm sb bs -> incl sb bs -> (forall b i, In (b, i) A -> In b bs /\ num b = i) ->
    forall ss before cnt cur l u, (forall s, In s (before ++ ss) -> In (frame_body e (shape_frame e s)) sb) -> (forall s n d, In s ss -> geo s <> Plane n d) ->
    (forall b, In b sb -> cnt (body_name nm b) = length (filter (fun s' => Nat.eqb (frame_body e (shape_frame e s')) b) before)) ->
    gen_shapes e sc nm geo (rev (named nm A)) ss cnt cur = (l, Ok u) -> all_shown e sc geo num before l ss /\ shape_lines l = l.
  Proof.
    intros Ta Inc HA. induction ss as [|s ss IH]; intros before cnt cur l u Sb Pl Cn E; cbn [gen_shapes] in E.
    - injection E as <- <-. split; [exact Logic.I|reflexivity].
    - destruct (lookup _ _) as [[br bd]|] eqn:Lk; [|discriminate E].
      apply lookup_in, in_rev in Lk. rewrite ?rev_involutive in Lk. unfold named in Lk. apply in_map_iff in Lk. destruct Lk as ([b i] & Eq & Ib). cbn [fst snd] in Eq.
      injection Eq as Nb ->. destruct (HA _ _ Ib) as [Bb Hb].
      set (c := frame_body e (shape_frame e s)) in *.
      assert (Cb : In c sb) by (apply Sb, in_or_app; right; left; reflexivity).
      assert (c = b) by (apply Ta; [exact Cb|exact Bb|exact (eq_sym Nb)]). subst b.
      destruct (shape_text (geo s) cur) as [[ty dims]|] eqn:St; [|discriminate E].
      destruct (gen_shapes _ _ _ _ _ ss _ _) as [l0 r0] eqn:E0. injection E as <- ->.
      assert (Cn' : forall b, In b sb -> (if name_eqb (body_name nm b) (body_name nm c) then S (cnt (body_name nm b)) else cnt (body_name nm b)) =
        length (filter (fun s' => Nat.eqb (frame_body e (shape_frame e s')) b) (before ++ [s]))).
      { intros b Hbb. rewrite filter_app, app_length. cbn [filter]. fold c. rewrite (Cn b Hbb).
        destruct (name_eqb_spec (body_name nm b) (body_name nm c)) as [Q|Q].
        - assert (b = c) by (apply Ta; [exact Hbb|apply Inc; exact Cb|exact Q]). subst b. rewrite Nat.eqb_refl. cbn [length]. lia.
        - destruct (Nat.eqb_spec c b) as [->|Q']; [destruct (Q eq_refl)|]. cbn [length]. lia. }
      assert (K : all_shown e sc geo num (before ++ [s]) l0 ss /\ shape_lines l0 = l0).
      { refine (IH (before ++ [s]) _ _ l0 u _ _ _ E0).
        - intros s' Hs'. apply Sb. rewrite <- app_assoc in Hs'. exact Hs'.
        - intros s' n d Hs'. apply Pl. right. exact Hs'.
        - exact Cn'. }
      destruct K as [H1 H2].
      split; [|cbn [shape_lines filter is_shape]; unfold shape_lines in H2; rewrite H2; reflexivity].
        split; [|exact H1]. exists ty, dims. split.
        * specialize (Pl s). destruct (geo s) as [n d| |he|len r|r]; cbn [shape_text] in St; [destruct (Pl n d (or_introl eq_refl) eq_refl)| | | |];
            injection St as <- <-; cbn [shape_words]; split; try reflexivity. f_equal; [ring|]. f_equal; [ring|]. f_equal. ring.
        * cbv zeta. fold c. rewrite Hb. cbn [fst snd]. rewrite (Cn c Cb).
          destruct (name_eqb_spec (body_name nm c) (body_name nm c)) as [_|Q]; [|destruct (Q eq_refl)]. reflexivity.
  Qed.
  Lemma marks_no_shapes : (forall t p l a br', marks e sc h J nm t p l a br' -> shape_lines l = []) /\
    (forall ks p br l a br', others e sc h J nm ks p br l a br' -> shape_lines l = []).
  Proof.
    assert (Ln : forall j br bd l, shape_lines l = [] -> shape_lines (line e sc h J nm j br bd :: l) = []).
    { intros j br bd l H. unfold line. destruct (jframes h j) as [[f0 f1]|]; exact H. }
    apply marks_others; intros; try reflexivity; [apply Ln|cbn [shape_lines filter is_shape]; apply Ln];
      unfold shape_lines in *; rewrite filter_app, H, H0; reflexivity.
  Qed.

  (** Whenever make_robot returns, what it has written describes the robot: each body has an index; the assignments give, joint by joint in
      depth-first order, the names, the axis, the two frames and the inertia; each body is mounted on the body that carries it, the first one on the
      ground; the indices follow each other and no branch is declared twice; the initial position and velocity are those of the joints, in the same order. *)
  Theorem C91_robot : forall fuel root t name g' ls,
    robot e h root t -> (height t < fuel)%nat -> (forall j, In j (joints t) -> hinge (jt (J j))) ->
    make_robot e sc h J nm geo (S fuel) root name new_gen = (g', ls, Ok tt) ->
    exists num,
      Forall2 (describes e sc h J nm num) (body_lines ls) (root :: joints t) /\
      (num (Spec_Tree.root t) = (1, 1)%nat /\ mounted ls (1, 1)%nat (0, 0)%nat) /\
      (forall j f0 f1, In j (joints t) -> jframes h j = Some (f0, f1) -> mounted ls (num (frame_body e f1)) (num (frame_body e f0))) /\
      consecutive (map num (bodies t)) /\ NoDup (map fst (branch_lines ls)) /\
      (told_apart nm (map (fun s => frame_body e (shape_frame e s)) (w_shapes h)) (bodies t ++ map (fun s => frame_body e (shape_frame e s)) (w_shapes h)) -> (forall s n d, In s (w_shapes h) -> geo s <> Plane n d) ->
       all_shown e sc geo num [] (shape_lines ls) (w_shapes h)) /\
      last ls MMad = MState (gposH (J root)) (flat_map (fun j => map (gpos (J j)) (dof_order (J j))) (joints t))
                            (flat_map (fun j => map (gvel (J j)) (dof_order (J j))) (root :: joints t)).
  Proof.
    intros fuel root t name g' ls (R0 & Nd & f0 & f1 & F & B1) Hf Hh E.
    unfold make_robot in E. destruct (jt (J root)) eqn:Tr; try discriminate E.
    cbn [Model_Matlab.gen_traverse] in E.
    assert (Ax : gen_axis (jt (J root)) 1 1 = Ok (axes (J root))) by (apply axis_free; exact Tr).
    rewrite (link_ok e sc h J nm root 1 1 new_gen _ f0 f1 F B1 Ax) in E. cbn [g_map g_js new_gen app] in E.
    match type of E with context [Model_Matlab.gen_traverse _ _ _ _ _ fuel _ 1 2 ?g] =>
      destruct (traverse_ok e sc h J nm t fuel 1%nat 1%nat g R0 Hf Hh) as (l & a & br' & Mk & Tv) end.
    rewrite Tv in E. cbn [g_map g_js after] in E.
    destruct (gen_all_shapes e sc h nm geo _) as [l2 [u|x]] eqn:Sh; [|discriminate E].
    cbn [app] in E. destruct (joints t) as [|j0 js] eqn:Js; [discriminate E|]. cbn [map gen_finish] in E.
    injection E as <- <-.
    pose proof (proj1 (marks_bodies e sc h J nm) _ _ _ _ _ Mk) as Bo.
    pose proof (proj1 (marks_branches e sc h J nm) _ _ _ _ _ Mk) as [Br1 Br2].
    pose proof (proj1 (marks_order e sc h J nm) _ _ _ _ _ Mk) as [Or _].
    pose proof (proj1 (marks_mounted e sc h J nm) _ _ _ _ _ Mk R0 (le_n 1)) as Mo.
    assert (At : forall j, In j (joints t) -> attached h j) by (intros j Ij; apply (rep_attached e h t); assumption).
    destruct (proj1 (marks_lines e sc h J nm) _ _ _ _ _ Mk At) as [Li Le].
    pose proof (tree_children e h t R0) as Ch. rewrite <- Bo in Ch.
    destruct (all_shapes_lines _ _ _ Sh) as [S1 S2].
    rewrite Js in Li, Le, Mo, Ch.
    set (A := (Spec_Tree.root t, (1, 1)%nat) :: a).
    assert (EA : map fst A = bodies t) by (unfold A; cbn [map fst]; rewrite Bo; destruct t; reflexivity).
    destruct (num_exists A) as [num Hn]; [rewrite EA; exact Nd|].
    assert (Hr : num (Spec_Tree.root t) = (1, 1)%nat) by (apply Hn; left; reflexivity).
    assert (Hm : map num (bodies t) = map snd A).
    { rewrite <- EA, map_map. apply map_ext_in. intros [b i] Hi. exact (Hn b i Hi). }
    match goal with |- context [body_lines ?x] => set (ls := x) end.
    assert (Lb : body_lines ls = line e sc h J nm root 1 1 :: body_lines l).
    { unfold ls. cbn [app]. change (body_lines (line e sc h J nm root 1 1 :: l ++ l2 ++ [MState (gposH (J root)) (qlist (J j0) ++ flat_map qlist (map J js)) ((skipn 3 (vlist (J root)) ++ firstn 3 (vlist (J root))) ++ vlist (J j0) ++ flat_map vlist (map J js))]) = line e sc h J nm root 1 1 :: body_lines l).
      rewrite body_lines_cons; [|unfold attached; rewrite F; discriminate].
      rewrite !body_lines_app, S1. cbn [body_lines filter is_body app]. rewrite app_nil_r. reflexivity. }
    assert (Lr : branch_lines ls = (1, (0, 0))%nat :: branch_lines l).
    { unfold ls. cbn [app].
      match goal with |- branch_lines (_ :: _ :: ?k) = _ => change (branch_lines (MTree name :: MBranch 1 (0, 0)%nat :: k)) with ((1, (0, 0))%nat :: branch_lines k) end.
      f_equal. rewrite branch_lines_cons, !branch_lines_app, S2. cbn [branch_lines flat_map app]. rewrite app_nil_r. reflexivity. }
    exists num. rewrite Lb, Hm, Lr. cbn [map fst].
    split; [constructor; [|apply (describes_all num l a (j0 :: js)); auto; intros x Hx; destruct x as [b i]; apply Hn; right; exact Hx]|].
    { exists f0, f1, (flip (b_mass sc (frame_body e f1))). split; [exact F|]. split; [apply flip_inertia|].
      unfold line. rewrite F, B1, Hr. reflexivity. }
    split; [split; [exact Hr|right; split; [reflexivity|rewrite Lr; left; reflexivity]]|].
    split.
    { intros j g0 g1 Ij G. destruct (Mo j Ij g0 g1 G) as (ic & ip & I1 & I2 & M0).
      rewrite (Hn _ ic (or_intror I1)), (Hn _ ip I2). apply (mounted_incl l); [|exact M0]. intros x Hx. rewrite Lr. right. exact Hx. }
    split; [exact Or|]. split.
    { rewrite Br2. cbn [fst]. change (NoDup (seq 1 (S (br' - 1)))). apply seq_NoDup. }
    split.
    { intros Ta Pl. unfold gen_all_shapes in Sh. destruct (gen_shapes _ _ _ _ _ _ _ _) as [l3 [u3|x]] eqn:E3; [|discriminate Sh].
      assert (EQ : rev (named nm a) ++ [(body_name nm (Spec_Tree.root t), (1, 1)%nat)] = rev (named nm A)) by reflexivity.
      rewrite EQ in E3. edestruct (shapes_shown num A _ _ Ta) with (before := @nil nat) as [H1 H2]; [| | | | |exact E3|].
      - intros x Hx. apply in_or_app. right. exact Hx.
      - intros b i Hbi. split; [|exact (Hn b i Hbi)]. apply in_or_app. left. rewrite <- EA. apply in_map_iff. exists (b, i). split; [reflexivity|exact Hbi].
      - intros s Hs. apply in_map_iff. exists s. split; [reflexivity|exact Hs].
      - exact Pl.
      - reflexivity.
      - injection Sh as <- _. replace (shape_lines ls) with l3; [exact H1|].
        unfold ls. cbn [app]. unfold shape_lines. cbn [filter is_shape].
        pose proof (proj1 marks_no_shapes _ _ _ _ _ Mk) as Ns. unfold shape_lines in Ns, H2.
        assert (Nr : is_shape (line e sc h J nm root 1 1) = false) by (unfold line; rewrite F; reflexivity).
        rewrite Nr. clear S1 S2 Lb Lr. subst ls.
        rewrite !filter_app, Ns, H2. cbn [filter is_shape app]. destruct (Nat.eqb _ 0); cbn [filter is_shape]; rewrite ?app_nil_r; reflexivity. }
    assert (Hd : forall j, In j (j0 :: js) -> dof_order (J j) = seq 0 (ndof_of (jt (J j)))).
    { intros j Ij. assert (Hj : hinge (jt (J j))) by (apply Hh; exact Ij). unfold dof_order. destruct Hj as [<-|[<-|[<-|[]]]]; reflexivity. }
    assert (Hfm : forall (f : jstate -> nat -> R) k, (forall j, In j k -> In j (j0 :: js)) ->
      flat_map (fun s => map (f s) (seq 0 (ndof_of (jt s)))) (map J k) = flat_map (fun j => map (f (J j)) (dof_order (J j))) k).
    { intros f k. induction k as [|j k IHk]; intros Sub; [reflexivity|]. cbn [map flat_map].
      rewrite (Hd j (Sub j (or_introl eq_refl))), IHk; [reflexivity|]. intros j' Hj'. apply Sub. right. exact Hj'. }
    assert (HQ : qlist (J j0) ++ flat_map qlist (map J js) = flat_map (fun j => map (gpos (J j)) (dof_order (J j))) (j0 :: js)) by exact (Hfm gpos (j0 :: js) (fun j Hj => Hj)).
    assert (HV : vlist (J j0) ++ flat_map vlist (map J js) = flat_map (fun j => map (gvel (J j)) (dof_order (J j))) (j0 :: js)) by exact (Hfm gvel (j0 :: js) (fun j Hj => Hj)).
    assert (HR : skipn 3 (vlist (J root)) ++ firstn 3 (vlist (J root)) = map (gvel (J root)) (dof_order (J root))).
    { unfold vlist, dof_order. rewrite Tr. reflexivity. }
    transitivity (MState (gposH (J root)) (qlist (J j0) ++ flat_map qlist (map J js)) ((skipn 3 (vlist (J root)) ++ firstn 3 (vlist (J root))) ++ vlist (J j0) ++ flat_map vlist (map J js))).
    { unfold ls. cbn [app]. rewrite !app_assoc. rewrite app_comm_cons, app_comm_cons, app_comm_cons. rewrite last_last. reflexivity. }
    rewrite HQ, HV, HR. reflexivity.
  Qed.
End P.
Print Assumptions C91_robot.
