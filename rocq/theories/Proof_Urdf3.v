(** Loading a URDF robot: names, the resulting tree, registrations. *)
From Coq Require Import Lra Lia Permutation.
From Verif Require Import Spec_Urdf Spec_Dyn.
From Verif Require Import Proof_Tree Proof_World Proof_World2 Proof_World3 Proof_Register Proof_Dofs Proof_World4 Proof_Robots2 Proof_Urdf Proof_Urdf2.
Open Scope R_scope.

(** ** Names *)
Lemma mem_in x l : mem x l = true <-> In x l.
Proof. unfold mem. rewrite existsb_exists. split; [intros (y & Hy & E); apply String.eqb_eq in E; now subst | intros H; exists x; split; [exact H | apply String.eqb_refl]]. Qed.
Lemma root_skip pm : forall l r, (forall x, In x l -> In x pm) -> root_loop pm l r = Ok r.
Proof. induction l as [ | x l IH]; intros r H; cbn [root_loop]; [reflexivity | ]. rewrite (proj2 (mem_in x pm)) by (apply H; now left). apply IH. intros; apply H; now right. Qed.
Lemma root_one pm r : ~ In r pm -> forall l, NoDup l -> In r l -> (forall x, In x l -> x <> r -> In x pm) -> root_loop pm l None = Ok (Some r).
Proof.
  intros Nr. induction l as [ | x l IH]; intros ND Ir Hx; [destruct Ir | ]. apply NoDup_cons_iff in ND. destruct ND as (N1 & N2). cbn [root_loop]. destruct (string_dec x r) as [-> | D].
  - destruct (mem r pm) eqn:E; [apply mem_in in E; now destruct Nr | ]. apply root_skip. intros y Hy. apply Hx; [now right | intros ->; auto].
  - rewrite (proj2 (mem_in x pm)) by (apply Hx; [now left | exact D]). apply IH; [exact N2 | now destruct Ir | intros; apply Hx; [now right | assumption]].
Qed.
Lemma get_root_ok rb r : tree_robot rb -> root_name rb r -> get_root rb = Ok r.
Proof.
  intros T (R1 & R2 & R3). unfold get_root. rewrite (root_one _ r); [reflexivity | | apply T | exact R1 | ].
  - intros H. apply in_map_iff in H. destruct H as ((c & (n & p)) & <- & H). apply (tr_map rb T) in H. destruct H as (j & Hj & E & _). exact (R2 n j Hj E).
  - intros x Hx D. destruct (R3 x Hx D) as (n & j & Hj & <-). apply in_map_iff. exists (uj_child j, (n, uj_parent j)). split; [reflexivity | ]. apply (tr_map rb T). eauto.
Qed.

(** ** The tree after new links *)
Section T.
  Variables (e : env) (g0 : nat -> nat -> R).
  Notation heap := (@heap R).
  Notation reachable := (reachable 0 e g0).
  Lemma below_snoc (h : heap) x y j f0 f1 : below e h x y -> In j (childrenjoints h y) -> jframes h j = Some (f0, f1) -> below e h x (frame_body e f1).
  Proof. induction 1 as [x | x i k0 k1 y Ii Ei B IH]; intros Ij Ef; [econstructor; eauto; constructor | econstructor; eauto]. Qed.
  Lemma joints_children (h : heap) t j : rep e h t -> (In j (joints t) <-> exists b, In b (bodies t) /\ In j (childrenjoints h b)).
  Proof.
    intros Rt. split.
    - intros Ij. destruct (subtree_joint t j Ij) as (b & ks & s & Sb & Ik). assert (Rb := subtree_rep e h _ _ Sb Rt). exists b. split.
      + clear - Sb. remember (Node b ks) as u eqn:Eu. induction Sb as [ | ]; subst; rewrite bodies_eq; [now left | ]. right. apply in_flat_map. eexists. split; [eassumption | ]. auto.
      + apply rep_inv in Rb. destruct Rb as (-> & _). exact (in_map fst _ _ Ik).
    - intros (b & Ib & Ij). revert Ib. induction t as [b' ks IH] using tree_rect_in. apply rep_inv in Rt. destruct Rt as (Rc & Rk). rewrite bodies_eq. intros [<- | Ib].
      + rewrite Rc in Ij. apply in_map_iff in Ij. destruct Ij as ((j', s) & <- & Is). apply in_joints. exists j', s. auto.
      + apply in_flat_map in Ib. destruct Ib as ((j', s) & Is & Ib). apply in_joints. exists j', s. split; [exact Is | ]. right. apply (IH j' s Is); [ | exact Ib]. apply (Rk j' s Is).
  Qed.
  (** new bodies [Nw] hang from the ground, by links leaving the ground or new bodies *)
  Lemma tree_after (h0 h : heap) Lk (Nw : nat -> Prop) t t' : linked_all e h0 Lk h -> (forall b, Nw b -> childrenjoints h0 b = [] /\ b <> ground e) ->
    (forall l, In l Lk -> Nw (l_to e l) /\ (Nw (l_from e l) \/ l_from e l = ground e) /\ jframes h0 (l_joint l) = None) ->
    (exists rk : nat -> nat, forall b, Nw b -> exists l, In l Lk /\ l_to e l = b /\ (l_from e l = ground e \/ (Nw (l_from e l) /\ (rk (l_from e l) < rk b)%nat))) ->
    rep e h0 t -> root t = ground e -> rep e h t' -> root t' = ground e ->
    (forall b, In b (bodies t') <-> In b (bodies t) \/ Nw b) /\ (forall j, In j (joints t') <-> In j (joints t) \/ exists l, In l Lk /\ l_joint l = j).
  Proof.
    intros LA Nn Hl (rk & Hr) Rt Et Rt' Et'.
    assert (Old : forall j b, In j (childrenjoints h0 b) -> In b (bodies t) -> exists f0 f1, jframes h0 j = Some (f0, f1) /\ jframes h j = Some (f0, f1) /\ In (frame_body e f1) (bodies t)).
    { intros j b Ij Ib. assert (J : In j (joints t)) by (apply (joints_children h0 t j Rt); eauto). destruct (rep_joint_edge e h0 t j Rt J) as (p & c & ((f0 & f1 & Ef & Eb & Ec) & _) & _ & Ic). exists f0, f1. split; [exact Ef | ].
      split; [rewrite (la_f' _ _ _ _ LA); [exact Ef | intros l Il <-; destruct (Hl l Il) as (_ & _ & Q); congruence] | ]. rewrite Ec. rewrite bodies_tail. now right. }
    assert (Gr : In (ground e) (bodies t)) by (rewrite <- Et, bodies_tail; now left).
    assert (F1 : forall x y, below e h x y -> In x (bodies t) \/ Nw x -> In y (bodies t) \/ Nw y).
    { induction 1 as [x | x j f0 f1 y Ij Ef B IH]; intros Hx; [exact Hx | ]. apply IH. rewrite (la_c _ _ _ _ LA) in Ij. apply in_app_or in Ij. destruct Ij as [Ij | Ij].
      - destruct Hx as [Hx | Hx]; [ | rewrite (proj1 (Nn x Hx)) in Ij; destruct Ij]. destruct (Old j x Ij Hx) as (k0 & k1 & _ & E & I1). rewrite E in Ef. injection Ef as <- <-. now left.
      - apply in_map_iff in Ij. destruct Ij as (l & <- & Il). apply filter_In in Il. destruct Il as (Il & _). rewrite (la_f _ _ _ _ LA l Il) in Ef. injection Ef as <- <-. right. apply (Hl l Il). }
    assert (F2 : forall x y, below e h0 x y -> In x (bodies t) -> below e h x y).
    { induction 1 as [x | x j f0 f1 y Ij Ef B IH]; intros Hx; [constructor | ]. destruct (Old j x Ij Hx) as (k0 & k1 & E0 & E1 & I1). rewrite E0 in Ef. injection Ef as <- <-. econstructor; [ | exact E1 | auto]. rewrite (la_c _ _ _ _ LA). apply in_or_app. now left. }
    assert (F3 : forall n b, Nw b -> (rk b < n)%nat -> below e h (ground e) b).
    { induction n as [ | n IH]; intros b Nb Rb; [lia | ]. destruct (Hr b Nb) as (l & Il & <- & Lf). assert (B : below e h (ground e) (l_from e l)) by (destruct Lf as [-> | (A & C)]; [constructor | apply IH; [exact A | lia]]).
      apply (below_snoc h _ _ (l_joint l) (fst (fst l)) (snd l) B); [ | apply (la_f _ _ _ _ LA l Il)]. rewrite (la_c _ _ _ _ LA). apply in_or_app. right. apply in_map. apply filter_In. split; [exact Il | apply Nat.eqb_refl]. }
    assert (Bd : forall b, In b (bodies t') <-> In b (bodies t) \/ Nw b).
    { intros b. rewrite <- (below_rep e h t' b Rt'), Et'. split; [intros B; apply (F1 _ _ B); now left | ]. intros [Ib | Nb]; [ | apply (F3 (S (rk b)) b Nb); lia]. apply F2; [ | exact Gr]. rewrite <- Et. now apply below_rep. }
    split; [exact Bd | ]. intros j. rewrite (joints_children h t' j Rt'), (joints_children h0 t j Rt). split.
    - intros (b & Ib & Ij). apply Bd in Ib. rewrite (la_c _ _ _ _ LA) in Ij. apply in_app_or in Ij. destruct Ij as [Ij | Ij].
      + destruct Ib as [Ib | Nb]; [left; eauto | rewrite (proj1 (Nn b Nb)) in Ij; destruct Ij].
      + apply in_map_iff in Ij. destruct Ij as (l & <- & Il). apply filter_In in Il. right. exists l. split; [apply Il | reflexivity].
    - intros [(b & Ib & Ij) | (l & Il & <-)].
      + exists b. split; [apply Bd; now left | ]. rewrite (la_c _ _ _ _ LA). apply in_or_app. now left.
      + exists (l_from e l). split; [apply Bd; destruct (Hl l Il) as (_ & [Q | ->] & _); auto | ]. rewrite (la_c _ _ _ _ LA). apply in_or_app. right. apply in_map. apply filter_In. split; [exact Il | apply Nat.eqb_refl].
  Qed.
End T.

(** ** Registrations *)
Section G.
  Variables (e : env) (g0 : nat -> nat -> R) (eigvals : m6 -> list R) (argsort : v3 -> nat * nat * nat) (I : uids) (o : options).
  Notation heap := (@heap R).
  Lemma ureg_le (h h' : heap) x : reg_le h h' -> uregistered h x -> uregistered h' x.
  Proof. intros (_ & (l1 & E1) & (l2 & E2) & _). destruct x; cbn [uregistered]; auto; rewrite ?E1, ?E2; intros; apply in_or_app; now left. Qed.
  Lemma register_shape_in s (h : heap) : In s (w_shapes (fst (register e (OShape s) h))).
  Proof.
    cbn [register fst]. assert (X : In s (add_once Nat.eqb s (w_shapes h))). { unfold add_once. destruct (existsb (Nat.eqb s) (w_shapes h)) eqn:E; [apply existsb_exists in E; destruct E as (x & Hx & Q); apply Nat.eqb_eq in Q; now subst | apply in_or_app; right; now left]. }
    destruct (shape_frame e s); cbn; exact X.
  Qed.
  Lemma register_con_in c (h : heap) : In c (w_constraints (fst (register e (OConstraint c) h))).
  Proof.
    cbn [register]. destruct (existsb (Nat.eqb c) (w_constraints h)) eqn:E; [apply existsb_exists in E; destruct E as (x & Hx & Q); apply Nat.eqb_eq in Q; now subst | ]. cbn [fst].
    assert (X : forall l (h : heap), w_constraints (fold_left (fun acc f => register_frame f acc) l h) = w_constraints h) by (induction l as [ | f l IH]; intros h'; cbn [fold_left]; [reflexivity | rewrite IH; destruct f; reflexivity]).
    rewrite X. cbn. apply in_or_app. right. now left.
  Qed.
  Lemma link_step_reg i l (h : heap) h1 c r : reg_inv e h -> link_step e eigvals I i l h = (h1, c, r) -> reg_inv e h1 /\ reg_le h h1 /\ (r = Ok tt -> forall x, In x c -> uregistered h1 x).
  Proof.
    intros Ri E. assert (R0 : reg_inv e h /\ reg_le h h) by (split; [exact Ri | apply reg_le_refl]). unfold link_step in E. destruct (to_mass eigvals (ul_inertial l)) as [M | y]; [ | injection E as <- <- <-; repeat split; try apply R0; discriminate].
    assert (Tr : (h, [UBody (ub I i) M], Ok tt) = (h1, c, r) -> reg_inv e h1 /\ reg_le h h1 /\ (r = Ok tt -> forall x, In x c -> uregistered h1 x)).
    { intros Q. injection Q as <- <- <-. split; [apply R0 | ]. split; [apply R0 | ]. intros _ x [<- | []]. exact Logic.I. }
    assert (Rg : forall s f g, (let (h2, r2) := register e (OShape s) h in (h2, [UBody (ub I i) M] ++ [USub (ucf I i) (ub I i) f; UShape s (FSub (ucf I i)) g], r2)) = (h1, c, r) -> reg_inv e h1 /\ reg_le h h1 /\ (r = Ok tt -> forall x, In x c -> uregistered h1 x)).
    { intros s f g Q. assert (X := register_inv e (OShape s) h Ri). assert (Y := register_shape_in s h). destruct (register e (OShape s) h) as (h2, r2). cbn [fst] in *. injection Q as <- <- <-. split; [apply X | ]. split; [apply X | ].
      intros _ x [<- | [<- | [<- | []]]]; cbn [uregistered]; auto. }
    destruct (ul_collision l) as [(g, p) | ]; [ | now apply Tr]. destruct g as [[ | ] | | | | ]; [injection E as <- <- <-; repeat split; try apply R0; discriminate | ..];
    (destruct (to_pose p) as [H | y]; [ | injection E as <- <- <-; repeat split; try apply R0; discriminate]); [now apply Tr | injection E as <- <- <-; repeat split; try apply R0; discriminate | ..]; (destruct (subframe H) as [H' | y]; [now apply Rg in E | injection E as <- <- <-; repeat split; try apply R0; discriminate]).
  Qed.
  Lemma link_loop_reg : forall l i d (h : heap) cr h1 cr1 r, reg_inv e h -> (forall x, In x cr -> uregistered h x) -> link_loop e eigvals I o i l d h cr = (h1, cr1, Ok r) -> reg_inv e h1 /\ reg_le h h1 /\ forall x, In x cr1 -> uregistered h1 x.
  Proof.
    induction l as [ | (n, x) l IH]; intros i d h cr h1 cr1 r Ri Hc E; cbn [link_loop] in E; [injection E as <- <- <-; split; [exact Ri | split; [apply reg_le_refl | exact Hc]] | ].
    destruct (link_step e eigvals I i x h) as ((h2, c), [u | y]) eqn:Es; [ | discriminate]. destruct u. destruct (link_step_reg i x h h2 c (Ok tt) Ri Es) as (R2 & L2 & C2).
    assert (Hc2 : forall y, In y (cr ++ c) -> uregistered h2 y) by (intros y Hy; apply in_app_or in Hy; destruct Hy as [Hy | Hy]; [eapply ureg_le; eauto | auto]).
    destruct (IH _ _ h2 _ h1 cr1 r R2 Hc2 E) as (A & B & C). split; [exact A | ]. split; [eapply reg_le_trans; eauto | exact C].
  Qed.
  Lemma frames_reg k p c H Z f0 f1 c1 (h : heap) : joint_frames I k p c H Z = Ok (f0, f1, c1) -> forall x, In x c1 -> uregistered h x.
  Proof.
    unfold joint_frames. destruct Z as [Z | ].
    - destruct (subframe (mm4 H Z)); [ | discriminate]. cbn [rbind]. destruct (subframe Z); [ | discriminate]. cbn [rbind]. intros Q. apply Props_Draw.Ok_inj in Q. injection Q as _ _ <-. intros x [<- | [<- | []]]; exact Logic.I.
    - destruct (subframe H); [ | discriminate]. cbn [rbind]. intros Q. apply Props_Draw.Ok_inj in Q. injection Q as _ _ <-. intros x [<- | []]; exact Logic.I.
  Qed.
  Lemma add_link3_reg f0 j f1 (h h1 : heap) u : reg_inv e h -> add_link e [OFrame f0; OJoint j; OFrame f1] h = (h1, Ok u) -> reg_inv e h1 /\ reg_le h h1.
  Proof.
    intros Ri E. rewrite add_link_step in E. destruct (jframes h j); [discriminate | ]. cbn [length Nat.modulo] in E. destruct (Nat.eqb _ _); [ | discriminate]. destruct (parentjoint h (frame_body e f1)); [discriminate | ].
    injection E as <- _. destruct (do_link_reg e h (f0, j, f1) Ri) as (A & B & _). auto.
  Qed.
  Lemma limits_reg k j (h h1 : heap) c u : reg_inv e h -> limits_step e I o k j h = (h1, c, Ok u) -> reg_inv e h1 /\ reg_le h h1 /\ forall x, In x c -> uregistered h1 x.
  Proof.
    intros Ri E. assert (Tr : (h, @nil ucreated, @Ok unit tt) = (h1, c, Ok u) -> reg_inv e h1 /\ reg_le h h1 /\ forall x, In x c -> uregistered h1 x) by (intros Q; injection Q as <- <- <-; split; [exact Ri | split; [apply reg_le_refl | intros ? []]]).
    unfold limits_step in E. destruct (o_save_limits o); [ | now apply Tr]. destruct (uj_kind j); try (now apply Tr);
    (destruct (uj_limits j) as [([lo | ], [up | ]) | ]; [ | now apply Tr | now apply Tr | now apply Tr | discriminate]); assert (X := register_inv e (OConstraint (ulim I k)) h Ri); assert (Y := register_con_in (ulim I k) h);
      destruct (register e (OConstraint (ulim I k)) h) as (h2, r2); cbn [fst] in *; injection E as <- <- ->; (split; [apply X | ]; split; [apply X | ]; intros x [<- | []]; exact Y).
  Qed.
  Lemma joint_step_reg d k j (h h1 : heap) c u : reg_inv e h -> joint_step e argsort I o d k j h = (h1, c, Ok u) -> reg_inv e h1 /\ reg_le h h1 /\ forall x, In x c -> uregistered h1 x.
  Proof.
    intros Ri E. unfold joint_step in E. destruct (to_joint argsort j) as [((ty, H), Z) | ]; cbn [rbind] in E; [ | discriminate]. destruct (lookup (uj_parent j) d) as [p | ]; cbn [rbind] in E; [ | discriminate]. destruct (lookup (uj_child j) d) as [b | ]; cbn [rbind] in E; [ | discriminate].
    destruct (joint_frames I k p b H Z) as [((f0, f1), c1) | ] eqn:Ef; cbn [rbind] in E; [ | discriminate]. destruct (add_link e _ h) as (h2, [v | ]) eqn:El; [ | discriminate]. destruct (add_link3_reg _ _ _ _ _ _ Ri El) as (R2 & L2).
    destruct (limits_step e I o k j h2) as ((h3, c3), r3) eqn:Es. injection E as <- <- ->. destruct (limits_reg k j h2 h3 c3 u R2 Es) as (R3 & L3 & C3). split; [exact R3 | ]. split; [eapply reg_le_trans; eauto | ].
    intros x Hx. apply in_app_or in Hx. destruct Hx as [Hx | Hx]; [ | auto]. apply in_app_or in Hx. destruct Hx as [Hx | [<- | []]]; [ | exact Logic.I]. exact (frames_reg _ _ _ _ _ _ _ _ h3 Ef x Hx).
  Qed.
  Lemma joint_loop_reg d : forall l k (h : heap) cr h1 cr1 r, reg_inv e h -> (forall x, In x cr -> uregistered h x) -> joint_loop e argsort I o d k l h cr = (h1, cr1, Ok r) -> reg_inv e h1 /\ reg_le h h1 /\ forall x, In x cr1 -> uregistered h1 x.
  Proof.
    induction l as [ | (n, x) l IH]; intros k h cr h1 cr1 r Ri Hc E; cbn [joint_loop] in E; [injection E as <- <- <-; split; [exact Ri | split; [apply reg_le_refl | exact Hc]] | ].
    destruct (joint_step e argsort I o d k x h) as ((h2, c), [u | y]) eqn:Es; [ | discriminate]. destruct (joint_step_reg d k x h h2 c u Ri Es) as (R2 & L2 & C2).
    assert (Hc2 : forall y, In y (cr ++ c) -> uregistered h2 y) by (intros y Hy; apply in_app_or in Hy; destruct Hy as [Hy | Hy]; [eapply ureg_le; eauto | auto]).
    destruct (IH _ h2 _ h1 cr1 r R2 Hc2 E) as (A & B & C). split; [exact A | ]. split; [eapply reg_le_trans; eauto | exact C].
  Qed.
  Lemma root_step_reg fuel rb d (h h1 : heap) c u : reg_inv e h -> root_step e fuel I o rb d h = (h1, c, Ok u) -> reg_le h h1 /\ forall x, In x c -> uregistered h1 x.
  Proof.
    intros Ri E. unfold root_step in E. destruct (get_root rb) as [r | ]; cbn [rbind] in E; [ | discriminate]. destruct (lookup r d) as [b | ]; cbn [rbind] in E; [ | discriminate].
    assert (X : forall f c1, (forall x, In x c1 -> uregistered h1 x) -> match add_link e [OFrame f; OJoint (uroot I); OFrame (FBody b)] h with
        | (h2, Ok _) => let (h3, r) := init 0 e fuel h2 in (h3, c1 ++ [UJnt (uroot I) (if o_fixed_base o then FixedJoint else FreeJoint)], r)
        | (h2, Err x) => (h2, c1 ++ [UJnt (uroot I) (if o_fixed_base o then FixedJoint else FreeJoint)], Err x) end = (h1, c, Ok u) -> reg_le h h1 /\ forall x, In x c -> uregistered h1 x).
    { intros f c1 Hc Q. destruct (add_link e _ h) as (h2, [v | ]) eqn:El; [ | discriminate]. destruct (add_link3_reg _ _ _ _ _ _ Ri El) as (R2 & L2). assert (Y := init_reg 0 e fuel h2). destruct (init 0 e fuel h2) as (h3, r3). cbn [fst] in Y. injection Q as <- <- ->.
      split; [eapply reg_le_trans; [exact L2 | now apply same_reg_le] | ]. intros x Hx. apply in_app_or in Hx. destruct Hx as [Hx | [<- | []]]; [auto | exact Logic.I]. }
    destruct (o_H_init o) as [H | ]; cbn [rbind] in E.
    - destruct (subframe H) as [H' | ]; cbn [rbind] in E; [ | discriminate]. apply X in E; [exact E | ]. intros x [<- | []]. exact Logic.I.
    - apply X in E; [exact E | intros ? []].
  Qed.
  Lemma load_reg fuel rb (h h1 : heap) cr u : reg_inv e h -> load_in_world e eigvals argsort fuel I o (Some rb) h = (h1, cr, Ok u) -> reg_le h h1 /\ forall x, In x cr -> uregistered h1 x.
  Proof.
    intros Ri E. unfold load_in_world in E. destruct (link_loop e eigvals I o 0 (r_links rb) [] h []) as ((h2, c2), [d | ]) eqn:E1; [ | discriminate]. destruct (link_loop_reg _ _ _ _ _ _ _ _ Ri (fun x (F : In x []) => match F with end) E1) as (R2 & L2 & C2).
    destruct (joint_loop e argsort I o d 0 (r_joints rb) h2 c2) as ((h3, c3), [v | ]) eqn:E2; [ | discriminate]. destruct (joint_loop_reg d _ _ _ _ _ _ _ R2 C2 E2) as (R3 & L3 & C3).
    destruct (root_step e fuel I o rb d h3) as ((h4, c4), r4) eqn:E3. injection E as <- <- ->. destruct (root_step_reg fuel rb d h3 h4 c4 u R3 E3) as (L4 & C4).
    split; [eapply reg_le_trans; [exact L2 | eapply reg_le_trans; eauto] | ]. intros x Hx. apply in_app_or in Hx. destruct Hx as [Hx | Hx]; [eapply ureg_le; eauto | auto].
  Qed.
End G.
