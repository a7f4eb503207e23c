(** Loading a URDF robot: the loops. *)
From Coq Require Import Lra Lia.
From Verif Require Import Spec_Urdf.
From Verif Require Import Proof_Tree Proof_World Proof_World2 Proof_World3 Proof_Register Proof_Dofs Proof_World4 Proof_Robots2 Proof_Urdf.
Open Scope R_scope.

(** ** Several links *)
Section L.
  Variables (e : env) (g0 : nat -> nat -> R).
  Notation heap := (@heap R).
  Notation reachable := (reachable 0 e g0).

  Record linked_all (h0 : heap) (Lk : list link) (h : heap) : Prop := {
    la_c : forall b, childrenjoints h b = childrenjoints h0 b ++ map l_joint (filter (fun l => Nat.eqb (l_from e l) b) Lk);
    la_p : forall l, In l Lk -> parentjoint h (l_to e l) = Some (l_joint l);
    la_p' : forall b, (forall l, In l Lk -> l_to e l <> b) -> parentjoint h b = parentjoint h0 b;
    la_f : forall l, In l Lk -> jframes h (l_joint l) = Some (fst (fst l), snd l);
    la_f' : forall j, (forall l, In l Lk -> l_joint l <> j) -> jframes h j = jframes h0 j;
    la_v : forall j, joint_gvel h j = joint_gvel h0 j }.
  Lemma linked_all_nil h0 h : same_graph h0 h -> (forall j, joint_gvel h j = joint_gvel h0 j) -> linked_all h0 [] h.
  Proof. intros (A & B & C) V. constructor; cbn; intros; try tauto; auto. now rewrite app_nil_r. Qed.
  Lemma linked_all_same h0 Lk h h1 : linked_all h0 Lk h -> same_graph h h1 -> (forall j, joint_gvel h1 j = joint_gvel h j) -> linked_all h0 Lk h1.
  Proof. intros [C P P' F F' V] (A & B & D) W. constructor; intros; rewrite ?A, ?B, ?D, ?W; auto. Qed.
  Lemma linked_all_step h0 Lk h l h1 : linked_all h0 Lk h -> linked e h l h1 -> (forall j, joint_gvel h1 j = joint_gvel h j) ->
    (forall l', In l' Lk -> l_to e l' <> l_to e l) -> (forall l', In l' Lk -> l_joint l' <> l_joint l) -> linked_all h0 (Lk ++ [l]) h1.
  Proof.
    intros [C P P' F F' V] (L1 & L2 & L3) W Nt Nj. constructor.
    - intros b. rewrite L1, C, filter_app, map_app, <- app_assoc. f_equal. f_equal. cbn [filter]. rewrite Nat.eqb_sym. destruct (Nat.eqb (l_from e l) b); reflexivity.
    - intros l' Hl. rewrite L2. apply in_app_or in Hl. destruct Hl as [Hl | [<- | []]]; [ | now rewrite Nat.eqb_refl]. destruct (Nat.eqb_spec (l_to e l') (l_to e l)) as [E | ]; [destruct (Nt _ Hl E) | auto].
    - intros b Hb. rewrite L2. destruct (Nat.eqb_spec b (l_to e l)) as [E | ]; [destruct (Hb l); [apply in_or_app; right; now left | auto] | ]. apply P'. intros l' Hl. apply Hb. apply in_or_app. now left.
    - intros l' Hl. rewrite L3. apply in_app_or in Hl. destruct Hl as [Hl | [<- | []]]; [ | now rewrite Nat.eqb_refl]. destruct (Nat.eqb_spec (l_joint l') (l_joint l)) as [E | ]; [destruct (Nj _ Hl E) | auto].
    - intros b Hb. rewrite L3. destruct (Nat.eqb_spec b (l_joint l)) as [E | ]; [destruct (Hb l); [apply in_or_app; right; now left | auto] | ]. apply F'. intros l' Hl. apply Hb. apply in_or_app. now left.
    - intros j. now rewrite W, V.
  Qed.
  (** below a new body there are only new bodies, of larger rank *)
  Lemma below_new h0 Lk h (Nw : nat -> Prop) (rk : nat -> nat) : linked_all h0 Lk h -> (forall b, Nw b -> childrenjoints h0 b = []) ->
    (forall l, In l Lk -> Nw (l_to e l) /\ (Nw (l_from e l) -> (rk (l_from e l) < rk (l_to e l))%nat)) -> forall x y, below e h x y -> Nw x -> Nw y /\ (rk x <= rk y)%nat.
  Proof.
    intros LA Nc Hl x y B. induction B as [x | x j f0 f1 y Ij Ef B IH]; intros Nx; [auto | ].
    rewrite (la_c _ _ _ LA), (Nc x Nx) in Ij. apply in_map_iff in Ij. destruct Ij as (l & <- & Il). apply filter_In in Il. destruct Il as (Il & Q). apply Nat.eqb_eq in Q.
    rewrite (la_f _ _ _ LA l Il) in Ef. injection Ef as E0 E1. destruct (Hl l Il) as (Nt & Rk). assert (Et : l_to e l = frame_body e f1) by (unfold l_to; now rewrite E1). rewrite Et in Nt, Rk. rewrite Q in Rk. specialize (Rk Nx). destruct (IH Nt) as (A & C). split; [exact A | lia].
  Qed.
End L.

(** ** The dict of the bodies *)
Section D.
  Variables (I : uids) (o : options).
  Fixpoint dict_of (i : nat) (l : list (string * ulink)) (d : list (string * nat)) : list (string * nat) :=
    match l with [] => d | (n, _) :: l' => dict_of (S i) l' ((decorate o n, ub I i) :: d) end.
  Lemma lookup_inv x b : forall l i d, lookup x (dict_of i l d) = Ok b -> (exists m n u, nth_error l m = Some (n, u) /\ x = decorate o n /\ b = ub I (i + m)) \/ lookup x d = Ok b.
  Proof.
    induction l as [ | (n, u) l IH]; intros i d; cbn [dict_of]; [auto | ]. intros H. apply IH in H. destruct H as [(m & n' & u' & E & -> & ->) | H].
    - left. exists (S m), n', u'. split; [exact E | ]. split; [reflexivity | ]. f_equal. lia.
    - cbn [lookup] in H. destruct (String.eqb_spec x (decorate o n)) as [-> | ]; [ | auto]. injection H as <-. left. exists 0%nat, n, u. split; [reflexivity | ]. split; [reflexivity | ]. f_equal. lia.
  Qed.
  Lemma lookup_mono x b : forall l i d, (forall n u, In (n, u) l -> decorate o n <> x) -> lookup x d = Ok b -> lookup x (dict_of i l d) = Ok b.
  Proof.
    induction l as [ | (n, u) l IH]; intros i d Hn Hx; cbn [dict_of]; [exact Hx | ]. apply IH; [intros; eapply Hn; right; eassumption | ]. cbn [lookup]. destruct (String.eqb_spec x (decorate o n)) as [E | ]; [destruct (Hn n u ltac:(now left)); auto | exact Hx].
  Qed.
  Lemma lookup_some x : forall l i d m n u, NoDup (map (fun y => decorate o (fst y)) l) -> nth_error l m = Some (n, u) -> x = decorate o n -> lookup x (dict_of i l d) = Ok (ub I (i + m)).
  Proof.
    induction l as [ | (n', u') l IH]; intros i d m n u ND E ->; [destruct m; discriminate | ]. cbn [map fst] in ND. apply NoDup_cons_iff in ND. destruct ND as (N1 & N2). destruct m as [ | m]; cbn [nth_error dict_of] in *.
    - injection E as -> ->. rewrite Nat.add_0_r. apply lookup_mono; [ | cbn [lookup]; now rewrite String.eqb_refl]. intros n' u' Hn Q. apply N1. rewrite <- Q. exact (in_map (fun y => decorate o (fst y)) l _ Hn).
    - rewrite <- Nat.add_succ_comm. now apply (IH (S i) _ m n u).
  Qed.
  Lemma lookup_none x : forall l i d, (forall n u, In (n, u) l -> decorate o n <> x) -> lookup x d = Err KeyError -> lookup x (dict_of i l d) = Err KeyError.
  Proof.
    induction l as [ | (n, u) l IH]; intros i d Hn Hx; cbn [dict_of]; [exact Hx | ]. apply IH; [intros; eapply Hn; right; eassumption | ]. cbn [lookup]. destruct (String.eqb_spec x (decorate o n)) as [E | ]; [destruct (Hn n u ltac:(now left)); auto | exact Hx].
  Qed.
  Lemma lookup_err x y : forall d, lookup x d = Err y -> y = KeyError.
  Proof. induction d as [ | (m, b) d IH]; cbn [lookup]; [congruence | ]. destruct (String.eqb x m); [discriminate | exact IH]. Qed.
End D.

Section S.
  Variables (e : env) (g0 : nat -> nat -> R) (eigvals : m6 -> list R) (argsort : v3 -> nat * nat * nat) (I : uids) (o : options).
  Hypothesis Ev : eigs_ok eigvals.
  Hypothesis Ha : argsort_ok argsort.
  Notation heap := (@heap R).
  Notation reachable := (reachable 0 e g0).

  (** ** Links *)
  Definition link_cr (i : nat) (l : ulink) : list ucreated :=
    UBody (ub I i) (urdf_mass l) ::
    match ul_collision l with
    | None | Some (GMesh _, _) | Some (GNone, _) => []
    | Some (g, p) => [USub (ucf I i) (ub I i) (origin_of p); UShape (ush I i) (FSub (ucf I i)) (match g with GBox d => GBox (vscal (1 / 2) d) | _ => g end)]
    end.
  Lemma register_ok ob (h : heap) : reachable h -> (match ob with OJoint _ | OOther => False | _ => True end) ->
    exists h1, register e ob h = (h1, Ok tt) /\ reachable h1 /\ same_graph h h1 /\ (forall j, joint_gvel h1 j = joint_gvel h j).
  Proof.
    intros R Ok_. assert (E : exists h1, register e ob h = (h1, Ok tt)) by (destruct ob; try (destruct Ok_; fail); cbn [register]; try (eexists; reflexivity); destruct (existsb _ _); eexists; reflexivity).
    destruct E as (h1 & E). exists h1. split; [exact E | ]. split; [assert (X := reach_step 0 e g0 h 0 (Register ob) R Logic.I); cbn [step] in X; now rewrite E in X | ].
    split; [assert (X := register_graph e ob h); now rewrite E in X | ]. assert (X := register_store e ob h). rewrite E in X. cbn [fst] in X. destruct X as (? & ? & ? & ?). intros j. unfold joint_gvel, read. congruence.
  Qed.
  Lemma link_step_ok i l (h : heap) : reachable h -> loadable_link l -> exists h1, link_step e eigvals I i l h = (h1, link_cr i l, Ok tt) /\ reachable h1 /\ same_graph h h1 /\ (forall j, joint_gvel h1 j = joint_gvel h j).
  Proof.
    intros R Ll. unfold link_step, link_cr. rewrite (to_mass_ok eigvals l Ev Ll). destruct Ll as (_ & Lc).
    assert (Tr : exists h1, (h, [UBody (ub I i) (urdf_mass l)], Ok tt) = (h1, [UBody (ub I i) (urdf_mass l)], Ok tt) /\ reachable h1 /\ same_graph h h1 /\ (forall j, joint_gvel h1 j = joint_gvel h j)) by (exists h; repeat split; auto).
    destruct (ul_collision l) as [(g, p) | ]; [ | exact Tr]. destruct Lc as (Lg & Ln & Lc). destruct (to_pose_ok p Lc) as (-> & SH). rewrite (sub_ok _ SH).
    destruct (register_ok (OShape (ush I i)) h R Logic.I) as (h1 & Er & X). destruct g as [[ | ] | | | | ]; try (destruct (Lg eq_refl)); try (destruct (Ln eq_refl)); try exact Tr; rewrite Er; exists h1; split; try reflexivity; exact X.
  Qed.
  Fixpoint links_cr (i : nat) (l : list (string * ulink)) : list ucreated := match l with [] => [] | (_, x) :: l' => link_cr i x ++ links_cr (S i) l' end.
  Lemma link_loop_ok : forall l i d (h : heap) cr, reachable h -> (forall n x, In (n, x) l -> loadable_link x) ->
    exists h1, link_loop e eigvals I o i l d h cr = (h1, cr ++ links_cr i l, Ok (dict_of I o i l d)) /\ reachable h1 /\ same_graph h h1 /\ (forall j, joint_gvel h1 j = joint_gvel h j).
  Proof.
    induction l as [ | (n, x) l IH]; intros i d h cr R Hl; cbn [link_loop links_cr dict_of].
    - exists h. rewrite app_nil_r. repeat split; auto.
    - destruct (link_step_ok i x h R (Hl n x ltac:(now left))) as (h1 & -> & R1 & G1 & V1). destruct (IH (S i) (dict_set (decorate o n) (ub I i) d) h1 (cr ++ link_cr i x) R1 ltac:(intros; eapply Hl; right; eassumption)) as (h2 & -> & R2 & G2 & V2).
      exists h2. split; [now rewrite <- app_assoc | ]. split; [exact R2 | ]. split; [eapply same_graph_trans; eauto | ]. intros j. now rewrite V2, V1.
  Qed.

  (** ** Joints *)
  Definition lim_cr (k : nat) (j : ujoint) : list ucreated :=
    match o_save_limits o, uj_kind j, uj_limits j with
    | true, Revolute, Some (Some lo, Some up) | true, Prismatic, Some (Some lo, Some up) => [ULimits (ulim I k) (uj I k) lo up]
    | _, _, _ => []
    end.
  Definition joint_desc (k p c : nat) (j : ujoint) (f0 f1 : frame) (ty : jtype) (c1 : list ucreated) : Prop :=
    exists Z, to_joint argsort j = Ok (ty, origin_of (uj_origin j), Z) /\ joint_frames I k p c (origin_of (uj_origin j)) Z = Ok (f0, f1, c1).
  Definition joint_cr (k p c : nat) (j : ujoint) : list ucreated :=
    match to_joint argsort j with
    | Ok (ty, H, Z) => match joint_frames I k p c H Z with Ok (_, _, c1) => (c1 ++ [UJnt (uj I k) ty]) ++ lim_cr k j | _ => [] end
    | _ => []
    end.
  Lemma limits_ok k j (h : heap) : loadable_joint j -> exists h1, limits_step e I o k j h = (h1, lim_cr k j, Ok tt) /\ (reachable h -> reachable h1) /\ same_graph h h1 /\ (forall i, joint_gvel h1 i = joint_gvel h i).
  Proof.
    intros (_ & Lj). unfold limits_step, lim_cr. assert (Tr : exists h1, (h, @nil ucreated, Ok tt) = (h1, @nil ucreated, Ok tt) /\ (reachable h -> reachable h1) /\ same_graph h h1 /\ (forall i, joint_gvel h1 i = joint_gvel h i)) by (exists h; repeat split; auto).
    assert (X : exists h1, register e (OConstraint (ulim I k)) h = (h1, Ok tt) /\ (reachable h -> reachable h1) /\ same_graph h h1 /\ (forall i, joint_gvel h1 i = joint_gvel h i)).
    { assert (E : exists h1, register e (OConstraint (ulim I k)) h = (h1, Ok tt)) by (cbn [register]; try (eexists; reflexivity); destruct (existsb _ _); eexists; reflexivity). destruct E as (h1 & E). exists h1. split; [exact E | ].
      split; [intros R; assert (X := reach_step 0 e g0 h 0 (Register (OConstraint (ulim I k))) R Logic.I); cbn [step] in X; now rewrite E in X | ]. split; [assert (X := register_graph e (OConstraint (ulim I k)) h); now rewrite E in X | ].
      assert (X := register_store e (OConstraint (ulim I k)) h). rewrite E in X. cbn [fst] in X. destruct X as (? & ? & ? & ?). intros i. unfold joint_gvel, read. congruence. }
    destruct X as (h1 & Er & X).
    destruct (o_save_limits o); [ | exact Tr]. destruct (uj_kind j); try exact Tr; (destruct (uj_limits j) as [([lo | ], [up | ]) | ]; [ | exact Tr | exact Tr | exact Tr | destruct Lj as (Lj & _); congruence]); rewrite Er; exists h1; split; try reflexivity; exact X.
  Qed.
  Lemma frames_ok k p c j : loadable_joint j -> exists f0 f1 ty c1, joint_desc k p c j f0 f1 ty c1.
  Proof.
    intros Lj. destruct (to_joint_ok argsort j Ha Lj) as (ty & Z & E & SH & _ & SZ & _). destruct Z as [Z | ].
    - do 4 eexists. exists (Some Z). split; [exact E | ]. unfold joint_frames. assert (S1 := SZ Z eq_refl). rewrite (sub_ok Z S1), (sub_ok _ (Proof_Linalg.SE3_mm4 _ _ SH S1)). reflexivity.
    - do 4 eexists. exists None. split; [exact E | ]. unfold joint_frames. rewrite (sub_ok _ SH). reflexivity.
  Qed.
  Lemma desc_cr k p c j f0 f1 ty c1 : joint_desc k p c j f0 f1 ty c1 -> joint_cr k p c j = (c1 ++ [UJnt (uj I k) ty]) ++ lim_cr k j.
  Proof. intros (Z & E & F). unfold joint_cr. now rewrite E, F. Qed.
  Lemma desc_frames k p c j f0 f1 ty c1 (h : heap) : joint_desc k p c j f0 f1 ty c1 -> (forall x, In x c1 -> uknown e h x) -> frame_body e f0 = p /\ frame_body e f1 = c.
  Proof.
    intros (Z & _ & F) Kn. unfold joint_frames in F. destruct Z as [Z | ]; cbn [rbind] in F.
    - destruct (subframe (mm4 _ Z)) as [A | ]; [ | discriminate]. cbn [rbind] in F. destruct (subframe Z) as [B | ]; [ | discriminate]. cbn [rbind] in F. apply Props_Draw.Ok_inj in F. injection F as <- <- <-.
      split; [exact (Kn (USub (upf I k) p A) ltac:(now left)) | exact (Kn (USub (ukf I k) c B) ltac:(right; now left))].
    - destruct (subframe _) as [A | ]; [ | discriminate]. cbn [rbind] in F. apply Props_Draw.Ok_inj in F. injection F as <- <- <-. split; [exact (Kn (USub (upf I k) p A) ltac:(now left)) | reflexivity].
  Qed.
  (** one joint *)
  Lemma joint_step_ok d k j p c f0 f1 ty c1 (h : heap) : loadable_joint j -> lookup (uj_parent j) d = Ok p -> lookup (uj_child j) d = Ok c -> joint_desc k p c j f0 f1 ty c1 ->
    frame_body e f0 = p -> frame_body e f1 = c -> parentjoint h c = None -> jframes h (uj I k) = None ->
    exists h2, joint_step e argsort I o d k j h = (h2, joint_cr k p c j, Ok tt) /\ linked e h (f0, uj I k, f1) h2 /\
      (forall i, joint_gvel h2 i = joint_gvel h i) /\ (reachable h -> ~ below e h c p -> reachable h2).
  Proof.
    intros Lj Ep Ec De Fp Fc Pc Fj. rewrite (desc_cr _ _ _ _ _ _ _ _ De). destruct De as (Z & E & F). unfold joint_step. rewrite E, Ep, Ec. cbn [rbind]. rewrite F. cbn [rbind].
    assert (El : add_link e [OFrame f0; OJoint (uj I k); OFrame f1] h = (do_link e h (f0, uj I k, f1), Ok tt)) by (rewrite add_link_step, Fj; cbn [length Nat.modulo]; rewrite Fc, Pc; reflexivity).
    rewrite El. assert (Lk := do_link_linked e h (f0, uj I k, f1)). assert (St := do_link_store e h (f0, uj I k, f1)).
    assert (Rc : reachable h -> ~ below e h c p -> reachable (do_link e h (f0, uj I k, f1))).
    { intros R Nb. assert (X := reach_step 0 e g0 h 0 (AddLink f0 (uj I k) f1) R). cbn [step admissible] in X. rewrite El in X. apply X. now rewrite Fp, Fc. }
    set (h1 := do_link e h (f0, uj I k, f1)) in *.
    assert (V1 : forall i, joint_gvel h1 i = joint_gvel h i) by (destruct St as (? & ? & ? & ?); intros i; unfold joint_gvel, read; congruence).
    destruct (limits_ok k j h1 Lj) as (h2 & -> & Rl & (G1 & G2 & G3) & V2). exists h2. split; [reflexivity | ]. split; [ | split; [intros i; now rewrite V2 | auto]].
    destruct Lk as (L1 & L2 & L3). split; [ | split]; intros x; rewrite ?G1, ?G2, ?G3; auto.
  Qed.
  Lemma joint_step_err d k j (h : heap) : loadable_joint j -> (exists p c, lookup (uj_parent j) d = Ok p /\ lookup (uj_child j) d = Ok c) \/ joint_step e argsort I o d k j h = (h, [], Err KeyError).
  Proof.
    intros Lj. destruct (to_joint_ok argsort j Ha Lj) as (ty & Z & E & _). unfold joint_step. rewrite E. cbn [rbind]. destruct (lookup (uj_parent j) d) as [p | x] eqn:Ep; cbn [rbind]; [ | right; now rewrite (lookup_err _ _ _ Ep)].
    destruct (lookup (uj_child j) d) as [c | x] eqn:Ec; cbn [rbind]; [ | right; now rewrite (lookup_err _ _ _ Ec)]. left. eauto.
  Qed.

  (** the links made for the joints, from the k-th one *)
  Inductive described (d : list (string * nat)) : nat -> list (string * ujoint) -> list link -> list ucreated -> Prop :=
  | d_nil k : described d k [] [] []
  | d_cons k n j l p c f0 f1 ty c1 Lk cr : loadable_joint j -> lookup (uj_parent j) d = Ok p -> lookup (uj_child j) d = Ok c -> joint_desc k p c j f0 f1 ty c1 -> described d (S k) l Lk cr ->
      described d k ((n, j) :: l) ((f0, uj I k, f1) :: Lk) (joint_cr k p c j ++ cr).
  Lemma described_ex d : forall l k, (forall n j, In (n, j) l -> loadable_joint j /\ (exists p, lookup (uj_parent j) d = Ok p) /\ exists c, lookup (uj_child j) d = Ok c) -> exists Lk cr, described d k l Lk cr.
  Proof.
    induction l as [ | (n, j) l IH]; intros k H; [do 2 eexists; constructor | ]. destruct (H n j ltac:(now left)) as (Lj & (p & Ep) & (c & Ec)). destruct (frames_ok k p c j Lj) as (f0 & f1 & ty & c1 & De).
    destruct (IH (S k) ltac:(intros; eapply H; right; eassumption)) as (Lk & cr & D). do 2 eexists. econstructor; eauto.
  Qed.
  (** what they are *)
  Lemma described_nth d h : forall k l Lk cr, described d k l Lk cr -> (forall x, In x cr -> uknown e h x) -> forall i f0 u f1, nth_error Lk i = Some (f0, u, f1) ->
    exists n j ty c1, nth_error l i = Some (n, j) /\ u = uj I (k + i) /\ lookup (uj_parent j) d = Ok (frame_body e f0) /\ lookup (uj_child j) d = Ok (frame_body e f1) /\
      joint_desc (k + i) (frame_body e f0) (frame_body e f1) j f0 f1 ty c1 /\ incl (joint_cr (k + i) (frame_body e f0) (frame_body e f1) j) cr.
  Proof.
    induction 1 as [k | k n j l p c g0' g1 ty c1 Lk cr Lj Ep Ec De D IH]; intros Kn i f0 u f1 E; [destruct i; discriminate | ].
    destruct i as [ | i]; cbn [nth_error] in E.
    - injection E as <- <- <-. destruct (desc_frames _ _ _ _ _ _ _ _ h De) as (A & B).
      { intros x Hx. apply Kn. rewrite (desc_cr _ _ _ _ _ _ _ _ De). repeat (apply in_or_app; left). exact Hx. }
      rewrite A, B, Nat.add_0_r. exists n, j, ty, c1. split; [reflexivity | ]. split; [reflexivity | ]. repeat (split; [assumption | ]). intros x Hx. apply in_or_app. now left.
    - destruct (IH ltac:(intros x Hx; apply Kn; apply in_or_app; now right) i f0 u f1 E) as (n' & j' & ty' & c1' & Q1 & Q2 & Q3 & Q4 & Q5 & Q6). rewrite <- plus_n_Sm. exists n', j', ty', c1'. repeat (split; [assumption | ]). intros x Hx. apply in_or_app. right. auto.
  Qed.
  Lemma described_length d : forall k l Lk cr, described d k l Lk cr -> length Lk = length l.
  Proof. induction 1; cbn; congruence. Qed.
  Lemma described_joints d : forall k l Lk cr, described d k l Lk cr -> map l_joint Lk = map (uj I) (seq k (length l)).
  Proof. induction 1; cbn; f_equal; auto. Qed.

  Lemma described_only d : forall k l Lk cj, described d k l Lk cj -> forall h cr0 h2 cr u, joint_loop e argsort I o d k l h cr0 = (h2, cr, Ok u) -> cr = cr0 ++ cj.
  Proof.
    induction 1 as [k | k n j l p c f0 f1 ty c1 Lk cj Lj Ep Ec De D IH]; intros h cr0 h2 cr u E; cbn [joint_loop] in E; [injection E as <- <- <-; now rewrite app_nil_r | ].
    destruct (joint_step e argsort I o d k j h) as ((h1, cs), [v | y]) eqn:Es; [ | discriminate]. apply IH in E. rewrite E, <- app_assoc. do 2 f_equal. rewrite (desc_cr _ _ _ _ _ _ _ _ De). destruct De as (Z & E1 & E2).
    unfold joint_step in Es. rewrite E1, Ep, Ec in Es. cbn [rbind] in Es. rewrite E2 in Es. cbn [rbind] in Es. destruct (add_link e _ h) as (h3, [w | ]); [ | discriminate]. destruct (limits_ok k j h3 Lj) as (h4 & El & _). rewrite El in Es. injection Es as <- <- <-. reflexivity.
  Qed.

  (** the loop, when no name fails *)
  Lemma joint_loop_ok d (h0 : heap) h' (Nw : nat -> Prop) (rk : nat -> nat) : (forall b, Nw b -> childrenjoints h0 b = [] /\ parentjoint h0 b = None) ->
    forall k l Lk cr, described d k l Lk cr -> (forall x, In x cr -> uknown e h' x) -> forall Lk0 cr0 h, linked_all e h0 Lk0 h -> reachable h ->
    NoDup (map (l_to e) (Lk0 ++ Lk)) -> NoDup (map l_joint (Lk0 ++ Lk)) ->
    (forall x, In x (Lk0 ++ Lk) -> Nw (l_to e x) /\ (Nw (l_from e x) -> (rk (l_from e x) < rk (l_to e x))%nat) /\ jframes h0 (l_joint x) = None) ->
    (forall x, In x Lk -> Nw (l_from e x)) ->
    exists h2, joint_loop e argsort I o d k l h cr0 = (h2, cr0 ++ cr, Ok tt) /\ linked_all e h0 (Lk0 ++ Lk) h2 /\ reachable h2.
  Proof.
    intros Hn. induction 1 as [k | k n j l p c f0 f1 ty c1 Lk cr Lj Ep Ec De D IH]; intros Kn Lk0 cr0 h LA R N1 N2 Good Fr.
    - exists h. rewrite !app_nil_r. cbn [joint_loop]. auto.
    - destruct (desc_frames _ _ _ _ _ _ _ _ h' De) as (Fp & Fc).
      { intros x Hx. apply Kn. rewrite (desc_cr _ _ _ _ _ _ _ _ De). repeat (apply in_or_app; left). exact Hx. }
      set (x := (f0, uj I k, f1)) in *. assert (Ix : In x (Lk0 ++ x :: Lk)) by (apply in_or_app; right; now left). destruct (Good x Ix) as (G1 & G2 & G3).
      assert (Nt : forall l', In l' Lk0 -> l_to e l' <> l_to e x). { intros l' Hl Q. rewrite map_app in N1. cbn [map] in N1. apply NoDup_remove_2 in N1. apply N1. apply in_or_app. left. rewrite <- Q. now apply in_map. }
      assert (Nj : forall l', In l' Lk0 -> l_joint l' <> l_joint x). { intros l' Hl Q. rewrite map_app in N2. cbn [map] in N2. apply NoDup_remove_2 in N2. apply N2. apply in_or_app. left. rewrite <- Q. now apply in_map. }
      assert (Pc : parentjoint h c = None). { rewrite <- Fc. change (frame_body e f1) with (l_to e x). rewrite (la_p' _ _ _ _ LA _ Nt). now apply Hn. }
      assert (Fj : jframes h (uj I k) = None). { change (uj I k) with (l_joint x). now rewrite (la_f' _ _ _ _ LA _ Nj). }
      destruct (joint_step_ok d k j p c f0 f1 ty c1 h Lj Ep Ec De Fp Fc Pc Fj) as (h2 & Es & Lk2 & V2 & R2). cbn [joint_loop]. rewrite Es.
      assert (Nb : ~ below e h c p).
      { intros B. rewrite <- Fc, <- Fp in B. assert (Hl : forall l', In l' Lk0 -> Nw (l_to e l') /\ (Nw (l_from e l') -> (rk (l_from e l') < rk (l_to e l'))%nat)) by (intros l' Hl; destruct (Good l' ltac:(apply in_or_app; now left)) as (? & ? & ?); auto).
        destruct (below_new e h0 Lk0 h Nw rk LA (fun b Hb => proj1 (Hn b Hb)) Hl _ _ B G1) as (A & C). specialize (G2 A). unfold l_to, l_from in G2. cbn [fst snd x] in G2. lia. }
      assert (Ea : Lk0 ++ x :: Lk = (Lk0 ++ [x]) ++ Lk) by now rewrite <- app_assoc. rewrite Ea in *.
      destruct (IH ltac:(intros y Hy; apply Kn; apply in_or_app; now right) (Lk0 ++ [x]) (cr0 ++ joint_cr k p c j) h2 (linked_all_step e h0 Lk0 h x h2 LA Lk2 V2 Nt Nj) (R2 R Nb) N1 N2 Good ltac:(intros y Hy; apply Fr; now right)) as (h3 & -> & LA3 & R3).
      exists h3. split; [now rewrite <- app_assoc | auto].
  Qed.
  (** the loop under wrong names: it stops on a KeyError or every name was found *)
  Lemma joint_loop_err d (h0 : heap) h' (Nw : nat -> Prop) : (forall b, Nw b -> parentjoint h0 b = None) -> (forall x b, lookup x d = Ok b -> Nw b) -> (forall x y b, lookup x d = Ok b -> lookup y d = Ok b -> x = y) ->
    (forall k, jframes h0 (uj I k) = None) -> (forall k k', uj I k = uj I k' -> k = k') ->
    forall l k Lk0 cr0 h h2 cr r, (forall n j, In (n, j) l -> loadable_joint j) -> NoDup (map (fun x => uj_child (snd x)) l) -> linked_all e h0 Lk0 h ->
    (forall x, In x Lk0 -> (exists i, (i < k)%nat /\ l_joint x = uj I i) /\ forall n j, In (n, j) l -> lookup (uj_child j) d <> Ok (l_to e x)) ->
    joint_loop e argsort I o d k l h cr0 = (h2, cr, r) -> (forall x, In x cr -> uknown e h' x) ->
    r = Err KeyError \/ (r = Ok tt /\ forall n j, In (n, j) l -> exists b, lookup (uj_child j) d = Ok b).
  Proof.
    intros Hn Hd Inj Hf Iu. induction l as [ | (n, j) l IH]; intros k Lk0 cr0 h h2 cr r Ll ND LA Old E Kn; cbn [joint_loop] in E.
    - injection E as <- <- <-. right. split; [reflexivity | intros ? ? []].
    - assert (Lj := Ll n j ltac:(now left)). cbn [map snd] in ND. apply NoDup_cons_iff in ND. destruct ND as (ND1 & ND2).
      destruct (joint_step_err d k j h Lj) as [(p & c & Ep & Ec) | Q]; [ | rewrite Q in E; injection E as <- <- <-; now left].
      destruct (frames_ok k p c j Lj) as (f0 & f1 & ty & c1 & De).
      assert (Sub : forall l k h cr0 h2 cr r, joint_loop e argsort I o d k l h cr0 = (h2, cr, r) -> incl cr0 cr).
      { clear. induction l as [ | (n, j) l IH]; intros k h cr0 h2 cr r E; cbn [joint_loop] in E; [injection E as <- <- <-; apply incl_refl | ]. destruct (joint_step e argsort I o d k j h) as ((h1, c), [u | x]).
        - apply IH in E. intros y Hy. apply E. apply in_or_app. now left.
        - injection E as <- <- <-. intros y Hy. apply in_or_app. now left. }
      assert (Fb : incl c1 cr).
      { destruct (joint_step e argsort I o d k j h) as ((h1, cs), rs) eqn:Es. assert (incl c1 cs).
        { unfold joint_step in Es. destruct De as (Z & E1 & E2). rewrite E1, Ep, Ec in Es. cbn [rbind] in Es. rewrite E2 in Es. cbn [rbind] in Es. destruct (add_link e _ h) as (h1', [u | x]).
          - destruct (limits_step e I o k j h1') as ((h2', c3), r3). injection Es as <- <- <-. intros y Hy. apply in_or_app. left. apply in_or_app. now left.
          - injection Es as <- <- <-. intros y Hy. apply in_or_app. now left. }
        destruct rs; [apply Sub in E | injection E as <- <- <-]; intros y Hy; try apply E; apply in_or_app; right; auto. }
      destruct (desc_frames _ _ _ _ _ _ _ _ h' De ltac:(auto)) as (Fp & Fc).
      set (x := (f0, uj I k, f1)) in *.
      assert (Nt : forall l', In l' Lk0 -> l_to e l' <> l_to e x). { intros l' Hl Q. destruct (Old l' Hl) as (_ & O). apply (O n j ltac:(now left)). rewrite Ec, Q. unfold l_to. cbn [snd x]. now rewrite Fc. }
      assert (Nj : forall l', In l' Lk0 -> l_joint l' <> l_joint x). { intros l' Hl Q. destruct (Old l' Hl) as ((i & Hi & O) & _). rewrite O in Q. apply Iu in Q. lia. }
      assert (Pc : parentjoint h c = None). { rewrite <- Fc. change (frame_body e f1) with (l_to e x). rewrite (la_p' _ _ _ _ LA _ Nt). apply Hn. unfold l_to. cbn [snd x]. rewrite Fc. eauto. }
      assert (Fj : jframes h (uj I k) = None). { change (uj I k) with (l_joint x). rewrite (la_f' _ _ _ _ LA _ Nj). apply Hf. }
      destruct (joint_step_ok d k j p c f0 f1 ty c1 h Lj Ep Ec De Fp Fc Pc Fj) as (h3 & Es & Lk2 & V2 & _). rewrite Es in E.
      destruct (IH (S k) (Lk0 ++ [x]) (cr0 ++ joint_cr k p c j) h3 h2 cr r ltac:(intros; eapply Ll; right; eassumption) ND2 (linked_all_step e h0 Lk0 h x h3 LA Lk2 V2 Nt Nj)) as [Q | (Q1 & Q2)]; [ | exact E | exact Kn | now left | ].
      + intros y Hy. apply in_app_or in Hy. destruct Hy as [Hy | [<- | []]].
        * destruct (Old y Hy) as ((i & Hi & O1) & O2). split; [exists i; split; [lia | exact O1] | ]. intros n' j' Hj. apply (O2 n' j'). now right.
        * split; [exists k; split; [lia | reflexivity] | ]. intros n' j' Hj Q. apply ND1. unfold l_to in Q. cbn [snd x] in Q. rewrite Fc in Q. rewrite (Inj _ _ _ Ec Q). exact (in_map (fun y => uj_child (snd y)) l _ Hj).
      + right. split; [exact Q1 | ]. intros n' j' [Q | Hj]; [injection Q as <- <-; eauto | eauto].
  Qed.
End S.
