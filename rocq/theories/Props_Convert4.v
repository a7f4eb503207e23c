(** C93: what a conversion does not preserve, and a witness. *)
From Coq Require Import Lia Lra.
From Verif Require Import Spec_Dyn Proof_Tree Proof_World Proof_World2 Proof_World3 Proof_Dofs Proof_World4 Proof_Dyn Proof_Dyn2 Props_Dyn Props_DynEx.
From Verif Require Import Spec_Convert Proof_Convert Proof_Convert2 Props_Convert Props_Convert2 Props_Convert3 Spec_Mass Spec_Matlab Proof_Robots2 Props_Matlab Props_Matlab2 Props_Matlab3.
Import ListNotations.
Open Scope nat_scope.

(** the bodies of the result that are not those of the robot are new, and there are some as soon as a joint is replaced *)
Lemma serial_bodies (h h1 : @heap R) J nm new t : forall t', serial J nm h h1 new t t' ->
  (forall b, In b (bodies t') -> In b (bodies t) \/ In (MkBody b None mid_mass) new) /\
  ((exists j, In j (joints t) /\ hinges_of (jt (J j)) <> []) -> length (bodies t) < length (bodies t')) /\ length (bodies t) <= length (bodies t').
Proof.
  induction t as [b ks IH] using tree_rect_in. intros t' S0. inversion S0 as [? ? ks' Fk]; subst. rewrite !bodies_eq, !joints_eq.
  assert (X : forall l l', incl l ks -> Forall2 (serial_kid J nm h h1 new) l l' ->
    (forall x, In x (flat_map (fun k => bodies (snd k)) l') -> In x (flat_map (fun k => bodies (snd k)) l) \/ In (MkBody x None mid_mass) new) /\
    ((exists j, In j (flat_map (fun k => fst k :: joints (snd k)) l) /\ hinges_of (jt (J j)) <> []) -> length (flat_map (fun k => bodies (snd k)) l) < length (flat_map (fun k => bodies (snd k)) l')) /\
    length (flat_map (fun k => bodies (snd k)) l) <= length (flat_map (fun k => bodies (snd k)) l')).
  { intros l l' Il F2. induction F2 as [|[j s] k l l' Hk Ht IHt]; [split; [intros x []|split; [intros (j & [] & _)|apply le_n]]|].
    destruct (IHt ltac:(intros x Ix; apply Il; right; exact Ix)) as (X1 & X2 & X3). cbn [flat_map fst snd]. rewrite !app_length.
    assert (Ik : In (j, s) ks) by (apply Il; left; reflexivity).
    assert (Y : (forall x, In x (bodies (snd k)) -> In x (bodies s) \/ In (MkBody x None mid_mass) new) /\
      ((hinges_of (jt (J j)) <> [] \/ exists i, In i (joints s) /\ hinges_of (jt (J i)) <> []) -> length (bodies s) < length (bodies (snd k))) /\ length (bodies s) <= length (bodies (snd k))).
    { inversion Hk as [j0 s0 s1 Nh Ej As|j0 s0 s1 js ms f0 f1 k0 Nh Ej Nw Bd Se Gn As Br]; subst; cbn [snd].
      - destruct (IH j s Ik s1 As) as (Y1 & Y2 & Y3). split; [exact Y1|]. split; [|exact Y3]. intros [Z|Z]; [destruct (Z Nh)|exact (Y2 Z)].
      - destruct (IH j s Ik s1 As) as (Y1 & Y2 & Y3). destruct (branch_joints _ _ _ _ Br) as (_ & Bb & Lm). rewrite Bb, app_length. split; [|split].
        + intros x Ix. apply in_app_or in Ix. destruct Ix as [Ix|Ix]; [right; rewrite Forall_forall in Bd; exact (Bd x Ix)|exact (Y1 x Ix)].
        + intros _. pose proof (f2_length _ _ _ Nw) as Lj. assert (2 <= length js) by (rewrite Lj; destruct (jt (J j)); cbn [hinges_of length] in *; try lia; destruct (Nh eq_refl)). lia.
        + lia. }
    destruct Y as (Y1 & Y2 & Y3). split; [|split].
    - intros x Ix. apply in_app_or in Ix. destruct Ix as [Ix|Ix].
      + destruct (Y1 x Ix) as [Z|Z]; [left; apply in_or_app; left; exact Z|right; exact Z].
      + destruct (X1 x Ix) as [Z|Z]; [left; apply in_or_app; right; exact Z|right; exact Z].
    - intros (i & Hi & Hn). cbn [app] in Hi. destruct Hi as [Hi|Hi]; [subst i; specialize (Y2 (or_introl Hn)); lia|]. apply in_app_or in Hi. destruct Hi as [Hi|Hi].
      + assert (length (bodies s) < length (bodies (snd k))) by (apply Y2; right; exists i; auto). lia.
      + assert (length (flat_map (fun k => bodies (snd k)) l) < length (flat_map (fun k => bodies (snd k)) l')) by (apply X2; exists i; auto). lia.
    - lia. }
  destruct (X ks ks' (fun x Ix => Ix) Fk) as (X1 & X2 & X3). split; [|split].
  - intros x [Hx|Hx]; [left; left; exact Hx|]. destruct (X1 x Hx) as [Z|Z]; [left; right; exact Z|right; exact Z].
  - intros Z. specialize (X2 Z). cbn [length]. lia.
  - cbn [length]. lia.
Qed.

Section P.
  Variables (e : env) (sc : scene) (eigvals : m6 -> list R) (J : nat -> jstate) (nm : obj -> option string) (I : bids) (xc : nat -> nat).
  Hypothesis Ev : eigs_ok eigvals.
  Hypothesis Ib : forall i j, xb I i = xb I j -> i = j.
  Hypothesis Ij : forall i j, xj I i = xj I j -> i = j.

  (** The masses are not kept: as soon as a joint is replaced there are new bodies in the robot, and each of them weighs 1000 kg. *)
  Theorem C93_mass_refuted : forall g fuel (h : @heap R) nb nj ks1 root s ks2,
    let wt := Node (ground e) (ks1 ++ (root, s) :: ks2) in
    reachable 0%R e g h -> rep e h wt -> 3 * length (bodies wt) <= fuel -> jt (J root) = FreeJoint ->
    (forall k, nb <= k -> unused_body h (xb I k) /\ xb I k <> ground e) -> (forall k, nj <= k -> unused_joint h (xj I k)) ->
    (exists j, In j (joints s) /\ hinges_of (jt (J j)) <> []) ->
    exists st' s', convert_robot e eigvals J nm I xc fuel root (Model_Convert.CS h nb nj []) = (st', Ok tt) /\
      rep e (Model_Convert.c_h st') (Node (ground e) (ks1 ++ (root, s') :: ks2)) /\
      (exists b, In b (bodies s') /\ ~ In b (bodies s)) /\
      forall b, In b (bodies s') -> ~ In b (bodies s) -> exists M, In (MkBody b None M) (Model_Convert.c_new st') /\ mass_of 1000 M.
  Proof.
    intros g fuel h nb nj ks1 root s ks2 wt Re Rw Hf Tr Fb Fj Ex.
    destruct (C93_serial e eigvals J nm I xc Ev Ib Ij g fuel h nb nj [] ks1 root s ks2 _ Re Rw Hf Tr Fb Fj eq_refl) as (h' & nb' & nj' & new' & s' & E & Re' & Se & Kr & Rw' & _).
    destruct (serial_bodies h h' J nm new' s s' Se) as (B1 & B2 & _). specialize (B2 Ex).
    exists (Model_Convert.CS h' nb' nj' ([] ++ new')), s'. split; [exact E|]. cbn [Model_Convert.c_h Model_Convert.c_new app]. split; [exact Rw'|]. split.
    - pose proof (rep_inv e h' _ _ Rw') as [_ Fk]. destruct (Fk root s') as [_ Rs]; [apply in_or_app; right; left; reflexivity|].
      pose proof (forest_nodup e h' s' (reachable_forest 0%R e g h' Re') Rs) as Nd.
      destruct (Exists_dec (fun b => ~ In b (bodies s)) (bodies s')) as [X|X].
      + intros b. destruct (in_dec Nat.eq_dec b (bodies s)) as [Z|Z]; [right; intros Y; exact (Y Z)|left; exact Z].
      + apply Exists_exists in X. exact X.
      + exfalso. assert (Inc : incl (bodies s') (bodies s)).
        { intros b Hb. destruct (in_dec Nat.eq_dec b (bodies s)) as [Z|Z]; [exact Z|]. destruct X. apply Exists_exists. exists b. auto. }
        pose proof (NoDup_incl_length Nd Inc). lia.
    - intros b Hb Nb. destruct (B1 b Hb) as [Z|Z]; [destruct (Nb Z)|]. exists mid_mass. split; [exact Z|exact mid_mass_of].
  Qed.

  (** A robot in another joint is converted into a world that generate_simulation refuses, because of the contacts;
      its description by make_robot fails also: because its first joint, when it is not one hinge, is not replaced, and, when it is one, because of the box on the ground. *)
  Theorem C93_root_refuted : forall g fuel (h : @heap R) nb nj ks1 root s ks2 f0 f1,
    let wt := Node (ground e) (ks1 ++ (root, s) :: ks2) in
    reachable 0%R e g h -> rep e h wt -> 3 * S (length (bodies wt)) <= fuel -> jt (J root) <> FreeJoint -> jframes h root = Some (f0, f1) ->
    (forall k, nb <= k -> unused_body h (xb I k) /\ xb I k <> ground e) -> (forall k, nj <= k -> unused_joint h (xj I k)) ->
    exists st', convert_robot e eigvals J nm I xc fuel root (Model_Convert.CS h nb nj []) = (st', Ok tt) /\
      (forall J' nm' geo ctl up fuel' tl sname, exists x, generate_simulation e sc (Model_Convert.c_h st') J' nm' geo ctl up fuel' tl sname = ([], Err x)) /\
      forall J' nm' geo name, (forall j, In j (joints wt) -> J' j = J j) -> (forall i n k, In (MkJoint i n k) (Model_Convert.c_new st') -> jt (J' i) = k) ->
        shape_frame e (xh I 0) = FBody (ground e) ->
        (~ hinge (jt (J root)) \/ (hinge (jt (J root)) /\ (forall j, In j (joints s) -> hinge (jt (J j)) \/ hinges_of (jt (J j)) <> []) /\ forall b, b <> ground e -> nm' (OFrame (FBody b)) <> nm' (OFrame (FBody (ground e))))) ->
        exists g' ls x, make_robot e sc (Model_Convert.c_h st') J' nm' geo (S fuel) (xj I nj) name new_gen = (g', ls ++ [MMad], Err x).
  Proof.
    intros g fuel h nb nj ks1 root s ks2 f0 f1 wt Re Rw Hf Tr Fr Fb Fj.
    destruct (C93_root e eigvals J nm I xc Ev Ib Ij g fuel h nb nj [] ks1 root s ks2 f0 f1 Re Rw Hf Tr Fr Fb Fj) as (st' & s' & M & E & Z). cbv zeta in Z.
    destruct Z as (Re' & Rw' & F1 & F2 & _ & _ & Ifr & _ & Ish & Ic & h1 & _ & Se).
    exists st'. split; [exact E|]. split.
    - intros J' nm' geo ctl up fuel' tl sname.
      destruct (C92_refuses e sc (Model_Convert.c_h st') J' nm' geo ctl up fuel' tl sname) as (x & Ex & _).
      + right. right. left. intros X. destruct (Ic 0 1%R 1%R eq_refl) as (_ & _ & _ & Y). rewrite X in Y. exact Y.
      + exists x. exact Ex.
    - intros J' nm' geo name Kp Tp Sf Cs.
      destruct (serial_size h1 (Model_Convert.c_h st') J nm (Model_Convert.c_new st') s s' Se) as (Er & Sz & Inc).
      assert (Ijw : forall j, j = root \/ In j (joints s) -> In j (joints wt)).
      { intros j X. unfold wt. rewrite joints_eq, flat_map_app. cbn [flat_map fst snd]. apply in_or_app. right. destruct X as [->|X]; [left; reflexivity|right; apply in_or_app; left; exact X]. }
      pose proof (reachable_forest 0%R e g _ Re') as Fo'. pose proof (forest_nodup e _ _ Fo' Rw') as Nw'.
      pose proof (rep_inv e _ _ _ Rw') as [_ Fk]. destruct (Fk (xj I nj) (Node (xb I nb) [(root, s')])) as [_ Rs]; [apply in_or_app; right; left; reflexivity|].
      assert (Rb : robot e (Model_Convert.c_h st') (xj I nj) (Node (xb I nb) [(root, s')])).
      { split; [exact Rs|]. split; [exact (forest_nodup e _ _ Fo' Rs)|]. exists f0, (FBody (xb I nb)). split; [exact F1|reflexivity]. }
      assert (Ht : height (Node (xb I nb) [(root, s')]) < fuel).
      { pose proof (height_bodies (Node (xb I nb) [(root, s')])) as Hb. rewrite bodies_eq in Hb. cbn [flat_map snd length] in Hb. rewrite app_nil_r in Hb.
        unfold wt in Hf. rewrite bodies_eq, flat_map_app in Hf. cbn [length flat_map snd] in Hf. rewrite !app_length in Hf. lia. }
      assert (Tf : jt (J' (xj I nj)) = FreeJoint) by (eapply Tp; exact Ifr).
      assert (Jt : joints (Node (xb I nb) [(root, s')]) = root :: joints s') by (rewrite joints_eq; cbn [flat_map fst snd]; rewrite app_nil_r; reflexivity).
      destruct Cs as [Nh|(Hr & Hh & Nn)].
      + destruct (C91_refuses e sc (Model_Convert.c_h st') J' nm' geo fuel (xj I nj) (Node (xb I nb) [(root, s')]) name new_gen) as [_ Rf].
        destruct (Rf Rb Ht Tf) as (g' & ls & Em).
        { exists root. split; [rewrite Jt; left; reflexivity|]. rewrite Kp by (apply Ijw; left; reflexivity). exact Nh. }
        exists g', ls, RuntimeError. exact Em.
      + destruct (C91_outside_refuted e sc (Model_Convert.c_h st') J' nm' geo fuel (xj I nj) _ name (xh I 0) Rb Ht Tf) as (g' & ls & x & Em & _).
        { intros j' Hj. rewrite Jt in Hj. destruct Hj as [<-|Hj]; [rewrite Kp by (apply Ijw; left; reflexivity); exact Hr|].
          destruct (serial_joints h1 (Model_Convert.c_h st') J nm (Model_Convert.c_new st') s s' Se j' Hj) as [[A B]|(j & k & A & B & C)].
          - rewrite Kp by (apply Ijw; right; exact A). destruct (Hh j' A) as [X|X]; [exact X|destruct (X B)].
          - assert (Hk : jt (J' j') = k) by (eapply Tp; exact C). rewrite Hk. clear - B. destruct (jt (J j)); cbn in B; unfold hinge; repeat (destruct B as [B|B]; [subst; cbn; tauto|]); destruct B. }
        { exact Ish. }
        { rewrite Sf. cbn [frame_body]. intros X. apply in_map_iff in X. destruct X as (b & Eb & Hb). apply (Nn b); [|exact Eb]. intros ->.
          rewrite bodies_eq, flat_map_app in Nw'. apply NoDup_cons_iff in Nw'. destruct Nw' as [Y _]. apply Y. apply in_or_app. right. cbn [flat_map snd]. apply in_or_app. left. exact Hb. }
        exists g', ls, x. exact Em.
  Qed.
End P.

(** A body in a free joint and a body in a two-hinge joint on it, built with the API: the hypotheses of C93 are met, and the new hinges are the joints 3 and 4, the new body is the body 3. *)
Definition cw_k : list jtype := [FreeJoint; RzRyJoint; RzJoint; RyJoint].
Definition cw_e : env := ch_e cw_k.
Definition cw_h : @heap R := run 0%R cw_e 10 [AddLink (FBody 0) 1 (FBody 1); AddLink (FBody 1) 2 (FBody 2); Init] (fresh cw_e (fun _ _ => 1%R)).
Definition cw_I : bids := BIds (fun k => 3 + k) (fun k => 3 + k) (fun k => k) (fun k => k).
Lemma cw_reach : reachable 0%R cw_e (fun _ _ => 1%R) cw_h.
Proof.
  unfold cw_h, run. cbn [fold_left].
  assert (A1 : admissible 0%R cw_e 10 (fresh cw_e (fun _ _ => 1%R)) (AddLink (FBody 0) 1 (FBody 1))).
  { cbn [admissible]. intros B. apply (below_leaf cw_e) in B; [discriminate B|reflexivity]. }
  pose proof (reach_step 0%R cw_e (fun _ _ => 1%R) _ 10 _ (reach_fresh 0%R cw_e _) A1) as R1.
  assert (A2 : admissible 0%R cw_e 10 (fst (step 0%R cw_e 10 (fresh cw_e (fun _ _ => 1%R)) (AddLink (FBody 0) 1 (FBody 1)))) (AddLink (FBody 1) 2 (FBody 2))).
  { cbn [admissible]. intros B. apply (below_leaf cw_e) in B; [discriminate B|reflexivity]. }
  pose proof (reach_step 0%R cw_e (fun _ _ => 1%R) _ 10 _ R1 A2) as R2.
  exact (reach_step 0%R cw_e (fun _ _ => 1%R) _ 10 Init R2 Logic.I).
Qed.
Lemma cw_ready : ready cw_e cw_h (Node (ground cw_e) ([] ++ (1, ch_t 1 1) :: [])).
Proof. change (Node (ground cw_e) ([] ++ (1, ch_t 1 1) :: [])) with (ch_t 0 2). ch_ready. Qed.
Theorem C93_witness : forall eigvals q v nm xc, eigs_ok eigvals -> exists st' s',
  let J := ch_J cw_k q v in
  convert_robot cw_e eigvals J nm cw_I xc 9 1 (Model_Convert.CS cw_h 0 0 []) = (st', Ok tt) /\
  ready cw_e (Model_Convert.c_h st') (Node 0 [(1, s')]) /\ (exists b, In b (bodies s') /\ b <> 1 /\ b <> 2) /\
  exists i1 i2 b, jframes (Model_Convert.c_h st') i1 = Some (FBody 1, FBody b) /\ jframes (Model_Convert.c_h st') i2 = Some (FBody b, FBody 2).
Proof.
  intros eigvals q v nm xc Ev.
  assert (Hb : forall k, 0 <= k -> unused_body cw_h (xb cw_I k) /\ xb cw_I k <> ground cw_e) by (intros k _; split; [split; reflexivity|discriminate]).
  assert (Hj : forall k, 0 <= k -> unused_joint cw_h (xj cw_I k)) by (intros k _; reflexivity).
  assert (Ib : forall i j, xb cw_I i = xb cw_I j -> i = j) by (cbn; lia). assert (Ij : forall i j, xj cw_I i = xj cw_I j -> i = j) by (cbn; lia).
  destruct (C93_serial cw_e eigvals (ch_J cw_k q v) nm cw_I xc Ev Ib Ij _ 9 cw_h 0 0 [] [] 1 (ch_t 1 1) [] _ cw_reach (proj1 cw_ready) ltac:(cbn; lia) eq_refl Hb Hj eq_refl)
    as (h' & nb' & nj' & new' & s' & E & Re' & Se & Kr & Rw' & _ & _ & _ & _ & Rd).
  exists (Model_Convert.CS h' nb' nj' ([] ++ new')), s'. split; [exact E|]. cbn [Model_Convert.c_h].
  assert (Rd' : ready cw_e h' (Node 0 [(1, s')])) by exact (Rd cw_ready). split; [exact Rd'|]. clear E Rd.
  cbn [ch_t] in Se. inversion Se as [? ? ks' Fk]; subst. inversion Fk as [|? k ? ? Hk F0]; subst. inversion F0; subst. clear F0.
  inversion Hk as [j0 s0 s1 Nh Ej As|j0 s0 s1 js ms f0 f1 k0 Nh Ej Nw Bd Ser Gn As Br]; subst; [discriminate Nh|].
  assert (Fe : jframes cw_h 2 = Some (FBody 1, FBody 2)) by reflexivity. rewrite Fe in Ej. injection Ej as <- <-.
  inversion Nw as [|i1 ? js1 ? N1 Nw1]; subst. inversion Nw1 as [|i2 ? js2 ? N2 Nw2]; subst. inversion Nw2; subst.
  destruct ms as [|b [|? ms]]; [destruct Ser| |destruct ms; destruct Ser as (_ & _ & []) || destruct Ser as (_ & [])]. cbn [in_series] in Ser. destruct Ser as [S1 S2].
  split; [|exists i1, i2, b; auto]. exists b. cbn [branch option_map] in Br. injection Br as <-. split; [rewrite bodies_eq; right; left; reflexivity|].
  pose proof (forest_nodup cw_e h' _ (reachable_forest 0%R cw_e _ h' Re') Rw') as Nd. inversion As; subst. clear -Nd. cbn in Nd.
  inversion Nd as [|? ? _ N2]; subst. inversion N2 as [|? ? N3 N4]; subst. inversion N4 as [|? ? N5 N6]; subst. split; intros ->; [apply N3; left; reflexivity|apply N5; left; reflexivity].
Qed.
Print Assumptions C93_witness.
