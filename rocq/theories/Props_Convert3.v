(** C93: the converted robot moves as the first one, and it is accepted by MatlabRobotGenerator. *)
From Coq Require Import Lia Lra.
From Verif Require Import Spec_Dyn Proof_Tree Proof_World Proof_World2 Proof_World3 Proof_Dofs Proof_World4 Proof_Dyn Proof_Dyn2 Props_Dyn.
From Verif Require Import Spec_Convert Proof_Convert Proof_Convert2 Props_Convert Props_Convert2 Spec_Matlab Proof_Robots2 Props_Matlab Props_Matlab2.
Import ListNotations.
Open Scope nat_scope.

Lemma f2_length {A B} (P : A -> B -> Prop) l l' : Forall2 P l l' -> length l = length l'.
Proof. induction 1; cbn; congruence. Qed.
Section T.
  Variables (e : env) (h h1 h' : @heap R) (J J' : nat -> jstate) (nm : obj -> option string) (new : list cmd).

  Lemma kept_alike t : (forall j, In j (joints t) -> jframes h' j = jframes h j /\ J' j = J j) -> alike h h' J J' t t.
  Proof.
    induction t as [b ks IH] using tree_rect_in. intros K. constructor. rewrite joints_eq in K.
    assert (X : forall l, incl l ks -> Forall2 (alike_kid h h' J J') l l).
    { induction l as [|[j s] l IHl]; intros Il; [constructor|]. constructor; [|apply IHl; intros x Ix; apply Il; right; exact Ix].
      assert (Ik : In (j, s) ks) by (apply Il; left; reflexivity).
      assert (Kj : forall x, x = j \/ In x (joints s) -> jframes h' x = jframes h x /\ J' x = J x).
      { intros x X. apply K. apply in_flat_map. exists (j, s). split; [exact Ik|]. destruct X as [->|X]; [left; reflexivity|right; exact X]. }
      destruct (Kj j (or_introl eq_refl)) as [A B]. apply alike_keep; [exact A|exact B|]. apply (IH j s Ik). intros x Ix. apply Kj. right. exact Ix. }
    apply X. intros x Ix. exact Ix.
  Qed.
  Lemma serial_alike t : forall t', serial J nm h h1 new t t' -> (forall j, In j (joints t ++ joints t') -> jframes h' j = jframes h1 j) ->
    (forall j, In j (joints t) -> hinges_of (jt (J j)) = [] -> J' j = J j) ->
    (forall j f0 f1 js ms, In j (joints t) -> jframes h j = Some (f0, f1) -> in_series h' f0 js ms f1 -> length js = length (hinges_of (jt (J j))) -> incl js (joints t') -> set_as (J j) J' js) ->
    alike h h' J J' t t'.
  Proof.
    induction t as [b ks IH] using tree_rect_in. intros t' S0 Fr Kp Sp. inversion S0 as [? ? ks' Fk]; subst. constructor.
    rewrite !joints_eq in *.
    assert (X : forall l l', incl l ks -> incl l' ks' -> Forall2 (serial_kid J nm h h1 new) l l' -> Forall2 (alike_kid h h' J J') l l').
    { intros l l' Il Il' F2. induction F2 as [|[j s] k l l' Hk Ht IHt]; [constructor|]. constructor; [|apply IHt; [intros x Ix; apply Il; right; exact Ix|intros x Ix; apply Il'; right; exact Ix]].
      assert (Ik : In (j, s) ks) by (apply Il; left; reflexivity). assert (Ik' : In k ks') by (apply Il'; left; reflexivity).
      assert (M : forall x, x = j \/ In x (joints s) -> In x (flat_map (fun k => fst k :: joints (snd k)) ks)).
      { intros x X. apply in_flat_map. exists (j, s). split; [exact Ik|]. destruct X as [->|X]; [left; reflexivity|right; exact X]. }
      assert (M' : forall x, In x (fst k :: joints (snd k)) -> In x (flat_map (fun k => fst k :: joints (snd k)) ks')).
      { intros x X. apply in_flat_map. exists k. split; [exact Ik'|exact X]. }
      inversion Hk as [j0 s0 s1 Nh Ej As|j0 s0 s1 js ms f0 f1 k0 Nh Ej Nw Bd Se Gn As Br]; subst.
      - apply alike_keep.
        + rewrite <- Ej. apply Fr. apply in_or_app. left. apply M. left. reflexivity.
        + apply Kp; [apply M; left; reflexivity|exact Nh].
        + apply (IH j s Ik s1 As).
          * intros x Ix. apply Fr. apply in_app_or in Ix. apply in_or_app. destruct Ix as [Ix|Ix]; [left; apply M; right; exact Ix|right; apply M'; right; exact Ix].
          * intros x Ix. apply Kp. apply M. right. exact Ix.
          * intros x g0 g1 js ms Ix. intros A B C D. apply (Sp x g0 g1 js ms); [apply M; right; exact Ix|exact A|exact B|exact C|]. intros y Iy. apply M'. right. apply D. exact Iy.
      - destruct (branch_joints _ _ _ _ Br) as (Bj & _ & _). assert (Lj : length js = length (hinges_of (jt (J j)))) by (apply (f2_length _ _ _ Nw)).
        assert (Ij : incl js (fst k :: joints (snd k))) by (rewrite Bj; intros x Ix; apply in_or_app; left; exact Ix).
        assert (Se' : in_series h' f0 js ms f1).
        { apply (in_series_ext h1); [|exact Se]. intros x Ix. apply Fr. apply in_or_app. right. apply M'. apply Ij. exact Ix. }
        apply alike_split with (s' := s1) (js := js) (ms := ms) (f0 := f0) (f1 := f1); [exact Nh|exact Lj|exact Ej|exact Se'| | |exact Br].
        + apply (Sp j f0 f1 js ms); [apply M; left; reflexivity|exact Ej|exact Se'|exact Lj|]. intros x Ix. apply M'. apply Ij. exact Ix.
        + apply (IH j s Ik s1 As).
          * intros x Ix. apply Fr. apply in_app_or in Ix. apply in_or_app. destruct Ix as [Ix|Ix]; [left; apply M; right; exact Ix|right; apply M'; rewrite Bj; apply in_or_app; right; exact Ix].
          * intros x Ix. apply Kp. apply M. right. exact Ix.
          * intros x g0 g1 js' ms' Ix. intros A B C D. apply (Sp x g0 g1 js' ms'); [apply M; right; exact Ix|exact A|exact B|exact C|]. intros y Iy. apply M'. rewrite Bj. apply in_or_app. right. apply D. exact Iy. }
    apply (X ks ks'); [intros x Ix; exact Ix|intros x Ix; exact Ix|exact Fk].
  Qed.
  (** what the joints of the result are *)
  Lemma serial_joints t : forall t', serial J nm h h1 new t t' -> forall j', In j' (joints t') ->
    (In j' (joints t) /\ hinges_of (jt (J j')) = []) \/ exists j k, In j (joints t) /\ In k (hinges_of (jt (J j))) /\ new_hinge nm new j j' k.
  Proof.
    induction t as [b ks IH] using tree_rect_in. intros t' S0 j' Ij'. inversion S0 as [? ? ks' Fk]; subst. rewrite !joints_eq in *.
    apply in_flat_map in Ij'. destruct Ij' as (k & Ik' & Ij').
    assert (X : exists k0, In k0 ks /\ serial_kid J nm h h1 new k0 k).
    { clear -Fk Ik'. induction Fk as [|x y l l' Hx Ht IH]; [destruct Ik'|]. destruct Ik' as [<-|I']; [exists x; split; [left; reflexivity|exact Hx]|].
      destruct (IH I') as (z & A & B). exists z. split; [right; exact A|exact B]. }
    destruct X as ([j s] & Ik & Hk). assert (M : forall x, x = j \/ In x (joints s) -> In x (flat_map (fun k => fst k :: joints (snd k)) ks)).
    { intros x X. apply in_flat_map. exists (j, s). split; [exact Ik|]. destruct X as [->|X]; [left; reflexivity|right; exact X]. }
    assert (Rec : forall s', serial J nm h h1 new s s' -> In j' (joints s') -> (In j' (flat_map (fun k => fst k :: joints (snd k)) ks) /\ hinges_of (jt (J j')) = []) \/
       exists j k, In j (flat_map (fun k => fst k :: joints (snd k)) ks) /\ In k (hinges_of (jt (J j))) /\ new_hinge nm new j j' k).
    { intros s' As Z. destruct (IH j s Ik s' As j' Z) as [[A B]|(x & y & A & B & C)].
      - left. split; [apply M; right; exact A|exact B].
      - right. exists x, y. split; [apply M; right; exact A|]. split; [exact B|exact C]. }
    inversion Hk as [j0 s0 s1 Nh Ej As|j0 s0 s1 js ms f0 f1 k0 Nh Ej Nw Bd Se Gn As Br]; subst; cbn [fst snd] in *.
    - destruct Ij' as [<-|Ij']; [left; split; [apply M; left; reflexivity|exact Nh]|exact (Rec s1 As Ij')].
    - destruct (branch_joints _ _ _ _ Br) as (Bj & _ & _). assert (Z : In j' (js ++ joints s1)) by (rewrite <- Bj; exact Ij').
      apply in_app_or in Z. destruct Z as [Z|Z]; [|exact (Rec s1 As Z)]. right. clear -Nw Z M.
      assert (Y : forall l l', Forall2 (new_hinge nm new j) l l' -> In j' l -> exists k, In k l' /\ new_hinge nm new j j' k).
      { induction 1 as [|x y l l' Hx Ht IH]; intros I'; [destruct I'|]. destruct I' as [<-|I']; [exists y; split; [left; reflexivity|exact Hx]|].
        destruct (IH I') as (z & A & B). exists z. split; [right; exact A|exact B]. }
      destruct (Y _ _ Nw Z) as (y & A & B). exists j, y. split; [apply M; left; reflexivity|]. split; [exact A|exact B].
  Qed.
  Lemma hinges_le k : length (hinges_of k) <= 3. Proof. destruct k; cbn; lia. Qed.
  Lemma serial_size t : forall t', serial J nm h h1 new t t' -> root t' = root t /\ length (bodies t') + 2 <= 3 * length (bodies t) /\ incl (bodies t) (bodies t').
  Proof.
    induction t as [b ks IH] using tree_rect_in. intros t' S0. inversion S0 as [? ? ks' Fk]; subst. rewrite !bodies_eq. split; [reflexivity|].
    assert (X : forall l l', incl l ks -> Forall2 (serial_kid J nm h h1 new) l l' ->
      length (flat_map (fun k => bodies (snd k)) l') <= 3 * length (flat_map (fun k => bodies (snd k)) l) /\ incl (flat_map (fun k => bodies (snd k)) l) (flat_map (fun k => bodies (snd k)) l')).
    { intros l l' Il F2. induction F2 as [|[j s] k l l' Hk Ht IHt]; [split; [cbn; lia|intros x []]|]. destruct (IHt ltac:(intros x Ix; apply Il; right; exact Ix)) as [X1 X2].
      cbn [flat_map snd]. rewrite !app_length. assert (Ik : In (j, s) ks) by (apply Il; left; reflexivity).
      assert (Y : length (bodies (snd k)) <= 3 * length (bodies s) /\ incl (bodies s) (bodies (snd k))).
      { inversion Hk as [j0 s0 s1 Nh Ej As|j0 s0 s1 js ms f0 f1 k0 Nh Ej Nw Bd Se Gn As Br]; subst; cbn [snd].
        - destruct (IH j s Ik s1 As) as (_ & Y1 & Y2). split; [lia|exact Y2].
        - destruct (IH j s Ik s1 As) as (_ & Y1 & Y2). destruct (branch_joints _ _ _ _ Br) as (_ & Bb & Lm). rewrite Bb, app_length.
          pose proof (f2_length _ _ _ Nw) as Lj. pose proof (hinges_le (jt (J j))). split; [lia|]. intros x Ix. apply in_or_app. right. apply Y2. exact Ix. }
      destruct Y as [Y1 Y2]. split; [lia|]. intros x Ix. apply in_app_or in Ix. apply in_or_app. destruct Ix as [Ix|Ix]; [left; apply Y2; exact Ix|right; apply X2; exact Ix]. }
    destruct (X ks ks' (fun x Ix => Ix) Fk) as [X1 X2]. split; [cbn [length]; lia|]. intros x [<-|Ix]; [left; reflexivity|right; apply X2; exact Ix].
  Qed.
End T.

Section P.
  Variables (e : env) (sc : scene) (eigvals : m6 -> list R) (J : nat -> jstate) (nm : obj -> option string) (I : bids) (xc : nat -> nat).
  Hypothesis Ev : eigs_ok eigvals.
  Hypothesis Ib : forall i j, xb I i = xb I j -> i = j.
  Hypothesis Ij : forall i j, xj I i = xj I j -> i = j.

  (** If the new hinges are set at the positions and the speeds of the joints that they replace, every body of the robot, and of the world,
      has the pose, the Jacobian and the twist that it had: the dofs are numbered as they were. *)
  Theorem C93_motion : forall g fuel (h : @heap R) nb nj new ks1 root s ks2,
    let wt := Node (ground e) (ks1 ++ (root, s) :: ks2) in
    reachable 0%R e g h -> ready e h wt -> 3 * length (bodies wt) <= fuel -> jt (J root) = FreeJoint ->
    (forall k, nb <= k -> unused_body h (xb I k) /\ xb I k <> ground e) -> (forall k, nj <= k -> unused_joint h (xj I k)) ->
    exists st' s', convert_robot e eigvals J nm I xc fuel root (Model_Convert.CS h nb nj new) = (st', Ok tt) /\
      let h' := Model_Convert.c_h st' in let wt' := Node (ground e) (ks1 ++ (root, s') :: ks2) in ready e h' wt' /\ incl (bodies s) (bodies s') /\
      forall J' sd sd', updated e sc h wt J sd -> updated e sc h' wt' J' sd' ->
        (forall j, In j (joints wt) -> ~ In j (joints s) \/ hinges_of (jt (J j)) = [] -> J' j = J j) ->
        (forall j f0 f1 js ms, In j (joints s) -> jframes h j = Some (f0, f1) -> in_series h' f0 js ms f1 -> length js = length (hinges_of (jt (J j))) -> incl js (joints s') ->
           set_as (J j) J' js) ->
        forall b, In b (bodies wt) -> same_motion sd sd' b b.
  Proof.
    intros g fuel h nb nj new ks1 root s ks2 wt Re Rdy Hf Tr Fb Fj. pose proof (proj1 Rdy) as Rw.
    destruct (C93_serial e eigvals J nm I xc Ev Ib Ij g fuel h nb nj new ks1 root s ks2 _ Re Rw Hf Tr Fb Fj eq_refl) as (h' & nb' & nj' & new' & s' & E & Re' & Se & Kr & Rw' & Kf & _ & _ & _ & Rdy').
    specialize (Rdy' Rdy). set (wt' := Node (ground e) (ks1 ++ (root, s') :: ks2)) in *.
    pose proof (reachable_forest 0%R e g h Re) as Fo. pose proof (forest_nodup e h _ Fo Rw) as Nw. pose proof (rep_nodup_joints e h _ Rw Nw) as NJ.
    destruct (serial_size h h' J nm new' s s' Se) as (_ & _ & Inc).
    exists (Model_Convert.CS h' nb' nj' (new ++ new')), s'. split; [exact E|]. split; [exact Rdy'|].
    split; [exact Inc|]. cbn [Model_Convert.c_h]. intros J' sd sd' Up Up' Kp Sp.
    (* the joints outside of the robot *)
    unfold wt in NJ. rewrite joints_eq, flat_map_app in NJ. cbn [flat_map fst snd app] in NJ.
    rewrite NoDup_app_iff in NJ. destruct NJ as (_ & NJ2 & NJ3). inversion NJ2 as [|? ? NJ4 NJ5]; subst. rewrite NoDup_app_iff in NJ5. destruct NJ5 as (_ & _ & NJ6).
    assert (Jw : joints wt = flat_map (fun k => fst k :: joints (snd k)) ks1 ++ root :: joints s ++ flat_map (fun k => fst k :: joints (snd k)) ks2).
    { unfold wt. rewrite joints_eq, flat_map_app. reflexivity. }
    assert (Out : forall j, In j (flat_map (fun k => fst k :: joints (snd k)) ks1) \/ In j (flat_map (fun k => fst k :: joints (snd k)) ks2) -> jframes h' j = jframes h j /\ J' j = J j).
    { intros j X. assert (Nj : ~ In j (joints s)).
      { intros Y. destruct X as [X|X]; [apply (NJ3 j X); right; apply in_or_app; left; exact Y|exact (NJ6 j Y X)]. }
      assert (Iw : In j (joints wt)) by (rewrite Jw; apply in_or_app; destruct X as [X|X]; [left; exact X|right; right; apply in_or_app; right; exact X]).
      split; [|apply Kp; [exact Iw|left; exact Nj]]. apply Kf; [exact Nj|]. intros k Hk ->.
      destruct (rep_frames e h wt (xj I k) Rw Iw) as [f Hx]. destruct Hk as [Hk _]. pose proof (Fj k Hk) as Z. unfold unused_joint in Z. rewrite Z in Hx. discriminate Hx. }
    assert (Al : alike h h' J J' wt wt').
    { unfold wt, wt'. constructor. assert (Kid : forall l, (forall j, In j (flat_map (fun k => fst k :: joints (snd k)) l) -> jframes h' j = jframes h j /\ J' j = J j) -> Forall2 (alike_kid h h' J J') l l).
      { intros l Kl. pose proof (kept_alike h h' J J' (Node 0 l)) as X. rewrite joints_eq in X. specialize (X Kl). inversion X; subst. assumption. }
      apply Forall2_app; [apply Kid; intros j X; apply Out; left; exact X|]. constructor; [|apply Kid; intros j X; apply Out; right; exact X].
      assert (Ir : ~ In root (joints s)) by (intros X; apply NJ4; apply in_or_app; left; exact X).
      apply alike_keep; [exact Kr|apply Kp; [rewrite Jw; apply in_or_app; right; left; reflexivity|left; exact Ir]|].
      apply (serial_alike h h' h' J J' nm new'); [exact Se|reflexivity| |exact Sp].
      intros j X Y. apply Kp; [rewrite Jw; apply in_or_app; right; right; apply in_or_app; left; exact X|right; exact Y]. }
    exact (alike_motion e sc h h' J J' wt wt' sd sd' Up Up' Al).
  Qed.

  (** A robot in a free joint whose other joints are hinges or made of hinges, with its shapes: after the conversion it is accepted by MatlabRobotGenerator. *)
  Theorem C93_compatible : forall g fuel (h : @heap R) nb nj new ks1 root s ks2 geo nm' name,
    let wt := Node (ground e) (ks1 ++ (root, s) :: ks2) in
    reachable 0%R e g h -> rep e h wt -> 3 * length (bodies wt) <= fuel -> jt (J root) = FreeJoint ->
    (forall k, nb <= k -> unused_body h (xb I k) /\ xb I k <> ground e) -> (forall k, nj <= k -> unused_joint h (xj I k)) ->
    joints s <> [] -> (forall j, In j (joints s) -> hinge (jt (J j)) \/ hinges_of (jt (J j)) <> []) ->
    (forall x, In x (w_shapes h) -> In (frame_body e (shape_frame e x)) (bodies s)) -> (forall x n d, In x (w_shapes h) -> geo x <> Plane n d) ->
    exists st', convert_robot e eigvals J nm I xc fuel root (Model_Convert.CS h nb nj new) = (st', Ok tt) /\
      forall J', (forall j, In j (joints wt) -> J' j = J j) -> (forall i n k, In (MkJoint i n k) (Model_Convert.c_new st') -> jt (J' i) = k) ->
        exists g' ls, make_robot e sc (Model_Convert.c_h st') J' nm' geo (S fuel) root name new_gen = (g', ls, Ok tt) /\ ~ In MMad ls.
  Proof.
    intros g fuel h nb nj new ks1 root s ks2 geo nm' name wt Re Rw Hf Tr Fb Fj Nj Hh Hs Hp.
    destruct (C93_serial e eigvals J nm I xc Ev Ib Ij g fuel h nb nj new ks1 root s ks2 _ Re Rw Hf Tr Fb Fj eq_refl) as (h' & nb' & nj' & new' & s' & E & Re' & Se & Kr & Rw' & _ & Ws & _).
    set (wt' := Node (ground e) (ks1 ++ (root, s') :: ks2)) in *.
    pose proof (reachable_forest 0%R e g h' Re') as Fo'. pose proof (forest_nodup e h' _ Fo' Rw') as Nw'.
    destruct (serial_size h h' J nm new' s s' Se) as (Er & Sz & Inc).
    exists (Model_Convert.CS h' nb' nj' (new ++ new')). split; [exact E|]. cbn [Model_Convert.c_h Model_Convert.c_new]. intros J' Kp Tp.
    assert (Ij' : forall j, j = root \/ In j (joints s) -> In j (joints wt)).
    { intros j X. unfold wt. rewrite joints_eq, flat_map_app. cbn [flat_map fst snd]. apply in_or_app. right. destruct X as [->|X]; [left; reflexivity|right; apply in_or_app; left; exact X]. }
    pose proof (rep_inv e h' _ _ Rw') as [_ Fk]. destruct (Fk root s') as [[(f0 & f1 & Fr & B0 & B1) Pa] Rs]; [apply in_or_app; right; left; reflexivity|].
    apply (C91_accepts e sc h' J' nm' geo fuel root s' name).
    - split; [exact Rs|]. split; [apply (forest_nodup e h' _ Fo' Rs)|]. exists f0, f1. split; [exact Fr|exact B1].
    - pose proof (height_bodies s'). unfold wt in Hf. rewrite bodies_eq, flat_map_app in Hf. cbn [length flat_map snd] in Hf. rewrite !app_length in Hf. lia.
    - rewrite Kp by (apply Ij'; left; reflexivity). exact Tr.
    - intros j' Ix. destruct (serial_joints h h' J nm new' s s' Se j' Ix) as [[A B]|(j & k & A & B & C)].
      + rewrite Kp by (apply Ij'; right; exact A). destruct (Hh j' A) as [X|X]; [exact X|destruct (X B)].
      + assert (Hk : jt (J' j') = k) by (eapply Tp; apply in_or_app; right; exact C). rewrite Hk. clear - B. destruct (jt (J j)); cbn in B; unfold hinge; repeat (destruct B as [B|B]; [subst; cbn; tauto|]); destruct B.
    - assert (X : joints s' <> []) by (clear - Nj Se; inversion Se as [b ks ks' F]; subst; rewrite joints_eq in *; destruct F as [|k k' ks ks' H F]; [exact Nj|cbn [flat_map app]; discriminate]). exact X.
    - intros x Ix. rewrite Ws in Ix. apply Inc. exact (Hs x Ix).
    - intros x n d Ix. rewrite Ws in Ix. exact (Hp x n d Ix).
  Qed.
End P.
