(** Proofs for C93: one replacement. *)
From Coq Require Import Lia.
From Verif Require Import Spec_Convert Proof_Tree Proof_World Proof_World2 Proof_World3 Proof_Dofs Proof_World4.
Import ListNotations.
Open Scope nat_scope.
Notation heap := (@Model_World.heap R).

Section P.
  Variable (e : env).
  (** the links of a series *)
  Fixpoint links (f0 : frame) (js ms : list nat) (f1 : frame) : list link :=
    match js, ms with
    | j :: js', m :: ms' => (f0, j, FBody m) :: links (FBody m) js' ms' f1
    | j :: _, [] => [(f0, j, f1)]
    | [], _ => []
    end.
  Lemma args_links js : forall f0 ms f1, chain_args f0 js ms f1 = flatten (links f0 js ms f1).
  Proof. induction js as [|j js IH]; intros f0 [|m ms] f1; cbn; try reflexivity. now rewrite IH. Qed.
  Lemma links_length js : forall f0 ms f1, length js = S (length ms) -> length (links f0 js ms f1) = length js.
  Proof.
    induction js as [|j js IH]; intros f0 [|m ms] f1 L; cbn in *; try lia. injection L as L. rewrite IH by exact L. lia.
  Qed.
  Lemma links_joints js : forall f0 ms f1, length js = S (length ms) -> map l_joint (links f0 js ms f1) = js.
  Proof.
    induction js as [|j js IH]; intros f0 [|m ms] f1 L; cbn in *; try lia.
    - destruct js; [reflexivity|discriminate L].
    - injection L as L. rewrite IH by exact L. reflexivity.
  Qed.
  Lemma links_to js : forall f0 ms f1, length js = S (length ms) -> map (l_to e) (links f0 js ms f1) = ms ++ [frame_body e f1].
  Proof.
    induction js as [|j js IH]; intros f0 [|m ms] f1 L; cbn in *; try lia.
    - reflexivity.
    - injection L as L. rewrite IH by exact L. reflexivity.
  Qed.
  Lemma links_from js : forall f0 ms f1 l, length js = S (length ms) -> In l (links f0 js ms f1) -> l_from e l = frame_body e f0 \/ In (l_from e l) ms.
  Proof.
    induction js as [|j js IH]; intros f0 [|m ms] f1 l L I0; cbn in *; try lia.
    - destruct I0 as [<-|[]]. left; reflexivity.
    - injection L as L. destruct I0 as [<-|I0]; [left; reflexivity|]. destruct (IH _ _ _ _ L I0) as [X|X]; right; [left; exact (eq_sym X)|right; exact X].
  Qed.
  Lemma links_last js : forall f0 ms f1 d, length js = S (length ms) -> l_to e (last (links f0 js ms f1) d) = frame_body e f1.
  Proof.
    intros f0 ms f1 d L. pose proof (links_to js f0 ms f1 L) as T.
    assert (N : links f0 js ms f1 <> []) by (intros X; rewrite X in T; destruct ms; discriminate T).
    destruct (exists_last N) as (l' & x & E). rewrite E in T |- *. rewrite last_last. rewrite map_app in T. cbn [map] in T.
    apply app_inj_tail in T. exact (proj2 T).
  Qed.
  Lemma links_flatten_last js : forall f0 ms f1, length js = S (length ms) -> last (flatten (links f0 js ms f1)) OOther = OFrame f1 /\ hd OOther (flatten (links f0 js ms f1)) = OFrame f0.
  Proof.
    induction js as [|j js IH]; intros f0 [|m ms] f1 L; cbn [length] in L; try lia; [split; reflexivity|]. injection L as L.
    split; [|reflexivity]. cbn [links flatten]. destruct (IH (FBody m) ms f1 L) as [H _]. destruct (flatten (links (FBody m) js ms f1)) as [|x xs] eqn:E; [discriminate H|exact H].
  Qed.
  Lemma flatten_inj ls : forall ls' : list link, flatten ls = flatten ls' -> ls = ls'.
  Proof.
    induction ls as [|[[f0 j] f1] ls IH]; intros [|[[g0 i] g1] ls'] E; cbn in E; try discriminate; [reflexivity|].
    injection E as -> -> -> E. f_equal. apply IH. exact E.
  Qed.
  Lemma flatten_mod (ls : list link) : length (flatten ls) = 3 * length ls.
  Proof. induction ls as [|[[f0 j] f1] ls IH]; [reflexivity|]. cbn [flatten length]. rewrite IH. lia. Qed.

  Lemma chain_can js : forall (h : heap) f0 ms f1, length js = S (length ms) ->
    NoDup js -> (forall j, In j js -> jframes h j = None) -> NoDup (ms ++ [frame_body e f1]) -> (forall m, In m (ms ++ [frame_body e f1]) -> parentjoint h m = None) ->
    can_links e h (links f0 js ms f1).
  Proof.
    induction js as [|j js IH]; intros h f0 ms f1 L Nj Fj Nm Pm; [destruct ms; discriminate L|]. destruct ms as [|m ms].
    - cbn. split; [|exact Logic.I]. split; [apply Fj; left; reflexivity|apply Pm; left; reflexivity].
    - cbn [links can_links]. inversion Nj as [|? ? Nj1 Nj2]; subst. cbn [app] in Nm. inversion Nm as [|? ? Nm1 Nm2]; subst.
      split; [split; [apply Fj; left; reflexivity|apply Pm; left; reflexivity]|].
      destruct (do_link_linked e h (f0, j, FBody m)) as (_ & P & F). apply IH; [now injection L|exact Nj2| |exact Nm2|].
      + intros i Ii. rewrite F. unfold l_joint; cbn [fst snd]. destruct (Nat.eqb_spec i j) as [->|]; [contradiction|]. apply Fj. right; exact Ii.
      + intros m' Im. rewrite P. unfold l_to; cbn [snd frame_body]. destruct (Nat.eqb_spec m' m) as [->|]; [contradiction|]. apply Pm. right; exact Im.
  Qed.
  Lemma below_leaf (h : heap) x y : childrenjoints h x = [] -> below e h x y -> y = x.
  Proof. intros C B. destruct B as [|x j g0 g1 y I0 F B]; [reflexivity|]. rewrite C in I0. destruct I0. Qed.
  Lemma chain_acyclic js : forall (h : heap) f0 ms f1 s, length js = S (length ms) ->
    rep e h s -> root s = frame_body e f1 -> ~ In (frame_body e f0) (bodies s) -> (forall m, In m ms -> ~ In m (bodies s) /\ childrenjoints h m = []) ->
    NoDup (frame_body e f0 :: ms) -> NoDup js -> (forall j, In j js -> jframes h j = None) ->
    acyclic_links e h (links f0 js ms f1).
  Proof.
    induction js as [|j js IH]; intros h f0 ms f1 s L Rs Es N0 Fm Nm Nj Fj; [destruct ms; discriminate L|]. destruct ms as [|m ms].
    - cbn. split; [|exact Logic.I]. unfold l_to, l_from; cbn [fst snd]. rewrite <- Es, (below_rep e h s) by exact Rs. exact N0.
    - cbn [links acyclic_links]. inversion Nm as [|? ? Nm1 Nm2]; subst. inversion Nj as [|? ? Nj1 Nj2]; subst.
      destruct (Fm m (or_introl eq_refl)) as [Nms Cm].
      split.
      { intros B. apply below_leaf in B; [|exact Cm]. apply Nm1. left. exact (eq_sym B). }
      destruct (do_link_linked e h (f0, j, FBody m)) as (C & P & F). unfold l_to, l_from, l_joint in C, P, F. cbn [fst snd frame_body] in C, P, F.
      apply (IH _ _ _ _ s); [now injection L| |exact Es|exact Nms| |exact Nm2|exact Nj2|].
      + apply (rep_ext e h); [| | |exact Rs].
        * intros b Ib. rewrite C. destruct (Nat.eqb_spec b (frame_body e f0)) as [->|]; [contradiction|apply app_nil_r].
        * intros b Ib. rewrite P. destruct (Nat.eqb_spec b m) as [->|]; [|reflexivity]. destruct Nms. rewrite bodies_tail. right; exact Ib.
        * intros i Ii. rewrite F. destruct (Nat.eqb_spec i j) as [->|]; [|reflexivity].
          destruct (rep_joint_edge e h s j Rs Ii) as (p & c & [(g0 & g1 & G & _) _] & _). rewrite (Fj j (or_introl eq_refl)) in G. discriminate G.
      + intros m' Im. destruct (Fm m' (or_intror Im)) as [A B]. split; [exact A|]. rewrite C, B.
        destruct (Nat.eqb_spec m' (frame_body e f0)) as [->|]; [destruct Nm1; right; exact Im|reflexivity].
      + intros i Ii. rewrite F. destruct (Nat.eqb_spec i j) as [->|]; [contradiction|]. apply Fj. right; exact Ii.
  Qed.

  Lemma chain_joints_from js : forall f0 ms f1 b, length js = S (length ms) -> NoDup (frame_body e f0 :: ms) ->
    (b = frame_body e f0 -> map l_joint (filter (fun l => Nat.eqb b (l_from e l)) (links f0 js ms f1)) = [hd 0 js]) /\
    (~ In b (frame_body e f0 :: ms) -> map l_joint (filter (fun l => Nat.eqb b (l_from e l)) (links f0 js ms f1)) = []).
  Proof.
    induction js as [|j js IH]; intros f0 ms f1 b L Nm; [destruct ms; discriminate L|]. destruct ms as [|m ms].
    - cbn [links filter l_from fst snd]. unfold l_from; cbn [fst snd]. split.
      + intros ->. rewrite Nat.eqb_refl. reflexivity.
      + intros N. destruct (Nat.eqb_spec b (frame_body e f0)) as [->|]; [destruct N; left; reflexivity|reflexivity].
    - inversion Nm as [|? ? Nm1 Nm2]; subst. injection L as L. destruct (IH (FBody m) ms f1 b L Nm2) as [H1 H2]. cbn [frame_body] in H1, H2.
      cbn [links filter]. change (l_from e (f0, j, FBody m)) with (frame_body e f0). split.
      + intros ->. rewrite Nat.eqb_refl. cbn [map]. rewrite H2 by exact Nm1. reflexivity.
      + intros N. destruct (Nat.eqb_spec b (frame_body e f0)) as [->|]; [destruct N; left; reflexivity|]. apply H2. intros X. apply N. right; exact X.
  Qed.

  Lemma forest_nodup (h : heap) t : forest e h -> rep e h t -> NoDup (bodies t).
  Proof.
    intros F R. destruct (forest_subtree e h (root t) F) as (u & Ru & Eu & Nu). rewrite (rep_unique e h t u R Ru (eq_sym Eu)). exact Nu.
  Qed.
  Lemma height_bodies t : height t < length (bodies t).
  Proof.
    induction t as [b ks IH] using tree_rect_in. rewrite height_eq, bodies_eq. cbn [length].
    assert (X : forall ks', incl ks' ks -> fold_right (fun jt n => Nat.max (S (height (snd jt))) n) 0 ks' <= length (flat_map (fun jt => bodies (snd jt)) ks')).
    { induction ks' as [|[j s] ks' IHk]; intros Ik; [cbn; lia|]. cbn [fold_right flat_map snd]. rewrite app_length.
      pose proof (IH j s (Ik _ (or_introl eq_refl))). pose proof (IHk (fun x H => Ik x (or_intror H))). lia. }
    pose proof (X ks (incl_refl _)). lia.
  Qed.

  (** the graph around the series after the call *)
  Record spliced (h h' : heap) (old : nat) (A B : list nat) (f0 : frame) (js ms : list nat) (f1 : frame) : Prop := {
    sp_children : childrenjoints h' (frame_body e f0) = A ++ hd 0 js :: B;
    sp_mids : forall m, In m ms -> childrenjoints h' m = map l_joint (filter (fun l => Nat.eqb m (l_from e l)) (links f0 js ms f1));
    sp_others : forall b, ~ In b (frame_body e f0 :: ms) -> childrenjoints h' b = childrenjoints h b;
    sp_links : forall g0 j g1, In (g0, j, g1) (links f0 js ms f1) -> jframes h' j = Some (g0, g1) /\ parentjoint h' (frame_body e g1) = Some j;
    sp_parent : forall b, ~ In b ms -> b <> frame_body e f1 -> parentjoint h' b = parentjoint h b;
    sp_frames : forall j, ~ In j js -> jframes h' j = if Nat.eqb j old then None else jframes h j }.

  Lemma do_links_frames_out ls : forall (h : heap) j, ~ In j (map l_joint ls) -> jframes (do_links e h ls) j = jframes h j.
  Proof.
    induction ls as [|l ls IH]; intros h j N; [reflexivity|]. cbn [do_links]. rewrite IH by (intros X; apply N; right; exact X).
    destruct (do_link_linked e h l) as (_ & _ & F). rewrite F. destruct (Nat.eqb_spec j (l_joint l)) as [->|]; [destruct N; left; reflexivity|reflexivity].
  Qed.
  Lemma do_links_parent_out ls : forall (h : heap) b, ~ In b (map (l_to e) ls) -> parentjoint (do_links e h ls) b = parentjoint h b.
  Proof.
    induction ls as [|l ls IH]; intros h b N; [reflexivity|]. cbn [do_links]. rewrite IH by (intros X; apply N; right; exact X).
    destruct (do_link_linked e h l) as (_ & P & _). rewrite P. destruct (Nat.eqb_spec b (l_to e l)) as [->|]; [destruct N; left; reflexivity|reflexivity].
  Qed.
  Lemma can_links_joint ls : forall (h : heap) j, can_links e h ls -> In j (map l_joint ls) -> jframes h j = None.
  Proof.
    induction ls as [|l ls IH]; intros h j C I0; [destruct I0|]. destruct C as [[C1 C2] C]. destruct I0 as [<-|I0]; [exact C1|].
    specialize (IH _ _ C I0). destruct (do_link_linked e h l) as (_ & _ & F). rewrite F in IH. destruct (Nat.eqb_spec j (l_joint l)); [discriminate IH|exact IH].
  Qed.
  Lemma can_links_to ls : forall (h : heap) b, can_links e h ls -> In b (map (l_to e) ls) -> parentjoint h b = None.
  Proof.
    induction ls as [|l ls IH]; intros h j C I0; [destruct I0|]. destruct C as [[C1 C2] C]. destruct I0 as [<-|I0]; [exact C2|].
    specialize (IH _ _ C I0). destruct (do_link_linked e h l) as (_ & P & _). rewrite P in IH. destruct (Nat.eqb_spec j (l_to e l)); [discriminate IH|exact IH].
  Qed.
  Lemma do_links_frames_in ls : forall (h : heap) k0 j k1, can_links e h ls -> In (k0, j, k1) ls -> jframes (do_links e h ls) j = Some (k0, k1).
  Proof.
    induction ls as [|l ls IH]; intros h k0 j k1 C I0; [destruct I0|]. destruct C as [C1 C]. cbn [do_links]. destruct I0 as [->|I0]; [|apply (IH _ _ _ _ C I0)].
    rewrite do_links_frames_out.
    - destruct (do_link_linked e h (k0, j, k1)) as (_ & _ & F). rewrite F. unfold l_joint; cbn [fst snd]. rewrite Nat.eqb_refl. reflexivity.
    - intros X. pose proof (can_links_joint _ _ _ C X) as Y. destruct (do_link_linked e h (k0, j, k1)) as (_ & _ & F). rewrite F in Y.
      unfold l_joint in Y; cbn [fst snd] in Y. rewrite Nat.eqb_refl in Y. discriminate Y.
  Qed.
  Lemma do_links_parent_in ls : forall (h : heap) k0 j k1, can_links e h ls -> In (k0, j, k1) ls -> parentjoint (do_links e h ls) (frame_body e k1) = Some j.
  Proof.
    induction ls as [|l ls IH]; intros h k0 j k1 C I0; [destruct I0|]. destruct C as [C1 C]. cbn [do_links]. destruct I0 as [->|I0]; [|apply (IH _ _ _ _ C I0)].
    rewrite do_links_parent_out.
    - destruct (do_link_linked e h (k0, j, k1)) as (_ & P & _). rewrite P. unfold l_to, l_joint; cbn [fst snd]. rewrite Nat.eqb_refl. reflexivity.
    - intros X. pose proof (can_links_to _ _ _ C X) as Y. destruct (do_link_linked e h (k0, j, k1)) as (_ & P & _). rewrite P in Y.
      unfold l_to, l_joint in Y; cbn [fst snd] in Y. rewrite Nat.eqb_refl in Y. discriminate Y.
  Qed.
  Lemma links_nonempty f0 js ms f1 : length js = S (length ms) -> exists l ls, links f0 js ms f1 = l :: ls /\ l_from e l = frame_body e f0.
  Proof. destruct js as [|j js], ms as [|m ms]; cbn; intros L; try discriminate; eexists _, _; (split; [reflexivity|reflexivity]). Qed.

  (** a series carries a subtree *)
  Lemma series_rep js : forall ms f0 f1 (h : heap) s, length js = S (length ms) -> rep e h s -> root s = frame_body e f1 -> NoDup (frame_body e f0 :: ms) ->
    (forall m, In m ms -> childrenjoints h m = map l_joint (filter (fun l => Nat.eqb m (l_from e l)) (links f0 js ms f1))) ->
    (forall g0 j g1, In (g0, j, g1) (links f0 js ms f1) -> jframes h j = Some (g0, g1) /\ parentjoint h (frame_body e g1) = Some j) ->
    exists k, branch js ms s = Some k /\ fst k = hd 0 js /\ edge e h (frame_body e f0) (fst k) (root (snd k)) /\ rep e h (snd k) /\ in_series h f0 js ms f1 /\
      bodies (snd k) = ms ++ bodies s /\ fst k :: joints (snd k) = js ++ joints s.
  Proof.
    induction js as [|j js IH]; intros ms f0 f1 h s L Rs Es Nd Cm Fl; [destruct ms; discriminate L|]. destruct ms as [|m ms].
    - destruct js; [|discriminate L]. exists (j, s). cbn [branch fst snd hd in_series]. destruct (Fl f0 j f1 (or_introl eq_refl)) as [F P].
      split; [reflexivity|]. split; [reflexivity|]. split; [|split; [exact Rs|split; [exact F|split; reflexivity]]]. split; [exists f0, f1; rewrite Es; auto|rewrite Es; exact P].
    - injection L as L. inversion Nd as [|? ? N0 Nm]; subst.
      destruct (IH ms (FBody m) f1 h s L Rs Es Nm) as (k & Ek & Fk & Edk & Rk & Sk & Bk & Jk).
      + intros m' Im. rewrite (Cm m' (or_intror Im)). cbn [links filter]. change (l_from e (f0, j, FBody m)) with (frame_body e f0).
        destruct (Nat.eqb_spec m' (frame_body e f0)) as [->|]; [destruct N0; right; exact Im|reflexivity].
      + intros g0 i g1 Ii. apply Fl. right; exact Ii.
      + destruct (Fl f0 j (FBody m) (or_introl eq_refl)) as [F P]. exists (j, Node m [k]).
        assert (Eb : branch (j :: js) (m :: ms) s = Some (j, Node m [k])) by (cbn [branch]; destruct js; rewrite Ek; reflexivity).
        split; [exact Eb|]. split; [reflexivity|]. cbn [fst snd root frame_body] in *.
        split; [split; [exists f0, (FBody m); auto|exact P]|]. split; [|split; [cbn [in_series]; destruct js; (split; [exact F|exact Sk])|]].
        * apply rep_intro.
          -- rewrite (Cm m (or_introl eq_refl)). cbn [links filter]. change (l_from e (f0, j, FBody m)) with (frame_body e f0).
             destruct (Nat.eqb_spec m (frame_body e f0)) as [E|]; [destruct N0; left; exact E|].
             destruct (chain_joints_from js (FBody m) ms f1 m L Nm) as [H _]. rewrite (H eq_refl). cbn [map]. rewrite Fk. reflexivity.
          -- intros i u [E|[]]. rewrite E in *. split; [exact Edk|exact Rk].
        * destruct k as [i u]. cbn [fst snd] in *. rewrite bodies_eq, joints_eq. cbn [flat_map fst snd]. rewrite !app_nil_r, Bk, Jk. split; reflexivity.
  Qed.
  Lemma below_trans (h : heap) x y z : below e h x y -> below e h y z -> below e h x z.
  Proof. induction 1; intros B; [exact B|]. econstructor; eauto. Qed.
  Lemma spliced_sub (h h' : heap) old A B f0 js ms f1 s : spliced h h' old A B f0 js ms f1 -> rep e h s -> NoDup (bodies s) -> root s = frame_body e f1 ->
    ~ In (frame_body e f0) (bodies s) -> (forall m, In m ms -> unused_body h m) -> (forall j, In j js -> j = old \/ unused_joint h j) -> jframes h old = Some (f0, f1) -> frame_body e f1 <> frame_body e f0 -> ~ In (frame_body e f1) ms -> rep e h' s.
  Proof.
    intros Sp Rs Ns Es N0 Um Uj Fr Nf N1.
    assert (Ms : forall m, In m ms -> ~ In m (bodies s)).
    { intros m Im Ib. rewrite bodies_tail in Ib. destruct Ib as [<-|Ib]; [rewrite Es in Im; exact (N1 Im)|].
      destruct (rep_edge_body e h s m Rs Ib) as (p & j & [_ P] & _). destruct (Um _ Im) as [_ Q]. rewrite Q in P. discriminate P. }
    apply (rep_ext e h); [| | |exact Rs].
    - intros b Ib. apply (sp_others _ _ _ _ _ _ _ _ _ Sp). intros [<-|X]; [exact (N0 Ib)|exact (Ms _ X Ib)].
    - intros b Ib. apply (sp_parent _ _ _ _ _ _ _ _ _ Sp); [intros X; apply (Ms _ X); rewrite bodies_tail; right; exact Ib|].
      intros ->. rewrite bodies_tail in Ns. inversion Ns as [|? ? X _]. rewrite <- Es in Ib. exact (X Ib).
    - intros j Ij. destruct (rep_joint_edge e h s j Rs Ij) as (p & c & [(g0 & g1 & G & G0 & G1) _] & Ip & _).
      assert (No : j <> old) by (intros ->; rewrite Fr in G; injection G as <- <-; rewrite <- G0 in Ip; exact (N0 Ip)).
      rewrite (sp_frames _ _ _ _ _ _ _ _ _ Sp); [|intros X; destruct (Uj _ X) as [Y|Y]; [exact (No Y)|unfold unused_joint in Y; rewrite Y in G; discriminate G]].
      destruct (Nat.eqb_spec j old) as [->|]; [|reflexivity]. rewrite Fr in G. injection G as <- <-. rewrite <- G0 in Ip. destruct (N0 Ip).
  Qed.

  Lemma replace_ok g fuel (h : heap) old A B f0 f1 js ms s gt :
    reachable 0%R e g h -> childrenjoints h (frame_body e f0) = A ++ old :: B -> ~ In old A -> jframes h old = Some (f0, f1) ->
    parentjoint h (frame_body e f1) = Some old -> rep e h s -> root s = frame_body e f1 ->
    length js = S (length ms) -> NoDup js -> (forall j, In j js -> j = old \/ unused_joint h j) -> NoDup ms -> (forall m, In m ms -> unused_body h m) ->
    rep e h gt -> root gt = ground e -> In (frame_body e f0) (bodies gt) -> length (bodies gt) + length ms <= fuel ->
    ~ In (ground e) ms ->
    exists h', replace_joint 0%R e fuel (OJoint old) (chain_args f0 js ms f1) h = (h', Ok tt) /\ reachable 0%R e g h' /\
      spliced h h' old A B f0 js ms f1 /\
      exists gt', rep e h' gt' /\ root gt' = ground e /\ length (bodies gt') <= length (bodies gt) + length ms /\ incl (bodies gt) (bodies gt').
  Proof.
    intros Re Ch Na Fr Pa Rs Es L Nj Uj Nm Um Rg Eg Ig Hf Gm.
    pose proof (reachable_forest 0%R e g h Re) as Fo. pose proof (reachable_vinv 0%R e g h Re) as Vi.
    set (b0 := frame_body e f0) in *. set (b1 := frame_body e f1) in *. set (ls := links f0 js ms f1).
    assert (Ed : edge e h b0 old b1) by (split; [exists f0, f1; auto|exact Pa]).
    assert (Io : In old (childrenjoints h b0)) by (rewrite Ch; apply in_or_app; right; left; reflexivity).
    assert (M0 : ~ In b0 ms) by (intros X; destruct (Um _ X) as [C _]; rewrite C in Io; destruct Io).
    assert (M1 : ~ In b1 ms) by (intros X; destruct (Um _ X) as [_ P]; rewrite P in Pa; discriminate Pa).
    assert (Ns : NoDup (bodies s)) by (apply (forest_nodup h); assumption).
    destruct (detach_forest e h b0 old b1 Fo Ed Io) as [Fd Nb].
    assert (Rp : rep e h (Node b0 (map (fun j => (j, s)) [])) -> True) by auto. clear Rp.
    assert (N0s : ~ In b0 (bodies s)).
    { destruct (forest_subtree e h b0 Fo) as (u & Ru & Eu & Nu). destruct u as [bu ku]. cbn [root] in Eu. subst bu.
      pose proof (rep_inv e h _ _ Ru) as [Cu Fu]. rewrite Cu in Io. apply in_map_iff in Io. destruct Io as ([j s'] & Ej & Ij). cbn [fst] in Ej. subst j.
      destruct (Fu _ _ Ij) as [[(k0 & k1 & K & K0 & K1) _] Rs']. rewrite Fr in K. injection K as <- <-. fold b1 in K1.
      assert (s = s') by (apply (rep_unique e h); [exact Rs|exact Rs'|rewrite Es; exact K1]). subst s'.
      rewrite bodies_eq in Nu. inversion Nu as [|? ? X _]. intros Y. apply X. apply in_flat_map. exists (old, s). auto. }
    assert (Mb : forall t m, rep e h t -> In m ms -> In m (bodies t) -> root t = m).
    { intros t m Rt Im Ib. rewrite bodies_tail in Ib. destruct Ib as [<-|Ib]; [reflexivity|].
      destruct (rep_edge_body e h t m Rt Ib) as (p & j & [_ P] & _). destruct (Um _ Im) as [_ Q]. rewrite Q in P. discriminate P. }
    assert (Ms : forall m, In m ms -> ~ In m (bodies s)).
    { intros m Im Ib. pose proof (Mb s m Rs Im Ib) as X. apply M1. fold b1 in Es. rewrite <- Es, X. exact Im. }
    set (h2 := set_frames (set_parent h b1 None) old None).
    assert (Cl : can_links e h2 ls).
    { apply chain_can; [exact L|exact Nj| | |].
      - intros j Ij. cbn. unfold upd. destruct (Nat.eqb_spec j old) as [->|X]; [reflexivity|]. destruct (Uj j Ij) as [Y|Y]; [destruct (X Y)|exact Y].
      - apply NoDup_rev in Nm. rewrite <- (rev_involutive ms). apply NoDup_rev with (l := b1 :: rev ms). constructor; [rewrite <- in_rev; exact M1|exact Nm].
      - intros m Im. cbn. unfold upd. fold b1 in Im. destruct (Nat.eqb_spec m b1) as [|N]; [reflexivity|]. apply in_app_or in Im. destruct Im as [Im|[Im|[]]]; [apply (Um m Im)|destruct (N (eq_sym Im))]. }
    assert (Al : acyclic_links e (detach h b0 old b1) ls).
    { assert (Rd : rep e (detach h b0 old b1) s) by (apply rep_detached_sub; assumption).
      apply (chain_acyclic js _ f0 ms f1 s); [exact L|exact Rd|exact Es|exact N0s| |constructor; [exact M0|exact Nm]|exact Nj|].
      - intros m Im. split; [exact (Ms m Im)|]. cbn. unfold upd. destruct (Nat.eqb_spec m b0) as [->|]; [contradiction|]. apply (Um m Im).
      - intros j Ij. cbn. unfold upd. destruct (Nat.eqb_spec j old) as [->|X]; [reflexivity|]. destruct (Uj j Ij) as [Y|Y]; [destruct (X Y)|exact Y]. }
    destruct (links_nonempty f0 js ms f1 L) as (l0 & ls0 & El & Fl). fold ls in El. fold b0 in Fl.
    assert (Ex : exists l, In l ls /\ l_from e l = b0) by (exists l0; rewrite El; split; [left; reflexivity|exact Fl]).
    pose proof (chain_forest e h b0 old b1 ls Fo Ed Io Ex Cl Al) as Fc.
    assert (N0m : NoDup (b0 :: ms)) by (constructor; assumption).
    set (hc := chain_result e h b0 old b1 ls) in *.
    destruct (chain_result_children e h b0 old b1 ls A B Ch Na Ex) as (news & n & En & C0 & Cx). fold hc in C0, Cx.
    destruct (chain_joints_from js f0 ms f1 b0 L N0m) as [Hn _]. fold ls in Hn. rewrite (Hn eq_refl) in En.
    assert (En' : news = [] /\ n = hd 0 js) by (destruct news as [|x [|y news]]; [injection En as <-; auto|discriminate En|discriminate En]).
    destruct En' as [-> ->]. rewrite app_nil_r in C0.
    (* the graph *)
    assert (Gr : spliced h hc old A B f0 js ms f1).
    { constructor.
      - exact C0.
      - intros m Im. rewrite Cx by (intros ->; contradiction). destruct (Um m Im) as [-> _]. reflexivity.
      - intros b Ib. rewrite Cx by (intros ->; apply Ib; left; reflexivity). destruct (chain_joints_from js f0 ms f1 b L N0m) as [_ H]. fold ls in H. rewrite (H Ib). apply app_nil_r.
      - intros k0 j k1 Ik. fold ls in Ik. split.
        + apply (do_links_frames_in ls h2 _ _ _ Cl Ik).
        + apply (do_links_parent_in ls h2 _ _ _ Cl Ik).
      - intros b Ib Nb1. destruct (chain_result_pf e h b0 old b1 ls) as [P _]. fold hc h2 in P. rewrite P.
        rewrite (do_links_parent_out ls h2 b). 2:{ unfold ls. rewrite links_to by exact L. intros X. apply in_app_or in X. destruct X as [X|[X|[]]]; [exact (Ib X)|exact (Nb1 (eq_sym X))]. }
        cbn. unfold upd. fold b1 in Nb1. destruct (Nat.eqb_spec b b1); [contradiction|reflexivity].
      - intros j Ij. destruct (chain_result_pf e h b0 old b1 ls) as [_ P]. fold hc h2 in P. rewrite P.
        rewrite (do_links_frames_out ls h2 j). 2:{ unfold ls. rewrite links_joints by exact L. exact Ij. } reflexivity. }
    assert (Vc : vinv e hc) by (apply (same_store_vinv e h); [apply chain_store|exact Vi]).
    destruct (forest_subtree e hc (ground e) Fc) as (gt' & Rg' & Eg' & Ng').
    assert (Cl' : forall y, below e hc (ground e) y -> In y (bodies gt ++ ms)).
    { assert (X : forall x y, below e hc x y -> In x (bodies gt ++ ms) -> In y (bodies gt ++ ms)).
      { induction 1 as [x|x j k0 k1 y Ix Fx Bx IHx]; intros Hx; [exact Hx|]. apply IHx. clear IHx Bx.
        destruct (in_dec Nat.eq_dec j js) as [Ij|Ij].
        - rewrite <- (links_joints js f0 ms f1 L) in Ij. apply in_map_iff in Ij. destruct Ij as ([[g0 i] g1] & Ei & Il). cbn in Ei. subst i.
          destruct (sp_links _ _ _ _ _ _ _ _ _ Gr _ _ _ Il) as [G _]. rewrite Fx in G. injection G as -> ->.
          assert (Y : In (l_to e (g0, j, g1)) (ms ++ [b1])) by (unfold b1; rewrite <- (links_to js f0 ms f1 L); apply in_map; exact Il).
          unfold l_to in Y; cbn [snd] in Y. apply in_app_or in Y. apply in_or_app. destruct Y as [Y|[<-|[]]]; [right; exact Y|left].
          apply (below_rep e h gt b1 Rg). apply (below_rep e h gt b0 Rg) in Ig. clear - Ig Io Fr. induction Ig; [econstructor; [exact Io|exact Fr|constructor]|econstructor; eauto].
        - rewrite (sp_frames _ _ _ _ _ _ _ _ _ Gr j Ij) in Fx. destruct (Nat.eqb_spec j old) as [|Nj']; [discriminate Fx|].
          assert (Hc : In j (childrenjoints h x) /\ In x (bodies gt)).
          { destruct (Nat.eq_dec x b0) as [->|N0].
            - split; [|exact Ig]. fold b0 in C0. rewrite C0 in Ix. rewrite Ch. apply in_app_or in Ix. apply in_or_app. destruct Ix as [Ix|[Ix|Ix]]; [left; exact Ix| |right; right; exact Ix].
              destruct Ij. rewrite <- Ix. destruct js; [discriminate L|left; reflexivity].
            - destruct (in_dec Nat.eq_dec x ms) as [Xm|Xm].
              + rewrite (sp_mids _ _ _ _ _ _ _ _ _ Gr x Xm) in Ix. apply in_map_iff in Ix. destruct Ix as (l & El' & Il). apply filter_In in Il. destruct Il as [Il _].
                destruct Ij. rewrite <- (links_joints js f0 ms f1 L), <- El'. apply in_map. exact Il.
              + rewrite (sp_others _ _ _ _ _ _ _ _ _ Gr x) in Ix by (intros [Z|Z]; [exact (N0 (eq_sym Z))|exact (Xm Z)]). split; [exact Ix|].
                apply in_app_or in Hx. destruct Hx as [Hx|Hx]; [exact Hx|contradiction]. }
          destruct Hc as [Hc Hg]. apply in_or_app. left. apply (below_rep e h gt _ Rg). apply (below_rep e h gt _ Rg) in Hg.
          clear - Hg Hc Fx. induction Hg; [econstructor; [exact Hc|exact Fx|constructor]|econstructor; eauto]. }
      intros y By. apply (X _ _ By). apply in_or_app. left. rewrite <- Eg. apply (below_rep e h gt _ Rg). constructor. }
    assert (Len : length (bodies gt') <= length (bodies gt) + length ms).
    { rewrite <- app_length. apply NoDup_incl_length; [exact Ng'|]. intros y Iy. apply Cl'. rewrite <- Eg'. apply (below_rep e hc gt' _ Rg'). exact Iy. }
    destruct (init_spec 0%R e hc gt' fuel Vc Rg' Eg' Ng') as (h' & Ei & _).
    { pose proof (height_bodies gt'). lia. }
    pose proof (init_ok_graph 0%R e fuel hc h' tt Ei) as Sg.
    assert (Er : replace_joint 0%R e fuel (OJoint old) (chain_args f0 js ms f1) h = (h', Ok tt)).
    { rewrite args_links. unfold replace_joint. rewrite Fr. fold b0 b1. rewrite Pa, Nat.eqb_refl.
      assert (Exb : existsb (Nat.eqb old) (childrenjoints h b0) = true) by (apply existsb_exists; exists old; split; [exact Io|apply Nat.eqb_refl]).
      rewrite Exb. cbn [andb]. assert (Rc : replace_chain 0%R e fuel old (flatten (links f0 js ms f1)) h = (h', Ok tt)).
      { unfold replace_chain. rewrite Fr. destruct (links_flatten_last js f0 ms f1 L) as [Q1 Q2]. rewrite Q1, Q2. fold b0 b1. rewrite !Nat.eqb_refl. cbn [andb].
        fold h2. fold ls. rewrite (add_link_ok_links e ls h2); [|rewrite El; discriminate|exact Cl].
        assert (Li : exists i, list_index old (childrenjoints (do_links e h2 ls) b0) = Some i).
        { rewrite do_links_children. change (childrenjoints h2 b0) with (childrenjoints h b0). rewrite Ch, <- app_assoc. cbn [app]. rewrite list_index_app by exact Na. eauto. }
        destruct Li as [i Li]. rewrite Li. unfold hc, chain_result in Ei. fold h2 in Ei. rewrite Li in Ei. exact Ei. }
      destruct (flatten (links f0 js ms f1)) as [|x [|y zs]] eqn:Ef.
      - fold ls in Ef. rewrite El in Ef. destruct l0 as [[? ?] ?]. discriminate Ef.
      - fold ls in Ef. rewrite El in Ef. destruct l0 as [[? ?] ?]. discriminate Ef.
      - rewrite <- Ef, flatten_mod, Nat.mul_comm, Nat.mod_mul by discriminate. cbn [Nat.eqb]. rewrite Ef. exact Rc. }
    exists h'. split; [exact Er|]. split.
    { pose proof (reach_step 0%R e g h fuel (ReplaceJoint old (chain_args f0 js ms f1)) Re) as St. cbn [step] in St. rewrite Er in St. apply St.
      cbn [admissible]. split; [exists tt; cbn [step]; rewrite Er; reflexivity|]. intros _ ls' k0 k1 E' K. rewrite Fr in K. injection K as <- <-.
      rewrite args_links in E'. apply flatten_inj in E'. rewrite <- E'. exact Al. }
    destruct Sg as (Sc & Sp & Sf). split.
    { destruct Gr as [G1 G2 G3 G4 G5 G6]. constructor; intros; rewrite ?Sc, ?Sp, ?Sf; auto. }
    exists gt'. split; [|split; [exact Eg'|split; [exact Len|]]].
    { apply (rep_ext e hc); [intros; apply Sc|intros; apply Sp|intros; apply Sf|exact Rg']. }
    intros y Iy. apply (below_rep e hc gt' _ Rg'). rewrite Eg'. apply (below_rep e h gt _ Rg) in Iy. rewrite Eg in Iy. revert Iy.
    assert (Nf : b1 <> b0) by (intros X; apply N0s; rewrite <- X, <- Es, bodies_tail; left; reflexivity).
    assert (Rsc : rep e hc s) by (apply (spliced_sub h hc old A B f0 js ms f1); assumption).
    destruct (series_rep js ms f0 f1 hc s L Rsc Es N0m) as (k & _ & Fk & Edk & Rk & _ & Bk & _); [exact (sp_mids _ _ _ _ _ _ _ _ _ Gr)|exact (sp_links _ _ _ _ _ _ _ _ _ Gr)|].
    assert (B01 : below e hc b0 b1).
    { destruct Edk as [(k0 & k1 & K & K0 & K1) _]. apply (below_step e hc b0 (fst k) k0 k1); [rewrite C0, Fk; apply in_or_app; right; left; reflexivity|exact K|].
      rewrite K1. apply (below_rep e hc _ _ Rk). rewrite Bk. apply in_or_app. right. rewrite <- Es, bodies_tail. left; reflexivity. }
    assert (X : forall x y, below e h x y -> below e hc x y).
    { intros x z Bx. induction Bx as [x|x j k0 k1 z Ix Fx Bx IHx]; [constructor|].
      assert (Xm : ~ In x ms) by (intros Z; destruct (Um _ Z) as [Z1 _]; rewrite Z1 in Ix; destruct Ix).
      destruct (Nat.eq_dec j old) as [->|Nj0].
      - rewrite Fr in Fx. injection Fx as <- <-. assert (x = b0).
        { destruct (forest_edge e h x old Fo Ix) as (c & (g0 & g1 & G & G0 & _) & _). rewrite Fr in G. injection G as <- <-. symmetry. exact G0. }
        subst x. exact (below_trans hc _ _ _ B01 IHx).
      - assert (Ij : ~ In j js) by (intros Z; destruct (Uj _ Z) as [Y|Y]; [exact (Nj0 Y)|unfold unused_joint in Y; rewrite Y in Fx; discriminate Fx]).
        apply (below_step e hc x j k0 k1); [| |exact IHx].
        + destruct (Nat.eq_dec x b0) as [->|N0].
          * rewrite C0. rewrite Ch in Ix. apply in_app_or in Ix. apply in_or_app. destruct Ix as [Ix|[Ix|Ix]]; [left; exact Ix|destruct (Nj0 (eq_sym Ix))|right; right; exact Ix].
          * rewrite (sp_others _ _ _ _ _ _ _ _ _ Gr x); [exact Ix|]. intros [Z|Z]; [exact (N0 (eq_sym Z))|exact (Xm Z)].
        + rewrite (sp_frames _ _ _ _ _ _ _ _ _ Gr j Ij). destruct (Nat.eqb_spec j old); [contradiction|exact Fx]. }
    apply X.
  Qed.
End P.
