(** C93: MatlabConverter. *)
From Coq Require Import Lia Lra.
From Verif Require Import Spec_Dyn Spec_Convert Proof_Tree Proof_World Proof_World2 Proof_World3 Proof_Dofs Proof_Register Proof_World4 Proof_Convert Proof_Convert2 Proof_Convert3 Proof_Convert4.
From Verif Require Import Spec_Matlab Spec_Mass Props_Mass Props_Checks Proof_SE3 Proof_Robots2.
Import ListNotations.
Open Scope nat_scope.
Notation CS := Model_Convert.CS. Notation c_h := Model_Convert.c_h. Notation c_new := Model_Convert.c_new.

(** the bodies that are inserted are accepted by Body() *)
Lemma mid_mass_of : mass_of 1000 mid_mass.
Proof. apply diag_mass; lra. Qed.
Lemma mass_accepted eigvals m M : eigs_ok eigvals -> mass_of m M -> ismassmatrix eigvals M true = true.
Proof. intros Ev (Sy & Pd & Ll). apply accepts_semi. apply (C70_definite eigvals m M (Ev _ Sy) Sy Ll). exact Pd. Qed.
Lemma mid_accepted eigvals : eigs_ok eigvals -> ismassmatrix eigvals mid_mass true = true.
Proof. intros Ev. exact (mass_accepted _ _ _ Ev mid_mass_of). Qed.
Lemma base_mass_of : mass_of 10000 (box (V3 (25 / 100) (10 / 100) (5 / 100)) 10000).
Proof. apply (C36_mass_constructors (25/100) (10/100) (5/100) 1 1 10000); lra. Qed.

(** ** Scripts that only register shapes and contacts *)
Section R.
  Variables (e : env) (eigvals : m6 -> list R) (g : nat -> nat -> R) (fuel : nat).
  Definition plain (c : cmd) : Prop :=
    match c with MkShape _ _ _ _ => True | MkSub _ _ _ H => ishomogeneousmatrix H = true | Reg (OShape _) | Reg (OConstraint _) => True | _ => False end.
  Lemma plain_ok cs : Forall plain cs -> forall h, reachable 0%R e g h ->
    exists h', exec_all e eigvals fuel cs h = (h', Ok tt) /\ reachable 0%R e g h' /\ same_graph h h' /\ (jdof h' = jdof h /\ w_ndof h' = w_ndof h) /\
      (forall s, In s (w_shapes h') <-> In s (w_shapes h) \/ In (Reg (OShape s)) cs) /\ (forall c, In c (w_constraints h') <-> In c (w_constraints h) \/ In (Reg (OConstraint c)) cs).
  Proof.
    induction 1 as [|c cs Hc F IH]; intros h Re.
    - exists h. split; [reflexivity|]. split; [exact Re|]. split; [apply same_graph_refl|]. split; [auto|]. split; intros x; cbn; tauto.
    - assert (X : exists h1, exec e eigvals fuel c h = (h1, Ok tt) /\ reachable 0%R e g h1 /\ same_graph h h1 /\ (jdof h1 = jdof h /\ w_ndof h1 = w_ndof h) /\
        (forall s, In s (w_shapes h1) <-> In s (w_shapes h) \/ c = Reg (OShape s)) /\ (forall x, In x (w_constraints h1) <-> In x (w_constraints h) \/ c = Reg (OConstraint x))).
      { assert (Triv : exec e eigvals fuel c h = (h, Ok tt) -> (forall o, c <> Reg o) -> exists h1, exec e eigvals fuel c h = (h1, Ok tt) /\ reachable 0%R e g h1 /\ same_graph h h1 /\ (jdof h1 = jdof h /\ w_ndof h1 = w_ndof h) /\
          (forall s, In s (w_shapes h1) <-> In s (w_shapes h) \/ c = Reg (OShape s)) /\ (forall x, In x (w_constraints h1) <-> In x (w_constraints h) \/ c = Reg (OConstraint x))).
        { intros E N. exists h. split; [exact E|]. split; [exact Re|]. split; [apply same_graph_refl|]. split; [auto|]. split; intros x; (split; [intros Z; left; exact Z|intros [Z|Z]; [exact Z|destruct (N _ Z)]]). }
        destruct c as [b n M|s b n H|j n k|s n f gg|b M|f0 j f1|o|]; cbn [plain] in Hc; try contradiction Hc.
        - apply Triv; [cbn [exec]; rewrite Hc; reflexivity|discriminate].
        - apply Triv; [reflexivity|discriminate].
        - assert (Rg : forall o, (match o with OShape _ | OConstraint _ => True | _ => False end) -> exists h1, register e o h = (h1, Ok tt) /\ same_store h h1).
          { intros o' Ho. destruct o' as [f|j|s|cc|a|]; try contradiction Ho; pose proof (register_store e (OShape s) h) as S1 || pose proof (register_store e (OConstraint cc) h) as S1.
            - eexists. split; [reflexivity|exact S1].
            - cbn [register] in *. destruct (existsb _ _); (eexists; split; [reflexivity|exact S1]). }
          destruct o as [f|j|s|cc|a|]; try contradiction Hc.
          + destruct (Rg (OShape s) Logic.I) as (h1 & E1 & (_ & _ & _ & _ & D1 & D2)). exists h1. split; [exact E1|].
            destruct (register_members e _ _ _ (reachable_reg 0%R e g h Re) E1) as (_ & M1 & M2 & _).
            split; [pose proof (reach_step 0%R e g h 0 (Register (OShape s)) Re Logic.I) as X; cbn [step] in X; rewrite E1 in X; exact X|].
            split; [pose proof (register_graph e (OShape s) h) as X; rewrite E1 in X; exact X|]. split; [split; [exact D1|exact D2]|].
            split; intros x; [rewrite M1|rewrite M2]; (split; (intros [Z|Z]; [left; exact Z|right; congruence])).
          + destruct (Rg (OConstraint cc) Logic.I) as (h1 & E1 & (_ & _ & _ & _ & D1 & D2)). exists h1. split; [exact E1|].
            destruct (register_members e _ _ _ (reachable_reg 0%R e g h Re) E1) as (_ & M1 & M2 & _).
            split; [pose proof (reach_step 0%R e g h 0 (Register (OConstraint cc)) Re Logic.I) as X; cbn [step] in X; rewrite E1 in X; exact X|].
            split; [pose proof (register_graph e (OConstraint cc) h) as X; rewrite E1 in X; exact X|]. split; [split; [exact D1|exact D2]|].
            split; intros x; [rewrite M1|rewrite M2]; (split; (intros [Z|Z]; [left; exact Z|right; congruence])). }
      destruct X as (h1 & E1 & Re1 & (Ga & Gb & Gc) & (D1 & D2) & S1 & C1). destruct (IH h1 Re1) as (h' & E' & Re' & (Ga' & Gb' & Gc') & (D1' & D2') & S2 & C2).
      exists h'. cbn [exec_all]. rewrite E1. split; [exact E'|]. split; [exact Re'|]. split; [split; [|split]; intros; congruence|]. split; [split; congruence|].
      split; intros x; [rewrite S2, S1|rewrite C2, C1]; cbn [In]; intuition.
  Qed.
End R.

Section P.
  Variables (e : env) (eigvals : m6 -> list R) (J : nat -> jstate) (nm : obj -> option string) (I : bids) (xc : nat -> nat).
  Hypothesis Ev : eigs_ok eigvals.
  Hypothesis Ib : forall i j, xb I i = xb I j -> i = j.
  Hypothesis Ij : forall i j, xj I i = xj I j -> i = j.

  (** A robot in a free joint: convert_robot succeeds; the robot is afterwards the same tree where each joint made of several hinges is
      replaced by these hinges in series through new bodies; the rest of the world is as before, and the world is still well formed. *)
  Theorem C93_serial : forall g fuel (h : heap) nb nj new ks1 root s ks2 st,
    let wt := Node (ground e) (ks1 ++ (root, s) :: ks2) in
    reachable 0%R e g h -> rep e h wt -> 3 * length (bodies wt) <= fuel -> jt (J root) = FreeJoint ->
    (forall k, nb <= k -> unused_body h (xb I k) /\ xb I k <> ground e) -> (forall k, nj <= k -> unused_joint h (xj I k)) ->
    st = CS h nb nj new ->
    exists h' nb' nj' new' s', convert_robot e eigvals J nm I xc fuel root st = (CS h' nb' nj' (new ++ new'), Ok tt) /\
      reachable 0%R e g h' /\ serial J nm h h' new' s s' /\ jframes h' root = jframes h root /\
      rep e h' (Node (ground e) (ks1 ++ (root, s') :: ks2)) /\
      (forall i, ~ In i (joints s) -> (forall k, nj <= k < nj' -> i <> xj I k) -> jframes h' i = jframes h i) /\
      w_shapes h' = w_shapes h /\ w_constraints h' = w_constraints h /\ w_controllers h' = w_controllers h /\ (ready e h wt -> ready e h' (Node (ground e) (ks1 ++ (root, s') :: ks2))).
  Proof.
    intros g fuel h nb nj new ks1 root s ks2 st wt Re Rw Hf Tr Fb Fj ->.
    pose proof (reachable_forest 0%R e g h Re) as Fo. pose proof (forest_nodup e h _ Fo Rw) as Nw. pose proof (rep_nodup_joints e h _ Rw Nw) as NJ.
    pose proof (rep_inv e h _ _ Rw) as [Ch Fk]. destruct (Fk root s) as [[(f0 & f1 & Fr & B0 & B1) Pa] Rs]; [apply in_or_app; right; left; reflexivity|].
    unfold convert_robot, child_body. cbn [Model_Convert.c_h]. rewrite Fr. unfold conv_root. cbn [Model_Convert.c_h]. rewrite Fr, B0, Nat.eqb_refl, Tr. cbn [negb]. rewrite B1.
    unfold wt in Nw. rewrite bodies_eq, flat_map_app in Nw. cbn [flat_map snd] in Nw. apply NoDup_cons_iff in Nw. destruct Nw as [Xg _].
    unfold wt in NJ. rewrite joints_eq, flat_map_app in NJ. cbn [flat_map fst snd app] in NJ. rewrite NoDup_app_iff in NJ. destruct NJ as (_ & NJ2 & _). apply NoDup_cons_iff in NJ2. destruct NJ2 as [NJ4 _].
    destruct (traverse_in e eigvals J nm I fuel Ib Ij (mid_accepted eigvals Ev) g h nb nj new s (fun x => Node (ground e) (ks1 ++ (root, x) :: ks2))) as
      (h' & nb' & nj' & new' & s' & E & _ & _ & Re' & Se & Rw' & Kf & (A & B & C) & Nu).
    { intros x. apply swap_in, swap_here. } { exact Re. } { exact Rw. } { reflexivity. }
    { intros X. apply Xg, in_or_app. right. apply in_or_app. left. exact X. } { exact Hf. } { split; assumption. }
    exists h', nb', nj', new', s'. split; [exact E|]. split; [exact Re'|]. split; [exact Se|]. split.
    { rewrite <- Fr. apply Kf; [intros X; apply NJ4, in_or_app; left; exact X|]. intros (k & Hk & Ek). specialize (Fj k ltac:(lia)). unfold unused_joint in Fj. rewrite <- Ek, Fr in Fj. discriminate Fj. }
    split; [exact Rw'|]. split; [intros i Ni Nn; apply Kf; [exact Ni|]; intros (k & Hk & ->); exact (Nn k Hk eq_refl)|].
    split; [exact A|]. split; [exact B|]. split; [exact C|]. intros Rd. apply Nu.
    - intros t Rt Et Nt. rewrite (rep_unique e h t wt Rt Rw Et). exact Rd.
    - exact Rw'.
    - reflexivity.
    - apply (forest_nodup e h' _ (reachable_forest 0%R e g h' Re') Rw').
  Qed.

  (** the corners of the bottom of the new body (lengths 0.25, 0.1, 0.05) *)
  Definition corners : list (R * R) := [(1, 1); (1, -1); (-1, -1); (-1, 1)]%R.
  (** A robot in another joint: convert_robot puts between the ground and this joint a body of 10000 kg in a free joint;
      this joint is kept as it is, the joints above it are replaced as before; a box on the ground, four spheres on the new body and four contacts are registered. *)
  Theorem C93_root : forall g fuel (h : heap) nb nj new ks1 root s ks2 f0 f1,
    let wt := Node (ground e) (ks1 ++ (root, s) :: ks2) in
    reachable 0%R e g h -> rep e h wt -> 3 * S (length (bodies wt)) <= fuel -> jt (J root) <> FreeJoint -> jframes h root = Some (f0, f1) ->
    (forall k, nb <= k -> unused_body h (xb I k) /\ xb I k <> ground e) -> (forall k, nj <= k -> unused_joint h (xj I k)) ->
    exists st' s' M, convert_robot e eigvals J nm I xc fuel root (CS h nb nj new) = (st', Ok tt) /\
      let h' := c_h st' in let base := xb I nb in let fr := xj I nj in
      reachable 0%R e g h' /\ rep e h' (Node (ground e) (ks1 ++ (fr, Node base [(root, s')]) :: ks2)) /\
      jframes h' fr = Some (f0, FBody base) /\ jframes h' root = Some (FBody base, f1) /\
      In (MkBody base None M) (c_new st') /\ mass_of 10000 M /\ In (MkJoint fr None FreeJoint) (c_new st') /\
      In (MkShape (xh I 0) None (FBody (ground e)) (ShBox (V3 (225 / 1000) (15 / 100) (125 / 1000)))) (c_new st') /\ In (xh I 0) (w_shapes h') /\
      (forall k a b, nth_error corners k = Some (a, b) ->
         In (MkSub (xs I k) base None (transl (a * (125 / 1000)) (- (5 / 100)) (b * (25 / 1000)))) (c_new st') /\ In (MkShape (xh I (S k)) None (FSub (xs I k)) (ShSphere (5 / 100))) (c_new st') /\
         In (xh I (S k)) (w_shapes h') /\ In (xc k) (w_constraints h')) /\
      exists h1, (forall i, i <> root -> i <> fr -> jframes h1 i = jframes h i) /\ serial J nm h1 h' (c_new st') s s'.
  Proof.
    intros g fuel h nb nj new ks1 root s ks2 f0 f1 wt Re Rw Hf Tr Fr Fb Fj.
    pose proof (reachable_forest 0%R e g h Re) as Fo. pose proof (forest_nodup e h _ Fo Rw) as Nw. pose proof (rep_nodup_joints e h _ Rw Nw) as NJ.
    pose proof (rep_inv e h _ _ Rw) as [Ch Fk]. destruct (Fk root s) as [[(f0' & f1' & Fr' & B0 & B1) Pa] Rs]; [apply in_or_app; right; left; reflexivity|].
    rewrite Fr in Fr'. injection Fr' as <- <-.
    set (base := xb I nb). set (fr := xj I nj). set (M := box (V3 (25 / 100) (10 / 100) (5 / 100)) 10000%R).
    destruct (Fb nb (le_n _)) as [[Ubc Ubp] Ubg]. pose proof (Fj nj (le_n _)) as Uf. unfold unused_joint in Uf.
    assert (Nfr : fr <> root) by (intros X; unfold fr in X; rewrite X, Fr in Uf; discriminate Uf).
    assert (Nbw : ~ In base (bodies wt)).
    { intros X. rewrite bodies_tail in X. destruct X as [X|X]; [exact (Ubg (eq_sym X))|]. destruct (rep_edge_body e h wt _ Rw X) as (p & j & [_ P] & _). unfold base in P. rewrite Ubp in P. discriminate P. }
    assert (Nfw : ~ In fr (joints wt)).
    { intros X. destruct (rep_frames e h wt fr Rw X) as [f Hx]. unfold fr in Hx. rewrite Uf in Hx. discriminate Hx. }
    assert (Nr : ~ In root (joints s)).
    { unfold wt in NJ. rewrite joints_eq, flat_map_app in NJ. cbn [flat_map fst snd app] in NJ. rewrite NoDup_app_iff in NJ. destruct NJ as (_ & NJ2 & _). apply NoDup_cons_iff in NJ2. destruct NJ2 as [NJ4 _].
      intros X. apply NJ4, in_or_app. left. exact X. }
    assert (Nrk : ~ In root (map fst ks1)).
    { unfold wt in NJ. rewrite joints_eq, flat_map_app in NJ. cbn [flat_map fst snd app] in NJ. rewrite NoDup_app_iff in NJ. destruct NJ as (_ & _ & NJ3).
      intros X. apply in_map_iff in X. destruct X as ([i u] & Ei & Iu). cbn [fst] in Ei. subst i. apply (NJ3 root); [apply in_flat_map; exists (root, u); split; [exact Iu|left; reflexivity]|left; reflexivity]. }
    assert (Bnd : length (bodies wt) + 1 <= fuel) by lia.
    destruct (replace_ok e g fuel h root (map fst ks1) (map fst ks2) f0 f1 [fr; root] [base] s wt Re) as (h1 & Er & Re1 & Sp & _).
    { rewrite B0, Ch, map_app. reflexivity. } { exact Nrk. } { exact Fr. } { rewrite B1. exact Pa. } { exact Rs. } { symmetry; exact B1. } { reflexivity. }
    { constructor; [intros [X|[]]; exact (Nfr (eq_sym X))|constructor; [intros []|constructor]]. }
    { intros j [<-|[<-|[]]]; [right; exact Uf|left; reflexivity]. } { constructor; [intros []|constructor]. }
    { intros m [<-|[]]. split; assumption. } { exact Rw. } { reflexivity. } { rewrite B0. left. reflexivity. } { exact Bnd. } { intros [X|[]]. exact (Ubg X). }
    destruct (Forall_forall plain (floor_script e I xc base)) as [_ Pl]. destruct (plain_ok e eigvals g fuel (floor_script e I xc base)) with (h := h1) as (h2 & Ef & Re2 & (G1 & G2 & G3) & _ & S2 & C2).
    { unfold floor_script, corner. repeat (apply Forall_app; split); repeat constructor; cbn [plain]; apply ishom_SE3, transl_SE3. }
    { exact Re1. }
    (* the tree after the first step *)
    assert (Lk : forall g0 i g1, In (g0, i, g1) [(f0, fr, FBody base); (FBody base, root, f1)] -> jframes h1 i = Some (g0, g1) /\ parentjoint h1 (frame_body e g1) = Some i) by (exact (sp_links _ _ _ _ _ _ _ _ _ _ Sp)).
    destruct (Lk f0 fr (FBody base) (or_introl eq_refl)) as [L1 L2]. destruct (Lk (FBody base) root f1 (or_intror (or_introl eq_refl))) as [L3 L4]. cbn [frame_body] in L2.
    assert (Cb : childrenjoints h1 base = [root]).
    { rewrite (sp_mids _ _ _ _ _ _ _ _ _ _ Sp base) by (left; reflexivity). cbn [links filter map l_from fst snd]. unfold l_from; cbn [fst snd frame_body]. rewrite Nat.eqb_refl, B0. destruct (Nat.eqb_spec base (ground e)) as [X|_]; [destruct (Ubg X)|reflexivity]. }
    assert (Kt : forall t, rep e h t -> incl (bodies t) (bodies wt) -> ~ In (ground e) (bodies t) -> ~ In (frame_body e f1) (tailb t) -> ~ In root (joints t) -> rep e h1 t).
    { intros t Rt It Ig1 Nt Nj. apply (rep_ext e h); [| | |exact Rt].
      - intros b Ibb. apply (sp_others _ _ _ _ _ _ _ _ _ _ Sp). intros [X|[X|[]]]; [apply Ig1; rewrite <- B0, X; exact Ibb|apply Nbw; rewrite X; apply It; exact Ibb].
      - intros b Ibb. apply (sp_parent _ _ _ _ _ _ _ _ _ _ Sp).
        + intros [X|[]]. apply Nbw. rewrite X. apply It. rewrite bodies_tail. right. exact Ibb.
        + intros ->. exact (Nt Ibb).
      - intros j Ijj. assert (Nj' : j <> root) by (intros ->; exact (Nj Ijj)). rewrite (sp_frames _ _ _ _ _ _ _ _ _ _ Sp).
        + destruct (Nat.eqb_spec j root); [contradiction|reflexivity].
        + intros [X|[X|[]]]; [|exact (Nj' (eq_sym X))]. destruct (rep_frames e h t j Rt Ijj) as [f Hx]. rewrite <- X in Hx. unfold fr in Hx. rewrite Uf in Hx. discriminate Hx. }
    pose proof Nw as Nw0. unfold wt in Nw0. rewrite bodies_eq, flat_map_app in Nw0. cbn [flat_map snd] in Nw0. apply NoDup_cons_iff in Nw0. destruct Nw0 as [Xg Nd].
    rewrite NoDup_app_iff in Nd. destruct Nd as (_ & Nd2 & Nd3). rewrite NoDup_app_iff in Nd2. destruct Nd2 as (Nds & _ & Nd4).
    pose proof NJ as NJ0. unfold wt in NJ0. rewrite joints_eq, flat_map_app in NJ0. cbn [flat_map fst snd app] in NJ0.
    rewrite NoDup_app_iff in NJ0. destruct NJ0 as (_ & NJ2 & NJ3). apply NoDup_cons_iff in NJ2. destruct NJ2 as [NJ4 NJ5].
    assert (Rs1 : rep e h1 s).
    { apply Kt; [exact Rs| | | |exact Nr].
      - intros x Ix. unfold wt. rewrite bodies_eq, flat_map_app. right. apply in_or_app. right. apply in_or_app. left. exact Ix.
      - intros X. apply Xg, in_or_app. right. apply in_or_app. left. exact X.
      - rewrite B1. intros X. rewrite bodies_tail in Nds. apply NoDup_cons_iff in Nds. destruct Nds as [Y _]. exact (Y X). }
    set (W := fun x => Node (ground e) (ks1 ++ (fr, Node base [(root, x)]) :: ks2)).
    assert (R1 : rep e h1 (W s)).
    { apply rep_intro.
      - rewrite <- B0. rewrite (sp_children _ _ _ _ _ _ _ _ _ _ Sp), map_app. reflexivity.
      - intros i u Iu. apply in_app_or in Iu. assert (Iu' : (i, u) = (fr, Node base [(root, s)]) \/ In (i, u) (ks1 ++ ks2)).
        { destruct Iu as [Iu|[Iu|Iu]]; [right; apply in_or_app; left; exact Iu|left; symmetry; exact Iu|right; apply in_or_app; right; exact Iu]. }
        destruct Iu' as [Q|Iu'].
        + injection Q as -> ->. split; [split; [exists f0, (FBody base); auto|exact L2]|]. apply rep_intro; [rewrite Cb; reflexivity|]. intros i u [Q|[]]. injection Q as <- <-.
          split; [split; [exists (FBody base), f1; auto|rewrite <- B1; exact L4]|exact Rs1].
        + assert (Iw : In (i, u) (ks1 ++ (root, s) :: ks2)) by (apply in_app_or in Iu'; apply in_or_app; destruct Iu' as [Z|Z]; [left; exact Z|right; right; exact Z]).
          destruct (Fk i u Iw) as [[(k0 & k1 & K0 & K1 & K2) Kp] Ru].
          assert (Iub : incl (bodies u) (bodies wt)) by (intros x Ix; unfold wt; rewrite bodies_eq; right; apply in_flat_map; exists (i, u); auto).
          assert (Iuj : i = root \/ In root (joints u) -> False).
          { intros X. assert (X' : In root (fst (i, u) :: joints (snd (i, u)))) by (destruct X as [->|X]; [left; reflexivity|right; exact X]).
            apply in_app_or in Iu'. destruct Iu' as [Z|Z]; [apply (NJ3 root); [apply in_flat_map; exists (i, u); split; [exact Z|exact X']|left; reflexivity]|].
            apply NJ4, in_or_app. right. apply in_flat_map. exists (i, u). split; [exact Z|exact X']. }
          assert (Nrt : forall x, In x (bodies u) -> x <> Spec_Tree.root s).
          { intros x Ix ->. assert (Y : In (Spec_Tree.root s) (bodies s)) by (rewrite bodies_tail; left; reflexivity).
            apply in_app_or in Iu'. destruct Iu' as [Z|Z]; [apply (Nd3 (Spec_Tree.root s)); [apply in_flat_map; exists (i, u); auto|apply in_or_app; left; exact Y]|].
            apply (Nd4 _ Y), in_flat_map. exists (i, u). auto. }
          assert (Ir : i <> root) by (intros ->; apply Iuj; left; reflexivity).
          split; [split|].
          * exists k0, k1. split; [|auto]. rewrite (sp_frames _ _ _ _ _ _ _ _ _ _ Sp).
            -- destruct (Nat.eqb_spec i root); [contradiction|exact K0].
            -- intros [X|[X|[]]]; [|exact (Ir (eq_sym X))]. rewrite <- X in K0. unfold fr in K0. rewrite Uf in K0. discriminate K0.
          * rewrite (sp_parent _ _ _ _ _ _ _ _ _ _ Sp); [exact Kp| |].
            -- intros [X|[]]. apply Nbw. rewrite X. apply Iub. rewrite bodies_tail. left. reflexivity.
            -- rewrite B1. apply Nrt. rewrite bodies_tail. left. reflexivity.
          * apply Kt; [exact Ru|exact Iub| | |intros X; apply Iuj; right; exact X].
            -- intros X. apply Xg. apply in_app_or in Iu'. apply in_or_app. destruct Iu' as [Z|Z]; [left|right; apply in_or_app; right]; apply in_flat_map; exists (i, u); auto.
            -- rewrite B1. intros X. apply (Nrt (Spec_Tree.root s)); [rewrite bodies_tail; right; exact X|reflexivity]. }
    assert (R2 : rep e h2 (W s)) by (apply (same_graph_rep e h1 h2); [split; [exact G1|split; [exact G2|exact G3]]|exact R1]).
    assert (Fi2 : free_ids e I h2 (S nb) (S nj)).
    { split.
      - intros k Hk. destruct (Fb k) as [[Uc Up] Ug]; [lia|]. split; [|exact Ug]. assert (Nk : xb I k <> base) by (intros X; apply Ib in X; lia). split.
        + rewrite G1. rewrite (sp_others _ _ _ _ _ _ _ _ _ _ Sp); [exact Uc|]. intros [X|[X|[]]]; [rewrite B0 in X; exact (Ug (eq_sym X))|exact (Nk (eq_sym X))].
        + rewrite G2. rewrite (sp_parent _ _ _ _ _ _ _ _ _ _ Sp); [exact Up|intros [X|[]]; exact (Nk (eq_sym X))|]. intros X. rewrite X, B1, Pa in Up. discriminate Up.
      - intros k Hk. unfold unused_joint. rewrite G3. rewrite (sp_frames _ _ _ _ _ _ _ _ _ _ Sp).
        + destruct (Nat.eqb _ root); [reflexivity|]. apply Fj. lia.
        + intros [X|[X|[]]]; [apply Ij in X; lia|]. specialize (Fj k ltac:(lia)). unfold unused_joint in Fj. rewrite <- X, Fr in Fj. discriminate Fj. }
    set (new2 := new ++ [MkBody base None M; MkJoint fr None FreeJoint] ++ floor_script e I xc base).
    destruct (traverse_in e eigvals J nm I fuel Ib Ij (mid_accepted eigvals Ev) g h2 (S nb) (S nj) new2 s W) as
      (h' & nb' & nj' & new' & s' & E & _ & _ & Re' & Se & Rw' & Kf & (A & B & C) & _).
    { intros x. unfold W. apply swap_in. apply (swap_in s x base [] root s x []). apply swap_here. } { exact Re2. } { exact R2. } { reflexivity. }
    { intros X. apply Xg, in_or_app. right. apply in_or_app. left. exact X. }
    { unfold W. unfold wt in Hf. rewrite bodies_eq, flat_map_app in Hf |- *. cbn [flat_map snd] in Hf |- *. rewrite (bodies_eq base). cbn [flat_map snd length app] in Hf |- *. rewrite !app_length in Hf |- *. cbn [length]. rewrite !app_length in *. cbn [length]. lia. }
    { exact Fi2. }
    exists (CS h' nb' nj' (new2 ++ new')), s', M.
    assert (Run : convert_robot e eigvals J nm I xc fuel root (CS h nb nj new) = (CS h' nb' nj' (new2 ++ new'), Ok tt)).
    { unfold convert_robot, child_body. cbn [Model_Convert.c_h]. rewrite Fr. unfold conv_root. cbn [Model_Convert.c_h Model_Convert.c_nb Model_Convert.c_nj Model_Convert.c_new]. rewrite Fr, B0, Nat.eqb_refl. cbn [negb].
      fold base fr M. rewrite (mass_accepted eigvals 10000 M Ev base_mass_of). cbn [negb]. cbv zeta. fold base fr. rewrite Er, Ef, B1. fold new2. destruct (jt (J root)); try exact E. destruct (Tr eq_refl). }
    split; [exact Run|]. cbn [Model_Convert.c_h Model_Convert.c_new]. cbv zeta. split; [exact Re'|]. split; [exact Rw'|].
    assert (Nn : forall i f, jframes h2 i = Some f -> ~ newj I (S nj) nj' i) by (intros i f Hx; exact (frames_used e I h2 (S nb) (S nj) i f (S nj) nj' Fi2 (le_n _) Hx)).
    assert (In2 : forall c, In c new2 -> In c (new2 ++ new')) by (intros c X; apply in_or_app; left; exact X).
    split. { rewrite Kf; [rewrite G3; exact L1| |]; [intros X; apply Nfw; unfold wt; apply (in_joints_kid _ _ root s); [apply in_or_app; right; left; reflexivity|right; exact X]|apply (Nn fr (f0, FBody base)); rewrite G3; exact L1]. }
    split. { rewrite Kf; [rewrite G3; exact L3|exact Nr|apply (Nn root (FBody base, f1)); rewrite G3; exact L3]. }
    split. { apply In2. unfold new2. apply in_or_app. right. left. reflexivity. }
    split. { exact base_mass_of. }
    split. { apply In2. unfold new2. apply in_or_app. right. right. left. reflexivity. }
    assert (Inf : forall c, In c (floor_script e I xc base) -> In c (new2 ++ new')) by (intros c X; apply In2; unfold new2; apply in_or_app; right; right; right; exact X).
    split. { apply Inf. unfold floor_script. left. replace (25 / 100 / 2 + 2 * (5 / 100))%R with (225 / 1000)%R by lra. replace (10 / 100 / 2 + 2 * (5 / 100))%R with (15 / 100)%R by lra.
      replace (5 / 100 / 2 + 2 * (5 / 100))%R with (125 / 1000)%R by lra. reflexivity. }
    split. { rewrite A. apply S2. right. unfold floor_script. right. left. reflexivity. }
    split.
    { assert (Cor : forall k a b, nth_error corners k = Some (a, b) -> incl (corner I xc base k a b) (floor_script e I xc base)).
      { intros k a b Hk c Hc. unfold floor_script. apply in_or_app. right. destruct k as [|[|[|[|k]]]]; cbn [nth_error corners] in Hk; [injection Hk as <- <-..|destruct k; discriminate Hk].
        - apply in_or_app. left. exact Hc.
        - apply in_or_app. right. apply in_or_app. left. exact Hc.
        - apply in_or_app. right. apply in_or_app. right. apply in_or_app. left. exact Hc.
        - apply in_or_app. right. apply in_or_app. right. apply in_or_app. right. exact Hc. }
      intros k a b Hk. specialize (Cor k a b Hk). split; [|split; [|split]].
      - apply Inf, Cor. unfold corner. left. replace (a * (125 / 1000))%R with (a * (25 / 100) / 2)%R by lra. replace (b * (25 / 1000))%R with (b * (5 / 100) / 2)%R by lra.
        replace (- (5 / 100))%R with (- (10 / 100) / 2)%R by lra. reflexivity.
      - apply Inf, Cor. unfold corner. right. left. reflexivity.
      - rewrite A. apply S2. right. apply Cor. unfold corner. cbn. auto.
      - rewrite B. apply C2. right. apply Cor. unfold corner. cbn. auto. }
    exists h2. split.
    - intros i N1 N2. rewrite G3, (sp_frames _ _ _ _ _ _ _ _ _ _ Sp); [destruct (Nat.eqb_spec i root); [contradiction|reflexivity]|]. intros [X|[X|[]]]; [exact (N2 (eq_sym X))|exact (N1 (eq_sym X))].
    - apply (serial_ext J nm h2 h2 h' h' new' (new2 ++ new') s s' Se); [reflexivity|reflexivity|]. intros c X. apply in_or_app. right. exact X.
  Qed.
End P.
