(** Growing a chain of bodies. *)
From Coq Require Import Lra Lia.
From Verif Require Import Spec_Robots.
From Verif Require Import Proof_Linalg Proof_SE3 Proof_Tree Proof_World Proof_World2 Proof_World3 Proof_Register Proof_Dofs Proof_World4.

Lemma chain_app l j b : forall L, l = L ++ [(j, b)] -> chain l = match L with [] => [(j, Node b [])] | (i, c) :: L' => [(i, Node c (chain (L' ++ [(j, b)])))] end.
Proof. intros [ | (i, c) L] ->; reflexivity. Qed.
(** the last body of a chain that starts at [g] *)
Definition tip (g : nat) (L : list (nat * nat)) : nat := match rev L with [] => g | (_, b) :: _ => b end.
Lemma tip_app g L j b : tip g (L ++ [(j, b)]) = b.
Proof. unfold tip. now rewrite rev_app_distr. Qed.
Lemma tip_cons g j b L : tip g ((j, b) :: L) = tip b L.
Proof. unfold tip. cbn [rev]. destruct (rev L) as [ | (i, c) R] eqn:E; reflexivity. Qed.
Lemma tip_in g L : tip g L = g \/ In (tip g L) (map snd L).
Proof. revert g. induction L as [ | (j, b) L IH]; intros g; [now left | ]. rewrite tip_cons. right. cbn. destruct (IH b); auto. Qed.
Lemma chain_bodies L : flat_map (fun jt => bodies (snd jt)) (chain L) = map snd L.
Proof. induction L as [ | (j, b) L IH]; [reflexivity | ]. cbn [chain flat_map snd map]. now rewrite app_nil_r, bodies_eq, IH. Qed.
Lemma chain_joints L : flat_map (fun jt => fst jt :: joints (snd jt)) (chain L) = map fst L.
Proof.
  induction L as [ | (j, b) L IH]; [reflexivity | ]. cbn [chain flat_map fst snd map]. rewrite app_nil_r. f_equal. rewrite <- IH. destruct L as [ | (i, c) L]; reflexivity.
Qed.
Lemma chain_height L : forall b, height (Node b (chain L)) = length L.
Proof. induction L as [ | (j, c) L IH]; intros b; [reflexivity | ]. cbn [chain length]. rewrite <- (IH c). cbn [height]. lia. Qed.

Lemma graft_chain j b : forall L g ks, NoDup (g :: flat_map (fun jt => bodies (snd jt)) ks ++ map snd L) ->
  graft (tip g L) j (Node b []) (Node g (ks ++ chain L)) = Node g (ks ++ chain (L ++ [(j, b)])).
Proof.
  induction L as [ | (i, c) L IH]; intros g ks ND; rewrite graft_eq.
  - cbn [tip rev chain app map]. rewrite !app_nil_r. rewrite Nat.eqb_refl. apply NoDup_cons_iff in ND. cbn in ND. rewrite app_nil_r in ND. rewrite graft_kids_notin by tauto. reflexivity.
  - rewrite tip_cons. assert (Hp : tip c L <> g /\ ~ In (tip c L) (flat_map (fun jt => bodies (snd jt)) ks)).
    { assert (In (tip c L) (c :: map snd L)) as Hin by (destruct (tip_in c L) as [-> | ]; [now left | now right]). apply NoDup_cons_iff in ND. destruct ND as (N1 & N2). cbn [map snd] in N1, N2. split.
      - intros E. apply N1. apply in_or_app. right. now rewrite <- E.
      - apply NoDup_app_iff in N2. destruct N2 as (_ & _ & N3). intros Hk. exact (N3 _ Hk Hin). }
    destruct Hp as (H1 & H2). destruct (Nat.eqb_spec g (tip c L)) as [E | _]; [congruence | ]. rewrite app_nil_r, map_app, graft_kids_notin by exact H2. cbn [chain map app fst snd].
    rewrite <- (app_nil_l (chain L)) at 1. rewrite (IH c []); [reflexivity | ]. cbn. apply NoDup_cons_iff in ND. destruct ND as (_ & ND). apply NoDup_app_iff in ND. exact (proj1 (proj2 ND)).
Qed.

Section P.
  Variables (e : env) (g0 : nat -> nat -> R).
  Notation heap := (@heap R).
  Notation reachable := (reachable 0 e g0).

  Lemma below_leaf (h : heap) b x : childrenjoints h b = [] -> below e h b x -> x = b.
  Proof. intros C B. inversion B as [ | ? j f0 f1 y Ij]; subst; [reflexivity | ]. rewrite C in Ij. destruct Ij. Qed.

  (** one more body at the end of the chain *)
  Lemma grow (h : heap) ks L f j b : reachable h -> rep e h (Node (ground e) (ks ++ chain L)) -> NoDup (bodies (Node (ground e) (ks ++ chain L))) ->
    frame_body e f = tip (ground e) L -> ~ In b (bodies (Node (ground e) (ks ++ chain L))) ->
    parentjoint h b = None -> childrenjoints h b = [] -> jframes h j = None ->
    exists h', add_link e [OFrame f; OJoint j; OFrame (FBody b)] h = (h', Ok tt) /\ reachable h' /\
      rep e h' (Node (ground e) (ks ++ chain (L ++ [(j, b)]))) /\ NoDup (bodies (Node (ground e) (ks ++ chain (L ++ [(j, b)])))) /\
      linked e h (f, j, FBody b) h' /\ (forall i, joint_gvel h' i = joint_gvel h i).
  Proof.
    intros R Rt ND Ef Nb Pb Cb Fj. assert (CL : can_link e h (f, j, FBody b)) by (split; assumption).
    assert (E : add_link e [OFrame f; OJoint j; OFrame (FBody b)] h = (do_link e h (f, j, FBody b), Ok tt)) by (rewrite add_link_step, Fj; cbn [length Nat.modulo]; cbn [frame_body]; rewrite Pb; reflexivity).
    assert (Lk := do_link_linked e h (f, j, FBody b)).
    assert (It : In (frame_body e f) (bodies (Node (ground e) (ks ++ chain L)))).
    { rewrite Ef, bodies_eq, flat_map_app, chain_bodies. destruct (tip_in (ground e) L) as [-> | ]; [now left | right; apply in_or_app; now right]. }
    exists (do_link e h (f, j, FBody b)). split; [exact E | ]. split.
    { change (do_link e h (f, j, FBody b)) with (fst (do_link e h (f, j, FBody b), Ok tt)). rewrite <- E. apply (reach_step 0 e g0 h 0 (AddLink f j (FBody b)) R). cbn [admissible frame_body].
      intros B. apply (below_leaf _ _ _ Cb) in B. apply Nb. now rewrite <- B. }
    assert (ND' : NoDup (ground e :: flat_map (fun jt => bodies (snd jt)) ks ++ map snd L)) by (rewrite bodies_eq, flat_map_app, chain_bodies in ND; exact ND).
    assert (G := graft_chain j b L (ground e) ks ND'). rewrite <- Ef in G. destruct Lk as (L1 & L2 & L3).
    split; [ | split; [ | split; [split; [exact L1 | split; [exact L2 | exact L3]] | ]]].
    - rewrite <- G. refine (rep_graft e h (do_link e h (f, j, FBody b)) (frame_body e f) j (Node b []) _ Rt (or_intror Logic.I) _ _ _ _ _ _ _).
      + cbn [root]. intros H. apply Nb. rewrite bodies_tail. now right.
      + exact (joint_not_in_trees e h _ j Rt Fj).
      + intros x _. exact (L1 x).
      + intros x Hx. rewrite L2. cbn [l_to snd frame_body]. destruct (Nat.eqb_spec x b) as [-> | ]; [ | reflexivity]. exfalso. apply Nb. rewrite bodies_tail. now right.
      + intros i Hi. rewrite L3. cbn [l_joint fst snd]. destruct (Nat.eqb_spec i j) as [-> | ]; [ | reflexivity]. exfalso. exact (joint_not_in_trees e h _ j Rt Fj Hi).
      + split; [exists f, (FBody b); split; [rewrite L3; cbn [l_joint fst snd]; now rewrite Nat.eqb_refl | split; reflexivity] | ]. rewrite L2. cbn [l_to snd frame_body root]. now rewrite Nat.eqb_refl.
      + constructor; [ | constructor]. rewrite L1, Cb. unfold l_from. cbn [fst snd]. destruct (Nat.eqb_spec b (frame_body e f)) as [E' | ]; [ | reflexivity]. exfalso. apply Nb. now rewrite E'.
    - rewrite <- G. assert (P := bodies_graft (frame_body e f) j (Node b []) _ ND It). apply (Permutation.Permutation_NoDup (Permutation.Permutation_sym P)). apply NoDup_app_iff. split; [exact ND | ]. split; [repeat constructor; auto | ]. intros x H1 [<- | []]. exact (Nb H1).
    - intros i. destruct (do_link_store e h (f, j, FBody b)) as (? & ? & ? & ?). unfold joint_gvel, read. congruence.
  Qed.
End P.
