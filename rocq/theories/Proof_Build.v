(** Executing a script that builds a robot. *)
From Coq Require Import Lra Lia.
From Verif Require Import Spec_Build.
From Verif Require Import Proof_Linalg Proof_SE3 Proof_Tree Proof_World Proof_World2 Proof_World3 Proof_Register Proof_Dofs Proof_World4 Props_Dyn Proof_Urdf2 Proof_Urdf3.
Open Scope R_scope.

Section S.
  Variables (e : env) (g0 : nat -> nat -> R) (eigvals : m6 -> list R).
  Notation heap := (@heap R).
  Notation reachable := (reachable 0 e g0).

  (** the checks made by the calls pass *)
  Definition passes (c : cmd) : Prop :=
    match c with
    | MkBody _ _ M => ismassmatrix eigvals M true = true
    | MkSub _ _ _ H => SE3 H
    | Reg (OJoint _) | Reg OOther | WInit => False
    | _ => True
    end.
  Variables (h0 : heap) (bs : list nat) (rk : nat -> nat).
  Definition fits (Lk : list link) : Prop :=
    (forall l, In l Lk -> In (l_to e l) bs /\ (In (l_from e l) bs -> (rk (l_from e l) < rk (l_to e l))%nat) /\ jframes h0 (l_joint l) = None) /\
    NoDup (map (l_to e) Lk) /\ NoDup (map l_joint Lk).
  Hypothesis New : forall b, In b bs -> childrenjoints h0 b = [] /\ parentjoint h0 b = None /\ b <> ground e.

  Lemma registered_le h h' x : reg_le h h' -> registered h x -> registered h' x.
  Proof.
    intros ((l0 & E0) & (l1 & E1) & (l2 & E2) & (l3 & E3)). destruct x as [f | | | | | ]; cbn [registered]; auto; rewrite ?E1, ?E2, ?E3; intros; try (apply in_or_app; now left).
    destruct f; cbn [known] in *; auto; rewrite E0; apply in_or_app; now left.
  Qed.
  Lemma add_once_in x l : In x (add_once Nat.eqb x l).
  Proof. unfold add_once. destruct (existsb (Nat.eqb x) l) eqn:E; [apply existsb_exists in E; destruct E as (y & Hy & Q); apply Nat.eqb_eq in Q; now subst | apply in_or_app; right; now left]. Qed.
  Lemma register_in x (h : heap) : reg_inv e h -> (match x with OJoint _ | OOther => False | _ => True end) -> registered (fst (register e x h)) x.
  Proof.
    intros Ri Hx. destruct x as [f | | s | c | a | ]; cbn [registered]; try contradiction.
    - exact (proj2 (register_frame_inv e f h Ri)).
    - apply register_shape_in.
    - apply register_con_in.
    - cbn. apply add_once_in.
  Qed.
  Lemma exec_step c (h : heap) Lk : reachable h -> linked_all e h0 Lk h -> passes c -> fits (Lk ++ links_in [c]) ->
    exists h1, exec e eigvals 0 c h = (h1, Ok tt) /\ reachable h1 /\ linked_all e h0 (Lk ++ links_in [c]) h1 /\ reg_le h h1 /\ (forall x, c = Reg x -> registered h1 x).
  Proof.
    intros R LA P F. assert (Tr : forall x, (forall y, c <> Reg y) -> x = (h, @Ok unit tt) -> links_in [c] = [] -> exists h1, x = (h1, Ok tt) /\ reachable h1 /\ linked_all e h0 (Lk ++ links_in [c]) h1 /\ reg_le h h1 /\ (forall x, c = Reg x -> registered h1 x)).
    { intros x N -> ->. exists h. rewrite app_nil_r. split; [reflexivity | ]. split; [exact R | ]. split; [exact LA | ]. split; [apply reg_le_refl | ]. intros y Q. destruct (N y Q). }
    destruct c as [b n M | s b n H | j n k | s n f g | b M | f0 j f1 | x | ]; cbn [exec passes] in *; try (apply Tr; [discriminate | reflexivity | reflexivity]).
    - apply Tr; [discriminate | now rewrite P | reflexivity].
    - apply Tr; [discriminate | now rewrite (ishom_SE3 _ P) | reflexivity].
    - clear Tr. cbn [links_in flat_map app] in *. destruct F as (F1 & F2 & F3). set (l := (f0, j, f1)) in *. destruct (F1 l ltac:(apply in_or_app; right; now left)) as (A1 & A2 & A3).
      rewrite map_app in F2, F3. cbn [map] in F2, F3. apply NoDup_remove in F2, F3. rewrite app_nil_r in F2, F3. destruct F2 as (_ & F2), F3 as (_ & F3).
      assert (Nt : forall l', In l' Lk -> l_to e l' <> l_to e l) by (intros l' Hl Q; apply F2; rewrite <- Q; now apply in_map).
      assert (Nj : forall l', In l' Lk -> l_joint l' <> l_joint l) by (intros l' Hl Q; apply F3; rewrite <- Q; now apply in_map).
      assert (El : add_link e [OFrame f0; OJoint j; OFrame f1] h = (do_link e h l, Ok tt)).
      { rewrite add_link_step. assert (Q := la_f' _ _ _ _ LA (l_joint l) Nj). cbn [l_joint l fst snd] in Q. rewrite Q. cbn [l_joint l fst snd] in A3. rewrite A3. cbn [length Nat.modulo].
        assert (Q2 := la_p' _ _ _ _ LA (l_to e l) Nt). unfold l_to in Q2. cbn [l snd] in Q2. rewrite Q2. assert (Q3 := proj1 (proj2 (New _ A1))). unfold l_to in Q3. cbn [l snd] in Q3. rewrite Q3. reflexivity. }
      rewrite El. exists (do_link e h l). split; [reflexivity | ].
      split.
      { assert (X := reach_step 0 e g0 h 0 (AddLink f0 j f1) R). cbn [step admissible] in X. rewrite El in X. apply X. intros B.
        destruct (below_new e h0 Lk h (fun b => In b bs) rk LA (fun b Hb => proj1 (New b Hb))) with (x := frame_body e f1) (y := frame_body e f0) as (B1 & B2); [ | exact B | exact A1 | ].
        - intros l' Hl. destruct (F1 l' ltac:(apply in_or_app; now left)) as (? & ? & ?). auto.
        - specialize (A2 B1). unfold l_from, l_to in A2. cbn [l fst snd] in A2. lia. }
      split.
      { assert (St := do_link_store e h l). apply (linked_all_step e h0 Lk h l _ LA (do_link_linked e h l)); auto. destruct St as (? & ? & ? & ?). intros i. unfold joint_gvel, read. congruence. }
      split; [apply (do_link_reg e h l (reachable_reg 0 e g0 h R)) | discriminate].
    - assert (Hx : match x with OJoint _ | OOther => False | _ => True end) by (destruct x; auto). destruct (register_ok e g0 x h R Hx) as (h1 & Er & R1 & G1 & V1). exists h1. split; [exact Er | ]. split; [exact R1 | ].
      cbn [links_in flat_map]. rewrite app_nil_r. split; [exact (linked_all_same e h0 Lk h h1 LA G1 V1) | ]. assert (X := register_inv e x h (reachable_reg 0 e g0 h R)). rewrite Er in X. split; [apply X | ].
      intros y Q. injection Q as <-. assert (Y := register_in x h (reachable_reg 0 e g0 h R) Hx). now rewrite Er in Y.
    - contradiction.
  Qed.
  Lemma exec_fuel c (h : heap) fuel : c <> WInit -> exec e eigvals fuel c h = exec e eigvals 0 c h.
  Proof. destruct c; cbn; congruence. Qed.
  Lemma exec_all_ok fuel : forall cs (h : heap) Lk, reachable h -> linked_all e h0 Lk h -> Forall passes cs -> fits (Lk ++ links_in cs) ->
    exists h1, exec_all e eigvals fuel cs h = (h1, Ok tt) /\ reachable h1 /\ linked_all e h0 (Lk ++ links_in cs) h1 /\ reg_le h h1 /\ (forall x, In (Reg x) cs -> registered h1 x).
  Proof.
    induction cs as [ | c cs IH]; intros h Lk R LA P F; cbn [exec_all].
    - exists h. cbn. rewrite app_nil_r. split; [reflexivity | ]. split; [exact R | ]. split; [exact LA | ]. split; [apply reg_le_refl | intros ? []].
    - inversion P as [ | c' cs' Pc Pcs]; subst. assert (El : links_in (c :: cs) = links_in [c] ++ links_in cs) by (unfold links_in; cbn [flat_map]; now rewrite app_nil_r). rewrite El, app_assoc in F.
      assert (F1 : fits (Lk ++ links_in [c])).
      { destruct F as (A & B & C). split; [intros l Hl; apply A; apply in_or_app; now left | ]. rewrite map_app in B, C. apply NoDup_app_iff in B, C. split; [apply B | apply C]. }
      destruct (exec_step c h Lk R LA Pc F1) as (h1 & E1 & R1 & LA1 & L1 & G1). rewrite exec_fuel, E1 by (intros ->; contradiction).
      destruct (IH h1 _ R1 LA1 Pcs F) as (h2 & E2 & R2 & LA2 & L2 & G2). exists h2. split; [exact E2 | ]. split; [exact R2 | ]. split; [now rewrite El, app_assoc | ]. split; [eapply reg_le_trans; eauto | ].
      intros x [Q | Hx]; [ | auto]. eapply registered_le; [exact L2 | ]. auto.
  Qed.
  Lemma exec_app fuel : forall a b (h : heap), exec_all e eigvals fuel (a ++ b) h = match exec_all e eigvals fuel a h with (h1, Err x) => (h1, Err x) | (h1, Ok _) => exec_all e eigvals fuel b h1 end.
  Proof. induction a as [ | c a IH]; intros b h; cbn [app exec_all]; [reflexivity | ]. destruct (exec e eigvals fuel c h) as (h1, [u | x]); [apply IH | reflexivity]. Qed.

  (** the whole script *)
  Lemma build_ok cs t : reachable h0 -> rep e h0 t -> root t = ground e -> NoDup bs -> Forall passes cs -> fits (links_in cs) ->
    (forall l, In l (links_in cs) -> In (l_from e l) bs \/ l_from e l = ground e) ->
    (forall b, In b bs -> In b (map (l_to e) (links_in cs))) ->
    forall fuel, (length (bodies t) + length bs < fuel)%nat ->
    exists h' t', exec_all e eigvals fuel (cs ++ [WInit]) h0 = (h', Ok tt) /\ reachable h' /\ ready e h' t' /\ (height t' < fuel)%nat /\
      (forall b, In b (bodies t') <-> In b (bodies t) \/ In b bs) /\ Permutation (joints t') (joints t ++ map l_joint (links_in cs)) /\
      w_ndof h' = (total_ndof e (joints t) + total_ndof e (map l_joint (links_in cs)))%nat /\
      (forall l, In l (links_in cs) -> jframes h' (l_joint l) = Some (fst (fst l), snd l)) /\
      (forall j, ~ In j (map l_joint (links_in cs)) -> jframes h' j = jframes h0 j) /\
      (forall j, joint_gvel h' j = joint_gvel h0 j) /\
      reg_le h0 h' /\ (forall x, In (Reg x) cs -> registered h' x).
  Proof.
    intros R Rt Er NB P F Fr Al fuel Fu. destruct (exec_all_ok fuel cs h0 [] R (linked_all_nil e h0 h0 (same_graph_refl h0) (fun _ => eq_refl)) P F) as (h3 & E3 & R3 & LA & L3 & G3). cbn [app] in LA.
    destruct (world_iterators e h0 (reachable_forest 0 e g0 h0 R)) as (t1 & Rt1 & Er1 & ND & NDj & _). assert (Q := rep_unique e h0 _ _ Rt Rt1 ltac:(congruence)). subst t1.
    destruct (world_iterators e h3 (reachable_forest 0 e g0 h3 R3)) as (t' & Rt' & Er' & ND' & NDj' & _).
    destruct F as (F1 & F2 & F3).
    destruct (tree_after e h0 h3 (links_in cs) (fun b => In b bs) t t' LA) as (Bd & Jt); [intros b Hb; destruct (New b Hb) as (? & ? & ?); auto | | | exact Rt | exact Er | exact Rt' | exact Er' | ].
    { intros l Hl. destruct (F1 l Hl) as (? & ? & ?). auto. }
    { exists rk. intros b Hb. specialize (Al b Hb). apply in_map_iff in Al. destruct Al as (l & <- & Hl). exists l. split; [exact Hl | ]. split; [reflexivity | ]. destruct (F1 l Hl) as (A & B & _). destruct (Fr l Hl) as [C | C]; auto. }
    assert (Hf : (height t' < fuel)%nat).
    { assert (X := height_lt_bodies t'). assert (Y : (length (bodies t') <= length (bodies t ++ bs))%nat) by (apply NoDup_incl_length; [exact ND' | intros b Hb; apply Bd in Hb; now apply in_or_app]). rewrite app_length in Y. lia. }
    destruct (init_spec 0 e h3 t' fuel (reachable_vinv 0 e g0 h3 R3) Rt' Er' ND' Hf) as (h' & Hi & Hn & Hs & Ho & Hg & Hw & Hnx & Hax).
    assert (G4 : same_graph h3 h') by (assert (X := init_graph 0 e fuel h3); rewrite Hi in X; exact X).
    assert (L4 : reg_le h3 h') by (assert (X := init_reg 0 e fuel h3); rewrite Hi in X; now apply same_reg_le).
    exists h', t'. split; [rewrite exec_app, E3; cbn [exec_all exec]; now rewrite Hi | ].
    split; [assert (X := reach_step 0 e g0 h3 fuel Init R3 Logic.I); cbn [step] in X; rewrite Hi in X; exact X | ].
    split; [split; [exact (same_graph_rep e h3 h' _ G4 Rt') | split; [exact Er' | split; [exact ND' | split; [exact Hn | intros l1 j l2 E; exact (proj1 (Hs l1 j l2 E))]]]] | ]. split; [exact Hf | ]. split; [exact Bd | ].
    assert (Pm : Permutation (joints t') (joints t ++ map l_joint (links_in cs))).
    { assert (Old : forall j, In j (joints t) -> jframes h0 j <> None) by (intros j Hj; destruct (rep_joint_edge e h0 t j Rt Hj) as (p & c & ((f0 & f1 & Ef & _) & _) & _); congruence).
      apply NoDup_Permutation; [exact NDj' | | ].
      - apply NoDup_app_iff. split; [exact NDj | ]. split; [exact F3 | ]. intros x H1 H2. apply in_map_iff in H2. destruct H2 as (l & <- & Hl). destruct (F1 l Hl) as (_ & _ & Q). exact (Old _ H1 Q).
      - intros j. rewrite Jt, in_app_iff, in_map_iff. split; (intros [H | (l & A & B)]; [now left | right; exists l; auto]). }
    split; [exact Pm | ]. split.
    { rewrite Hn, <- total_app. unfold total_ndof, list_sum. clear - Pm. induction Pm; cbn; lia. }
    destruct G4 as (_ & _ & F4). split; [intros l Hl; rewrite F4; exact (la_f _ _ _ _ LA l Hl) | ]. split; [intros j Hj; rewrite F4; apply (la_f' _ _ _ _ LA); intros l Hl <-; apply Hj; now apply in_map | ].
    split; [intros j; rewrite (init_keeps_gvel 0 e h3 t' fuel h' (reachable_vinv 0 e g0 h3 R3) Rt' Er' ND' Hf Hi j); apply (la_v _ _ _ _ LA) | ].
    split; [eapply reg_le_trans; eauto | ]. intros x Hx. eapply registered_le; [exact L4 | auto].
  Qed.
End S.

(** where the frames are *)
Lemma frame_at e sc sg fr F : frame_pose e sc sg fr = Ok F -> exists P, a_pose (sg (frame_body e fr)) = Some P /\ F = mm4 P (bpose sc fr).
Proof.
  intros H. unfold frame_pose in H. destruct (a_pose (sg (frame_body e fr))) as [P | ]; cbn [get rbind] in H; [ | discriminate]. exists P. split; [reflexivity | ]. destruct fr; cbn [bpose]; apply Props_Draw.Ok_inj in H; subst F; auto. symmetry. apply mm4_1_r.
Qed.
