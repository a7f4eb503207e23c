(** Lemmas for C103. *)
From Coq Require Import Lra Lia FunctionalExtensionality.
From Verif Require Import Spec_Apart Proof_Linalg Proof_SE3 Proof_Tree Proof_World Proof_World2 Proof_Dofs Proof_Dyn Proof_Dyn2 Proof_Matrix Proof_Step.
Open Scope R_scope.

Lemma dof_unique e h t i j s d s' d' k : ready e h t -> In i (joints t) -> In j (joints t) -> jdof h i = Some (s, d) -> jdof h j = Some (s', d') ->
  (s <= k < d)%nat -> (s' <= k < d')%nat -> i = j.
Proof.
  intros (_ & _ & _ & _ & D) Ii Ij Ei Ej Hk Hk'. destruct (Nat.eq_dec i j) as [ | N]; [assumption | exfalso].
  destruct (in_split _ _ Ii) as (l1 & l2 & E1), (in_split _ _ Ij) as (k1 & k2 & E2). rewrite (D _ _ _ E1) in Ei. rewrite (D _ _ _ E2) in Ej. injection Ei as <- <-. injection Ej as <- <-.
  destruct (slices_disjoint e _ i j l1 l2 k1 k2 E1 E2 N); lia.
Qed.
Lemma same_dof e h h' t j : ready e h t -> ready e h' t -> In j (joints t) -> jdof h' j = jdof h j.
Proof. intros (_ & _ & _ & _ & D) (_ & _ & _ & _ & D') Ij. destruct (in_split _ _ Ij) as (l1 & l2 & E1). rewrite (D _ _ _ E1), (D' _ _ _ E1). reflexivity. Qed.
Lemma same_ndof e h h' t : ready e h t -> ready e h' t -> w_ndof h' = w_ndof h.
Proof. intros (_ & _ & _ & D & _) (_ & _ & _ & D' & _). congruence. Qed.

(** the columns of the joints that do not carry the body are null *)
Lemma col_zero e sc h t J i s d b ps k : ready e h t -> In i (joints t) -> jdof h i = Some (s, d) -> (s <= k < d)%nat -> path t b ps -> ~ In i (map fst ps) ->
  k_jac (kin_of sc h J (map fst ps)) k = zero6 /\ k_djac (kin_of sc h J (map fst ps)) k = zero6.
Proof.
  intros Rd Ii Di Hk Pb Ni. assert (Pj := proj2 (path_in _ _ _ Pb)). apply (kin_columns e sc h t J Rd); [exact Pj | ].
  intros j s' d' Hj Dj Hk'. apply Ni. rewrite (dof_unique e h t i j s d s' d' k Rd Ii (Pj j Hj) Di Dj Hk Hk'). exact Hj.
Qed.
Lemma dot6_zl v : dot6 zero6 v = 0. Proof. lin. Qed.
Lemma dot6_zr v : dot6 v zero6 = 0. Proof. lin. Qed.
Lemma v6add_zz : v6add zero6 zero6 = zero6. Proof. lin. Qed.
Lemma suml_zero f l : (forall x, In x l -> f x = 0) -> suml f l = 0.
Proof. induction l as [ | x l IH]; intros H; cbn [suml]; [reflexivity | ]. rewrite IH, H by (try (intros; apply H); cbn; auto). ring. Qed.
Lemma tl_body t b : In b (tl (bodies t)) -> In b (bodies t).
Proof. rewrite bodies_tail. cbn. auto. Qed.
Lemma tl_path t b ps : NoDup (bodies t) -> In b (tl (bodies t)) -> path t b ps -> map fst ps <> [].
Proof.
  intros ND Ib Pb. inversion Pb; subst; [ | intros E; apply map_eq_nil in E; destruct ps0; discriminate].
  rewrite bodies_eq in ND, Ib. cbn [tl] in Ib. inversion ND. contradiction.
Qed.

(** dofs of selected robots *)
Lemma own_dof_iff h t P k : own_dof h t P k = true <-> exists j s d, In j (joints t) /\ P j = true /\ jdof h j = Some (s, d) /\ (s <= k < d)%nat.
Proof.
  unfold own_dof. rewrite existsb_exists. split.
  - intros (j & Ij & H). apply andb_prop in H. destruct H as [Pj H]. destruct (jdof h j) as [[s d] | ] eqn:D; [ | discriminate]. apply andb_prop in H. destruct H as [A B]. apply Nat.leb_le in A. apply Nat.ltb_lt in B. exists j, s, d. auto.
  - intros (j & s & d & Ij & Pj & D & A & B). exists j. split; [exact Ij | ]. rewrite Pj, D. cbn. apply andb_true_intro. split; [apply Nat.leb_le | apply Nat.ltb_lt]; lia.
Qed.
Lemma own_dof_same e h h' t P : ready e h t -> ready e h' t -> own_dof h' t P = own_dof h t P.
Proof. intros A B. extensionality k. apply Bool.eq_true_iff_eq. rewrite !own_dof_iff. split; intros (j & s & d & Ij & Pj & D & H); exists j, s, d; [rewrite (same_dof e h h' t j A B Ij) in D | rewrite <- (same_dof e h h' t j A B Ij) in D]; auto. Qed.

Lemma sumR_minus n f g : sumR n (fun i => f i - g i) = sumR n f - sumR n g.
Proof. induction n as [ | n IH]; cbn [sumR]; [ring | ]. rewrite IH. ring. Qed.

Section Cols.
  Context (e : env) (sc : scene) (h : @heap R) (t : tree) (J : nat -> jstate) (P : nat -> bool).
  Hypothesis Rd : ready e h t.
  Hypothesis Wh : whole_robots t P.
  Let D := own_dof h t P.
  (** on a body of the selected robots, the columns of the others are null *)
  Lemma col_in b ps k : path t b ps -> (forall j, In j (map fst ps) -> P j = true) -> D k = false -> k_jac (kin_of sc h J (map fst ps)) k = zero6 /\ k_djac (kin_of sc h J (map fst ps)) k = zero6.
  Proof.
    intros Pb In1 Dk. assert (Pj := proj2 (path_in _ _ _ Pb)). apply (kin_columns e sc h t J Rd); [exact Pj | ].
    intros j s d Hj Dj Hk. assert (X : D k = true) by (apply own_dof_iff; exists j, s, d; auto). congruence.
  Qed.
  Lemma col_out b ps k : path t b ps -> (forall j, In j (map fst ps) -> P j = false) -> D k = true -> k_jac (kin_of sc h J (map fst ps)) k = zero6 /\ k_djac (kin_of sc h J (map fst ps)) k = zero6.
  Proof.
    intros Pb In1 Dk. apply own_dof_iff in Dk. destruct Dk as (i & s & d & Ii & Pi & Di & Hk). apply (col_zero e sc h t J i s d b ps k Rd Ii Di Hk Pb). intros H. rewrite (In1 i H) in Pi. discriminate.
  Qed.
  (** one of the columns [k], [l] is null on each body when only one of them is selected *)
  Lemma col_cross b ps k l : path t b ps -> D k <> D l ->
    (k_jac (kin_of sc h J (map fst ps)) k = zero6 /\ k_djac (kin_of sc h J (map fst ps)) k = zero6) \/ (k_jac (kin_of sc h J (map fst ps)) l = zero6 /\ k_djac (kin_of sc h J (map fst ps)) l = zero6).
  Proof.
    intros Pb N. destruct (Wh b (map fst ps) (ex_intro _ ps (conj Pb eq_refl))) as [A | A].
    - destruct (D k) eqn:Dk, (D l) eqn:Dl; try congruence; [right | left]; eapply col_in; eauto.
    - destruct (D k) eqn:Dk, (D l) eqn:Dl; try congruence; [left | right]; eapply col_out; eauto.
  Qed.
End Cols.

(** the same chain of joints in both scenes *)
Lemma kin_same e sc sc' h h' t J J' P : ready e h t -> ready e h' t -> jframes h' = jframes h -> same_scene t P h sc sc' ->
  (forall j, In j (joints t) -> P j = true -> J' j = J j) -> forall js, (forall j, In j js -> In j (joints t) /\ P j = true) -> kin_of sc' h' J' js = kin_of sc h J js.
Proof.
  intros R1 R2 Ef [_ Sf] EJ. induction js as [ | j js IH]; intros H; [reflexivity | ]. cbn [kin_of fold_right]. fold (kin_of sc h J js) (kin_of sc' h' J' js). rewrite IH by (intros; apply H; right; auto).
  destruct (H j (or_introl eq_refl)) as [Ij Pj]. unfold stepj. rewrite Ef, (same_dof e h h' t j R1 R2 Ij), (EJ j Ij Pj). destruct (jframes h j) as [[f0 f1] | ] eqn:E; [ | reflexivity]. destruct (jdof h j) as [d | ]; [ | reflexivity].
  destruct (Sf j f0 f1 Ij Pj E) as [A B]. unfold stepk, rel_. rewrite A, B. reflexivity.
Qed.

(** linear systems made of two blocks *)
Lemma block_solve n D A A' Y Y' x x' b b' : inverse n A Y -> inverse n A' Y' -> veq n x (mvn n Y b) -> veq n x' (mvn n Y' b') ->
  (forall k l, (k < n)%nat -> (l < n)%nat -> D k = true -> D l = true -> A' k l = A k l) ->
  (forall k l, (k < n)%nat -> (l < n)%nat -> D k <> D l -> A k l = 0 /\ A' k l = 0) ->
  (forall k, (k < n)%nat -> D k = true -> b' k = b k) -> forall k, (k < n)%nat -> D k = true -> x' k = x k.
Proof.
  intros [I1 I2] [I1' I2'] Ex Ex' Hs Hz Hb.
  assert (Ax : forall k, (k < n)%nat -> mvn n A x k = b k). { intros k Hk. rewrite (mvn_ext n A A x (mvn n Y b) k); [ | reflexivity | intros i Hi; apply Ex; exact Hi]. rewrite <- mvn_mmn. rewrite (mvn_ext n _ unit_mat b b k); [apply mvn_unit; exact Hk | intros i Hi; apply I1; assumption | intros ? ?; reflexivity]. }
  assert (Ax' : forall k, (k < n)%nat -> mvn n A' x' k = b' k). { intros k Hk. rewrite (mvn_ext n A' A' x' (mvn n Y' b') k); [ | reflexivity | intros i Hi; apply Ex'; exact Hi]. rewrite <- mvn_mmn. rewrite (mvn_ext n _ unit_mat b' b' k); [apply mvn_unit; exact Hk | intros i Hi; apply I1'; assumption | intros ? ?; reflexivity]. }
  set (y := fun l => if D l then x l - x' l else 0).
  assert (Ay : forall k, (k < n)%nat -> mvn n A y k = 0).
  { intros k Hk. destruct (D k) eqn:Dk.
    - transitivity (mvn n A x k - mvn n A' x' k); [ | rewrite Ax, Ax' by exact Hk; rewrite Hb by assumption; ring].
      unfold mvn. rewrite <- sumR_minus. apply sumR_ext. intros l Hl. unfold y. destruct (D l) eqn:Dl; [rewrite (Hs k l) by assumption; ring | ]. destruct (Hz k l Hk Hl ltac:(congruence)) as [-> ->]. ring.
    - unfold mvn. apply sumR_zero. intros l Hl. unfold y. destruct (D l) eqn:Dl; [ | ring]. destruct (Hz k l Hk Hl ltac:(congruence)) as [-> _]. ring. }
  intros k Hk Dk. assert (Q : y k = 0).
  { rewrite <- (mvn_unit n y k Hk). rewrite (mvn_ext n unit_mat (mmn n Y A) y y k); [ | intros i Hi; symmetry; apply I2; assumption | intros ? ?; reflexivity].
    rewrite mvn_mmn. unfold mvn at 1. apply sumR_zero. intros i Hi. rewrite Ay by exact Hi. ring. }
  unfold y in Q. rewrite Dk in Q. lra.
Qed.
