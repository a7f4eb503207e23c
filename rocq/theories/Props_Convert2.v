(** C93: the converted robot moves as the first one. *)
From Coq Require Import Lia Lra.
From Verif Require Import Spec_Dyn Proof_Tree Proof_World Proof_Dyn Proof_Dyn2 Props_Dyn Spec_Convert Proof_Convert2.
Import ListNotations.
Open Scope nat_scope.

(** the hinges [js] are at the angles and the speeds of the coordinates of [s] *)
Definition set_as (s : jstate) (J' : nat -> jstate) (js : list nat) : Prop :=
  forall i j k, nth_error js i = Some j -> nth_error (hinges_of (jt s)) i = Some k -> hinge_of s k i (J' j).

Section P.
  Variables (e : env) (sc : scene) (h h' : @heap R) (J J' : nat -> jstate) (wt wt' : tree) (sd sd' : store).
  (** one tree is the other one where some joints are replaced by hinges in series *)
  Inductive alike : tree -> tree -> Prop :=
  | alike_node : forall b ks ks', Forall2 alike_kid ks ks' -> alike (Node b ks) (Node b ks')
  with alike_kid : nat * tree -> nat * tree -> Prop :=
  | alike_keep : forall j s s', jframes h' j = jframes h j -> J' j = J j -> alike s s' -> alike_kid (j, s) (j, s')
  | alike_split : forall j s s' js ms f0 f1 k, hinges_of (jt (J j)) <> [] -> length js = length (hinges_of (jt (J j))) ->
      jframes h j = Some (f0, f1) -> in_series h' f0 js ms f1 -> set_as (J j) J' js -> alike s s' -> branch js ms s' = Some k -> alike_kid (j, s) k.

  Hypothesis U : updated e sc h wt J sd.
  Hypothesis U' : updated e sc h' wt' J' sd'.

  Lemma at_dof l1 j l2 f0 f1 : joints wt = l1 ++ j :: l2 -> jframes h j = Some (f0, f1) -> joint_at h wt j f0 f1 (total_ndof e l1).
  Proof.
    intros E F. split; [rewrite E; apply in_or_app; right; left; reflexivity|]. split; [exact F|]. destruct U as ((_ & _ & _ & _ & D) & _). eexists. apply (D _ _ _ E).
  Qed.
  Lemma at_dof' l1 j l2 f0 f1 d : joints wt' = l1 ++ j :: l2 -> jframes h' j = Some (f0, f1) -> d = total_ndof e l1 -> joint_at h' wt' j f0 f1 d.
  Proof.
    intros E F ->. split; [rewrite E; apply in_or_app; right; left; reflexivity|]. split; [exact F|]. destruct U' as ((_ & _ & _ & _ & D) & _). eexists. apply (D _ _ _ E).
  Qed.
  Lemma nd_of j : In j (joints wt) -> jndof e j = ndof_of (jt (J j)).
  Proof. intros X. destruct U as (_ & (_ & V) & _). apply V. exact X. Qed.
  Lemma nd_of' j : In j (joints wt') -> jndof e j = ndof_of (jt (J' j)).
  Proof. intros X. destruct U' as (_ & (_ & V) & _). apply V. exact X. Qed.
  Lemma total_app a b : total_ndof e (a ++ b) = total_ndof e a + total_ndof e b.
  Proof. unfold total_ndof. rewrite map_app, list_sum_app. reflexivity. Qed.
  Lemma total_cons a b : total_ndof e (a :: b) = jndof e a + total_ndof e b.
  Proof. reflexivity. Qed.

  (** a joint that is kept *)
  Lemma keep_motion j f0 f1 d : joint_at h wt j f0 f1 d -> joint_at h' wt' j f0 f1 d -> J' j = J j ->
    same_motion sd sd' (frame_body e f0) (frame_body e f0) -> same_motion sd sd' (frame_body e f1) (frame_body e f1).
  Proof.
    intros L L' Ej (H & X1 & X2 & T & P1 & P2 & Q1 & Q2 & Qc & R1 & R2).
    destruct (updated_kin _ _ _ _ _ _ _ _ _ _ U L) as (k0 & k & A0 & A1 & K).
    destruct (updated_kin _ _ _ _ _ _ _ _ _ _ U' L') as (l0 & l & C0 & C1 & K').
    rewrite A0 in P1, Q1, R1. rewrite C0 in P2, Q2, R2. cbn [attr a_pose a_jac a_twist] in *.
    injection P1 as P1. injection P2 as P2. injection Q1 as Q1. injection Q2 as Q2. injection R1 as R1. injection R2 as R2.
    rewrite Ej in K'. exists (k_pose k), (k_jac k), (k_jac l), (k_twist k). rewrite A1, C1. cbn [attr a_pose a_jac a_twist].
    rewrite K, K'. cbn [stepk k_pose k_jac k_twist]. rewrite P1, P2, R1, R2. split; [reflexivity|]. split; [reflexivity|]. split; [reflexivity|]. split; [reflexivity|].
    split; [|split; reflexivity]. intros c. rewrite Q1, Q2, Qc. reflexivity.
  Qed.
  (** a joint that is replaced, and its number of dofs *)
  Lemma split_motion j js ms s s' f0 f1 k l1 l2 l1' l2' : jframes h j = Some (f0, f1) -> hinges_of (jt (J j)) <> [] -> length js = length (hinges_of (jt (J j))) ->
    in_series h' f0 js ms f1 -> set_as (J j) J' js -> branch js ms s' = Some k ->
    joints wt = l1 ++ j :: joints s ++ l2 -> joints wt' = l1' ++ fst k :: joints (snd k) ++ l2' -> total_ndof e l1 = total_ndof e l1' ->
    same_motion sd sd' (frame_body e f0) (frame_body e f0) ->
    same_motion sd sd' (frame_body e f1) (frame_body e f1) /\ exists m, fst k :: joints (snd k) = m ++ joints s' /\ total_ndof e m = jndof e j.
  Proof.
    intros Ej Nh Lj Se Sa Br W W' T Sm. pose proof (at_dof _ _ _ _ _ W Ej) as L.
    assert (Nj : jndof e j = ndof_of (jt (J j))) by (apply nd_of; rewrite W; apply in_or_app; right; left; reflexivity).
    assert (H1 : forall x, In x (fst k :: joints (snd k)) -> jndof e x = ndof_of (jt (J' x))).
    { intros x X. apply nd_of'. rewrite W'. apply in_or_app. right. rewrite app_comm_cons. apply in_or_app. left. exact X. }
    assert (Hh : forall i x y, nth_error js i = Some x -> nth_error (hinges_of (jt (J j))) i = Some y -> In x (fst k :: joints (snd k)) -> hinge_of (J j) y i (J' x) /\ jndof e x = ndof_of y).
    { intros i x y X Y Z. specialize (Sa i x y X Y). split; [exact Sa|]. rewrite (H1 x Z). destruct Sa as (-> & _). reflexivity. }
    assert (C : (jt (J j) = RzRyRxJoint /\ hinges_of (jt (J j)) = [RzJoint; RyJoint; RxJoint] /\ ndof_of (jt (J j)) = 3) \/
                exists ka kb, hinges_of (jt (J j)) = [ka; kb] /\ ndof_of (jt (J j)) = 2 /\ ndof_of ka = 1 /\ ndof_of kb = 1 /\
                  In (jt (J j), ka, kb) [(RzRyJoint, RzJoint, RyJoint); (RzRxJoint, RzJoint, RxJoint); (RyRxJoint, RyJoint, RxJoint)]).
    { destruct (jt (J j)); try (destruct (Nh eq_refl)).
      - left. repeat split.
      - right. exists RzJoint, RyJoint. repeat split. left. reflexivity.
      - right. exists RzJoint, RxJoint. repeat split. right. left. reflexivity.
      - right. exists RyJoint, RxJoint. repeat split. right. right. left. reflexivity. }
    destruct C as [(Ty & Eh & En)|(ka & kb & Eh & En & Na & Nb & Ty)]; rewrite Eh in *.
    - destruct js as [|j1 [|j2 [|j3 [|? ?]]]]; try discriminate Lj. destruct ms as [|m1 [|m2 [|? ?]]]; cbn [in_series] in Se; [tauto|tauto| |tauto].
      destruct Se as (F1 & F2 & F3). cbn [branch option_map] in Br. injection Br as <-. cbn [fst snd] in *. rewrite !joints_eq in *. cbn [flat_map fst snd app] in *. rewrite !joints_eq in *. cbn [flat_map fst snd app] in *. rewrite !app_nil_r in *.
      destruct (Hh 0 j1 RzJoint eq_refl eq_refl ltac:(left; reflexivity)) as (G1 & N1).
      destruct (Hh 1 j2 RyJoint eq_refl eq_refl ltac:(right; left; reflexivity)) as (G2 & N2).
      destruct (Hh 2 j3 RxJoint eq_refl eq_refl ltac:(right; right; left; reflexivity)) as (G3 & N3). cbn [ndof_of] in N1, N2, N3.
      split; [|exists [j1; j2; j3]; split; [reflexivity|rewrite Nj, En, !total_cons, N1, N2, N3; reflexivity]].
      apply (C34_three_hinges e sc h wt J sd e sc h' wt' J' sd' j f0 f1 j1 j2 j3 f0 (FBody m1) (FBody m1) (FBody m2) (FBody m2) f1 (total_ndof e l1) U U' L Ty); try reflexivity; try assumption.
      + eapply at_dof'; [exact W'|exact F1|exact T].
      + apply (at_dof' (l1' ++ [j1]) j2 (j3 :: joints s' ++ l2')); [rewrite W', <- app_assoc; reflexivity|exact F2|]. rewrite total_app, total_cons, N1, T. cbn. lia.
      + apply (at_dof' (l1' ++ [j1; j2]) j3 (joints s' ++ l2')); [rewrite W', <- app_assoc; reflexivity|exact F3|]. rewrite total_app, !total_cons, N1, N2, T. cbn. lia.
    - destruct js as [|j1 [|j2 [|? ?]]]; try discriminate Lj. destruct ms as [|m1 [|? ?]]; cbn [in_series] in Se; [tauto| |tauto].
      destruct Se as (F1 & F2). cbn [branch option_map] in Br. injection Br as <-. cbn [fst snd] in *. rewrite !joints_eq in *. cbn [flat_map fst snd app] in *. rewrite !app_nil_r in *.
      destruct (Hh 0 j1 ka eq_refl eq_refl ltac:(left; reflexivity)) as (G1 & N1).
      destruct (Hh 1 j2 kb eq_refl eq_refl ltac:(right; left; reflexivity)) as (G2 & N2). rewrite Na in N1. rewrite Nb in N2.
      split; [|exists [j1; j2]; split; [reflexivity|rewrite Nj, En, !total_cons, N1, N2; reflexivity]].
      apply (C34_two_hinges ka kb (jt (J j)) e sc h wt J sd e sc h' wt' J' sd' j f0 f1 j1 j2 f0 (FBody m1) (FBody m1) f1 (total_ndof e l1) Ty U U' L); try reflexivity; try assumption.
      + eapply at_dof'; [exact W'|exact F1|exact T].
      + apply (at_dof' (l1' ++ [j1]) j2 (joints s' ++ l2')); [rewrite W', <- app_assoc; reflexivity|exact F2|]. rewrite total_app, total_cons, N1, T. cbn. lia.
  Qed.

  Lemma tree_motion t : forall t' l1 l2 l1' l2', alike t t' -> rep e h t -> joints wt = l1 ++ joints t ++ l2 -> joints wt' = l1' ++ joints t' ++ l2' ->
    total_ndof e l1 = total_ndof e l1' -> same_motion sd sd' (root t) (root t) ->
    (forall b, In b (bodies t) -> same_motion sd sd' b b) /\ total_ndof e (joints t) = total_ndof e (joints t').
  Proof.
    induction t as [b ks IH] using tree_rect_in. intros t' l1 l2 l1' l2' A Rt W W' T Sm. inversion A as [? ? ks' F]; subst. clear A.
    apply rep_inv in Rt. destruct Rt as [_ Fk]. cbn [root] in Sm. rewrite !bodies_eq, !joints_eq in *.
    assert (Gl : (forall x, In x (flat_map (fun k => bodies (snd k)) ks) -> same_motion sd sd' x x) /\
      total_ndof e (flat_map (fun k => fst k :: joints (snd k)) ks) = total_ndof e (flat_map (fun k => fst k :: joints (snd k)) ks')).
    2: { destruct Gl as [G1 G2]. split; [|exact G2]. intros x [<-|X]; [exact Sm|apply G1; exact X]. }
    assert (Ih : forall j s, In (j, s) ks -> forall t' l1 l2 l1' l2', alike s t' -> rep e h s -> joints wt = l1 ++ joints s ++ l2 -> joints wt' = l1' ++ joints t' ++ l2' ->
      total_ndof e l1 = total_ndof e l1' -> same_motion sd sd' (root s) (root s) ->
      (forall b, In b (bodies s) -> same_motion sd sd' b b) /\ total_ndof e (joints s) = total_ndof e (joints t')) by exact IH.
    clear IH. revert l1 l2 l1' l2' W W' T. induction F as [|k k' ks ks' Hk F IHf]; intros l1 l2 l1' l2' W W' T.
    - split; [intros x []|reflexivity].
    - destruct k as [j s]. cbn [flat_map fst snd] in *.
      assert (Ik : In (j, s) ((j, s) :: ks)) by (left; reflexivity).
      destruct (Fk j s Ik) as [[(f0 & f1 & Fr & B0 & B1) Pa] Rs].
      assert (One : (forall x, In x (bodies s) -> same_motion sd sd' x x) /\ total_ndof e (j :: joints s) = total_ndof e (fst k' :: joints (snd k'))).
      { inversion Hk as [j0 s0 s1 Fj Ej As|j0 s0 s1 js ms g0 g1 k0 Nh Lj Gj Se Sa As Br]; subst.
        - cbn [fst snd] in *. assert (Sr : same_motion sd sd' (root s) (root s)).
          { rewrite <- B1. eapply keep_motion; [eapply (at_dof l1 j); [|exact Fr]|eapply (at_dof' l1' j); [|rewrite Fj; exact Fr|exact T]|exact Ej|exact Sm].
            - rewrite W. cbn [app]. reflexivity.
            - rewrite W'. cbn [app]. reflexivity. }
          destruct (Ih j s Ik s1 (l1 ++ [j]) (flat_map (fun k => fst k :: joints (snd k)) ks ++ l2) (l1' ++ [j]) (flat_map (fun k => fst k :: joints (snd k)) ks' ++ l2') As Rs) as [X Y].
          + rewrite W. cbn [app]. rewrite <- !app_assoc. reflexivity.
          + rewrite W'. cbn [app]. rewrite <- !app_assoc. reflexivity.
          + rewrite !total_app, T. reflexivity.
          + exact Sr.
          + split; [exact X|]. rewrite !total_cons, Y. reflexivity.
        - rewrite Fr in Gj. injection Gj as <- <-.
          destruct (split_motion j js ms s s1 f0 f1 k' l1 (flat_map (fun k => fst k :: joints (snd k)) ks ++ l2) l1' (flat_map (fun k => fst k :: joints (snd k)) ks' ++ l2') Fr Nh Lj Se Sa Br) as (Sr & m & Em & Tm).
          + rewrite W. cbn [app]. rewrite <- !app_assoc. reflexivity.
          + rewrite W'. cbn [app]. rewrite <- !app_assoc. reflexivity.
          + exact T.
          + exact Sm.
          + rewrite B1 in Sr. destruct (Ih j s Ik s1 (l1 ++ [j]) (flat_map (fun k => fst k :: joints (snd k)) ks ++ l2) (l1' ++ m) (flat_map (fun k => fst k :: joints (snd k)) ks' ++ l2') As Rs) as [X Y].
            * rewrite W. cbn [app]. rewrite <- !app_assoc. reflexivity.
            * rewrite W'. replace ((fst k' :: joints (snd k') ++ flat_map (fun k => fst k :: joints (snd k)) ks') ++ l2') with ((fst k' :: joints (snd k')) ++ flat_map (fun k => fst k :: joints (snd k)) ks' ++ l2') by (cbn [app]; rewrite <- !app_assoc; reflexivity). rewrite Em, <- !app_assoc. reflexivity.
            * rewrite !total_app, T, Tm, total_cons. unfold total_ndof at 2. cbn. lia.
            * exact Sr.
            * split; [exact X|]. rewrite Em, total_app, total_cons, Y, Tm. reflexivity. }
      destruct One as [O1 O2].
      assert (W1 : joints wt = (l1 ++ j :: joints s) ++ flat_map (fun k => fst k :: joints (snd k)) ks ++ l2) by (rewrite W; cbn [app]; rewrite <- !app_assoc; reflexivity).
      assert (W1' : joints wt' = (l1' ++ fst k' :: joints (snd k')) ++ flat_map (fun k => fst k :: joints (snd k)) ks' ++ l2') by (rewrite W'; cbn [app]; rewrite <- !app_assoc; reflexivity).
      destruct (IHf ltac:(intros i u Iu; apply Fk; right; exact Iu) ltac:(intros i u Iu; apply (Ih i u); right; exact Iu) _ _ _ _ W1 W1') as [X Y].
      { rewrite !total_app, T, O2. reflexivity. }
      split.
      + intros x Ix. apply in_app_or in Ix. destruct Ix as [Ix|Ix]; [apply O1; exact Ix|apply X; exact Ix].
      + rewrite !total_app, O2, Y. reflexivity.
  Qed.

  Lemma ground_motion : same_motion sd sd' (ground e) (ground e).
  Proof.
    destruct U as (Rd & Ri & fuel & st & d & F & E). destruct U' as (Rd' & Ri' & fuel' & st' & d' & F' & E').
    destruct (world_ok e sc h wt J fuel st Rd Ri F) as (x & y & Ex & P & _). rewrite E in Ex. injection Ex as <- <-.
    destruct (world_ok e sc h' wt' J' fuel' st' Rd' Ri' F') as (x & y & Ex & P' & _). rewrite E' in Ex. injection Ex as <- <-.
    destruct Rd as (_ & Er & _). destruct Rd' as (_ & Er' & _). destruct wt as [b ks]. destruct wt' as [b' ks']. cbn [root] in Er, Er'. subst.
    exists eye4, (fun _ => zero6), (fun _ => zero6), zero6. rewrite (P _ _ (path_root _ _)), (P' _ _ (path_root _ _)). cbn. repeat split.
  Qed.
  Lemma alike_motion : alike wt wt' -> forall b, In b (bodies wt) -> same_motion sd sd' b b.
  Proof.
    intros A. destruct U as ((Rw & Er & _) & _).
    destruct (tree_motion wt wt' [] [] [] [] A Rw) as [X _]; [rewrite app_nil_r; reflexivity|rewrite app_nil_r; reflexivity|reflexivity|rewrite Er; apply ground_motion|exact X].
  Qed.
End P.
