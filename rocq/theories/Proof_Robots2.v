(** The snake. *)
From Coq Require Import Lra Lia.
From Verif Require Import Spec_Robots.
From Verif Require Import Proof_Linalg Proof_SE3 Proof_Tree Proof_World Proof_World2 Proof_World3 Proof_Register Proof_Dofs Proof_World4 Props_Mass Proof_Robots.
Open Scope R_scope.

Definition eigs_ok (eigvals : m6 -> list R) : Prop := forall M, sym6 M -> eigvals_of M (eigvals M).
Lemma accepts_semi eigvals M : ismassmatrix eigvals M false = true -> ismassmatrix eigvals M true = true.
Proof.
  unfold ismassmatrix. intros H. apply andb_true_iff in H. destruct H as (-> & H). cbn [andb]. rewrite forallb_forall in *. intros x Hx. specialize (H x Hx). apply Rltb_true in H. apply Rleb_true. lra.
Qed.
Lemma new_body_ok eigvals m M : eigs_ok eigvals -> mass_of m M -> new_body eigvals M = Ok M.
Proof. intros E Mm. unfold new_body. now rewrite (accepts_semi _ _ (accepts eigvals m M Mm (E M (proj1 Mm)))). Qed.
Lemma snake_mass_ok eigvals len mass : eigs_ok eigvals -> 0 < len -> 0 < mass ->
  let M := rigid_mass mass (V3 0 (len / 2) 0) (diag3 (V3 (mass * ((len / 5) ^ 2 / 4 + len ^ 2 / 3)) (mass * (len / 5) ^ 2 / 2) (mass * ((len / 5) ^ 2 / 4 + len ^ 2 / 3)))) in
  snake_mass eigvals len mass = Ok M /\ mass_of mass M.
Proof.
  intros E HL Hm M. assert (Mm : mass_of mass (cylinder len (len / 5) mass)) by (assert (X := C36_mass_constructors 1 1 1 (len / 5) len mass); apply X; lra).
  set (H := mm4 (rotx (PI / 2)) (transl 0 (- len / 2) 0)). assert (SH : SE3 H) by (apply SE3_mm4; [apply rotx_SE3 | apply transl_SE3]).
  assert (EM : mm6 (tr6 (adjoint_ H)) (mm6 (cylinder len (len / 5) mass) (adjoint_ H)) = M).
  { unfold H, M, rotx, transl, cylinder, diag6, rigid_mass, diag3. rewrite cos_PI2, sin_PI2. clear. unf. entries; field. }
  assert (Mm' := transport_mass _ _ _ Mm SH). rewrite EM in Mm'. split; [ | exact Mm'].
  unfold snake_mass. fold H. rewrite (transport_eq _ _ _ _ Mm (E _ (proj1 Mm)) SH), EM. cbn [rbind]. exact (new_body_ok _ _ _ E Mm').
Qed.

Section S.
  Variables (e : env) (g0 : nat -> nat -> R) (eigvals : m6 -> list R) (I : ids).
  Hypothesis Ev : eigs_ok eigvals.
  Notation heap := (@heap R).
  Notation reachable := (reachable 0 e g0).
  Notation gr := (ground e).

  Definition unattached (h : heap) (t : tree) (k : nat) : Prop :=
    (forall i l, nb I i = nb I l -> i = l) /\ (forall i l, nj I i = nj I l -> i = l) /\
    forall i, (k <= i)%nat -> ~ In (nb I i) (bodies t) /\ parentjoint h (nb I i) = None /\ childrenjoints h (nb I i) = [] /\ jframes h (nj I i) = None.
  Lemma segments_S k n : segments I k (S n) = (nj I k, nb I k) :: segments I (S k) n.
  Proof. reflexivity. Qed.
  Lemma parts_det k segs cr cr' : snake_parts I k segs cr -> snake_parts I k segs cr' -> cr = cr'.
  Proof. intros H. revert cr'. induction H; intros cr' H'; inversion H'; subst; [reflexivity | ]. do 3 f_equal. auto. Qed.

  Lemma new_objects_unattached h t : rep e h t -> root t = gr -> new_objects I h e -> unattached h t 0.
  Proof.
    intros Rt Er (N1 & N2 & N3). split; [exact N1 | ]. split; [exact N2 | ]. intros i _. destruct (N3 i) as (A & B & C & D). split; [ | auto]. rewrite bodies_tail, Er. intros [Q | Q]; [congruence | ].
    destruct (rep_edge_body e h t _ Rt Q) as (p & j & (_ & Ed) & _). congruence.
  Qed.

  Lemma linked_unattached h h' f k t t' : linked e h (f, nj I k, FBody (nb I k)) h' -> unattached h t k -> (forall x, In x (bodies t') -> In x (bodies t) \/ x = nb I k) ->
    (forall i, (S k <= i)%nat -> nb I i <> frame_body e f) -> unattached h' t' (S k).
  Proof.
    intros (L1 & L2 & L3) (N1 & N2 & N3) Hb Hf. split; [exact N1 | ]. split; [exact N2 | ]. intros i Hi. destruct (N3 i) as (A & B & C & D); [lia | ].
    assert (Ni : i <> k) by lia. split; [intros Q; destruct (Hb _ Q) as [Q' | Q']; [auto | apply N1 in Q'; auto] | ]. split; [rewrite L2; unfold l_to; cbn [snd frame_body]; destruct (Nat.eqb_spec (nb I i) (nb I k)) as [Q | ]; [apply N1 in Q; congruence | exact B] | ].
    split; [rewrite L1, C; unfold l_from; cbn [fst snd]; destruct (Nat.eqb_spec (nb I i) (frame_body e f)) as [Q | ]; [destruct (Hf i Hi Q) | reflexivity] | ].
    rewrite L3. cbn [l_joint fst snd]. destruct (Nat.eqb_spec (nj I i) (nj I k)) as [Q | ]; [apply N2 in Q; congruence | exact D].
  Qed.

  Lemma loop_ok : forall segs k f h cr0 cr ks L, reachable h -> rep e h (Node gr (ks ++ chain L)) -> NoDup (bodies (Node gr (ks ++ chain L))) ->
    frame_body e f = tip gr L -> unattached h (Node gr (ks ++ chain L)) k ->
    (forall l m q v, In (l, m, q, v) segs -> 0 < l /\ 0 < m) -> snake_parts I k segs cr -> (forall c, In c cr -> known_as e h c) ->
    exists h', snake_loop e eigvals I k segs f h cr0 = (h', cr0 ++ cr, Ok (hinge_frame I k f (k + length segs))) /\ reachable h' /\
      rep e h' (Node gr (ks ++ chain (L ++ segments I k (length segs)))) /\ NoDup (bodies (Node gr (ks ++ chain (L ++ segments I k (length segs))))) /\
      (forall i, joint_gvel h' i = joint_gvel h i) /\
      (forall i, (k <= i < k + length segs)%nat -> jframes h' (nj I i) = Some (hinge_frame I k f i, FBody (nb I i))) /\
      (forall j, (forall i, (k <= i < k + length segs)%nat -> j <> nj I i) -> jframes h' j = jframes h j) /\
      frame_body e (hinge_frame I k f (k + length segs)) = tip gr (L ++ segments I k (length segs)) /\
      (forall i, (k + length segs <= i)%nat -> ~ In (nb I i) (bodies (Node gr (ks ++ chain (L ++ segments I k (length segs)))))).
  Proof.
    induction segs as [ | (((len, mass), q), v) segs IH]; intros k f h cr0 cr ks L R Rt ND Ef Un Ps Sp Kn.
    - inversion Sp; subst. exists h. cbn [snake_loop length segments map seq]. rewrite !app_nil_r, Nat.add_0_r. unfold hinge_frame at 1. rewrite Nat.eqb_refl.
      split; [reflexivity | ]. repeat (split; [assumption | ]). split; [reflexivity | ]. split; [intros i Hi; lia | ]. split; [auto | ]. split; [unfold hinge_frame; rewrite Nat.eqb_refl; exact Ef | ]. intros i Hi. apply (proj2 (proj2 Un) i Hi).
    - inversion Sp as [ | k' l' m' q' v' segs' cr' Sp' E1 E2 E3]; subst. cbn [snake_loop]. destruct (Ps len mass q v ltac:(now left)) as (Hl & Hm).
      destruct (snake_mass_ok eigvals len mass Ev Hl Hm) as (-> & _).
      destruct Un as (N1 & N2 & N3). destruct (N3 k (le_n k)) as (A1 & A2 & A3 & A4).
      destruct (grow e g0 h ks L f (nj I k) (nb I k) R Rt ND Ef A1 A2 A3 A4) as (h1 & E & R1 & Rt1 & ND1 & Lk & Gv). rewrite E.
      assert (Bt : forall x, In x (bodies (Node gr (ks ++ chain (L ++ [(nj I k, nb I k)])))) -> In x (bodies (Node gr (ks ++ chain L))) \/ x = nb I k).
      { intros x. rewrite !bodies_eq, !flat_map_app, !chain_bodies, map_app. cbn [map snd]. rewrite app_assoc. intros [Q | Q]; [left; now left | ]. apply in_app_or in Q. destruct Q as [Q | [Q | []]]; [left; now right | now right]. }
      assert (Hf : forall i, (S k <= i)%nat -> nb I i <> frame_body e f).
      { intros i Hi Q. destruct (N3 i ltac:(lia)) as (B1 & _). apply B1. rewrite Q, Ef, bodies_eq, flat_map_app, chain_bodies. destruct (tip_in gr L) as [-> | ]; [now left | right; apply in_or_app; now right]. }
      assert (Kn' : forall c, In c cr' -> known_as e h1 c).
      { intros c Hc. assert (X := Kn c ltac:(right; right; right; exact Hc)). destruct c; cbn in *; auto. now rewrite Gv. }
      destruct (IH (S k) (FSub (ns I k)) h1 ((cr0 ++ [CBody (nb I k) (rigid_mass mass (V3 0 (len / 2) 0) (diag3 (V3 (mass * ((len / 5) ^ 2 / 4 + len ^ 2 / 3)) (mass * (len / 5) ^ 2 / 2) (mass * ((len / 5) ^ 2 / 4 + len ^ 2 / 3))))); CJoint (nj I k) RzJoint [q] [v]]) ++ [CSub (ns I k) (nb I k) (transl 0 len 0)]) cr' ks (L ++ [(nj I k, nb I k)]) R1 Rt1 ND1) as (h' & El & R' & Rt' & ND' & Gv' & Fr' & Fo' & Tp & Nw).
      + cbn [frame_body]. rewrite tip_app. exact (Kn (CSub (ns I k) (nb I k) (transl 0 len 0)) ltac:(right; right; now left)).
      + exact (linked_unattached h h1 f k _ _ Lk (conj N1 (conj N2 N3)) Bt Hf).
      + intros. eapply Ps. right. eassumption.
      + exact Sp'.
      + exact Kn'.
      + exists h'. cbn [length]. rewrite segments_S. assert (Es : L ++ (nj I k, nb I k) :: segments I (S k) (length segs) = (L ++ [(nj I k, nb I k)]) ++ segments I (S k) (length segs)) by now rewrite <- app_assoc.
        assert (Hfr : forall i, (S k <= i)%nat -> hinge_frame I (S k) (FSub (ns I k)) i = hinge_frame I k f i).
        { intros i Hi. unfold hinge_frame. assert (Q : (i =? k)%nat = false) by (apply Nat.eqb_neq; lia). rewrite Q. destruct (Nat.eqb_spec i (S k)) as [E0 | E0]; [rewrite E0 | ]; reflexivity. }
        rewrite Es. replace (k + S (length segs))%nat with (S k + length segs)%nat by lia.
        split; [rewrite El, (Hfr (S k + length segs)%nat ltac:(lia)), <- !app_assoc; reflexivity | ]. split; [exact R' | ]. split; [exact Rt' | ]. split; [exact ND' | ]. split; [intros i; now rewrite Gv', Gv | ].
        destruct Lk as (L1 & L2 & L3). split; [ | split; [ | split; [rewrite <- (Hfr (S k + length segs)%nat ltac:(lia)); exact Tp | exact Nw]]].
        * intros i Hi. destruct (Nat.eq_dec i k) as [-> | Ni]; [ | rewrite <- (Hfr i ltac:(lia)); apply Fr'; lia].
          rewrite Fo' by (intros l Hl' Q; apply N2 in Q; lia). rewrite L3. cbn [l_joint fst snd]. rewrite Nat.eqb_refl. unfold hinge_frame. now rewrite Nat.eqb_refl.
        * intros j Hj. rewrite Fo' by (intros l Hl'; apply Hj; lia). rewrite L3. cbn [l_joint fst snd]. destruct (Nat.eqb_spec j (nj I k)) as [-> | ]; [ | reflexivity]. exfalso. apply (Hj k); [lia | reflexivity].
  Qed.
End S.
