(** What a conversion does not change, and the numbering that it leaves. *)
From Coq Require Import Lia.
From Verif Require Import Spec_Convert Spec_Dyn Proof_Tree Proof_World Proof_World2 Proof_World3 Proof_Dofs Proof_World4 Proof_Convert2.
Import ListNotations.
Open Scope nat_scope.
Notation heap := (@Model_World.heap R).

Section P.
  Variables (e : env) (eigvals : m6 -> list R) (J : nat -> jstate) (nm : obj -> option string) (I : bids) (fuel : nat).

  Section Inv.
    Variable Q : heap -> Prop.
    Hypothesis Hq : forall j args h h', Q h -> replace_joint 0%R e fuel (OJoint j) args h = (h', Ok tt) -> Q h'.
    Lemma joint_inv j st st' : conv_joint e eigvals J nm I fuel j st = (st', Ok tt) -> Q (c_h st) -> Q (c_h st').
    Proof.
      unfold conv_joint. destruct (jframes (c_h st) j) as [[f0 f1]|]; [|discriminate]. destruct (Nat.eqb _ _); [discriminate|].
      destruct (conv_plan (jt (J j))) as [|p ps]; [intros E; injection E as <-; auto|]. destruct (negb _); [discriminate|].
      cbv zeta. destruct (replace_joint _ _ _ _ _ _) as [h1 r] eqn:Er. intros E H. injection E as <- ->. cbn [c_h]. exact (Hq _ _ _ _ H Er).
    Qed.
    Lemma traverse_inv n : forall b st st', conv_traverse e eigvals J nm I fuel n b st = (st', Ok tt) -> Q (c_h st) -> Q (c_h st').
    Proof.
      induction n as [|n IH]; intros b st st' E H; [discriminate E|]. rewrite traverse_eq in E.
      revert E H. generalize (length (childrenjoints (c_h st) b)) as m. generalize 0 as idx. intros idx m. revert idx st.
      induction m as [|m IHm]; intros idx st E H; cbn [conv_loop] in E; [injection E as <-; exact H|].
      destruct (nth_error _ _) as [j|]; [|injection E as <-; exact H]. destruct (child_body e (c_h st) j) as [c|]; [|discriminate E].
      destruct (conv_joint e eigvals J nm I fuel j st) as [st1 [[]|]] eqn:E1; [|discriminate E].
      destruct (conv_traverse e eigvals J nm I fuel n c st1) as [st2 [[]|]] eqn:E2; [|discriminate E].
      apply (IHm _ _ E). apply (IH _ _ _ E2). exact (joint_inv _ _ _ E1 H).
    Qed.
  End Inv.

  (** registered objects other than subframes *)
  Definition same_objects (h h' : heap) : Prop := w_shapes h' = w_shapes h /\ w_constraints h' = w_constraints h /\ w_controllers h' = w_controllers h.
  Lemma do_links_objects ls : forall h, same_objects h (do_links e h ls).
  Proof.
    induction ls as [|l ls IH]; intros h; [repeat split|]. cbn [do_links]. destruct (IH (do_link e h l)) as (A & B & C).
    destruct l as [[f0 j] f1]. unfold do_link in A, B, C |- *. cbv zeta in *.
    destruct (register_frame_rest f1 (register_frame f0 (set_children (set_parent (set_frames h j (Some (f0, f1))) (frame_body e f1) (Some j)) (frame_body e f0)
       (childrenjoints (set_parent (set_frames h j (Some (f0, f1))) (frame_body e f1) (Some j)) (frame_body e f0) ++ [j])))) as (A1 & B1 & C1).
    destruct (register_frame_rest f0 (set_children (set_parent (set_frames h j (Some (f0, f1))) (frame_body e f1) (Some j)) (frame_body e f0)
       (childrenjoints (set_parent (set_frames h j (Some (f0, f1))) (frame_body e f1) (Some j)) (frame_body e f0) ++ [j]))) as (A2 & B2 & C2).
    unfold same_objects. rewrite A, B, C, A1, B1, C1, A2, B2, C2. repeat split.
  Qed.
  Lemma init_objects h h' : init 0%R e fuel h = (h', Ok tt) -> same_objects h h'.
  Proof.
    unfold init. destruct (iterjoints e fuel h); [|discriminate]. destruct (assign_dofs _ _ _ _) as [n d]. destruct (copy_gvels _ _ _ _ _) as [[a1 g]|]; [|discriminate].
    intros E. injection E as <-. repeat split.
  Qed.
  Lemma replace_objects h0 j args h h' : same_objects h0 h -> replace_joint 0%R e fuel (OJoint j) args h = (h', Ok tt) -> same_objects h0 h'.
  Proof.
    intros (A & B & C) Er. apply replace_joint_checks in Er. destruct Er as (g0 & g1 & _ & _ & _ & H). apply replace_chain_ok_inv in H.
    destruct H as (g0' & g1' & ls & _ & _ & _ & _ & _ & _ & Hi). destruct (init_objects _ _ Hi) as (A1 & B1 & C1).
    unfold same_objects. rewrite A1, B1, C1. unfold chain_result. set (h2 := set_frames _ _ _). destruct (do_links_objects ls h2) as (A2 & B2 & C2).
    cbn. rewrite A2, B2, C2. unfold h2. cbn. auto.
  Qed.
  (** the joints are numbered along the tree *)
  Definition numbered (h : heap) : Prop := forall t, rep e h t -> root t = ground e -> NoDup (bodies t) -> ready e h t.
  Lemma init_numbered h h' : init 0%R e fuel h = (h', Ok tt) -> numbered h'.
  Proof.
    intros Ei t Rt Er Nd. pose proof (init_ok_graph 0%R e fuel h h' tt Ei) as (G1 & G2 & G3).
    assert (Rh : rep e h t) by (apply (same_graph_rep e h' h t); [repeat split; intros; symmetry; auto|exact Rt]).
    split; [exact Rt|]. split; [exact Er|]. split; [exact Nd|]. unfold init in Ei. destruct (iterjoints e fuel h) as [js|] eqn:It; [|discriminate Ei].
    unfold iterjoints in It. rewrite <- Er in It. pose proof (iter_joints_fuel e h t Rh fuel js It) as Ej.
    destruct (assign_dofs e js 0 (jdof h)) as [n d] eqn:Ad. destruct (copy_gvels _ _ _ _ _) as [[a1 g]|]; [|discriminate Ei]. injection Ei as <-. cbn.
    subst js. destruct (assign_dofs_spec e _ _ _ _ _ Ad (rep_nodup_joints e h t Rh Nd)) as (En & Ed & _). cbn in En. split; [exact En|]. intros l1 j l2 K. exact (Ed l1 j l2 K).
  Qed.
  Lemma replace_numbered j args h h' : numbered h -> replace_joint 0%R e fuel (OJoint j) args h = (h', Ok tt) -> numbered h'.
  Proof.
    intros _ Er. apply replace_joint_checks in Er. destruct Er as (g0 & g1 & _ & _ & _ & H). apply replace_chain_ok_inv in H.
    destruct H as (g0' & g1' & ls & _ & _ & _ & _ & _ & _ & Hi). exact (init_numbered _ _ Hi).
  Qed.
End P.
