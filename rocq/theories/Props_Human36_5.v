(** C68: the joints of the humanoid. *)
From Coq Require Import Lra Lia.
From Verif Require Import Spec_Human36.
From Verif Require Import Proof_Linalg Proof_SE3 Proof_Tree Proof_World Proof_World4 Proof_World3 Props_Dyn Proof_Dyn2 Props_Mass Proof_Robots2 Props_Robots2 Proof_Build Proof_Build2 Proof_Build3 Proof_Human36 Props_Human36 Props_Human36_2.
Open Scope R_scope.
Lemma hjoint_inv e I p L mass h j n k : In (MkJoint j (Some (p ++ n)%string) k) (hcmds e I p L mass h) -> exists i b0 t b1, nth_error (human_links L) i = Some (b0, t, k, n, b1).
Proof.
  intros H. apply in_cs in H. destruct H as [(x & Hx & H) | [(x & Hx & H) | [(x & _ & H) | (x & _ & H)]]].
  - destruct x as (i, (n', ((m, c), r))). destruct H as [H | []]. discriminate.
  - destruct x as (i, ((((b0, tt'), ty), n'), b1)). destruct H as [H | [H | [H | []]]]; try discriminate.
    assert (Q : String.eqb (pfx p n') (pfx p n) = true) by (apply String.eqb_eq; unfold pfx in *; congruence). rewrite pfx_eqb in Q. apply String.eqb_eq in Q. subst n'.
    apply in_number in Hx. destruct Hx as (_ & Hx). rewrite Nat.sub_0_r in Hx. exists i, b0, tt', b1. rewrite Hx. congruence.
  - destruct x as (i, ((n', b'), tt')). destruct H as [H | [H | []]]; discriminate.
  - destruct x as (i, n'). destruct H as [H | [H | []]]; discriminate.
Qed.
Definition class_of_link (x : option string * v3 * jtype * string * string) : string * jtype := let '(_, _, k, n, _) := x in (n, k).
Lemma in_articulations L n k : In (n, k) (map class_of_link (human_links L)) <-> In (n, k) articulations.
Proof.
  assert (E : map class_of_link (human_links L) = [("Root", FreeJoint); ("HipR", RzRyRxJoint); ("KneeR", RzJoint); ("AnkleR", RzRxJoint); ("HipL", RzRyRxJoint); ("KneeL", RzJoint); ("AnkleL", RzRxJoint); ("Back", RzRyRxJoint);
    ("Torso-ScapR", RyRxJoint); ("Arm-ScapR", RzRyRxJoint); ("ElbowR", RzRyJoint); ("WristR", RzRxJoint); ("Torso-ScapL", RyRxJoint); ("Arm-ScapL", RzRyRxJoint); ("ElbowL", RzRyJoint); ("WristL", RzRxJoint); ("Neck", RzRyRxJoint)]%string) by reflexivity.
  rewrite E. clear E. cbn [articulations limb_joints map app fst snd append In]. tauto.
Qed.
(** The joints are those of the table, each class on both sides, under the prefix of the robot. *)
Theorem C68_joints : forall e I p ht mass o cs, human_script e I p ht mass o = Ok cs ->
  forall n k, (exists j, In (MkJoint j (Some (p ++ n)%string) k) cs) <-> In (n, k) articulations.
Proof.
  intros e I p ht mass o cs E n k. destruct (script_inv _ _ _ _ _ _ _ E) as (EL & ->). set (L := lengths_used ht o) in *. rewrite <- (in_articulations L). split.
  - intros (j & H). apply in_snoc in H; [ | discriminate]. apply hjoint_inv in H. destruct H as (i & b0 & t & b1 & H). apply nth_error_In in H. apply (in_map class_of_link) in H. exact H.
  - intros H. apply in_map_iff in H. destruct H as (((((b0, t), k'), n'), b1) & Q & H). injection Q as -> ->. apply In_nth_error in H. destruct H as (i & H).
    exists (xj I i). apply in_or_app. left. apply (hlink_in e I p L mass (tallness L) i b0 t k n b1 H). now left.
Qed.
