(** Every script can be run in a fresh world, and has a scene at rest: witnesses for the theorems about robots. *)
From Coq Require Import Lra Lia.
From Verif Require Import Spec_Build.
From Verif Require Import Proof_Linalg Proof_SE3 Proof_Tree Proof_World Props_Dyn Proof_Build Proof_Build2.
Open Scope R_scope.

Definition subs (cs : list cmd) : list (nat * (nat * m4)) := flat_map (fun c => match c with MkSub s b _ H => [(s, (b, H))] | _ => [] end) cs.
Definition jnts (cs : list cmd) : list (nat * jtype) := flat_map (fun c => match c with MkJoint j _ k => [(j, k)] | _ => [] end) cs.
Definition shps (cs : list cmd) : list (nat * frame) := flat_map (fun c => match c with MkShape s _ f _ => [(s, f)] | _ => [] end) cs.
Fixpoint look {A} (k : nat) (l : list (nat * A)) : option A := match l with [] => None | (i, x) :: l' => if Nat.eqb i k then Some x else look k l' end.
Lemma look_in {A} k (x : A) l : NoDup (map fst l) -> In (k, x) l -> look k l = Some x.
Proof.
  induction l as [ | (i, y) l IH]; intros N H; [destruct H | ]. cbn [map fst] in N. inversion N as [ | ? ? N1 N2]; subst. cbn [look]. destruct H as [H | H].
  - injection H as -> ->. now rewrite Nat.eqb_refl.
  - destruct (Nat.eqb_spec i k) as [-> | _]; [destruct N1; apply in_map_iff; exists (k, x); auto | now apply IH].
Qed.
Lemma look_some {A} k (x : A) l : look k l = Some x -> In (k, x) l.
Proof. induction l as [ | (i, y) l IH]; cbn; [discriminate | ]. destruct (Nat.eqb_spec i k) as [-> | _]; intros H; [injection H as ->; now left | right; auto]. Qed.
(** the objects are created once *)
Definition once (cs : list cmd) : Prop := NoDup (map fst (subs cs)) /\ NoDup (map fst (jnts cs)) /\ NoDup (map fst (shps cs)).

Definition env_for (cs : list cmd) : env :=
  Env 0 (fun s => match look s (subs cs) with Some x => fst x | None => 0%nat end) (fun _ => 0%nat) (fun s => match look s (shps cs) with Some f => f | None => FBody 0 end) (fun _ => [])
    (fun j => match look j (jnts cs) with Some k => ndof_of k | None => 0%nat end).
Definition zero_vel : nat -> nat -> R := fun _ _ => 0.
Definition world_for (cs : list cmd) : @heap R := fresh (env_for cs) zero_vel.
Definition plain_ids : bids := BIds S (fun k => k) (fun k => k) (fun k => k).
Lemma plain_new e : ground e = 0%nat -> new_ids plain_ids (fresh e zero_vel) e.
Proof. intros E. split; [intros k l Q; now injection Q | ]. split; [auto | ]. intros k. rewrite E. repeat split. discriminate. Qed.
Lemma map_const (n : nat) : forall s, map (fun _ : nat => 0) (seq s n) = repeat 0 n.
Proof. induction n as [ | n IH]; intros s; cbn; [reflexivity | now rewrite IH]. Qed.
Lemma made_for cs : once cs -> forall c, In c cs -> made (env_for cs) (world_for cs) c.
Proof.
  intros (N1 & N2 & N3) c Hc. destruct c; cbn [made]; auto.
  - cbn [env_for sub_body]. rewrite (look_in s (b, H) (subs cs) N1); [reflexivity | ]. unfold subs. apply in_flat_map. eexists. split; [exact Hc | now left].
  - assert (E : jndof (env_for cs) j = ndof_of k) by (cbn [env_for jndof]; rewrite (look_in j k (jnts cs) N2); [reflexivity | ]; unfold jnts; apply in_flat_map; eexists; split; [exact Hc | now left]).
    split; [exact E | ]. unfold world_for, joint_gvel, read, fresh. cbn [arr jgvel v_arr v_start v_len]. rewrite E.
    unfold zero_vel. rewrite map_const. cbn [skipn]. rewrite <- (repeat_length 0 (ndof_of k)) at 1. apply firstn_all.
  - cbn [env_for shape_frame]. rewrite (look_in s f (shps cs) N3); [reflexivity | ]. unfold shps. apply in_flat_map. eexists. split; [exact Hc | now left].
Qed.
Definition zero6 : m6 := diag6 0 0 0 0 0 0.
Definition scene_for (cs : list cmd) : scene :=
  Scene (fun b => match mass_in b cs with Some M => M | None => zero6 end) (fun _ => zero6) (fun s => match look s (subs cs) with Some x => snd x | None => eye4 end) (fun _ => eye4).
Definition rest_for (cs : list cmd) (j : nat) : jstate := JS (match look j (jnts cs) with Some k => k | None => FixedJoint end) eye4 (fun _ => 0) (fun _ => 0).
Lemma scene_for_ok cs : once cs -> scene_of (scene_for cs) (rest_for cs) cs.
Proof.
  intros (N1 & N2 & N3). split; [ | split].
  - intros b M E. cbn [scene_for b_mass]. now rewrite E.
  - intros s b n H Hin. cbn [scene_for sub_bpose]. rewrite (look_in s (b, H) (subs cs) N1); [reflexivity | ]. unfold subs. apply in_flat_map. eexists. split; [exact Hin | now left].
  - intros j n k Hin. cbn [rest_for jt]. rewrite (look_in j k (jnts cs) N2); [reflexivity | ]. unfold jnts. apply in_flat_map. eexists. split; [exact Hin | now left].
Qed.
Lemma rigid_for cs t : (forall s b n H, In (MkSub s b n H) cs -> SE3 H) -> (forall j, In j (joints t) -> exists n k, In (MkJoint j n k) cs) -> once cs -> rigid_scene (env_for cs) (scene_for cs) t (rest_for cs).
Proof.
  intros HS HJ (N1 & N2 & N3). split.
  - intros f. destruct f as [b | s | s]; cbn [bpose scene_for sub_bpose mov_bpose]; try apply SE3_eye. destruct (look s (subs cs)) as [(b, H) | ] eqn:E; [ | apply SE3_eye]. apply look_some in E. unfold subs in E. apply in_flat_map in E. destruct E as (c & Hc & E). destruct c; cbn [In] in E; try tauto. destruct E as [E | []]. injection E as -> -> ->. eapply HS. exact Hc.
  - intros j Hj. destruct (HJ j Hj) as (n & k & Hin). cbn [env_for jndof rest_for jt]. rewrite (look_in j k (jnts cs) N2); [ | unfold jnts; apply in_flat_map; eexists; split; [exact Hin | now left]]. split; [intros _; apply SE3_eye | reflexivity].
Qed.
