(** C68: humanoids in a fresh world. *)
From Coq Require Import Lra Lia.
From Verif Require Import Spec_Human36.
From Verif Require Import Proof_Linalg Proof_SE3 Proof_Tree Proof_World Proof_World4 Proof_World3 Props_Dyn Proof_Dyn2 Props_Mass Proof_Robots2 Props_Robots2 Proof_Build Proof_Build2 Proof_Build3 Proof_Human36 Props_Human36 Props_Human36_2 Props_Human36_3.
Open Scope R_scope.

Lemma hcmds_ground e e' I p L mass h : ground e = ground e' -> hcmds e I p L mass h = hcmds e' I p L mass h.
Proof. intros E. unfold hcmds, lcmd. rewrite E. reflexivity. Qed.
Lemma human_once e p L mass h : once (hcmds e plain_ids p L mass h ++ [WInit]).
Proof. split; [ | split]; (match goal with |- NoDup ?l => assert (Q : l = seq 0 (length l)) by reflexivity; rewrite Q; apply seq_NoDup end). Qed.
(** any humanoid of nonnegative mass and any height can be built in a fresh world, and stands there *)
Theorem C68_witness : forall p ht mass, 0 <= mass -> exists e eigvals cs h' t' sc J sg, let h := fresh e zero_vel in
  eigs_ok eigvals /\ reachable 0 e zero_vel h /\ new_ids plain_ids h e /\ leg (lengths_used ht None) "R" = leg (lengths_used ht None) "L" /\ human_script e plain_ids p ht mass None = Ok cs /\ (forall c, In c cs -> made e h c) /\
  add_human36 e eigvals 19 plain_ids p ht mass None h = (h', Ok tt) /\ ready e h' t' /\ w_ndof h' = 42%nat /\ length (bodies t') = 18%nat /\
  rigid_scene e sc t' J /\ scene_of sc J cs /\ at_rest J cs /\ world_update_geometric e sc h' J 19 (fun _ => no_attr) = Ok sg /\ tag_at e sc sg cs p "Vertex" (V3 0 ht 0).
Proof.
  intros p ht mass Hm. destruct eigs_exist as (eigvals & Ev). set (L := lengths_used ht None). set (e0 := Env 0 (fun _ => 0%nat) (fun _ => 0%nat) (fun _ => FBody 0) (fun _ => []) (fun _ => 0%nat)).
  set (cs := hcmds e0 plain_ids p L mass (tallness L) ++ [WInit]). set (e := env_for cs). set (h := fresh e zero_vel).
  destruct (C68_height ht) as (EL & _ & _ & Tl).
  assert (R : reachable 0 e zero_vel h) by constructor. assert (Ni : new_ids plain_ids h e) by (apply plain_new; reflexivity).
  assert (Rt : rep e h (Node 0 [])) by (constructor; [reflexivity | constructor]).
  assert (Ec : hcmds e plain_ids p L mass (tallness L) ++ [WInit] = cs) by (unfold cs; now rewrite (hcmds_ground e e0)).
  assert (Es : human_script e plain_ids p ht mass None = Ok cs) by (rewrite script_used; fold L; rewrite (script_ok e plain_ids p L mass _ (height_ok L EL)); now rewrite Ec).
  assert (Oc : once cs) by apply human_once.
  assert (Mk : forall c, In c cs -> made e h c) by (exact (made_for cs Oc)).
  destruct (C68_standing e zero_vel h eigvals plain_ids p ht mass None (Node 0 []) R Ev Ni Hm Rt eq_refl EL) as (cs1 & Es1 & X). assert (cs1 = cs) by (apply Props_Draw.Ok_inj; congruence). subst cs1.
  destruct (X Mk 19%nat ltac:(cbn; lia)) as (h' & t' & E & Rd & St).
  destruct (C68_human e zero_vel h eigvals plain_ids p ht mass None (Node 0 []) R Ev Ni Hm Rt eq_refl EL) as (cs1 & Es2 & Y). assert (cs1 = cs) by (apply Props_Draw.Ok_inj; congruence). subst cs1.
  destruct (Y Mk 19%nat ltac:(cbn; lia)) as (h1 & t1 & E1 & R1 & Rd1 & Hf & Nd & Lb & _ & _ & _ & _ & _). rewrite E in E1. injection E1 as <-.
  assert (t1 = t') by (apply (rep_unique e h'); [apply Rd1 | apply Rd | transitivity (ground e); [apply Rd1 | symmetry; apply Rd]]). subst t1.
  assert (HJ : forall j, In j (joints t') -> exists n k, In (MkJoint j n k) cs).
  { intros j Hj. destruct (build_human e plain_ids p L mass (tallness L) zero_vel h eigvals (Node 0 []) 19 R Ev Ni Hm) as (h2 & t2 & E2 & _ & Rd2 & _ & _ & Pm & _); [intros c Hc; apply Mk; rewrite <- Ec; apply in_or_app; now left | exact Rt | reflexivity | cbn; lia | ].
    unfold add_human36 in E. rewrite Es, <- Ec, E2 in E. injection E as ->. assert (t2 = t') by (apply (rep_unique e h'); [apply Rd2 | apply Rd | transitivity (ground e); [apply Rd2 | symmetry; apply Rd]]). subst t2.
    apply (Permutation_in _ Pm) in Hj. cbn [joints app] in Hj. apply in_map_iff in Hj. destruct Hj as (k & <- & Hk). apply in_seq in Hk.
    destruct (nth_error (human_links L) k) as [((((b0, x), ty), n), b1) | ] eqn:Q; [ | apply nth_error_None in Q; change (length (human_links L)) with 17%nat in Q; lia].
    do 2 eexists. rewrite <- Ec. apply in_or_app. left. eapply hlink_in; [exact Q | now left]. }
  assert (HS : forall s b n H, In (MkSub s b n H) cs -> SE3 H).
  { intros s b n H Hin. rewrite <- Ec in Hin. apply in_snoc in Hin; [ | discriminate]. assert (Z := cs_pass e plain_ids p L mass (tallness L) eigvals Ev Hm). rewrite Forall_forall in Z. exact (Z _ Hin). }
  assert (Ri : rigid_scene e (scene_for cs) t' (rest_for cs)) by (apply rigid_for; assumption).
  assert (Rs : at_rest (rest_for cs) cs) by (intros j n k _; split; reflexivity).
  destruct (St (scene_for cs) (rest_for cs) (fun _ => no_attr) Ri (scene_for_ok cs Oc) Rs) as (sg & Eg & _ & Tv & _).
  exists e, eigvals, cs, h', t', (scene_for cs), (rest_for cs), sg. cbv zeta. change (tallness (lengths_used ht None)) with (tallness (anat_lengths_from_height ht)) in Tv. rewrite Tl in Tv.
  split; [exact Ev | ]. split; [exact R | ]. split; [exact Ni | ]. split; [exact EL | ]. split; [exact Es | ]. split; [exact Mk | ]. split; [exact E | ]. split; [exact Rd | ]. split; [exact Nd | ]. split; [exact Lb | ]. split; [exact Ri | ]. split; [apply scene_for_ok; exact Oc | ]. split; [exact Rs | ]. split; [exact Eg | exact Tv].
Qed.
Print Assumptions C68_witness.
