(** C74: kinematics of the iCub. *)
From Coq Require Import Lra Lia.
From Verif Require Import Spec_Icub.
From Verif Require Import Proof_Linalg Proof_SE3 Proof_Tree Proof_World Proof_World2 Proof_Register Proof_World4 Proof_World3 Props_Dyn Proof_Dyn2 Props_Mass Proof_Robots2 Props_Robots2 Proof_Build Proof_Build2 Proof_Build3 Proof_Human36 Props_Human36 Props_Human36_2 Props_Human36_3 Props_Checks Props_Arm Proof_Icub Props_Icub Props_Icub2.
Open Scope R_scope.

Lemma mount_row x : In x joints_data -> mount (fst x) = snd (fst (snd x)).
Proof.
  intros H. unfold mount. assert (N := joints_nodup). revert H N. generalize joints_data. intros l. induction l as [ | y l IH]; intros H N; [destruct H | ]. cbn [find map] in *. inversion N as [ | ? ? N1 N2]; subst. destruct (String.eqb_spec (fst y) (fst x)) as [E | E].
  - destruct H as [-> | H]; [reflexivity | ]. destruct N1. rewrite E. now apply in_map.
  - destruct H as [-> | H]; [now destruct E | auto].
Qed.
Section S.
  Variables (e : env) (I : bids) (fx shp con : bool).
  Variables (B : list (string * list (list R * R * m4))) (J : list (string * (string * m4 * string))) (Sh : list (string * list (list R * m4))) (C : list (string * (string * list R * m4))).
  Hypothesis PB : Permutation B bodies_data.
  Hypothesis PJ : Permutation J joints_data.
  Hypothesis PC : Permutation C contact_data.
  Notation cs := (icub_cmds e I fx shp con B J Sh C).
  Lemma on_body_inv n b : In n (map fst bodies_data) -> on_body e fx (cs ++ [WInit]) n b -> b = body_of e I fx n.
  Proof. intros Hn. unfold on_body, body_of. destruct (fx && String.eqb n "waist"); [auto | ]. intros H. apply body_called_inv in H; [apply H | exact PB]. Qed.
  Lemma body_at_iff sg n P : In n (map fst bodies_data) -> body_at e fx (cs ++ [WInit]) sg n P <-> a_pose (sg (body_of e I fx n)) = Some P.
  Proof.
    intros Hn. split; [intros (_ & H); apply H; now apply on_body_icub | ]. intros H. split; [eexists; now apply on_body_icub | ]. intros b Hb. apply on_body_inv in Hb; [ | exact Hn]. now subst.
  Qed.
  Lemma joint_called_icub jn j : In jn (map fst joints_data) -> joint_called (cs ++ [WInit]) "" jn j -> j = xj I (jnum jn).
  Proof.
    intros Hn (k & H). apply in_snoc in H; [ | discriminate]. apply in_cmds in H. destruct H as [(x & Hx & H) | [H | [(x & Hx & H) | [(_ & x & Hx & H) | (_ & x & Hx & H)]]]].
    - exfalso. destruct H as [H | H]; [discriminate | ]. apply in_app_iff in H. destruct H as [H | [H | []]]; [ | discriminate]. apply in_map_iff in H. destruct H as (y & H & _). discriminate.
    - exfalso. unfold rcmds in H. destruct fx; [destruct H | ]. destruct H as [H | [H | []]]; [ | discriminate]. injection H as _ E _. cbn in E. subst jn. assert (X : existsb (String.eqb "root") (map fst joints_data) = true) by (apply existsb_exists; exists "root"%string; split; [exact Hn | reflexivity]). discriminate X.
    - destruct H as [H | [H | [H | []]]]; try discriminate. injection H as <- <- _. reflexivity.
    - exfalso. apply in_flat_map in H. destruct H as (y & _ & [H | [H | [H | []]]]); discriminate.
    - exfalso. destruct H as [H | [H | [H | []]]]; discriminate.
  Qed.
  Lemma tag_called_icub n s : tag_called (cs ++ [WInit]) "" n s -> con = true /\ exists x, In x contact_data /\ fst x = n /\ s = xs I (500 + cnum n).
  Proof.
    intros (b & Hp & H). apply in_snoc in H; [ | discriminate]. apply in_cmds in H. destruct H as [(x & Hx & H) | [H | [(x & Hx & H) | [(_ & x & Hx & H) | (Q & x & Hx & H)]]]].
    - exfalso. destruct H as [H | H]; [discriminate | ]. apply in_app_iff in H. destruct H as [H | [H | []]]; [ | discriminate]. apply in_map_iff in H. destruct H as (y & H & _). discriminate.
    - exfalso. unfold rcmds in H. destruct fx; [destruct H | ]. destruct H as [H | [H | []]]; discriminate.
    - exfalso. destruct H as [H | [H | [H | []]]]; discriminate.
    - exfalso. apply in_flat_map in H. destruct H as (y & _ & [H | [H | [H | []]]]); discriminate.
    - split; [exact Q | ]. exists x. split; [eapply Permutation_in; [exact PC | exact Hx] | ]. destruct H as [H | [H | [H | []]]]; try discriminate. injection H as <- _ E _. cbn in E. subst n. auto.
  Qed.
End S.

(** Forward kinematics: whatever the configuration, a body is found by turning about the axis of its joint, mounted on its parent; the waist is that of the root, or the ground. *)
Theorem C74_poses : forall e I fx shp con cs fuel h' t', icub_world e I fx shp con cs fuel h' t' ->
  forall sc Js st q, rigid_scene e sc t' Js -> scene_of sc Js cs -> angles Js cs q -> exists sg, world_update_geometric e sc h' Js fuel st = Ok sg /\
    (forall jn from to P, In (jn, from, to) icub_skeleton -> body_at e fx cs sg from P -> body_at e fx cs sg to (mm4 P (mm4 (mount jn) (rotz (q jn))))) /\
    (if fx then body_at e fx cs sg "waist" eye4 else exists j, joint_called cs "" "root" j /\ body_at e fx cs sg "waist" (gposH (Js j))) /\
    (con = true -> forall n parent dims H P, In (n, (parent, dims, H)) contact_data -> body_at e fx cs sg parent P -> frame_placed e sc cs sg n (mm4 P H)).
Proof.
  intros e I fx shp con cs fuel h' t' (g0 & h & eigvals & B & J & Sh & C & t & R & Ev & Ni & Rt & Er & PB & PJ & PS & PC & Es & Mk & Fu & Ea & Rd') sc Js st q Ri So An. assert (Es0 := Es). apply icub_script_inv in Es; [ | assumption..]. subst cs. set (cs := icub_cmds e I fx shp con B J Sh C) in *.
  assert (Mk' : forall c, In c cs -> made e h c) by (intros c Hc; apply Mk, in_or_app; now left).
  assert (Fu' : (length (bodies t) + (if fx then 32 else 33) < fuel)%nat) by (destruct fx; exact Fu).
  destruct (build_icub e eigvals I Ev fx shp con h Ni B J Sh C PB PJ PS PC Mk' g0 t fuel R Rt Er Fu') as (h2 & t2 & E & R' & Rd & Hf & Bd & Pm & Nd & Jf & Jo & Gv & Rl & Rg). fold cs in E, Jf, Rg.
  unfold icub_add, run_scr in Ea. rewrite Es0 in Ea. cbn [fst snd] in Ea. rewrite E in Ea. injection Ea as <-.
  assert (Q : t2 = t') by (apply (rep_unique e h2 t2 t'); [apply Rd | apply Rd' | destruct Rd as (_ & -> & _), Rd' as (_ & -> & _); reflexivity]). subst t2.
  destruct (C39_poses e sc h2 t' Js fuel st Rd Ri Hf) as (sg & sd & d & Eg & _ & P1 & P2 & P3 & _). exists sg. split; [exact Eg | ].
  assert (So' := scene_snoc _ _ _ So). destruct So' as (_ & S2 & S3).
  assert (Jin : forall j, In j (icub_js I fx) -> In j (joints t')) by (intros j Hj; eapply Permutation_in; [symmetry; exact Pm | apply in_or_app; now right]).
  split; [ | split].
  - intros jn from to P Hr Hp. rewrite skeleton_table in Hr. apply in_map_iff in Hr. destruct Hr as (x & Q & Hx). injection Q as <- <- <-.
    apply body_at_iff in Hp; [ | exact PB | now apply parent_in]. apply body_at_iff; [exact PB | rewrite bodies_names_icub, skeleton_table, map_map; right; exact (in_map (fun x => snd (snd x)) _ _ Hx) | ].
    assert (Jx : In (xj I (jnum (fst x))) (joints t')) by (apply Jin; unfold icub_js; apply in_map; assert (L := joint_num x Hx); destruct fx; [ | right]; apply in_seq; lia).
    assert (Z : jframes h2 (xj I (jnum (fst x))) = Some (FSub (xs I (jnum (fst x))), FBody (body_of e I fx (snd (snd x))))).
    { apply (Jf (jlink e I fx x)). unfold cs. rewrite icub_links. apply in_or_app. right. apply in_map. eapply Permutation_in; [symmetry; exact PJ | exact Hx]. }
    destruct (P3 _ _ _ Jx Z) as (F0 & F1 & _ & _ & E0 & E1 & EF). apply frame_at in E0, E1. destruct E0 as (P0 & Ep & ->), E1 as (P9 & Ec & ->). cbn [frame_body bpose] in *.
    rewrite (mount_sub e I fx shp con h B J Sh C PJ Mk' x Hx), Hp in Ep. injection Ep as <-. rewrite Ec. f_equal. rewrite mm4_1_r in EF. rewrite EF.
    rewrite (S2 (xs I (jnum (fst x))) (body_of e I fx (fst (fst (snd x)))) None (snd (fst (snd x)))) by (eapply jcmds_in; [exact PJ | exact Hx | now left]).
    assert (Jc : In (MkJoint (xj I (jnum (fst x))) (Some (fst x)) RzJoint) cs) by (eapply jcmds_in; [exact PJ | exact Hx | right; now left]).
    assert (Jt := S3 _ _ _ Jc). assert (Qx : gpos (Js (xj I (jnum (fst x)))) 0%nat = q (fst x)) by (apply (An (fst x)); [now apply in_map | eexists; apply in_or_app; left; exact Jc]).
    rewrite mm4_assoc. rewrite (mount_row x Hx). rewrite <- Qx. unfold Model_Joints.pose. rewrite Jt. reflexivity.
  - destruct fx.
    + apply body_at_iff; [exact PB | now left | ]. exact P2.
    + exists (xj I 32). assert (Jc : In (MkJoint (xj I 32) (Some "root"%string) FreeJoint) cs) by (apply in_cmds; right; left; now left). split; [eexists; apply in_or_app; left; exact Jc | ]. apply body_at_iff; [exact PB | now left | ].
      assert (Z : jframes h2 (xj I 32) = Some (FBody (ground e), FBody (xb I 0))) by (apply (Jf (FBody (ground e), xj I 32, FBody (xb I 0))); unfold cs; rewrite icub_links; apply in_or_app; left; now left).
      destruct (P3 _ _ _ (Jin (xj I 32) ltac:(now left)) Z) as (F0 & F1 & _ & _ & E0 & E1 & EF). apply frame_at in E0, E1. destruct E0 as (P0 & Ep & ->), E1 as (P9 & Ec & ->). cbn [frame_body bpose] in *.
      rewrite P2 in Ep. injection Ep as <-. change (body_of e I false "waist") with (xb I 0). rewrite Ec. f_equal. rewrite !mm4_1_r in EF. rewrite mm4_1_l in EF. rewrite EF. unfold Model_Joints.pose. rewrite (S3 _ _ _ Jc). reflexivity.
  - intros Hc n parent dims H P Hn Hp. assert (Hin : In parent (map fst bodies_data)).
    { assert (Y : forallb (fun x => existsb (String.eqb (fst (fst (snd x)))) (map fst bodies_data)) contact_data = true) by reflexivity. rewrite forallb_forall in Y. specialize (Y _ Hn). cbn [fst snd] in Y. apply existsb_exists in Y. destruct Y as (m & Hm & Em). apply String.eqb_eq in Em. now rewrite Em. }
    apply body_at_iff in Hp; [ | exact PB | exact Hin]. assert (X : incl (ccmds e I fx (n, (parent, dims, H))) cs).
    { intros c Hcc. apply in_cmds. right. right. right. right. split; [exact Hc | ]. eexists. split; [eapply Permutation_in; [symmetry; exact PC | exact Hn] | exact Hcc]. }
    assert (X1 := X _ (or_introl eq_refl)). cbn [fst snd] in X1.
    split; [eexists; do 2 eexists; apply in_or_app; left; exact X1 | ]. intros s Hs. apply tag_called_icub in Hs; [ | exact PC]. destruct Hs as (_ & y & _ & _ & ->).
    unfold frame_pose. cbn [frame_body]. assert (Sb := Mk' _ X1). cbn [made] in Sb. rewrite Sb, Hp. cbn [get rbind bpose]. rewrite (S2 _ _ _ _ X1). reflexivity.
Qed.
Print Assumptions C74_poses.
