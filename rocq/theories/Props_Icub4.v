(** C74: the sides of the iCub, its standing posture, its limits. *)
From Coq Require Import Lra Lia.
From Verif Require Import Spec_Icub.
From Verif Require Import Proof_Linalg Proof_SE3 Proof_Tree Proof_World Proof_World2 Proof_Register Proof_World4 Proof_World3 Props_Dyn Proof_Dyn2 Props_Mass Proof_Robots2 Props_Robots2 Proof_Build Proof_Build2 Proof_Build3 Proof_Human36 Props_Human36 Props_Human36_2 Props_Human36_3 Props_Checks Props_Arm Proof_Icub Props_Icub Props_Icub2 Props_Icub3.
Open Scope R_scope.

(** ** Angles *)
Lemma mhalf : (- PI) / 2 = - (PI / 2).
Proof. field. Qed.
Lemma m105 : ((- 105) * PI) / 180 = - (105 * PI / 180).
Proof. field. Qed.
Lemma c105 : cos (105 * PI / 180) = - cos (75 * PI / 180).
Proof. replace (105 * PI / 180) with (- (75 * PI / 180) + PI) by field. rewrite neg_cos, cos_neg. reflexivity. Qed.
Lemma s105 : sin (105 * PI / 180) = sin (75 * PI / 180).
Proof. replace (105 * PI / 180) with (- (75 * PI / 180) + PI) by field. rewrite neg_sin, sin_neg. lra. Qed.
Ltac trig := rewrite ?mhalf, ?m105, ?cos_neg, ?sin_neg, ?cos_PI2, ?sin_PI2, ?cos_PI, ?sin_PI, ?cos_0, ?sin_0, ?c105, ?s105.

(** ** Mirrored limbs *)
(** the sign changes that take a body of the left to that of the right *)
Definition sgn (n : string) : R := if existsb (String.eqb n) ["shoulder_1"; "elbow_1"; "forearm"; "wrist_1"; "hand"]%string then -1 else 1.
Definition flip (n : string) : m4 := dg (sgn n) (sgn n) (-1).
Fixpoint mir (X : m4) (l : list (string * string)) : Prop :=
  match l with [] => True | (j, c) :: l' => mount ("r_" ++ j) = mm4 X (mm4 (mount ("l_" ++ j)) (flip c)) /\ mir (flip c) l' end.
Ltac sides := cbv beta iota; unfold flip, sgn, dg, diag3; cbn [existsb String.eqb Ascii.eqb Bool.eqb orb String.append]; match goal with |- mount ?a = mm4 _ (mm4 (mount ?b) _) =>
   let x := eval lazy beta iota zeta delta [mount find joints_data fst snd String.eqb Ascii.eqb Bool.eqb] in (mount a) in change (mount a) with x;
   let y := eval lazy beta iota zeta delta [mount find joints_data fst snd String.eqb Ascii.eqb Bool.eqb] in (mount b) in change (mount b) with y end;
   unfold T_DH, transl, rotx, roty, rotz; cbn zeta; trig; clear; unf; entries; first [field | lra].
Lemma arms_mirrored : mir (dg (-1) 1 1) (icub_arm "").
Proof. cbn [mir icub_arm String.append]. repeat (split; [sides | ]). exact Logic.I. Qed.
Lemma legs_mirrored : mir (dg 1 (-1) 1) (icub_leg "").
Proof. cbn [mir icub_leg String.append]. repeat (split; [sides | ]). exact Logic.I. Qed.
Lemma flip_rotz n a : mm4 (flip n) (rotz a) = mm4 (rotz a) (flip n).
Proof. unfold flip, dg, diag3, rotz. generalize (sgn n). intros x. clear. cbn zeta. unf. entries; ring. Qed.
Lemma flip_flip n : mm4 (flip n) (flip n) = eye4.
Proof. unfold flip. assert (E : sgn n * sgn n = 1) by (unfold sgn; destruct (existsb _ _); ring). unfold dg, diag3. revert E. generalize (sgn n). intros x E. unf. entries; lra. Qed.
Definition side (s : string) (l : list (string * string)) : list (string * string) := map (fun x => (s ++ fst x, s ++ snd x)%string) l.
Lemma along_mir q : forall l X j c, mir X (l ++ [(j, c)]) -> (forall x, In x (l ++ [(j, c)]) -> q ("r_" ++ fst x)%string = q ("l_" ++ fst x)%string) ->
  along q (side "r_" (l ++ [(j, c)])) = mm4 X (mm4 (along q (side "l_" (l ++ [(j, c)]))) (flip c)).
Proof.
  induction l as [ | (i, d) l IH]; intros X j c M E.
  - cbn [app side map fst snd along]. cbn [app mir] in M. destruct M as (M & _). assert (Q := E (j, c) (or_introl eq_refl)). cbn [fst] in Q. rewrite M, Q. rewrite !mm4_1_r. rewrite <- !mm4_assoc. now rewrite flip_rotz.
  - cbn [app side map fst snd along]. cbn [app mir] in M. destruct M as (M1 & M2). assert (Q := E (i, d) (or_introl eq_refl)). cbn [fst] in Q. change (map (fun x => ("r_" ++ fst x, "r_" ++ snd x)%string) (l ++ [(j, c)])) with (side "r_" (l ++ [(j, c)])). change (map (fun x => ("l_" ++ fst x, "l_" ++ snd x)%string) (l ++ [(j, c)])) with (side "l_" (l ++ [(j, c)])).
    rewrite (IH (flip d) j c M2) by (intros x Hx; apply E; now right). rewrite M1, Q. set (A := along q (side "l_" (l ++ [(j, c)]))). set (Y := mount ("l_" ++ i)). rewrite <- !mm4_assoc. do 2 f_equal. rewrite (mm4_assoc (flip d) (rotz _)). rewrite flip_rotz. rewrite <- !mm4_assoc. rewrite (mm4_assoc (flip d) (flip d)). rewrite flip_flip, mm4_1_l. reflexivity.
Qed.
Lemma mir_app X l l' : mir X (l ++ l') -> mir X l.
Proof. revert X. induction l as [ | (j, c) l IH]; intros X; cbn [app mir]; [auto | ]. intros (A & B). split; [exact A | now apply IH]. Qed.
Lemma chain_at e fx cs sg q : (forall jn from to P, In (jn, from, to) icub_skeleton -> body_at e fx cs sg from P -> body_at e fx cs sg to (mm4 P (mm4 (mount jn) (rotz (q jn))))) ->
  forall l base P, incl (chain base l) icub_skeleton -> body_at e fx cs sg base P -> forall l1 j c l2, l = l1 ++ (j, c) :: l2 -> body_at e fx cs sg c (mm4 P (along q (l1 ++ [(j, c)]))).
Proof.
  intros St. induction l as [ | (i, d) l IH]; intros base P Hi Hb l1 j c l2 E; [destruct l1; discriminate | ]. cbn [chain] in Hi.
  assert (X := St i base d P (Hi _ (or_introl eq_refl)) Hb). destruct l1 as [ | y l1]; cbn [app] in E.
  - injection E as -> -> ->. cbn [app along]. rewrite mm4_1_r. exact X.
  - injection E as <- ->. cbn [app along]. rewrite mm4_assoc. apply (IH d _ ltac:(intros z Hz; apply Hi; now right) X l1 j c l2 eq_refl).
Qed.
Lemma pos_mirror a b c n A : hom A = 1 -> pos (mm4 (dg a b c) (mm4 A (flip n))) = V3 (a * vx (pos A)) (b * vy (pos A)) (c * vz (pos A)).
Proof. intros H. unfold flip, dg, diag3. generalize (sgn n). intros x. destruct A as [A1 A2 A3 A4]. change (A4 = 1) in H. subst A4. clear. unf. f_equal; ring. Qed.
Lemma waist_at e (fx : bool) cs sg (Js : nat -> jstate) : (if fx then body_at e fx cs sg "waist" eye4 else exists j, joint_called cs "" "root" j /\ body_at e fx cs sg "waist" (gposH (Js j))) -> exists W, body_at e fx cs sg "waist" W.
Proof. destruct fx; [intros H; eauto | intros (j & _ & H); eauto]. Qed.
Lemma mount_SE3 jn : SE3 (mount jn).
Proof. unfold mount. destruct (find _ _) as [x | ] eqn:E; [ | exact SE3_eye]. apply find_some in E. exact (proj1 (Forall_forall _ _) mounts_ok x (proj1 E)). Qed.
Lemma along_SE3 q l : SE3 (along q l).
Proof. induction l as [ | (j, c) l IH]; cbn [along]; [exact SE3_eye | ]. apply SE3_mm4; [apply SE3_mm4; [apply mount_SE3 | apply rotz_SE3] | exact IH]. Qed.

(** When the angles of the two sides are the same the right arm is the image of the left arm through the plane x = 0 of the chest, and the right leg that of the
    left leg through the plane y = 0 of the waist: origins are mirrored, axes are mirrored up to their signs. *)
Theorem C74_mirror : forall e I fx shp con cs fuel h' t', icub_world e I fx shp con cs fuel h' t' ->
  forall sc Js st q, rigid_scene e sc t' Js -> scene_of sc Js cs -> angles Js cs q ->
  (forall jn, In jn (map fst (icub_arm "" ++ icub_leg "")) -> q ("r_" ++ jn)%string = q ("l_" ++ jn)%string) ->
  exists sg, world_update_geometric e sc h' Js fuel st = Ok sg /\
    (forall n, In n (map snd (icub_arm "")) -> exists P A A' d, body_at e fx cs sg "chest" P /\ body_at e fx cs sg ("l_" ++ n) (mm4 P A) /\ body_at e fx cs sg ("r_" ++ n) (mm4 P A') /\
       pos A' = V3 (- vx (pos A)) (vy (pos A)) (vz (pos A)) /\ A' = mm4 (dg (-1) 1 1) (mm4 A (dg d d (-1))) /\ (d = 1 \/ d = -1)) /\
    (forall n, In n (map snd (icub_leg "")) -> exists P A A' d, body_at e fx cs sg "waist" P /\ body_at e fx cs sg ("l_" ++ n) (mm4 P A) /\ body_at e fx cs sg ("r_" ++ n) (mm4 P A') /\
       pos A' = V3 (vx (pos A)) (- vy (pos A)) (vz (pos A)) /\ A' = mm4 (dg 1 (-1) 1) (mm4 A (dg d d (-1))) /\ (d = 1 \/ d = -1)).
Proof.
  intros e I fx shp con cs fuel h' t' Wo sc Js st q Ri So An Eq. destruct (C74_poses e I fx shp con cs fuel h' t' Wo sc Js st q Ri So An) as (sg & Eg & St & Wa & _). exists sg. split; [exact Eg | ].
  destruct (waist_at e fx cs sg Js Wa) as (W & HW).
  assert (In1 : forall x, In x (chain "waist" icub_torso) -> In x icub_skeleton) by (intros x Hx; unfold icub_skeleton; apply in_or_app; now left).
  assert (HC := chain_at e fx cs sg q St icub_torso "waist" W In1 HW [("torso_pitch", "lap_belt_1"); ("torso_roll", "lap_belt_2")]%string "torso_yaw" "chest" [] eq_refl). match type of HC with body_at _ _ _ _ _ ?P => set (Pc := P) in * end.
  assert (Sg : forall n, sgn n = 1 \/ sgn n = -1) by (intros n; unfold sgn; destruct (existsb _ _); auto).
  assert (Al : forall s, incl (chain "chest" (icub_arm s)) icub_skeleton -> forall l1 j c l2, icub_arm s = l1 ++ (j, c) :: l2 -> body_at e fx cs sg c (mm4 Pc (along q (l1 ++ [(j, c)])))) by (intros s Hs l1 j c l2 E; exact (chain_at e fx cs sg q St _ "chest" Pc Hs HC l1 j c l2 E)).
  assert (Le : forall s, incl (chain "waist" (icub_leg s)) icub_skeleton -> forall l1 j c l2, icub_leg s = l1 ++ (j, c) :: l2 -> body_at e fx cs sg c (mm4 W (along q (l1 ++ [(j, c)])))) by (intros s Hs l1 j c l2 E; exact (chain_at e fx cs sg q St _ "waist" W Hs HW l1 j c l2 E)).
  assert (S1 : incl (chain "chest" (icub_arm "l_")) icub_skeleton) by (intros x Hx; unfold icub_skeleton; rewrite !in_app_iff; tauto).
  assert (S2 : incl (chain "chest" (icub_arm "r_")) icub_skeleton) by (intros x Hx; unfold icub_skeleton; rewrite !in_app_iff; tauto).
  assert (S3 : incl (chain "waist" (icub_leg "l_")) icub_skeleton) by (intros x Hx; unfold icub_skeleton; rewrite !in_app_iff; tauto).
  assert (S4 : incl (chain "waist" (icub_leg "r_")) icub_skeleton) by (intros x Hx; unfold icub_skeleton; rewrite !in_app_iff; tauto).
  split; intros n Hn; apply in_map_iff in Hn; destruct Hn as ((j, c) & <- & Hn); apply in_split in Hn; destruct Hn as (l1 & l2 & E); cbn [snd].
  - assert (Ex : forall s, icub_arm s = side s l1 ++ (s ++ j, s ++ c)%string :: side s l2) by (intros s; change (icub_arm s) with (side s (icub_arm "")); rewrite E; unfold side; now rewrite map_app).
    assert (El : forall s, side s l1 ++ [(s ++ j, s ++ c)%string] = side s (l1 ++ [(j, c)])) by (intros s; unfold side; now rewrite map_app).
    assert (M := arms_mirrored). rewrite E in M. replace (l1 ++ (j, c) :: l2) with ((l1 ++ [(j, c)]) ++ l2) in M by now rewrite <- app_assoc. apply mir_app in M.
    exists Pc, (along q (side "l_" (l1 ++ [(j, c)]))), (along q (side "r_" (l1 ++ [(j, c)]))), (sgn c). split; [exact HC | ].
    split; [rewrite <- El; exact (Al "l_"%string S1 _ _ _ _ (Ex _)) | ]. split; [rewrite <- El; exact (Al "r_"%string S2 _ _ _ _ (Ex _)) | ].
    rewrite (along_mir q l1 (dg (-1) 1 1) j c M).
    + split; [rewrite pos_mirror by apply along_SE3; f_equal; ring | ]. split; [reflexivity | auto].
    + intros x Hx. apply Eq. rewrite map_app. apply in_or_app. left. rewrite E. apply in_map. rewrite in_app_iff in Hx. destruct Hx as [Hx | [<- | []]]; apply in_or_app; [now left | right; now left].
  - assert (Ex : forall s, icub_leg s = side s l1 ++ (s ++ j, s ++ c)%string :: side s l2) by (intros s; change (icub_leg s) with (side s (icub_leg "")); rewrite E; unfold side; now rewrite map_app).
    assert (El : forall s, side s l1 ++ [(s ++ j, s ++ c)%string] = side s (l1 ++ [(j, c)])) by (intros s; unfold side; now rewrite map_app).
    assert (M := legs_mirrored). rewrite E in M. replace (l1 ++ (j, c) :: l2) with ((l1 ++ [(j, c)]) ++ l2) in M by now rewrite <- app_assoc. apply mir_app in M.
    exists W, (along q (side "l_" (l1 ++ [(j, c)]))), (along q (side "r_" (l1 ++ [(j, c)]))), (sgn c). split; [exact HW | ].
    split; [rewrite <- El; exact (Le "l_"%string S3 _ _ _ _ (Ex _)) | ]. split; [rewrite <- El; exact (Le "r_"%string S4 _ _ _ _ (Ex _)) | ].
    rewrite (along_mir q l1 (dg 1 (-1) 1) j c M).
    + split; [rewrite pos_mirror by apply along_SE3; f_equal; ring | ]. split; [reflexivity | auto].
    + intros x Hx. apply Eq. rewrite map_app. apply in_or_app. right. rewrite E. apply in_map. rewrite in_app_iff in Hx. destruct Hx as [Hx | [<- | []]]; apply in_or_app; [now left | right; now left].
Qed.
Print Assumptions C74_mirror.
