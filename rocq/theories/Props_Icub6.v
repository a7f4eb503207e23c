(** C74: the iCub's limits, its names, a concrete robot. *)
From Coq Require Import Lra Lia.
From Verif Require Import Spec_Icub.
From Verif Require Import Proof_Linalg Proof_SE3 Proof_Tree Proof_World Proof_World2 Proof_Register Proof_World4 Proof_World3 Props_Dyn Proof_Dyn2 Props_Mass Proof_Robots2 Props_Robots2 Proof_Build Proof_Build2 Proof_Build3 Proof_Human36 Props_Human36 Props_Human36_2 Props_Human36_3 Props_Checks Props_Arm Proof_Icub Props_Icub Props_Icub2 Props_Icub3 Props_Icub4 Props_Icub5.
Open Scope R_scope.

(** ** The limits *)
Definition lim (x : string * (R * R)) : Prop := fst (snd x) < snd (snd x) /\ - 180 < fst (snd x) /\ snd (snd x) < 180.
Lemma limits_sane : Forall lim limits_deg.
Proof. unfold limits_deg. repeat (apply Forall_cons; [unfold lim; cbn [fst snd]; lra | ]). apply Forall_nil. Qed.
Lemma torques_sane : Forall (fun x : string * R => 0 < snd x) torque_limits.
Proof. unfold torque_limits. repeat (apply Forall_cons; [cbn [fst snd]; lra | ]). apply Forall_nil. Qed.
Lemma sided {A} (l : list (string * A)) (a r : list (string * string)) : NoDup (map fst l) ->
  (forall jn, In jn (map fst (icub_arm "" ++ icub_leg "")) -> exists x, In ("l_" ++ jn, x)%string l /\ In ("r_" ++ jn, x)%string l) ->
  forall jn x y, In jn (map fst (icub_arm "" ++ icub_leg "")) -> In ("l_" ++ jn, x)%string l -> In ("r_" ++ jn, y)%string l -> x = y.
Proof.
  intros N H jn x y Hj H1 H2. destruct (H jn Hj) as (z & H3 & H4).
  assert (U : forall n u v, In (n, u) l -> In (n, v) l -> u = v).
  { clear - N. induction l as [ | (m, w) l IH]; intros n u v Hu Hv; [destruct Hu | ]. cbn [map fst] in N. inversion N as [ | ? ? N1 N2]; subst. destruct Hu as [Hu | Hu], Hv as [Hv | Hv].
    - congruence.
    - injection Hu as -> ->. destruct N1. exact (in_map fst _ _ Hv).
    - injection Hv as -> ->. destruct N1. exact (in_map fst _ _ Hu).
    - exact (IH N2 n u v Hu Hv). }
  rewrite (U _ _ _ H1 H3). symmetry. exact (U _ _ _ H2 H4).
Qed.
(** The limits of the joints are those of the joints of the robot, each once; ranges are proper and within a turn, given in degrees or radians; those of the two sides are the same. *)
Theorem C74_limits :
  map fst (get_joint_limits false) = map fst joints_data /\ map fst (get_joint_limits true) = map fst joints_data /\ map fst torque_limits = map fst joints_data /\ NoDup (map fst joints_data) /\
  (forall n lo hi, In (n, (lo, hi)) (get_joint_limits false) -> -180 < lo /\ lo < hi /\ hi < 180 /\ In (n, (lo * (PI / 180), hi * (PI / 180))) (get_joint_limits true)) /\
  (forall n lo hi, In (n, (lo, hi)) (get_joint_limits true) -> -PI < lo /\ lo < hi /\ hi < PI) /\
  (forall n t, In (n, t) torque_limits -> 0 < t) /\
  (forall jn u v, In jn (map fst (icub_arm "" ++ icub_leg "")) -> In ("l_" ++ jn, u)%string (get_joint_limits false) -> In ("r_" ++ jn, v)%string (get_joint_limits false) -> u = v) /\
  (forall jn u v, In jn (map fst (icub_arm "" ++ icub_leg "")) -> In ("l_" ++ jn, u)%string torque_limits -> In ("r_" ++ jn, v)%string torque_limits -> u = v).
Proof.
  assert (K1 : map fst limits_deg = map fst joints_data) by reflexivity. assert (K2 : map fst torque_limits = map fst joints_data) by reflexivity. assert (Pp := PI_RGT_0).
  split; [exact K1 | ]. split; [cbn [get_joint_limits]; rewrite map_map; exact K1 | ]. split; [exact K2 | ]. split; [exact joints_nodup | ].
  split; [ | split; [ | split; [ | split]]].
  - intros n lo hi H. assert (X := proj1 (Forall_forall _ _) limits_sane _ H). unfold lim in X. cbn [fst snd] in X. split; [lra | ]. split; [lra | ]. split; [lra | ]. cbn [get_joint_limits]. apply in_map_iff. exists (n, (lo, hi)). split; [cbn [fst snd]; do 2 f_equal; field | exact H].
  - intros n lo hi H. cbn [get_joint_limits] in H. apply in_map_iff in H. destruct H as ((m, (a, b)) & E & H). cbn [fst snd] in E. injection E as _ <- <-. assert (X := proj1 (Forall_forall _ _) limits_sane _ H). unfold lim in X. cbn [fst snd] in X. split; [ | split]; nra.
  - intros n t H. exact (proj1 (Forall_forall _ _) torques_sane _ H).
  - apply (sided limits_deg [] []); [rewrite K1; exact joints_nodup | ]. intros jn Hj. cbn [icub_arm icub_leg app map fst String.append In] in Hj.
    repeat (destruct Hj as [<- | Hj]; [eexists; split; unfold limits_deg; cbn [String.append]; repeat (first [left; reflexivity | right]) | ]). destruct Hj.
  - apply (sided torque_limits [] []); [rewrite K2; exact joints_nodup | ]. intros jn Hj. cbn [icub_arm icub_leg app map fst String.append In] in Hj.
    repeat (destruct Hj as [<- | Hj]; [eexists; split; unfold torque_limits; cbn [String.append]; repeat (first [left; reflexivity | right]) | ]). destruct Hj.
Qed.
(** but the posture in which the robot is built is not within them: the elbows are out of range *)
Theorem C75_zero_refuted : ~ forall n lo hi, In (n, (lo, hi)) (get_joint_limits true) -> lo <= 0 <= hi.
Proof.
  intros H. assert (X : In ("l_elbow_pitch"%string, (5.5 * PI / 180, 106 * PI / 180)) (get_joint_limits true)).
  { cbn [get_joint_limits]. apply in_map_iff. exists ("l_elbow_pitch"%string, (5.5, 106)). split; [reflexivity | ]. unfold limits_deg. do 9 right. left. reflexivity. }
  apply H in X. assert (Pp := PI_RGT_0). lra.
Qed.
Print Assumptions C74_limits.

(** ** The names *)
Section N.
  Variables (e : env) (I : bids) (fx shp con : bool).
  Variables (B : list (string * list (list R * R * m4))) (J : list (string * (string * m4 * string))) (Sh : list (string * list (list R * m4))) (C : list (string * (string * list R * m4))).
  Lemma flat_flat {X Y} (f : cmd -> list Y) (c : X -> list cmd) l : flat_map f (flat_map c l) = flat_map (fun x => flat_map f (c x)) l.
  Proof. induction l as [ | x l IH]; [reflexivity | ]. cbn [flat_map]. now rewrite flat_map_app, IH. Qed.
  Lemma flat_one {X Y} (f : X -> list Y) (g : X -> Y) l : (forall x, f x = [g x]) -> flat_map f l = map g l.
  Proof. intros H. induction l as [ | x l IH]; [reflexivity | ]. cbn [flat_map map]. now rewrite H, IH. Qed.
  Lemma flat_none {X Y} (f : X -> list Y) l : (forall x, f x = []) -> flat_map f l = [].
  Proof. intros H. induction l as [ | x l IH]; [reflexivity | ]. cbn [flat_map]. now rewrite H, IH. Qed.
  Lemma part_names {Y} (f : cmd -> list Y) k i parts : (forall s b H, f (MkSub s b None H) = []) -> flat_map f (parts_cmds I k i parts) = [].
  Proof. intros H. unfold parts_cmds. induction (enum i parts) as [ | y l IH]; [reflexivity | ]. cbn [map flat_map]. now rewrite H, IH. Qed.
  Lemma frame_names_icub : frame_names (icub_cmds e I fx shp con B J Sh C ++ [WInit]) = map fst B ++ (if con then map fst C else []).
  Proof.
    unfold frame_names, icub_cmds. rewrite !flat_map_app. rewrite flat_flat. rewrite (flat_one _ fst) by (intros x; unfold bcmds; cbn [flat_map app]; rewrite flat_map_app, part_names; reflexivity).
    rewrite (flat_flat _ (jcmds e I fx) J). rewrite (flat_none _ J) by reflexivity. assert (E : flat_map (fun c => match c with MkBody _ (Some n) _ | MkSub _ _ (Some n) _ => [n] | _ => [] end) (rcmds e I fx) = []) by (unfold rcmds; destruct fx; reflexivity). rewrite E.
    assert (E4 : flat_map (fun c => match c with MkBody _ (Some n) _ | MkSub _ _ (Some n) _ => [n] | _ => [] end) (if shp then flat_map (scmds e I fx) Sh else []) = []) by (destruct shp; [rewrite flat_flat; apply flat_none; intros x; unfold scmds; rewrite flat_flat; apply flat_none; reflexivity | reflexivity]).
    assert (E5 : flat_map (fun c => match c with MkBody _ (Some n) _ | MkSub _ _ (Some n) _ => [n] | _ => [] end) (if con then flat_map (ccmds e I fx) C else []) = if con then map fst C else []) by (destruct con; [rewrite flat_flat; apply flat_one; reflexivity | reflexivity]).
    rewrite E4, E5. cbn [app flat_map]. now rewrite app_nil_r.
  Qed.
  Lemma joint_names_icub : joint_names (icub_cmds e I fx shp con B J Sh C ++ [WInit]) = (if fx then [] else ["root"%string]) ++ map fst J.
  Proof.
    unfold joint_names, icub_cmds. rewrite !flat_map_app. rewrite flat_flat. rewrite (flat_none _ B) by (intros x; unfold bcmds; cbn [flat_map app]; rewrite flat_map_app, part_names; reflexivity).
    rewrite (flat_flat _ (jcmds e I fx) J). rewrite (flat_one _ fst J) by reflexivity. assert (E : flat_map (fun c => match c with MkJoint _ (Some n) _ => [n] | _ => [] end) (rcmds e I fx) = if fx then [] else ["root"%string]) by (unfold rcmds; destruct fx; reflexivity). rewrite E.
    assert (E4 : flat_map (fun c => match c with MkJoint _ (Some n) _ => [n] | _ => [] end) (if shp then flat_map (scmds e I fx) Sh else []) = []) by (destruct shp; [rewrite flat_flat; apply flat_none; intros x; unfold scmds; rewrite flat_flat; apply flat_none; reflexivity | reflexivity]).
    assert (E5 : flat_map (fun c => match c with MkJoint _ (Some n) _ => [n] | _ => [] end) (if con then flat_map (ccmds e I fx) C else []) = []) by (destruct con; [rewrite flat_flat; apply flat_none; reflexivity | reflexivity]).
    rewrite E4, E5. cbn [app flat_map]. now rewrite !app_nil_r.
  Qed.
End N.
Lemma disjoint_names : forall n, In n (map fst bodies_data) -> ~ In n (map fst contact_data).
Proof.
  intros n H1 H2. assert (X : forallb (fun n => negb (existsb (String.eqb n) (map fst contact_data))) (map fst bodies_data) = true) by reflexivity. rewrite forallb_forall in X. specialize (X n H1). apply negb_true_iff in X. rewrite <- not_true_iff_false in X. apply X. apply existsb_exists. exists n. split; [exact H2 | apply String.eqb_refl].
Qed.
(** the named frames, and the joints, have different names *)
Theorem C74_names : forall e eigvals I fx shp con B J Sh C cs, eigs_ok eigvals -> Permutation B bodies_data -> Permutation J joints_data -> Permutation Sh (shapes_data bodies_data) -> Permutation C contact_data ->
  icub_script e eigvals I fx shp con B J Sh C = (cs, Ok tt) -> NoDup (frame_names cs) /\ NoDup (joint_names cs).
Proof.
  intros e eigvals I fx shp con B J Sh C cs Ev PB PJ PS PC Es. apply icub_script_inv in Es; [ | assumption..]. subst cs. rewrite frame_names_icub, joint_names_icub.
  assert (NB : NoDup (map fst B)) by (eapply Permutation_NoDup; [symmetry; apply Permutation_map; exact PB | exact bodies_nodup]).
  assert (NJ : NoDup (map fst J)) by (eapply Permutation_NoDup; [symmetry; apply Permutation_map; exact PJ | exact joints_nodup]).
  assert (NC : NoDup (map fst C)) by (eapply Permutation_NoDup; [symmetry; apply Permutation_map; exact PC | exact contacts_nodup]).
  split.
  - apply NoDup_app_iff. split; [exact NB | ]. split; [destruct con; [exact NC | constructor] | ]. intros n H1 H2. destruct con; [ | destruct H2]. apply (disjoint_names n); [eapply Permutation_in; [apply Permutation_map; exact PB | exact H1] | eapply Permutation_in; [apply Permutation_map; exact PC | exact H2]].
  - destruct fx; [exact NJ | ]. cbn [app]. constructor; [ | exact NJ]. intros H. eapply Permutation_in in H; [ | apply Permutation_map; exact PJ]. assert (X : existsb (String.eqb "root") (map fst joints_data) = true) by (apply existsb_exists; exists "root"%string; split; [exact H | reflexivity]). discriminate X.
Qed.
(** but the shapes of a body of several parts all bear the same name: the chest has three *)
Theorem C75_shape_names_refuted : forall e eigvals I fx con B J Sh C cs, eigs_ok eigvals -> Permutation B bodies_data -> Permutation J joints_data -> Permutation Sh (shapes_data bodies_data) -> Permutation C contact_data ->
  icub_script e eigvals I fx true con B J Sh C = (cs, Ok tt) -> ~ NoDup (shape_names cs).
Proof.
  intros e eigvals I fx con B J Sh C cs Ev PB PJ PS PC Es. apply icub_script_inv in Es; [ | assumption..]. subst cs. intros N.
  assert (Hc : exists a b c, In ("chest"%string, [a; b; c]) Sh) by (do 3 eexists; eapply Permutation_in; [symmetry; exact PS | unfold shapes_data, bodies_data; cbn [map fst snd]; do 3 right; left; reflexivity]).
  destruct Hc as (a & b & c & Hc). apply in_split in Hc. destruct Hc as (l1 & l2 & ->).
  unfold shape_names, icub_cmds in N. rewrite !flat_map_app in N. apply NoDup_app_iff in N. destruct N as (N & _). do 3 (apply NoDup_app_iff in N; destruct N as (_ & N & _)). apply NoDup_app_iff in N. destruct N as (N & _). apply NoDup_app_iff in N. destruct N as (_ & N & _). cbn [flat_map] in N. rewrite flat_map_app in N. apply NoDup_app_iff in N. destruct N as (N & _). unfold scmds in N. cbn [fst snd enum flat_map sh_cmds app] in N. inversion N as [ | ? ? N1 _]; subst. apply N1. now left.
Qed.
Print Assumptions C74_names.

(** ** A robot in a fresh world *)
Fixpoint nodupn (l : list nat) : bool := match l with [] => true | x :: l' => negb (existsb (Nat.eqb x) l') && nodupn l' end.
Lemma nodupn_ok l : nodupn l = true -> NoDup l.
Proof.
  induction l as [ | x l IH]; intros H; [constructor | ]. cbn [nodupn] in H. apply andb_true_iff in H. destruct H as (H1 & H2). constructor; [ | auto]. intros Hx. apply negb_true_iff in H1. rewrite <- not_true_iff_false in H1. apply H1. apply existsb_exists. exists x. split; [exact Hx | apply Nat.eqb_refl].
Qed.
Definition e00 : env := Env 0 (fun _ => 0%nat) (fun _ => 0%nat) (fun _ => FBody 0) (fun _ => []) (fun _ => 0%nat).
Lemma icub_ground e I fx shp con B J Sh C : ground e = 0%nat -> icub_cmds e I fx shp con B J Sh C = icub_cmds e00 I fx shp con B J Sh C.
Proof. intros E. unfold icub_cmds, rcmds, jcmds, scmds, sh_cmds, ccmds, body_of. rewrite E. reflexivity. Qed.
Lemma icub_once fx shp con : once (icub_cmds e00 plain_ids fx shp con bodies_data joints_data (shapes_data bodies_data) contact_data ++ [WInit]).
Proof. destruct fx, shp, con; (split; [ | split]); apply nodupn_ok; lazy; reflexivity. Qed.
Theorem C74_witness : forall fx shp con, exists e cs h' t' sc Js sg W, icub_world e plain_ids fx shp con cs 35 h' t' /\ rigid_scene e sc t' Js /\ scene_of sc Js cs /\ angles Js cs (fun _ => 0) /\
  world_update_geometric e sc h' Js 35 (fun _ => no_attr) = Ok sg /\ body_at e fx cs sg "waist" W /\ body_at e fx cs sg "head" (mm4 W (M4 (M3 0 1 0 (-1) 0 0 0 0 1) (V3 (-0.00331) 0 0.2583) (V3 0 0 0) 1)).
Proof.
  intros fx shp con. destruct eigs_exist as (eigvals & Ev). set (cs := icub_cmds e00 plain_ids fx shp con bodies_data joints_data (shapes_data bodies_data) contact_data ++ [WInit]). set (e := env_for cs). set (h := fresh e zero_vel).
  assert (R0 : reachable 0 e zero_vel h) by constructor. assert (Ni : new_ids plain_ids h e) by (apply plain_new; reflexivity).
  assert (Rt : rep e h (Node 0 [])) by (constructor; [reflexivity | constructor]).
  assert (Ec : icub_cmds e plain_ids fx shp con bodies_data joints_data (shapes_data bodies_data) contact_data ++ [WInit] = cs) by (unfold cs; now rewrite (icub_ground e)).
  assert (Oc : once cs) by apply icub_once. assert (Mk : forall c, In c cs -> made e h c) by (exact (made_for cs Oc)).
  assert (Fu : (length (bodies (Node 0 [])) + length (icub_bodies fx) < 35)%nat) by (destruct fx; cbn; lia).
  destruct (C74_icub e zero_vel h eigvals plain_ids fx shp con bodies_data joints_data (shapes_data bodies_data) contact_data (Node 0 []) R0 Ev Ni Rt eq_refl (Permutation_refl _) (Permutation_refl _) (Permutation_refl _) (Permutation_refl _)) as (cs1 & Es & X).
  assert (cs1 = cs). { rewrite <- Ec. apply (icub_script_inv e eigvals plain_ids fx shp con _ joints_data _ contact_data cs1 Ev (Permutation_refl _) (Permutation_refl _) Es). } subst cs1.
  destruct (X Mk 35%nat Fu) as (h' & t' & E & R' & Rd & Hf & Nd & _ & _). clear X.
  assert (Wo : icub_world e plain_ids fx shp con cs 35 h' t').
  { exists zero_vel, h, eigvals, bodies_data, joints_data, (shapes_data bodies_data), contact_data, (Node 0 []). split; [exact R0 | ]. split; [exact Ev | ]. split; [exact Ni | ]. split; [exact Rt | ]. split; [reflexivity | ]. do 4 (split; [apply Permutation_refl | ]). split; [exact Es | ]. split; [exact Mk | ]. split; [exact Fu | ]. split; [exact E | exact Rd]. }
  assert (Mk' : forall c, In c (icub_cmds e plain_ids fx shp con bodies_data joints_data (shapes_data bodies_data) contact_data) -> made e h c) by (intros c Hc; apply Mk; rewrite <- Ec; apply in_or_app; now left).
  destruct (build_icub e eigvals plain_ids Ev fx shp con h Ni _ _ _ _ (Permutation_refl _) (Permutation_refl _) (Permutation_refl _) (Permutation_refl _) Mk' zero_vel (Node 0 []) 35 R0 Rt eq_refl ltac:(destruct fx; cbn; lia)) as (h1 & t1 & E1 & _ & Rd1 & _ & _ & Pm & _).
  rewrite Ec in E1. unfold icub_add, run_scr in E. rewrite Es in E. cbn [fst snd] in E. rewrite E1 in E. injection E as ->.
  assert (t1 = t') by (apply (rep_unique e h'); [apply Rd1 | apply Rd | transitivity (ground e); [apply Rd1 | symmetry; apply Rd]]). subst t1.
  assert (HJ : forall j, In j (joints t') -> exists n k, In (MkJoint j n k) cs).
  { intros j Hj. apply (Permutation_in _ Pm) in Hj. cbn [joints app] in Hj. unfold icub_js in Hj. apply in_map_iff in Hj. destruct Hj as (k & <- & Hk).
    assert (Hk' : (k = 32%nat /\ fx = false) \/ In k (seq 0 32)) by (destruct fx; [now right | destruct Hk as [<- | Hk]; auto]). destruct Hk' as [(-> & ->) | Hk'].
    - do 2 eexists. rewrite <- Ec. apply in_or_app. left. apply in_cmds. right. left. now left.
    - rewrite <- joints_num in Hk'. apply in_map_iff in Hk'. destruct Hk' as (x & <- & Hx). do 2 eexists. rewrite <- Ec. apply in_or_app. left. eapply jcmds_in; [apply Permutation_refl | exact Hx | right; now left]. }
  assert (HS : forall s b n H, In (MkSub s b n H) cs -> SE3 H).
  { intros s b n H Hin. rewrite <- Ec in Hin. apply in_snoc in Hin; [ | discriminate]. assert (Z := icub_pass e eigvals plain_ids Ev fx shp con _ _ _ _ (Permutation_refl _) (Permutation_refl _) (Permutation_refl _) (Permutation_refl _)). rewrite Forall_forall in Z. exact (Z _ Hin). }
  assert (Ri : rigid_scene e (scene_for cs) t' (rest_for cs)) by (apply rigid_for; assumption).
  assert (So := scene_for_ok cs Oc). assert (An : angles (rest_for cs) cs (fun _ => 0)) by (intros jn _ j _; reflexivity).
  destruct (C74_standing e plain_ids fx shp con cs 35 h' t' Wo (scene_for cs) (rest_for cs) (fun _ => no_attr) Ri So An) as (sg & W & Eg & HW & St & _).
  exists e, cs, h', t', (scene_for cs), (rest_for cs), sg, W. split; [exact Wo | ]. split; [exact Ri | ]. split; [exact So | ]. split; [exact An | ]. split; [exact Eg | ]. split; [exact HW | ]. apply St. unfold icub_upright. do 5 right. left. reflexivity.
Qed.
Print Assumptions C74_witness.
