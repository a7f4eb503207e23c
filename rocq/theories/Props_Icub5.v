(** C74: the iCub standing; its limits; its names. *)
From Coq Require Import Lra Lia.
From Verif Require Import Spec_Icub.
From Verif Require Import Proof_Linalg Proof_SE3 Proof_Tree Proof_World Proof_World2 Proof_Register Proof_World4 Proof_World3 Props_Dyn Proof_Dyn2 Props_Mass Proof_Robots2 Props_Robots2 Proof_Build Proof_Build2 Proof_Build3 Proof_Human36 Props_Human36 Props_Human36_2 Props_Human36_3 Props_Checks Props_Arm Proof_Icub Props_Icub Props_Icub2 Props_Icub3 Props_Icub4.
Open Scope R_scope.

Definition up (n : string) : m4 := match find (fun x => String.eqb (fst x) n) icub_upright with Some x => snd x | None => eye4 end.
Ltac upstep := match goal with |- mm4 (up ?p) (mm4 (mount ?j) (rotz 0)) = up ?c =>
   let x := eval lazy beta iota zeta delta [mount find joints_data fst snd String.eqb Ascii.eqb Bool.eqb] in (mount j) in change (mount j) with x;
   let y := eval lazy beta iota zeta delta [up find icub_upright fst snd String.eqb Ascii.eqb Bool.eqb] in (up p) in change (up p) with y;
   let z := eval lazy beta iota zeta delta [up find icub_upright fst snd String.eqb Ascii.eqb Bool.eqb] in (up c) in change (up c) with z end;
   unfold T_DH, transl, rotx, roty, rotz; cbn zeta; trig; clear; unf; entries; first [field | lra].
Definition ups (x : string * string * string) : Prop := let '(j, p, c) := x in mm4 (up p) (mm4 (mount j) (rotz 0)) = up c.
Ltac upall := cbn [chain icub_torso icub_neck icub_leg String.append]; repeat (apply Forall_cons; [cbv beta iota delta [ups]; upstep | ]); apply Forall_nil.
Lemma up_torso : Forall ups (chain "waist" icub_torso).
Proof. upall. Qed.
Lemma up_neck : Forall ups (chain "chest" icub_neck).
Proof. upall. Qed.
Lemma up_left : Forall ups (chain "waist" (icub_leg "l_")).
Proof. upall. Qed.
Lemma up_right : Forall ups (chain "waist" (icub_leg "r_")).
Proof. upall. Qed.
Lemma up_waist : up "waist" = eye4.
Proof. reflexivity. Qed.
Lemma chain_up e fx cs sg W : (forall jn from to P, In (jn, from, to) icub_skeleton -> body_at e fx cs sg from P -> body_at e fx cs sg to (mm4 P (mm4 (mount jn) (rotz 0)))) ->
  forall l base, incl (chain base l) icub_skeleton -> Forall ups (chain base l) -> body_at e fx cs sg base (mm4 W (up base)) -> forall x, In x l -> body_at e fx cs sg (snd x) (mm4 W (up (snd x))).
Proof.
  intros St. induction l as [ | (j, c) l IH]; intros base Hi Hu Hb x Hx; [destruct Hx | ]. cbn [chain] in Hi, Hu. inversion Hu as [ | ? ? U1 U2]; subst. cbn [ups] in U1.
  assert (Z : body_at e fx cs sg c (mm4 W (up c))) by (rewrite <- U1, mm4_assoc; apply (St j base c); [apply Hi; now left | exact Hb]).
  destruct Hx as [<- | Hx]; [exact Z | ]. apply (IH c); [intros z Hz; apply Hi; now right | exact U2 | exact Z | exact Hx].
Qed.
Lemma upright_names : map fst icub_upright = map snd icub_torso ++ map snd icub_neck ++ map snd (icub_leg "l_") ++ map snd (icub_leg "r_").
Proof. reflexivity. Qed.
Lemma up_row x : In x icub_upright -> up (fst x) = snd x.
Proof.
  assert (N : NoDup (map fst icub_upright)) by (apply nodupb_ok; reflexivity). intros H. unfold up. revert H N. generalize icub_upright. intros l. induction l as [ | y l IH]; intros H N; [destruct H | ]. cbn [find map] in *. inversion N as [ | ? ? N1 N2]; subst. destruct (String.eqb_spec (fst y) (fst x)) as [E | E].
  - destruct H as [-> | H]; [reflexivity | ]. destruct N1. rewrite E. now apply in_map.
  - destruct H as [-> | H]; [now destruct E | auto].
Qed.
Definition low (x : string * (string * list R * m4)) : Prop := let '(n, (parent, dims, H)) := x in
  match dims with [r] => r = 0.002 -> In parent ["l_foot"; "r_foot"]%string /\ hom (mm4 (up parent) H) = 1 /\ vz (pos (mm4 (up parent) H)) = -0.5955 | _ => True end.
Lemma balls_low : Forall low contact_data.
Proof.
  unfold contact_data. repeat (apply Forall_cons; [cbv beta iota delta [low]; try (intros E; exfalso; lra); first [exact Logic.I | intros _; split; [cbn [In]; tauto | ];
    match goal with |- context [up ?p] => let y := eval lazy beta iota zeta delta [up find icub_upright fst snd String.eqb Ascii.eqb Bool.eqb] in (up p) in change (up p) with y end;
    unfold transl; clear; unf; lra] | ]). apply Forall_nil.
Qed.
Definition sole_row (x : string * (string * list R * m4)) : Prop := let '(n, (parent, dims, H)) := x in
  ((n = "l_sole" -> parent = "l_foot" /\ mm4 (up "l_foot") H = sole_at (-0.0681)) /\ (n = "r_sole" -> parent = "r_foot" /\ mm4 (up "r_foot") H = sole_at 0.0681))%string.
Lemma soles_at : Forall sole_row contact_data.
Proof.
  unfold contact_data. repeat (apply Forall_cons; [cbv beta iota delta [sole_row]; split; intros E; first [discriminate E | clear E; split; [reflexivity | ];
    match goal with |- context [up ?p] => let y := eval lazy beta iota zeta delta [up find icub_upright fst snd String.eqb Ascii.eqb Bool.eqb] in (up p) in change (up p) with y end;
    unfold sole_at, transl, rotx, roty; cbn zeta; trig; clear; unf; entries; lra] | ]). apply Forall_nil.
Qed.
(** Standing: with all angles at zero the trunk, the head and the legs are where the table says, the soles are level, 0.5975 below the waist, and the balls of the feet all touch their plane. *)
Theorem C74_standing : forall e I fx shp con cs fuel h' t', icub_world e I fx shp con cs fuel h' t' ->
  forall sc Js st, rigid_scene e sc t' Js -> scene_of sc Js cs -> angles Js cs (fun _ => 0) ->
  exists sg W, world_update_geometric e sc h' Js fuel st = Ok sg /\ body_at e fx cs sg "waist" W /\
    (forall n M, In (n, M) icub_upright -> body_at e fx cs sg n (mm4 W M)) /\
    (con = true -> frame_placed e sc cs sg "l_sole" (mm4 W (sole_at (-0.0681))) /\ frame_placed e sc cs sg "r_sole" (mm4 W (sole_at 0.0681)) /\
       forall n parent r H, In (n, (parent, [r], H)) contact_data -> r = 0.002 -> exists M, hom M = 1 /\ vz (pos M) = -0.5975 + r /\ frame_placed e sc cs sg n (mm4 W M)).
Proof.
  intros e I fx shp con cs fuel h' t' Wo sc Js st Ri So An. destruct (C74_poses e I fx shp con cs fuel h' t' Wo sc Js st _ Ri So An) as (sg & Eg & St & Wa & Co). cbv beta in St.
  destruct (waist_at e fx cs sg Js Wa) as (W & HW). exists sg, W. split; [exact Eg | ]. split; [exact HW | ].
  assert (HW' : body_at e fx cs sg "waist" (mm4 W (up "waist"))) by (rewrite up_waist, mm4_1_r; exact HW).
  assert (T1 := chain_up e fx cs sg W St icub_torso "waist" ltac:(intros x Hx; unfold icub_skeleton; rewrite !in_app_iff; tauto) up_torso HW').
  assert (HC : body_at e fx cs sg "chest" (mm4 W (up "chest"))) by (apply (T1 ("torso_yaw", "chest")%string); do 2 right; now left).
  assert (T2 := chain_up e fx cs sg W St icub_neck "chest" ltac:(intros x Hx; unfold icub_skeleton; rewrite !in_app_iff; tauto) up_neck HC).
  assert (T3 := chain_up e fx cs sg W St (icub_leg "l_") "waist" ltac:(intros x Hx; unfold icub_skeleton; rewrite !in_app_iff; tauto) up_left HW').
  assert (T4 := chain_up e fx cs sg W St (icub_leg "r_") "waist" ltac:(intros x Hx; unfold icub_skeleton; rewrite !in_app_iff; tauto) up_right HW').
  assert (T : forall n M, In (n, M) icub_upright -> body_at e fx cs sg n (mm4 W M)).
  { intros n M H. assert (Eu := up_row _ H). cbn [fst snd] in Eu. rewrite <- Eu. apply (in_map fst) in H. cbn [fst] in H. rewrite upright_names, !in_app_iff in H.
    destruct H as [H | [H | [H | H]]]; apply in_map_iff in H; destruct H as (y & <- & Hy); auto. }
  split; [exact T | ]. intros Hc. specialize (Co Hc).
  assert (Fl : body_at e fx cs sg "l_foot" (mm4 W (up "l_foot"))) by (apply (T3 ("l_ankle_roll", "l_foot")%string); do 5 right; now left).
  assert (Fr : body_at e fx cs sg "r_foot" (mm4 W (up "r_foot"))) by (apply (T4 ("r_ankle_roll", "r_foot")%string); do 5 right; now left).
  assert (Sl : exists dims H, In ("l_sole", ("l_foot", dims, H))%string contact_data) by (do 2 eexists; unfold contact_data; do 16 right; left; reflexivity).
  assert (Sr : exists dims H, In ("r_sole", ("r_foot", dims, H))%string contact_data) by (do 2 eexists; unfold contact_data; do 21 right; left; reflexivity).
  split; [ | split].
  - destruct Sl as (dims & H & Hs). assert (X := Co _ _ _ _ _ Hs Fl). assert (Y := proj1 (Forall_forall _ _) soles_at _ Hs). cbn [sole_row] in Y. rewrite <- (proj2 (proj1 Y eq_refl)), mm4_assoc. exact X.
  - destruct Sr as (dims & H & Hs). assert (X := Co _ _ _ _ _ Hs Fr). assert (Y := proj1 (Forall_forall _ _) soles_at _ Hs). cbn [sole_row] in Y. rewrite <- (proj2 (proj2 Y eq_refl)), mm4_assoc. exact X.
  - intros n parent r H Hs Er. assert (Y := proj1 (Forall_forall _ _) balls_low _ Hs). cbn [low] in Y. destruct (Y Er) as (Hp & Y1 & Y2). exists (mm4 (up parent) H). split; [exact Y1 | ]. split; [rewrite Y2, Er; lra | ]. rewrite mm4_assoc.
    destruct Hp as [<- | [<- | []]]; [exact (Co _ _ _ _ _ Hs Fl) | exact (Co _ _ _ _ _ Hs Fr)].
Qed.
Print Assumptions C74_standing.
