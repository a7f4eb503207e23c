(** C68: where the humanoid stands, its mass, its names, and what it refuses. *)
From Coq Require Import Lra Lia.
From Verif Require Import Spec_Human36.
From Verif Require Import Proof_Linalg Proof_SE3 Proof_Tree Proof_World Proof_World4 Proof_World3 Props_Dyn Proof_Dyn2 Props_Mass Proof_Robots2 Props_Robots2 Proof_Build Proof_Build2 Proof_Human36 Props_Human36.
Open Scope R_scope.

(** ** At rest *)
Lemma transl_transl a b c x y z : mm4 (transl a b c) (transl x y z) = transl (a + x) (b + y) (c + z).
Proof. unfold transl. clear. unf. entries; ring. Qed.
Lemma rest_pose s : gposH s = eye4 -> (forall i, gpos s i = 0) -> In (jt s) [FreeJoint; RzRyRxJoint; RzJoint; RzRxJoint; RyRxJoint; RzRyJoint] -> Model_Joints.pose s = eye4.
Proof.
  intros H1 H2 H. unfold Model_Joints.pose. destruct s as [k g q v]. cbn in *. subst g. repeat (destruct H as [<- | H]; [ | ]); try destruct H; auto; rewrite ?H2;
  unfold rotzyx, rotzx, rotzy, rotyx, rotz, roty, rotx; rewrite ?sin_0, ?cos_0; clear; unf; entries; ring.
Qed.
Lemma transl_0 : transl 0 0 0 = eye4.
Proof. reflexivity. Qed.
Definition vtr (v : v3) : m4 := transl (vx v) (vy v) (vz v).

(** where the bodies are at rest *)
Fixpoint rest_from (L : lengths) (l : list (option string * v3 * jtype * string * string)) (d : string -> v3) : string -> v3 :=
  match l with
  | [] => d
  | (b0, t, _, _, b1) :: l' => let P := match b0 with None => zero3 | Some b => d b end in
      rest_from L l' (fun n => if String.eqb n b1 then vadd P t else d n)
  end.
Definition rest (L : lengths) : string -> v3 := rest_from L (human_links L) (fun _ => zero3).

Section S.
  Variables (e : env) (I : bids) (p : string) (L : lengths) (mass hh : R) (h : @heap R) (t : tree) (sc : scene) (J : nat -> jstate) (sg : store).
  Notation C := (hcmds e I p L mass hh).
  Hypothesis Mk : forall c, In c C -> made e h c.
  Hypothesis So : scene_of sc J C.
  Hypothesis Re : at_rest J C.
  Hypothesis Gr : a_pose (sg (ground e)) = Some eye4.
  Variable h' : @heap R.
  Hypothesis Jf : forall l, In l (links_in C) -> jframes h' (l_joint l) = Some (fst (fst l), snd l).
  Hypothesis Jn : forall k, (k < 17)%nat -> In (xj I k) (joints t).
  Hypothesis P3 : forall j f0 f1, In j (joints t) -> jframes h' j = Some (f0, f1) -> exists F0 F1,
        In (frame_body e f0) (bodies t) /\ In (frame_body e f1) (bodies t) /\ frame_pose e sc sg f0 = Ok F0 /\ frame_pose e sc sg f1 = Ok F1 /\ F1 = mm4 F0 (Model_Joints.pose (J j)).
  Lemma link_rest k b0 x ty n b1 P : nth_error (human_links L) k = Some (b0, x, ty, n, b1) -> a_pose (sg (parent_of e I b0)) = Some (vtr P) -> a_pose (sg (xb I (bid b1))) = Some (vtr (vadd P x)).
  Proof.
    intros H E. assert (Hk : (k < 17)%nat) by (change 17%nat with (length (human_links L)); apply nth_error_Some; congruence).
    assert (Hin : In (k, (b0, x, ty, n, b1)) (number 0 (human_links L))) by (apply in_number; split; [lia | now rewrite Nat.sub_0_r]).
    assert (Z : jframes h' (xj I k) = Some (FSub (xs I k), FBody (xb I (bid b1)))) by (apply (Jf (hlink I (k, (b0, x, ty, n, b1)))); rewrite links_eq; now apply in_map).
    destruct (P3 _ _ _ (Jn k Hk) Z) as (F0 & F1 & _ & _ & E0 & E1 & EF). apply frame_at in E0, E1. destruct E0 as (P0 & Ep & ->), E1 as (P1 & Ec & ->). cbn [frame_body bpose] in *.
    rewrite (sub_of e I p L mass hh h k b0 x ty n b1 Mk Hin), E in Ep. injection Ep as <-. rewrite Ec. f_equal. rewrite mm4_1_r in EF. rewrite EF.
    assert (Hl := hlink_in e I p L mass hh k b0 x ty n b1 H). destruct So as (_ & S2 & S3).
    rewrite (S2 (xs I k) (parent_of e I b0) None (transl (vx x) (vy x) (vz x))) by (apply Hl; right; now left).
    assert (Jt : jt (J (xj I k)) = ty) by (eapply S3; apply Hl; now left). destruct (Re (xj I k) (Some (pfx p n)) ty) as (R1 & R2); [apply Hl; now left | ].
    rewrite rest_pose; [rewrite mm4_1_r; unfold vtr; rewrite transl_transl; reflexivity | exact R1 | exact R2 | ]. rewrite Jt. clear - H.
    assert (Y : Forall (fun z : option string * v3 * jtype * string * string => In (snd (fst (fst z))) [FreeJoint; RzRyRxJoint; RzJoint; RzRxJoint; RyRxJoint; RzRyJoint]) (human_links L)) by (unfold human_links; repeat (apply Forall_cons; [cbn; tauto | ]); apply Forall_nil).
    rewrite Forall_forall in Y. apply nth_error_In in H. exact (Y _ H).
  Qed.
  Lemma tag_rest k n b x P : nth_error (human_tags L hh) k = Some (n, b, x) -> a_pose (sg (xb I (bid b))) = Some (vtr P) -> tag_at e sc sg (C ++ [WInit]) p n (vadd P x).
  Proof.
    intros H E. assert (Hc : forall c, In c (tcmd I p ((17 + k)%nat, (n, b, x))) -> In c C).
    { intros c Hc. apply in_cs. right. right. left. eexists. split; [ | exact Hc]. apply in_number. split; [lia | ]. rewrite <- H. f_equal. lia. }
    exists (xs I (17 + k)), (mm4 (vtr P) (vtr x)). split; [do 2 eexists; apply in_or_app; left; apply Hc; now left | ].
    assert (E2 : sub_body e (xs I (17 + k)) = xb I (bid b)) by (apply (Mk (MkSub (xs I (17 + k)) (xb I (bid b)) (Some (pfx p n)) (transl (vx x) (vy x) (vz x)))); apply Hc; now left).
    split; [ | unfold vtr; rewrite transl_transl; reflexivity]. unfold frame_pose. cbn [frame_body]. rewrite E2, E. cbn [get rbind bpose]. destruct So as (_ & S2 & _). rewrite (S2 (xs I (17 + k)) (xb I (bid b)) (Some (pfx p n)) (vtr x)); [reflexivity | apply Hc; now left].
  Qed.
End S.
Lemma mass_in_snoc b cs : mass_in b (cs ++ [WInit]) = mass_in b cs.
Proof. induction cs as [ | c cs IH]; [reflexivity | ]. cbn [app mass_in]. now rewrite IH. Qed.
Lemma scene_snoc sc J cs : scene_of sc J (cs ++ [WInit]) -> scene_of sc J cs.
Proof.
  intros (A & B & C). split; [ | split].
  - intros b M H. apply A. now rewrite mass_in_snoc.
  - intros s b n H Hin. eapply B. apply in_or_app. left. exact Hin.
  - intros j n k Hin. eapply C. apply in_or_app. left. exact Hin.
Qed.
Lemma tag_eq e sc sg cs p n P Q : tag_at e sc sg cs p n P -> P = Q -> tag_at e sc sg cs p n Q.
Proof. now intros H <-. Qed.
Lemma v3_eq (u v : v3) : vx u = vx v -> vy u = vy v -> vz u = vz v -> u = v.
Proof. destruct u, v. cbn. congruence. Qed.

(** A humanoid whose angles are zero stands on the ground: its soles are at the height 0, the top of its head at its height, above the
    root, and when the lengths of both sides are the same the left tags are the mirror images of the right ones. *)
Theorem C68_standing : forall e g0 h eigvals I p ht mass o t,
  reachable 0 e g0 h -> eigs_ok eigvals -> new_ids I h e -> 0 <= mass -> rep e h t -> root t = ground e ->
  leg (lengths_used ht o) "R" = leg (lengths_used ht o) "L" ->
  exists cs, human_script e I p ht mass o = Ok cs /\
    ((forall c, In c cs -> made e h c) -> forall fuel, (length (bodies t) + 17 < fuel)%nat ->
     exists h' t', add_human36 e eigvals fuel I p ht mass o h = (h', Ok tt) /\ ready e h' t' /\
       forall sc J st, rigid_scene e sc t' J -> scene_of sc J cs -> at_rest J cs -> exists sg, world_update_geometric e sc h' J fuel st = Ok sg /\
         (forall n, In n soles -> exists x z, tag_at e sc sg cs p n (V3 x 0 z)) /\
         tag_at e sc sg cs p "Vertex" (V3 0 (tallness (lengths_used ht o)) 0) /\
         (same_sides (lengths_used ht o) -> forall r l, In (r, l) sides -> exists P, tag_at e sc sg cs p r P /\ tag_at e sc sg cs p l (mirror P))).
Proof.
  intros e g0 h eigvals I p ht mass o t R Ev Ni Hm Rt Er EL. set (L := lengths_used ht o) in *.
  set (C := hcmds e I p L mass (tallness L)).
  assert (Es : human_script e I p ht mass o = Ok (C ++ [WInit])) by (rewrite script_used; apply (script_ok e I p L mass _ (height_ok L EL))).
  exists (C ++ [WInit]). split; [exact Es | ]. intros Mk fuel Fu.
  assert (Mk' : forall c, In c C -> made e h c) by (intros c Hc; apply Mk, in_or_app; now left).
  destruct (build_human e I p L mass (tallness L) g0 h eigvals t fuel R Ev Ni Hm Mk' Rt Er Fu) as (h' & t' & E & R' & Rd & Hf & Bd & Pm & Nd & Jf & Jo & Gv & Rl & Rg).
  exists h', t'. split; [unfold add_human36; now rewrite Es | ]. split; [exact Rd | ].
  intros sc J st Ri So Re. destruct (C39_poses e sc h' t' J fuel st Rd Ri Hf) as (sg & sd & dd & Eg & _ & P1 & P2 & P3 & _). exists sg. split; [exact Eg | ].
  apply scene_snoc in So. assert (Re' : at_rest J C) by (intros j n k Hin; eapply Re; apply in_or_app; left; exact Hin).
  assert (Jn : forall k, (k < 17)%nat -> In (xj I k) (joints t')) by (intros k Hk; eapply Permutation_in; [symmetry; exact Pm | ]; apply in_or_app; right; apply in_map, in_seq; lia).
  assert (LR := link_rest e I p L mass (tallness L) h t' sc J sg Mk' So Re' h' Jf Jn P3).
  assert (TR := tag_rest e I p L mass (tallness L) h sc J sg Mk' So).
  fold C in TR.
  assert (B0 := LR 0%nat _ _ _ _ _ zero3 eq_refl P2).
  assert (B1 := LR 1%nat _ _ _ _ _ _ eq_refl B0). assert (B2 := LR 2%nat _ _ _ _ _ _ eq_refl B1). assert (B3 := LR 3%nat _ _ _ _ _ _ eq_refl B2).
  assert (B4 := LR 4%nat _ _ _ _ _ _ eq_refl B0). assert (B5 := LR 5%nat _ _ _ _ _ _ eq_refl B4). assert (B6 := LR 6%nat _ _ _ _ _ _ eq_refl B5).
  assert (B7 := LR 7%nat _ _ _ _ _ _ eq_refl B0).
  assert (B8 := LR 8%nat _ _ _ _ _ _ eq_refl B7). assert (B9 := LR 9%nat _ _ _ _ _ _ eq_refl B8). assert (B10 := LR 10%nat _ _ _ _ _ _ eq_refl B9). assert (B11 := LR 11%nat _ _ _ _ _ _ eq_refl B10).
  assert (B12 := LR 12%nat _ _ _ _ _ _ eq_refl B7). assert (B13 := LR 13%nat _ _ _ _ _ _ eq_refl B12). assert (B14 := LR 14%nat _ _ _ _ _ _ eq_refl B13). assert (B15 := LR 15%nat _ _ _ _ _ _ eq_refl B14).
  assert (B16 := LR 16%nat _ _ _ _ _ _ eq_refl B7).
  unfold leg in EL. cbn [append] in EL.
  split.
  { intros n Hn. unfold soles in Hn. cbn [In] in Hn.
    assert (K : forall P, tag_at e sc sg (C ++ [WInit]) p n P -> vy P = 0 -> exists x z, tag_at e sc sg (C ++ [WInit]) p n (V3 x 0 z)).
    { intros P T Q. exists (vx P), (vz P). eapply tag_eq; [exact T | ]. apply v3_eq; auto. }
    destruct Hn as [<- | [<- | [<- | [<- | [<- | [<- | [<- | [<- | []]]]]]]]].
    - eapply K; [exact (TR 0%nat _ _ _ _ eq_refl B3) | ]. cbn [vx vy vz vadd zero3]. lra.
    - eapply K; [exact (TR 1%nat _ _ _ _ eq_refl B3) | ]. cbn [vx vy vz vadd zero3]. lra.
    - eapply K; [exact (TR 2%nat _ _ _ _ eq_refl B3) | ]. cbn [vx vy vz vadd zero3]. lra.
    - eapply K; [exact (TR 3%nat _ _ _ _ eq_refl B3) | ]. cbn [vx vy vz vadd zero3]. lra.
    - eapply K; [exact (TR 8%nat _ _ _ _ eq_refl B6) | ]. cbn [vx vy vz vadd zero3]. lra.
    - eapply K; [exact (TR 9%nat _ _ _ _ eq_refl B6) | ]. cbn [vx vy vz vadd zero3]. lra.
    - eapply K; [exact (TR 10%nat _ _ _ _ eq_refl B6) | ]. cbn [vx vy vz vadd zero3]. lra.
    - eapply K; [exact (TR 11%nat _ _ _ _ eq_refl B6) | ]. cbn [vx vy vz vadd zero3]. lra. }
  split.
  { eapply tag_eq; [exact (TR 27%nat _ _ _ _ eq_refl B16) | ]. unfold tallness, leg. cbn [append]. apply v3_eq; cbn [vx vy vz vadd zero3]; lra. }
  intros SS r l Hrl.
  assert (Q1 := SS "yfoot"%string). assert (Q2 := SS "ytibia"%string). assert (Q3 := SS "yfemur"%string). assert (Q4 := SS "xfoot"%string). assert (Q5 := SS "xheel"%string).
  assert (Q6 := SS "ysternoclav"%string). assert (Q7 := SS "xsternoclav"%string). assert (Q8 := SS "zsternoclav"%string). assert (Q9 := SS "yshoulder"%string). assert (Q10 := SS "xshoulder"%string). assert (Q11 := SS "zshoulder"%string).
  assert (Q12 := SS "yhumerus"%string). assert (Q13 := SS "yforearm"%string). assert (Q14 := SS "yhand"%string).
  cbn [append] in *.
  assert (K : forall P Q, tag_at e sc sg (C ++ [WInit]) p r P -> tag_at e sc sg (C ++ [WInit]) p l Q -> vx P = vx Q -> vy P = vy Q -> vz P = - vz Q -> exists P, tag_at e sc sg (C ++ [WInit]) p r P /\ tag_at e sc sg (C ++ [WInit]) p l (mirror P)).
  { intros P Q T1 T2 X1 X2 X3. exists P. split; [exact T1 | ]. eapply tag_eq; [exact T2 | ]. apply v3_eq; cbn [mirror vx vy vz]; auto. rewrite X3. ring. }
  unfold sides in Hrl. cbn [In] in Hrl.
  destruct Hrl as [Z | [Z | [Z | [Z | [Z | [Z | [Z | [Z | [Z | [Z | [Z | [Z | []]]]]]]]]]]]]; injection Z as <- <-.
  - eapply K; [exact (TR 0%nat _ _ _ _ eq_refl B3) | exact (TR 8%nat _ _ _ _ eq_refl B6) | .. ]; cbn [vx vy vz vadd zero3]; lra.
  - eapply K; [exact (TR 1%nat _ _ _ _ eq_refl B3) | exact (TR 9%nat _ _ _ _ eq_refl B6) | .. ]; cbn [vx vy vz vadd zero3]; lra.
  - eapply K; [exact (TR 2%nat _ _ _ _ eq_refl B3) | exact (TR 10%nat _ _ _ _ eq_refl B6) | .. ]; cbn [vx vy vz vadd zero3]; lra.
  - eapply K; [exact (TR 3%nat _ _ _ _ eq_refl B3) | exact (TR 11%nat _ _ _ _ eq_refl B6) | .. ]; cbn [vx vy vz vadd zero3]; lra.
  - eapply K; [exact (TR 4%nat _ _ _ _ eq_refl B2) | exact (TR 12%nat _ _ _ _ eq_refl B5) | .. ]; cbn [vx vy vz vadd zero3]; lra.
  - eapply K; [exact (TR 5%nat _ _ _ _ eq_refl B1) | exact (TR 13%nat _ _ _ _ eq_refl B4) | .. ]; cbn [vx vy vz vadd zero3]; lra.
  - eapply K; [exact (TR 6%nat _ _ _ _ eq_refl B1) | exact (TR 14%nat _ _ _ _ eq_refl B4) | .. ]; cbn [vx vy vz vadd zero3]; lra.
  - eapply K; [exact (TR 7%nat _ _ _ _ eq_refl B0) | exact (TR 15%nat _ _ _ _ eq_refl B0) | .. ]; cbn [vx vy vz vadd zero3]; lra.
  - eapply K; [exact (TR 18%nat _ _ _ _ eq_refl B8) | exact (TR 22%nat _ _ _ _ eq_refl B12) | .. ]; cbn [vx vy vz vadd zero3]; lra.
  - eapply K; [exact (TR 19%nat _ _ _ _ eq_refl B9) | exact (TR 23%nat _ _ _ _ eq_refl B13) | .. ]; cbn [vx vy vz vadd zero3]; lra.
  - eapply K; [exact (TR 20%nat _ _ _ _ eq_refl B10) | exact (TR 24%nat _ _ _ _ eq_refl B14) | .. ]; cbn [vx vy vz vadd zero3]; lra.
  - eapply K; [exact (TR 21%nat _ _ _ _ eq_refl B11) | exact (TR 25%nat _ _ _ _ eq_refl B15) | .. ]; cbn [vx vy vz vadd zero3]; lra.
Qed.
Print Assumptions C68_standing.
