(** C74: the iCub robot. *)
From Coq Require Import Lra Lia.
From Verif Require Import Spec_Icub.
From Verif Require Import Proof_Linalg Proof_SE3 Proof_Tree Proof_World Proof_World2 Proof_Register Proof_World4 Proof_World3 Props_Dyn Proof_Dyn2 Props_Mass Proof_Robots2 Props_Robots2 Proof_Build Proof_Build2 Proof_Build3 Proof_Human36 Props_Human36 Props_Human36_2 Props_Human36_3 Props_Checks Props_Arm Proof_Icub.
Open Scope R_scope.

Section S.
  Variables (e : env) (I : bids) (fx shp con : bool).
  Variables (B : list (string * list (list R * R * m4))) (J : list (string * (string * m4 * string))) (Sh : list (string * list (list R * m4))) (C : list (string * (string * list R * m4))).
  Hypothesis PB : Permutation B bodies_data.
  Hypothesis PJ : Permutation J joints_data.
  Hypothesis PS : Permutation Sh (shapes_data bodies_data).
  Hypothesis PC : Permutation C contact_data.
  Notation cs := (icub_cmds e I fx shp con B J Sh C).
  Lemma mkbody_cases b n M : In (MkBody b n M) cs -> exists x, In x bodies_data /\ b = xb I (bnum (fst x)) /\ n = Some (fst x) /\ M = diag6 0 0 0 0 0 0.
  Proof.
    intros H. apply in_cmds in H. destruct H as [(x & Hx & H) | [H | [(x & Hx & H) | [(_ & x & Hx & H) | (_ & x & Hx & H)]]]].
    - destruct H as [H | H]; [injection H as <- <- <-; exists x; split; [eapply Permutation_in; [exact PB | exact Hx] | auto] | ]. exfalso. apply in_app_iff in H. destruct H as [H | [H | []]]; [ | discriminate]. apply in_map_iff in H. destruct H as (y & H & _). discriminate.
    - exfalso. unfold rcmds in H. destruct fx; [destruct H | ]. destruct H as [H | [H | []]]; discriminate.
    - exfalso. destruct H as [H | [H | [H | []]]]; discriminate.
    - exfalso. apply in_flat_map in H. destruct H as (y & _ & [H | [H | [H | []]]]); discriminate.
    - exfalso. destruct H as [H | [H | [H | []]]]; discriminate.
  Qed.
  Lemma body_called_icub n : In n (map fst bodies_data) -> body_called (cs ++ [WInit]) "" n (xb I (bnum n)).
  Proof.
    intros H. apply in_map_iff in H. destruct H as (x & <- & Hx). eexists. apply in_or_app. left. apply in_cmds. left. exists x. split; [eapply Permutation_in; [symmetry; exact PB | exact Hx] | now left].
  Qed.
  Lemma body_called_inv n b : body_called (cs ++ [WInit]) "" n b -> In n (map fst bodies_data) /\ b = xb I (bnum n).
  Proof.
    intros (M & H). apply in_snoc in H; [ | discriminate]. apply mkbody_cases in H. destruct H as (x & Hx & -> & Q & _). injection Q as ->. split; [now apply in_map | reflexivity].
  Qed.
  Lemma on_body_icub n : In n (map fst bodies_data) -> on_body e fx (cs ++ [WInit]) n (body_of e I fx n).
  Proof. intros H. unfold on_body, body_of. destruct (fx && String.eqb n "waist"); [reflexivity | now apply body_called_icub]. Qed.
  Lemma mkshape_cases s n f g : In (MkShape s n f g) cs -> In (Reg (OShape s)) cs /\
     ((shp = true /\ exists x y, In x (shapes_data bodies_data) /\ In y (enum 0 (snd x)) /\ n = Some (fst x ++ ".body_shape")%string /\ In (MkShape s n f g) (sh_cmds e I fx (fst x) y)) \/
      (con = true /\ exists x, In x contact_data /\ n = Some (fst x) /\ In (MkShape s n f g) (ccmds e I fx x))).
  Proof.
    intros H0. assert (H := H0). apply in_cmds in H. destruct H as [(x & Hx & H) | [H | [(x & Hx & H) | [(Q & x & Hx & H) | (Q & x & Hx & H)]]]].
    - exfalso. destruct H as [H | H]; [discriminate | ]. apply in_app_iff in H. destruct H as [H | [H | []]]; [ | discriminate]. apply in_map_iff in H. destruct H as (y & H & _). discriminate.
    - exfalso. unfold rcmds in H. destruct fx; [destruct H | ]. destruct H as [H | [H | []]]; discriminate.
    - exfalso. destruct H as [H | [H | [H | []]]]; discriminate.
    - apply in_flat_map in H. destruct H as (y & Hy & H). split; [ | left; split; [exact Q | ]].
      + apply in_cmds. right. right. right. left. split; [exact Q | ]. exists x. split; [exact Hx | ]. apply in_flat_map. exists y. split; [exact Hy | ]. destruct H as [H | [H | [H | []]]]; try discriminate. injection H as <- _ _ _. right. right. now left.
      + exists x, y. split; [eapply Permutation_in; [exact PS | exact Hx] | ]. split; [exact Hy | ]. split; [ | exact H]. destruct H as [H | [H | [H | []]]]; try discriminate. injection H as _ <- _ _. reflexivity.
    - split; [ | right; split; [exact Q | ]].
      + apply in_cmds. right. right. right. right. split; [exact Q | ]. exists x. split; [exact Hx | ]. destruct H as [H | [H | [H | []]]]; try discriminate. injection H as <- _ _ _. right. right. now left.
      + exists x. split; [eapply Permutation_in; [exact PC | exact Hx] | ]. split; [ | exact H]. destruct H as [H | [H | [H | []]]]; try discriminate. injection H as _ <- _ _. reflexivity.
  Qed.
End S.
Lemma in_enum_iff {A} (a : A) : forall l i, In a l -> exists k, In (k, a) (enum i l).
Proof. induction l as [ | b l IH]; intros i H; [destruct H | ]. destruct H as [-> | H]; [exists i; now left | destruct (IH (S i) H) as (k & Hk); exists k; now right]. Qed.

(** the construction succeeds in any world, whatever the orders in which the four dicts are walked *)
Theorem C74_icub : forall e g0 h eigvals I fx shp con B J Sh C t,
  reachable 0 e g0 h -> eigs_ok eigvals -> new_ids I h e -> rep e h t -> root t = ground e ->
  Permutation B bodies_data -> Permutation J joints_data -> Permutation Sh (shapes_data bodies_data) -> Permutation C contact_data ->
  exists cs, icub_script e eigvals I fx shp con B J Sh C = (cs, Ok tt) /\
    ((forall c, In c cs -> made e h c) -> forall fuel, (length (bodies t) + length (icub_bodies fx) < fuel)%nat ->
     exists h' t', icub_add e eigvals I fuel fx shp con B J Sh C h = (h', Ok tt) /\ reachable 0 e g0 h' /\ ready e h' t' /\ (height t' < fuel)%nat /\
       w_ndof h' = (total_ndof e (joints t) + if fx then 32 else 38)%nat /\ length (bodies t') = (length (bodies t) + if fx then 32 else 33)%nat /\
       (forall b, In b (bodies t') <-> In b (bodies t) \/ exists n, In n (icub_bodies fx) /\ body_called cs "" n b) /\
       (* the joints *)
       length (joints t') = (length (joints t) + if fx then 32 else 33)%nat /\
       (forall jn from to, In (jn, from, to) icub_skeleton -> exists j s b, joint_called cs "" jn j /\ In j (joints t') /\ jndof e j = 1%nat /\
          jframes h' j = Some (FSub s, FBody b) /\ body_called cs "" to b /\ on_body e fx cs from (sub_body e s)) /\
       (fx = false -> exists j b, joint_called cs "" "root" j /\ In j (joints t') /\ jndof e j = 6%nat /\ jframes h' j = Some (FBody (ground e), FBody b) /\ body_called cs "" "waist" b) /\
       (forall j, In j (joints t) -> In j (joints t') /\ jframes h' j = jframes h j) /\ (forall j, joint_gvel h' j = joint_gvel h j) /\ reg_le h h' /\
       (* the shapes of the bodies and of the contacts *)
       (forall s n f g, In (MkShape s n f g) cs -> registered h' (OShape s) /\ registered h' (OFrame f)) /\
       (forall n parts d, In (n, parts) bodies_data -> In d parts -> shp = true ->
          exists s x b, In (MkSub s b None (snd d)) cs /\ In (MkShape x (Some (n ++ ".body_shape")%string) (FSub s) (solid_shape (fst (fst d)))) cs /\ on_body e fx cs n b) /\
       (forall n parent dims H, In (n, (parent, dims, H)) contact_data -> con = true ->
          exists s x b, In (MkSub s b (Some n) H) cs /\ In (MkShape x (Some n) (FSub s) (solid_shape dims)) cs /\ on_body e fx cs parent b) /\
       (shp = false -> con = false -> forall s n f g, ~ In (MkShape s n f g) cs)).
Proof.
  intros e g0 h eigvals I fx shp con B J Sh C t R Ev Ni Rt Er PB PJ PS PC. set (cs := icub_cmds e I fx shp con B J Sh C).
  assert (Es : icub_script e eigvals I fx shp con B J Sh C = (cs ++ [WInit], Ok tt)).
  { apply icub_script_ok; [exact Ev | intros x Hx; eapply Permutation_in; [exact PB | exact Hx] | apply (shapes_ok Sh PS)]. }
  exists (cs ++ [WInit]). split; [exact Es | ]. intros Mk fuel Fu.
  assert (Mk' : forall c, In c cs -> made e h c) by (intros c Hc; apply Mk, in_or_app; now left).
  assert (Fu' : (length (bodies t) + (if fx then 32 else 33) < fuel)%nat) by (destruct fx; exact Fu).
  destruct (build_icub e eigvals I Ev fx shp con h Ni B J Sh C PB PJ PS PC Mk' g0 t fuel R Rt Er Fu') as (h' & t' & E & R' & Rd & Hf & Bd & Pm & Nd & Jf & Jo & Gv & Rl & Rg). fold cs in E, Jf, Rg.
  exists h', t'. split; [unfold icub_add, run_scr; rewrite Es; cbn [fst snd]; now rewrite E | ]. split; [exact R' | ]. split; [exact Rd | ]. split; [exact Hf | ].
  assert (Jd : forall x, In x joints_data -> jndof e (xj I (jnum (fst x))) = 1%nat).
  { intros x Hx. apply (Mk' (MkJoint (xj I (jnum (fst x))) (Some (fst x)) RzJoint)). eapply jcmds_in; [exact PJ | exact Hx | right; now left]. }
  assert (Jr : fx = false -> jndof e (xj I 32) = 6%nat).
  { intros ->. apply (Mk' (MkJoint (xj I 32) (Some "root"%string) FreeJoint)). apply in_cmds. right. left. now left. }
  assert (Jd2 : total_ndof e (map (xj I) (seq 0 32)) = 32%nat).
  { rewrite <- joints_num, map_map. unfold total_ndof. rewrite map_map. transitivity (list_sum (map (fun _ : string * (string * m4 * string) => 1%nat) joints_data)); [ | reflexivity]. f_equal. apply map_ext_in. intros x Hx. now apply Jd. }
  split.
  { rewrite Nd. f_equal. unfold icub_js. destruct fx; [exact Jd2 | ]. cbn [map]. change (total_ndof e (xj I 32 :: map (xj I) (seq 0 32))) with (jndof e (xj I 32) + total_ndof e (map (xj I) (seq 0 32)))%nat. rewrite Jd2, Jr; reflexivity. }
  split.
  { assert (Pb : Permutation (bodies t') (bodies t ++ icub_bs I fx)).
    { apply NoDup_Permutation; [apply Rd | | intros b; rewrite in_app_iff; apply Bd]. apply NoDup_app_iff. split; [ | split; [eapply bs_nodup'; exact Ni | ]].
      - destruct (world_iterators e h (reachable_forest 0 e g0 h R)) as (t1 & Rt1 & Er1 & ND & _). now rewrite (rep_unique e h _ _ Rt Rt1 ltac:(congruence)).
      - intros x H1 H2. apply in_map_iff in H2. destruct H2 as (k & <- & _). exact (new_not_old e g0 h I t k R Ni Rt Er H1). }
    rewrite (Permutation_length Pb), app_length, bs_length'. reflexivity. }
  assert (Bn : forall n, In n (icub_bodies fx) -> In n (map fst bodies_data)) by (intros n Hn; rewrite bodies_names_icub; unfold icub_bodies in Hn; destruct fx; [now right | exact Hn]).
  split.
  { intros b. rewrite Bd. apply or_iff_compat_l. split.
    - intros H. unfold icub_bs in H. apply in_map_iff in H. destruct H as (k & <- & Hk). rewrite <- bodies_num, <- children_num in Hk.
      assert (Q : exists n, In n (icub_bodies fx) /\ k = bnum n).
      { unfold icub_bodies. rewrite skeleton_table, map_map. destruct fx.
        - apply in_map_iff in Hk. destruct Hk as (x & <- & Hx). exists (snd (snd x)). split; [exact (in_map (fun x => snd (snd x)) _ _ Hx) | reflexivity].
        - apply in_map_iff in Hk. destruct Hk as (x & <- & Hx). exists (fst x). split; [ | reflexivity]. apply (in_map fst) in Hx. rewrite bodies_names_icub, skeleton_table, map_map in Hx. exact Hx. }
      destruct Q as (n & Hn & ->). exists n. split; [exact Hn | ]. apply body_called_icub; [exact PB | now apply Bn].
    - intros (n & Hn & H). apply body_called_inv in H; [ | exact PB]. destruct H as (H & ->). unfold icub_bs. apply in_map. unfold icub_bodies in Hn. destruct fx.
      + rewrite skeleton_table, map_map in Hn. apply in_map_iff in Hn. destruct Hn as (x & <- & Hx). rewrite <- children_num. exact (in_map (fun x => bnum (snd (snd x))) _ _ Hx).
      + apply in_map_iff in H. destruct H as (x & <- & Hx). rewrite <- bodies_num. apply in_map_iff. exists x. auto. }
  split; [rewrite (Permutation_length Pm), app_length; unfold icub_js; rewrite map_length; destruct fx; reflexivity | ].
  assert (Jin : forall j, In j (icub_js I fx) -> In j (joints t')) by (intros j Hj; eapply Permutation_in; [symmetry; exact Pm | apply in_or_app; now right]).
  split.
  { intros jn from to H. rewrite skeleton_table in H. apply in_map_iff in H. destruct H as (x & Q & Hx). injection Q as <- <- <-. exists (xj I (jnum (fst x))), (xs I (jnum (fst x))), (xb I (bnum (snd (snd x)))).
    split; [eexists; apply in_or_app; left; eapply jcmds_in; [exact PJ | exact Hx | right; now left] | ].
    split; [apply Jin; unfold icub_js; apply in_map; assert (L := joint_num x Hx); destruct fx; [ | right]; apply in_seq; lia | ]. split; [now apply Jd | ].
    split.
    { rewrite <- (child_body e I fx x Hx). apply (Jf (jlink e I fx x)). unfold cs. rewrite icub_links. apply in_or_app. right. apply in_map. eapply Permutation_in; [symmetry; exact PJ | exact Hx]. }
    split; [apply body_called_icub; [exact PB | ] | ].
    - rewrite bodies_names_icub, skeleton_table, map_map. right. exact (in_map (fun x => snd (snd x)) _ _ Hx).
    - rewrite (mount_sub e I fx shp con h B J Sh C PJ Mk' x Hx). apply on_body_icub; [exact PB | now apply parent_in]. }
  split.
  { intros ->. exists (xj I 32), (xb I 0). split; [eexists; apply in_or_app; left; apply in_cmds; right; left; now left | ]. split; [apply Jin; now left | ]. split; [now apply Jr | ]. split; [ | apply (body_called_icub e I false shp con B J Sh C PB "waist"); now left].
    apply (Jf (FBody (ground e), xj I 32, FBody (xb I 0))). unfold cs. rewrite icub_links. apply in_or_app. left. now left. }
  split.
  { intros j Hj. split; [eapply Permutation_in; [symmetry; exact Pm | apply in_or_app; now left] | ]. apply Jo. intros Q. apply in_map_iff in Q. destruct Q as (k & <- & _). destruct Ni as (_ & _ & N). destruct (N k) as (_ & _ & _ & Z). destruct (rep_joint_edge e h t _ Rt Hj) as (q & c & ((f0 & f1 & Ef & _) & _) & _). congruence. }
  split; [exact Gv | ]. split; [exact Rl | ].
  split.
  { intros s n f g H. assert (Sf := Mk _ H). cbn [made] in Sf. apply in_snoc in H; [ | discriminate]. apply mkshape_cases in H; [ | exact PS | exact PC]. destruct H as (H & _). apply Rg in H. split; [exact H | ]. cbn [registered]. rewrite <- Sf. apply (ri_shape_frame e h' (reachable_reg 0 e g0 h' R')). exact H. }
  split.
  { intros n parts d Hn Hd Q. assert (Hs : In (n, map (fun d => (fst (fst d), snd d)) parts ++ (if String.eqb n "head" then [([0.02], transl (- 0.034) (- 0.054) 0.0825); ([0.02], transl 0.034 (- 0.054) 0.0825)] else [])) (shapes_data bodies_data)).
    { unfold shapes_data. apply in_map_iff. exists (n, parts). split; [reflexivity | exact Hn]. }
    match type of Hs with In (_, ?l) _ => destruct (in_enum_iff (fst (fst d), snd d) l 0) as (i & Hi); [apply in_or_app; left; exact (in_map (fun d => (fst (fst d), snd d)) _ _ Hd) | ]; set (L := l) in * end.
    assert (X : incl (sh_cmds e I fx n (i, (fst (fst d), snd d))) cs).
    { intros c Hc. apply in_cmds. right. right. right. left. split; [exact Q | ]. exists (n, L). split; [eapply Permutation_in; [symmetry; exact PS | exact Hs] | ]. apply in_flat_map. eexists. split; [exact Hi | exact Hc]. }
    exists (xs I (300 + 4 * bnum n + i)), (xh I (4 * bnum n + i)), (body_of e I fx n). split; [apply in_or_app; left; apply X; now left | ]. split; [apply in_or_app; left; apply X; right; now left | ]. apply on_body_icub; [exact PB | ]. exact (in_map fst _ _ Hn). }
  split.
  { intros n parent dims H Hn Q. assert (X : incl (ccmds e I fx (n, (parent, dims, H))) cs).
    { intros c Hc. apply in_cmds. right. right. right. right. split; [exact Q | ]. eexists. split; [eapply Permutation_in; [symmetry; exact PC | exact Hn] | exact Hc]. }
    exists (xs I (500 + cnum n)), (xh I (200 + cnum n)), (body_of e I fx parent). split; [apply in_or_app; left; apply X; now left | ]. split; [apply in_or_app; left; apply X; right; now left | ]. apply on_body_icub; [exact PB | ].
    assert (Y : forallb (fun x => existsb (String.eqb (fst (fst (snd x)))) (map fst bodies_data)) contact_data = true) by reflexivity. rewrite forallb_forall in Y. specialize (Y _ Hn). cbn [fst snd] in Y. apply existsb_exists in Y. destruct Y as (m & Hm & Em). apply String.eqb_eq in Em. now rewrite Em. }
  intros Q1 Q2 s n f g H. apply in_snoc in H; [ | discriminate]. apply mkshape_cases in H; [ | exact PS | exact PC]. destruct H as (_ & [(H & _) | (H & _)]); congruence.
Qed.
Print Assumptions C74_icub.
