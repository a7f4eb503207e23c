(** C83: the lines and the arrows of the Daenim document. *)
From Coq Require Import Lra Lia Permutation.
From Verif Require Import Spec_Dae Proof_SE3 Proof_Linalg Proof_Coll Props_Angles Props_Mass Props_Color Props_Color2 Proof_Tree Proof_World Proof_World2 Proof_World3 Proof_World4 Proof_Draw Proof_Draw2 Props_Dyn Props_Draw Props_Draw2 Proof_Dae Proof_Dae2 Proof_Dae3 Proof_Dae4 Proof_Dae6 Props_Dae Props_Dae2.
Open Scope R_scope.

(** the node [x] is the constant one between the SubFrame [s] and its body *)
Definition linked (S : dscene) (d : draw) (n : nat) (x : node) (s : nat) : Prop :=
  In (n, x) (d_nodes d) /\ n_const x = true /\
  ((n_frame x = FSub s /\ d_frames d (FBody (sub_body (ds_e S) s)) = Some (n_parent x) /\ n_pose x = sub_bpose (ds_sc S) s) \/
   (n_frame x = FBody (sub_body (ds_e S) s) /\ d_frames d (FSub s) = Some (n_parent x) /\ n_pose x = ds_inv S (sub_bpose (ds_sc S) s))).
Lemma const_linked S flat L d n x : dinv S flat L d -> In (n, x) (d_nodes d) -> n_const x = true -> exists s, linked S d n x s.
Proof.
  intros D J C. destruct (s1 _ _ _ _ _ _ (proj1 D) n x J) as (_ & _ & _ & pf & Epf & Pl).
  destruct Pl as [(_ & j & _ & Q & _) | [(_ & s & -> & En & _ & Ep) | [(s & En & -> & _ & Ep) | [(k & _ & _ & Q & _) | (_ & b & _ & _ & Q & _)]]]]; try congruence.
  - exists s. split; [exact J | ]. split; [exact C | ]. right. auto.
  - exists s. split; [exact J | ]. split; [exact C | ]. left. auto.
Qed.
Lemma linked_unique S flat L d n x n' x' s : dinv S flat L d -> linked S d n x s -> linked S d n' x' s -> n = n'.
Proof.
  intros D (J & _ & A) (J' & _ & A'). destruct (s1 _ _ _ _ _ _ (proj1 D) n x J) as (_ & L1 & E1 & _). destruct (s1 _ _ _ _ _ _ (proj1 D) n' x' J') as (_ & L2 & E2 & _).
  destruct A as [(F & G & _) | (F & G & _)], A' as [(F' & G' & _) | (F' & G' & _)]; rewrite F in E1; rewrite F' in E2; try congruence.
  - exfalso. rewrite E2 in G. rewrite E1 in G'. injection G as G. injection G' as G'. lia.
  - exfalso. rewrite E2 in G. rewrite E1 in G'. injection G as G. injection G' as G'. lia.
Qed.
Lemma linked_all S flat h t d s : dinv S flat (tree_link h t) d -> rep (ds_e S) h t -> root t = ground (ds_e S) -> NoDup (bodies t) ->
  d_frames d (FSub s) <> None -> d_frames d (FBody (sub_body (ds_e S) s)) <> None -> exists n x, linked S d n x s.
Proof.
  intros D Rt Er ND Fs Fb. destruct (d_frames d (FSub s)) as [n | ] eqn:En; [ | congruence]. destruct (s2 _ _ _ _ _ _ (proj1 D) _ _ En) as [(Q & _) | (x & Ix & Ex)]; [discriminate | ].
  destruct (s1 _ _ _ _ _ _ (proj1 D) n x Ix) as (_ & Lt & _ & pf & Epf & Pl).
  destruct Pl as [(Fl & j & Lk & _ & _) | [(_ & s' & -> & En' & _ & _) | [(s' & En' & -> & Ck & Ep) | [(k & En' & _) | (_ & b & En' & _)]]]]; try congruence.
  - rewrite Ex in Lk. destruct (link_bodies _ _ _ _ _ _ Rt Lk) as (_ & It & Pj). cbn [frame_body] in It, Pj.
    destruct (d_frames d (FBody _)) as [nb | ] eqn:Eb; [ | congruence]. destruct (s2 _ _ _ _ _ _ (proj1 D) _ _ Eb) as [(Q & _) | (y & Iy & Ey)].
    { exfalso. rewrite bodies_tail in ND. apply NoDup_cons_iff in ND. apply (proj1 ND). rewrite Er. injection Q as Q. now rewrite <- Q. }
    destruct (s1 _ _ _ _ _ _ (proj1 D) nb y Iy) as (_ & Lt' & _ & pf' & Epf' & Pl').
    destruct Pl' as [(_ & j' & Lk' & _ & _) | [(_ & s' & -> & En' & Ck & Ep) | [(s' & En' & _) | [(k & En' & _) | (Fl' & _)]]]]; try congruence.
    + exfalso. rewrite Ey in Lk'. destruct (link_bodies _ _ _ _ _ _ Rt Lk') as (_ & _ & Pj'). cbn [frame_body] in Pj'. rewrite Pj in Pj'. injection Pj' as <-. destruct Lk as (_ & Lk), Lk' as (_ & Lk'). congruence.
    + cbn [frame_body bpose] in En', Ep. destruct (s2 _ _ _ _ _ _ (proj1 D) _ _ Epf') as [(Q & _) | (z & Iz & Ez)]; [discriminate | ].
      destruct (s1 _ _ _ _ _ _ (proj1 D) _ z Iz) as (_ & Lt2 & _ & pf2 & Epf2 & Pl2).
      destruct Pl2 as [(_ & j2 & Lk2 & _ & _) | [(_ & s2' & -> & En2 & _ & _) | [(s2' & En2 & -> & _) | [(k & En2 & _) | (_ & b & En2 & _)]]]]; try congruence.
      * rewrite Ez in Lk2. destruct (link_bodies _ _ _ _ _ _ Rt Lk2) as (_ & _ & Pj2). cbn [frame_body] in Pj2. rewrite Ey in En'. injection En' as En'. rewrite <- En', Pj in Pj2. injection Pj2 as <-.
        assert (s' = s) by (destruct Lk as (_ & Lk), Lk2 as (_ & Lk2); congruence). subst s'. exists nb, y. split; [exact Iy | ]. split; [exact Ck | ]. right. auto.
      * exfalso. rewrite Ez in En2. injection En2 as <-. rewrite Ey in En'. injection En' as En'. rewrite <- En', Eb in Epf2. injection Epf2 as ->. lia.
  - exists n, x. rewrite Ex in En'. injection En' as <-. split; [exact Ix | ]. split; [exact Ck | ]. left. auto.
Qed.
Lemma inv_pos S H : inv4_spec (ds_inv S) -> SE3 H -> ds_inv S H = inv_ H.
Proof. intros Iv SH. apply Iv; [exact SH | apply inv_r; exact SH | apply inv_l; exact SH]. Qed.
Lemma norm_inv H : SE3 H -> norm3 (pos (inv_ H)) = norm3 (pos H).
Proof.
  intros SH. unfold inv_. cbn [Model_Linalg.pos]. 
  assert (E : forall u, norm3 (vneg u) = norm3 u) by (intros u; unfold norm3; f_equal; destruct u; unf; ring). rewrite ?E. apply norm3_rot. apply SO3_transpose, SH.
Qed.
Lemma linked_norm S d n x s : inv4_spec (ds_inv S) -> SE3 (sub_bpose (ds_sc S) s) -> linked S d n x s -> has_line x = true <-> 0 < norm3 (pos (sub_bpose (ds_sc S) s)).
Proof.
  intros Iv SB (_ & C & A). unfold has_line. rewrite C, andb_true_l, Rltb_true. destruct A as [(_ & _ & ->) | (_ & _ & ->)]; [reflexivity | ]. rewrite inv_pos, norm_inv by assumption. reflexivity.
Qed.
Lemma pos_mm P Q : SE3 P -> SE3 Q -> pos (mm4 P Q) = ground_of P (pos Q).
Proof. intros SP (_ & B & Hm). unfold ground_of. destruct P as [[] [] [] ?], Q as [[] [] [] ?]. simpl in B, Hm. unfold zero3 in B. injection B as -> -> ->. subst. lin. Qed.
Lemma segment_sym a b x : segment a b x <-> segment b a x.
Proof. assert (Q : forall a b, segment a b x -> segment b a x); [ | split; apply Q]. intros a' b' (k & Hk & ->). exists (1 - k). split; [lra | ]. destruct a', b'. lin. Qed.
Lemma F2_comp {A B C} (P : A -> B -> Prop) (Q : B -> C -> Prop) l m k : Forall2 P l m -> Forall2 Q m k -> Forall2 (fun a c => exists b, P a b /\ Q b c) l k.
Proof. intros F. revert k. induction F as [ | a b l m H F IH]; intros k G; inversion G; subst; constructor; eauto. Qed.

(** The Daenim driver shows, one for one, the rigid links between the SubFrames of the world and their bodies (those whose origins differ):
    each is a segment from the origin of the body to the origin of the SubFrame. *)
Theorem C83_links : forall argsort eigvals eig S geo flat g0 h t fuel up cs scale update, argsort_ok argsort -> drawable_world S g0 h t fuel cs ->
  writable eigvals eig S geo h t up ->
  exists D, dae_world argsort eigvals eig true S geo flat fuel h up cs scale update = Ok D /\
    exists l, NoDup l /\ (forall s, In s l <-> in_world (ds_e S) h t (FSub s) /\ 0 < norm3 (pos (sub_bpose (ds_sc S) s))) /\
      Forall2 (fun s x => exists f P Pb Ps, lies_at S flat (da_draw D) f (fst x) P /\ (forall k, f <> FMov k) /\
          frame_pose (ds_e S) (ds_sc S) (ds_st S) (FBody (sub_body (ds_e S) s)) = Ok Pb /\ frame_pose (ds_e S) (ds_sc S) (ds_st S) (FSub s) = Ok Ps /\
          forall y, covers P (snd x) y <-> segment (pos Pb) (pos Ps) y)
        l (described_as "link" D).
Proof.
  intros argsort eigvals eig S geo flat g0 h t fuel up cs scale update Ha Dw Wr.
  destruct (written argsort eigvals eig true S geo flat g0 h t fuel up cs scale update Ha Dw Wr) as (D & ED & (NL & IL & L & _ & _ & Et & Ei & Md & _) & Ed & _ & Eo).
  destruct (drawn S flat g0 h t fuel cs Dw) as (d & evs & Ed' & _ & _ & Po & Fr & _ & _ & _ & _ & _ & _ & DI). rewrite Ed in Ed'. apply Ok_inj in Ed'. subst d.
  assert (Ln := proj1 (world_lines _ _ _ _ _ _ Ed)). set (d := da_draw D) in *.
  destruct Dw as (R & Rd & Ri & F & _ & _ & _ & Iv & _). assert (SB : forall s, SE3 (sub_bpose (ds_sc S) s)) by (intros s; exact (proj1 Ri (FSub s))).
  destruct (world_iterators (ds_e S) h (reachable_forest 0 _ _ _ R)) as (t2 & R2 & E2 & N2 & _ & _). assert (t2 = t) by (apply (rep_unique (ds_e S) h t2 t R2 (proj1 Rd)); rewrite E2; symmetry; apply Rd). subst t2.
  exists D. split; [exact ED | ].
  (* the subframes, in the order of the nodes *)
  assert (X : forall ns, NoDup (map fst ns) -> (forall n x, In (n, x) ns -> In (n, x) (d_nodes d)) -> exists l, NoDup l /\ (forall s, In s l <-> exists n x, In (n, x) ns /\ linked S d n x s /\ has_line x = true) /\
     Forall2 (fun s z => exists n x, In (n, x) ns /\ linked S d n x s /\ fst z = n_parent x /\ snd z = pos (n_pose x)) l (node_lines ns)).
  { induction ns as [ | (n, x) ns IH]; intros Nd Sub.
    - exists []. split; [constructor | ]. split; [intros s; split; [intros [] | intros (n & x & [] & _)] | constructor].
    - inversion Nd as [ | ? ? Nn Nd']; subst. destruct IH as (l & Nl & Il & Fl); [exact Nd' | intros n' x' J; apply Sub; now right | ].
      cbn [node_lines flat_map snd]. destruct (has_line x) eqn:Hl.
      + assert (Ck : n_const x = true) by (unfold has_line in Hl; now apply andb_prop in Hl).
        destruct (const_linked S flat _ d n x DI (Sub n x (or_introl eq_refl)) Ck) as (s & Ls). exists (s :: l). split; [ | split].
        * constructor; [ | exact Nl]. intros J. apply Il in J. destruct J as (n' & x' & J' & Ls' & _). assert (n = n') by exact (linked_unique _ _ _ _ _ _ _ _ _ DI Ls Ls'). subst n'. apply Nn. apply (in_map fst) in J'. exact J'.
        * intros s'. cbn [In]. rewrite Il. split.
          -- intros [<- | (n' & x' & J' & Q)]; [exists n, x; auto | exists n', x'; tauto].
          -- intros (n' & x' & [E | J'] & Ls' & H'); [ | right; exists n', x'; auto]. injection E as <- <-. left. destruct Ls as (_ & _ & A), Ls' as (_ & _ & A').
             destruct A as [(A1 & A2 & _) | (A1 & A2 & _)], A' as [(B1 & B2 & _) | (B1 & B2 & _)]; try congruence.
             assert (Inj : forall f f' n0, d_frames d f = Some n0 -> d_frames d f' = Some n0 -> f = f').
             { intros f f' n0 Q Q'. destruct (s2 _ _ _ _ _ _ (proj1 DI) _ _ Q) as [(-> & ->) | (z & Iz & Ez)], (s2 _ _ _ _ _ _ (proj1 DI) _ _ Q') as [(-> & Z) | (z' & Iz' & Ez')]; auto.
               - destruct (s1 _ _ _ _ _ _ (proj1 DI) _ _ Iz') as (? & _). lia.
               - subst n0. destruct (s1 _ _ _ _ _ _ (proj1 DI) _ _ Iz) as (? & _). lia.
               - rewrite <- Ez, <- Ez'. now rewrite (nodes_fun _ _ _ _ _ _ _ DI Iz Iz'). }
             assert (Q := Inj _ _ _ A2 B2). now injection Q.
        * cbn [app]. constructor; [exists n, x; split; [now left | ]; auto | ]. eapply F2_impl; [ | exact Fl]. intros s' z (n' & x' & J' & Q). exists n', x'. split; [now right | exact Q].
      + exists l. split; [exact Nl | ]. split.
        * intros s'. rewrite Il. split; intros (n' & x' & J' & Q); exists n', x'; [split; [now right | exact Q] | ]. destruct J' as [E | J']; [ | auto]. injection E as <- <-. destruct Q as (_ & Q). congruence.
        * eapply F2_impl; [ | exact Fl]. intros s' z (n' & x' & J' & Q). exists n', x'. split; [now right | exact Q]. }
  destruct (X (d_nodes d) (s3 _ _ _ _ _ _ (proj1 DI)) (fun _ _ J => J)) as (l & Nl & Il & Fl). clear X. exists l. split; [exact Nl | ]. split.
  { intros s. rewrite Il. split.
    - intros (n & x & _ & Ls & Hl). split; [ | exact (proj1 (linked_norm _ _ _ _ _ Iv (SB s) Ls) Hl)]. apply Fr. destruct Ls as (J & _ & [(A1 & _) | (_ & A2 & _)]); [ | eauto]. exists n. rewrite <- A1. apply (s1 _ _ _ _ _ _ (proj1 DI) n x J).
    - intros (Iw & Hn). destruct (linked_all S flat h t d s DI (proj1 Rd) (proj1 (proj2 Rd)) N2) as (n & x & Ls).
      + apply Fr in Iw. destruct Iw as (n & ->). discriminate.
      + assert (Ib : in_world (ds_e S) h t (FBody (sub_body (ds_e S) s))) by (split; [exact (proj1 Iw) | exact Logic.I]). apply Fr in Ib. destruct Ib as (n & ->). discriminate.
      + exists n, x. split; [apply Ls | ]. split; [exact Ls | ]. exact (proj2 (linked_norm _ _ _ _ _ Iv (SB s) Ls) Hn). }
  (* the instances *)
  assert (G : Forall2 (fun z x => fst x = fst z /\ forall P y, covers P (snd x) y <-> segment (pos P) (ground_of P (snd z)) y) (item_lines (d_items d)) (described_as "link" D)).
  { unfold described_as. rewrite Ei, Et. clear - Md Ha. induction IL as [ | ((n, i), o) IL IH]; cbn [map item_lines flat_map filter fst snd]; [constructor | ].
    rewrite filter_app. fold (item_lines (map fst IL)). apply Forall2_app; [ | apply IH; intros n' i' o' J; apply (Md n'); now right]. assert (M := Md n i o (or_introl eq_refl)). destruct i as [ | p c | b c | s c].
    2: { destruct (line_made _ _ _ _ _ _ _ _ _ Ha M) as (N & -> & Cv & _ & De & _). unfold inst. cbn [snd fst filter]. rewrite De. cbn [String.eqb Ascii.eqb Bool.eqb]. constructor; [ | constructor]. cbn. auto. }
    1-3: destruct o as [N | ]; [ | apply Forall2_nil]. 1-3: assert (De := made_kind _ _ _ _ _ _ _ _ M). 1-3: unfold inst; cbn [snd fst filter]; rewrite De; apply Forall2_nil. }
  rewrite Ln in G. eapply F2_impl; [ | exact (F2_comp _ _ _ _ _ Fl G)]. intros s y (z & (n & x & J & Ls & Ez1 & Ez2) & Ey & Cv). cbn beta in *.
  assert (Iw : in_world (ds_e S) h t (FSub s)). { apply Fr. destruct Ls as (_ & _ & [(A1 & _) | (_ & A2 & _)]); [ | eauto]. exists n. rewrite <- A1. apply (s1 _ _ _ _ _ _ (proj1 DI) n x J). }
  assert (Ib : in_world (ds_e S) h t (FBody (sub_body (ds_e S) s))) by (split; [exact (proj1 Iw) | exact Logic.I]).
  destruct (Po _ Iw) as (ns & Ps & _ & Las & SPs), (Po _ Ib) as (nb & Pb & _ & Lab & SPb).
  assert (EPs : Ps = mm4 Pb (sub_bpose (ds_sc S) s)).
  { destruct Las as (_ & E1 & _), Lab as (_ & E2' & _). unfold frame_pose in E1, E2'. cbn [frame_body bpose] in E1, E2'. destruct (a_pose _) as [H | ]; [ | discriminate]. cbn in E1, E2'. apply Ok_inj in E1, E2'. subst. reflexivity. }
  destruct Ls as (_ & _ & [(A1 & A2 & A3) | (A1 & A2 & A3)]).
  - exists (FBody (sub_body (ds_e S) s)), Pb, Pb, Ps. assert (fst y = nb) by (destruct Lab as (Q & _); rewrite A2 in Q; injection Q as <-; congruence). subst nb. split; [exact Lab | ]. split; [discriminate | ]. split; [apply Lab | ]. split; [apply Las | ].
    intros w. rewrite (Cv Pb w), Ez2, A3, EPs, pos_mm by auto. reflexivity.
  - exists (FSub s), Ps, Pb, Ps. assert (fst y = ns) by (destruct Las as (Q & _); rewrite A2 in Q; injection Q as <-; congruence). subst ns. split; [exact Las | ]. split; [discriminate | ]. split; [apply Lab | ]. split; [apply Las | ].
    intros w. rewrite (Cv Ps w), Ez2, A3, inv_pos by auto. rewrite <- pos_mm by auto using SE3_inv. rewrite EPs, <- mm4_assoc, inv_r, mm4_1_r by auto. apply segment_sym.
Qed.
Print Assumptions C83_links.

(** it shows the axes of every frame but the ground, over the length 0.08 scale *)
Theorem C83_arrows : forall argsort eigvals eig S geo flat g0 h t fuel up cs scale update, argsort_ok argsort -> drawable_world S g0 h t fuel cs ->
  writable eigvals eig S geo h t up -> 0 <= scale ->
  exists D, dae_world argsort eigvals eig true S geo flat fuel h up cs scale update = Ok D /\
    exists l, NoDup l /\ (forall f, In f l <-> in_world (ds_e S) h t f /\ f <> FBody (ground (ds_e S))) /\
      Forall2 (fun f x => exists P, lies_at S flat (da_draw D) f (fst x) P /\ forall y, covers P (snd x) y <-> on_axes P (8 / 100 * scale) y) l (not_described D).
Proof.
  intros argsort eigvals eig S geo flat g0 h t fuel up cs scale update Ha Dw Wr Sc.
  destruct (written argsort eigvals eig true S geo flat g0 h t fuel up cs scale update Ha Dw Wr) as (D & ED & (NL & IL & L & _ & _ & Et & Ei & Md & _) & Ed & _ & Eo).
  destruct (drawn S flat g0 h t fuel cs Dw) as (d & evs & Ed' & _ & _ & Po & Fr & _ & _ & _ & _ & _ & _ & DI). rewrite Ed in Ed'. apply Ok_inj in Ed'. subst d.
  assert (Ln := proj2 (world_lines _ _ _ _ _ _ Ed)). set (d := da_draw D) in *.
  exists D. split; [exact ED | ]. exists (map (fun z => n_frame (snd z)) (d_nodes d)). split; [ | split].
  - assert (N3 := s3 _ _ _ _ _ _ (proj1 DI)). assert (S1 := fun n x => s1 _ _ _ _ _ _ (proj1 DI) n x). clear - N3 S1. induction (d_nodes d) as [ | (n, x) ns IH]; cbn [map snd]; [constructor | ]. cbn [map fst] in N3. inversion N3 as [ | ? ? Nn Nd]; subst. constructor; [ | apply IH; [exact Nd | intros n' x' J; apply S1; now right]].
    intros J. apply in_map_iff in J. destruct J as ((n', x') & E & J). cbn in E. apply Nn. destruct (S1 n x (or_introl eq_refl)) as (_ & _ & E1 & _), (S1 n' x' (or_intror J)) as (_ & _ & E2 & _). rewrite <- E, E2 in E1. injection E1 as <-. apply (in_map fst) in J. exact J.
  - intros f. rewrite in_map_iff. split.
    + intros ((n, x) & <- & J). cbn [snd]. destruct (s1 _ _ _ _ _ _ (proj1 DI) n x J) as (Q & _ & E1 & _). split; [apply Fr; eauto | ]. intros E. rewrite E, (s0 _ _ _ _ _ _ (proj1 DI)) in E1. injection E1 as <-. lia.
    + intros (Iw & Ng). apply Fr in Iw. destruct Iw as (n & En). destruct (s2 _ _ _ _ _ _ (proj1 DI) _ _ En) as [(Q & _) | (x & Ix & Ex)]; [congruence | ]. exists (n, x). auto.
  - assert (G : Forall2 (fun n x => fst x = n /\ forall P y, covers P (snd x) y <-> on_axes P (8 / 100 * scale) y) (item_arrows (d_items d)) (not_described D)).
    { unfold not_described. rewrite Ei, Et. clear - Md Eo Sc. induction IL as [ | ((n, i), o) IL IH]; cbn [map item_arrows flat_map filter fst snd]; [constructor | ].
      rewrite filter_app. fold (item_arrows (map fst IL)). apply Forall2_app; [ | apply IH; intros n' i' o' J; apply (Md n'); now right]. assert (M := Md n i o (or_introl eq_refl)). destruct i as [ | p c | b c | s c].
      - destruct (arrows_made _ _ _ _ _ _ _ M) as (N & -> & Em & Et & De). unfold inst. cbn [snd fst filter]. rewrite De. constructor; [ | constructor]. cbn [fst snd]. split; [reflexivity | ]. intros P y.
        unfold covers. rewrite Em, Et, Eo, tfs_one. cbn [tf_mat in_mesh op_arrows default_options]. set (a := 8 / 100 * scale). assert (Pa : 0 <= a) by (unfold a; lra). unfold on_axes. split.
        + intros ([ux uy uz] & U & ->). rewrite ground_scale. unfold scaled. cbn [vx vy vz] in *. destruct U as [(A & -> & ->) | [(-> & A & ->) | (-> & -> & A)]]; rewrite ?Rmult_0_r; [exists (a * ux) | exists (a * uy) | exists (a * uz)]; (split; [nra | auto]).
        + intros (k & Hk & E). assert (K : exists k', 0 <= k' <= 1 /\ k = a * k').
          { destruct (Req_dec a 0) as [Z | Z]; [exists 0; split; [lra | ]; lra | ]. exists (k / a). split; [ | now field]. split; [apply Rmult_le_pos; [lra | apply Rlt_le, Rinv_0_lt_compat; lra] | ]. apply (Rmult_le_reg_r a); [lra | ]. unfold Rdiv. rewrite Rmult_assoc, Rinv_l by exact Z. lra. }
          destruct K as (k' & Hk' & ->). destruct E as [-> | [-> | ->]]; [exists (V3 k' 0 0) | exists (V3 0 k' 0) | exists (V3 0 0 k')]; (split; [cbn; auto | ]); rewrite ground_scale; unfold scaled; cbn [vx vy vz]; rewrite ?Rmult_0_r; reflexivity.
      - destruct o as [N | ]; [ | apply Forall2_nil]. assert (De := made_kind _ _ _ _ _ _ _ _ M). unfold inst; cbn [snd fst filter]; rewrite De; apply Forall2_nil.
      - destruct o as [N | ]; [ | apply Forall2_nil]. assert (De := made_kind _ _ _ _ _ _ _ _ M). unfold inst; cbn [snd fst filter]; rewrite De; apply Forall2_nil.
      - destruct o as [N | ]; [ | apply Forall2_nil]. assert (De := made_kind _ _ _ _ _ _ _ _ M). unfold inst; cbn [snd fst filter]; rewrite De; apply Forall2_nil. }
    rewrite Ln in G. assert (Q : forall n x, In (n, x) (d_nodes d) -> exists P, lies_at S flat d (n_frame x) n P).
    { intros n x J. destruct (s1 _ _ _ _ _ _ (proj1 DI) n x J) as (_ & _ & E1 & _). destruct (Po (n_frame x)) as (n' & P & _ & La & _); [apply Fr; eauto | ]. assert (n' = n) by (destruct La; congruence). subst. eauto. }
    clear - G Q. revert G. generalize (not_described D). induction (d_nodes d) as [ | (n, x) ns IH]; intros l G; cbn [map fst snd] in *; inversion G as [ | ? y ? l' (E & Cv) G']; subst; constructor.
    + destruct (Q (fst y) x (or_introl eq_refl)) as (P & La). exists P. split; [exact La | apply Cv].
    + apply IH; [intros n' x' J; apply Q; now right | exact G'].
Qed.
Print Assumptions C83_arrows.

(** ** create_line *)
(** Finding: create_line(start, end) of the Daenim driver does not draw the segment from start to end unless start is the origin: the
    start point is multiplied by the length of the segment. *)
Theorem C83_line_start_refuted : exists a b : v3, forall argsort c name v, argsort_ok argsort ->
  exists N v', create_line argsort true a b c name v = Ok (Some N, v') /\ covers eye4 N (V3 2 0 0) /\ ~ segment a b (V3 2 0 0).
Proof.
  exists (V3 1 0 0), (V3 1 0 2). intros argsort c name v Ha.
  assert (Nm : norm3 (vsub (V3 1 0 2) (V3 1 0 0)) = 2). { unfold norm3. replace (dot3 _ _) with (2 * 2) by (unf; ring). apply sqrt_square. lra. }
  assert (Hp : 0 < norm3 (vsub (V3 1 0 2) (V3 1 0 0))) by (rewrite Nm; lra).
  unfold create_line. cbv zeta. rewrite (proj2 (Rltb_true _ _) Hp). destruct (zaligned_ok argsort _ Ha (norm_unit _ Hp)) as (H & -> & SH & ZH & _). cbn [rbind]. destruct (geometry _ _ _ _ _ _) as (N, v1) eqn:G.
  destruct (geometry_spec _ _ _ _ _ _ _ _ G) as (_ & _ & Em & Et & _). exists N, v1. split; [reflexivity | ]. split.
  - unfold covers. rewrite Em, Et, tfs_two. exists zero3. split; [cbn; lra | ]. rewrite Nm. cbn [tf_mat]. destruct SH as (_ & B & Hm). rewrite ground_mm by assumption. rewrite ground_scale.
    unfold ground_of, scaled. cbn [rot Model_Linalg.pos vx vy vz]. destruct (rot H). unf. f_equal; ring.
  - intros (k & _ & E). apply (f_equal vx) in E. unf. lra.
Qed.
Print Assumptions C83_line_start_refuted.
