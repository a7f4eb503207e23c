(** C85: a collada animation replays the simulation. *)
From Coq Require Import Lra Lia.
From Verif Require Import Spec_Anim Spec_Step Spec_Dyn Proof_SE3 Proof_Linalg Proof_World Proof_World2 Proof_World3 Proof_Register Proof_World4 Proof_Tree Proof_Step Proof_Sim Proof_Sim2 Proof_Sim3 Proof_Sim5 Proof_Draw Props_Dyn Props_Named Props_Sim2 Props_Draw Props_Draw2 Props_Draw3 Props_Color Props_Color2.
From Verif Require Import Props_Sim Props_Dae Props_Dae4 Proof_Anim Proof_Anim2.
Open Scope R_scope.

(** *** names *)
Lemma named_all str_id nm it chk nm1 r x : name_all_elements str_id nm it chk = (nm1, r) -> In x (match it with IterList l | IterGen l => l end) -> nm1 x <> None.
Proof.
  intros E J. assert (X := C03_names_everything str_id nm it chk x). cbv zeta in X. rewrite E in X. cbn [fst] in X. rewrite X. destruct (nm x); [discriminate | ]. destruct (in_dec _ _ _); [discriminate | contradiction].
Qed.
Lemma named_keeps str_id nm it chk nm1 r : name_all_elements str_id nm it chk = (nm1, r) -> keeps nm nm1.
Proof. intros E x s Ex. assert (X := C03_names_everything str_id nm it chk x). cbv zeta in X. rewrite E in X. cbn [fst] in X. now rewrite X, Ex. Qed.
Lemma scene_named str_id e fuel h flat nm nm1 U : su_e U = e -> (forall bs, iterbodies e (su_fuel U) h = Ok bs -> iterbodies e fuel h = Ok bs) -> (forall js, iterjoints e (su_fuel U) h = Ok js -> iterjoints e fuel h = Ok js) ->
  scene_names str_id e fuel h flat nm = (nm1, Ok tt) -> forall f tg, logged U h flat f tg -> nm1 (id_frame f) <> None.
Proof.
  intros Eu Hb Hj E f tg Lg. unfold scene_names in E.
  destruct (if flat then _ else _) as (nm0, r0) eqn:E0. destruct r0 as [[] | ]; [ | discriminate].
  assert (K := named_keeps _ _ _ _ _ _ E). inversion Lg as [b bs Fl Eb Ib | j js f0 f1 Fl Ej Ij Ef | m Im]; subst.
  - rewrite (Hb _ Eb) in E0. assert (X := named_all _ _ _ _ _ _ (id_frame (FBody b)) E0 (in_map (fun b => id_frame (FBody b)) _ _ Ib)). destruct (nm0 (id_frame (FBody b))) as [s | ] eqn:Es; [ | congruence]. rewrite (K _ _ Es). discriminate.
  - rewrite (Hj _ Ej) in E0. destruct (frames1 h js) as [fs | ] eqn:F1; [ | discriminate]. apply frames1_ok in F1.
    assert (If : In f fs). { clear - F1 Ij Ef. induction F1 as [ | a b l k (g & Eg) _ IH]; [destruct Ij | ]. destruct Ij as [-> | Ij]; [rewrite Ef in Eg; injection Eg as _ ->; now left | right; now apply IH]. }
    assert (X := named_all _ _ _ _ _ _ (id_frame f) E0 (in_map id_frame _ _ If)). destruct (nm0 (id_frame f)) as [s | ] eqn:Es; [ | congruence]. rewrite (K _ _ Es). discriminate.
  - apply (named_all _ _ _ _ _ _ _ E). apply (in_map (fun m => id_frame (FMov m))). unfold itermovingsubframes. apply in_flat_map. exists (FMov m). split; [exact Im | now left].
Qed.
Lemma dic_get_map {A B} (f : A -> B) (d : dic A) s : dic_get (map (fun x => (fst x, f (snd x))) d) s = rmap f (dic_get d s).
Proof. induction d as [ | (k, v) d IH]; cbn; [reflexivity | ]. destruct (String.eqb k s); [reflexivity | exact IH]. Qed.
Lemma nth_rows l k (H : m4) : nth_error l k = Some (Some H) -> nth_error (saved_rows l) k = Some H.
Proof. intros E. unfold saved_rows. now rewrite nth_error_map, E. Qed.
Lemma link_known S g0 h t f0 j f1 : reachable 0 (ds_e S) g0 h -> rep (ds_e S) h t -> tree_link h t f0 j f1 -> in_world (ds_e S) h t f1.
Proof.
  intros Rc Rt Lk. destruct (link_bodies _ _ _ _ _ _ Rt Lk) as (_ & I1 & _). split; [rewrite bodies_tail; now right | ].
  destruct Lk as (Ij & Ef). destruct (subtree_joint t j Ij) as (b & ks & u & Su & Iu). assert (Rb := subtree_rep (ds_e S) h _ _ Su Rt). apply rep_inv in Rb. destruct Rb as (Eb & _). cbn in Eb.
  refine (proj2 (reachable_frames_known 0 (ds_e S) g0 h Rc b j f0 f1 _ Ef)). rewrite Eb. change j with (fst (j, u)). now apply in_map.
Qed.

(** the bodies seen at a step are posed: what C39_poses says of update_dynamic, with the current place of the moving frames *)
Lemma step_posed U O t0 ts obs x k v g0 t : let h := s_heap (w_s (sm_w x)) in let w := w_v (sm_w v) in
  reachable 0 (su_e U) g0 h -> rep (su_e U) h t -> root t = ground (su_e U) -> (height t < su_fuel U)%nat ->
  (forall j, In j (joints t) -> jndof (su_e U) j = ndof_of (s_ty (w_s (sm_w x)) j)) -> at_step U O t0 ts obs x k v -> rigid_scene (su_e U) (su_sc U) t (joints_of (v_s w)) ->
  a_pose (v_st w (ground (su_e U))) = Some eye4 /\
  (forall f, In (frame_body (su_e U) f) (bodies t) -> exists H, SE3 H /\ a_pose (v_st w (frame_body (su_e U) f)) = Some H /\ frame_pose (su_e U) (scene_of U w) (v_st w) f = Ok (mm4 H (bpose (scene_of U w) f))) /\
  (forall f0 j f1, tree_link h t f0 j f1 -> (forall m, f0 <> FMov m) -> (forall m, f1 <> FMov m) ->
     exists F0, frame_pose (su_e U) (scene_of U w) (v_st w) f0 = Ok F0 /\ frame_pose (su_e U) (scene_of U w) (v_st w) f1 = Ok (mm4 F0 (Model_Joints.pose (joints_of (v_s w) j)))).
Proof.
  intros h w Rc Rt Er F Hty As Ri. destruct (step_current U O t0 ts obs x k v g0 t Rc Rt Er F Hty As) as (G & Lv & _ & _ & st & dd & Ud). fold w in Ud. change (w_s (sm_w v)) with (v_s w) in Ud.
  destruct (C39_poses (su_e U) (su_sc U) (heap_of v) t (joints_of (v_s w)) (su_fuel U) st (proj1 Lv) Ri F) as (sg & sd & d' & _ & Ud' & Fp & Gp & Jp & _). rewrite Ud in Ud'. injection Ud' as <- _.
  assert (Q : forall f, (forall m, f <> FMov m) -> bpose (scene_of U w) f = bpose (su_sc U) f). { intros [b | s | m] N; cbn [bpose]; [reflexivity | now rewrite scene_of_sub | destruct (N m eq_refl)]. }
  assert (Sg : In (ground (su_e U)) (bodies t)) by (rewrite bodies_tail, Er; now left).
  assert (Fq : forall f, In (frame_body (su_e U) f) (bodies t) -> exists H, SE3 H /\ a_pose (v_st w (frame_body (su_e U) f)) = Some H /\ frame_pose (su_e U) (scene_of U w) (v_st w) f = Ok (mm4 H (bpose (scene_of U w) f))).
  { intros f If. destruct (Fp f If) as (H & SH & _ & E2 & _). exists H. split; [exact SH | ]. split; [exact E2 | ]. unfold frame_pose. rewrite E2. cbn [get rbind]. destruct f as [b | s | m]; [cbn [bpose]; now rewrite eye_r | reflexivity | reflexivity]. }
  split; [ | split; [exact Fq | ]].
  - destruct (Fp (FBody (ground (su_e U))) Sg) as (H & _ & E1 & E2 & _). cbn [frame_body] in E1, E2. rewrite Gp in E1. injection E1 as <-. exact E2.
  - intros f0 j f1 (Ij & Ef) N0 N1. assert (Ef' : jframes (heap_of v) j = Some (f0, f1)) by (rewrite (proj1 (proj2 G)); exact Ef).
    destruct (Jp j f0 f1 Ij Ef') as (F0 & F1 & I0 & I1 & E0 & E1 & EF). destruct (Fp f0 I0) as (H0 & _ & _ & _ & P0 & _), (Fp f1 I1) as (H1 & _ & _ & _ & P1 & _).
    destruct (Fp f0 I0) as (H0' & _ & A0 & A0' & _), (Fp f1 I1) as (H1' & _ & A1 & A1' & _). destruct (Fq f0 I0) as (K0 & _ & B0 & C0), (Fq f1 I1) as (K1 & _ & B1 & C1).
    rewrite A0' in B0. injection B0 as <-. rewrite A1' in B1. injection B1 as <-. exists F0. rewrite C0, C1, (Q f0 N0), (Q f1 N1).
    assert (X0 : mm4 H0' (bpose (su_sc U) f0) = F0). { unfold frame_pose in E0. rewrite A0 in E0. cbn [get rbind] in E0. destruct f0; [cbn [bpose]; rewrite eye_r; now apply Ok_inj in E0 | now apply Ok_inj in E0 | now apply Ok_inj in E0]. }
    assert (X1 : mm4 H1' (bpose (su_sc U) f1) = F1). { unfold frame_pose in E1. rewrite A1 in E1. cbn [get rbind] in E1. destruct f1; [cbn [bpose]; rewrite eye_r; now apply Ok_inj in E1 | now apply Ok_inj in E1 | now apply Ok_inj in E1]. }
    split; [now rewrite X0 | now rewrite X1, EF].
Qed.

(** what write_collada_scene writes, when the naming does not refuse the names *)
Lemma scene_written argsort eigvals eig daenim str_id S geo flat g0 h t fuel up cg scale update nm nm1 : argsort_ok argsort -> showable S g0 h t fuel cg ->
  scene_names str_id (ds_e S) fuel h flat nm = (nm1, Ok tt) ->
  exists cs st, world_update_geometric (ds_e S) (ds_sc S) h (ds_J S) fuel (ds_st S) = Ok st /\ drawable_world (named_scene S nm1 st) g0 h t fuel cs /\
    write_collada_scene argsort eigvals eig daenim str_id S geo flat fuel h up cg scale update nm =
      (nm1, rmap (fun D => (named_scene S nm1 st, D)) (dae_world argsort eigvals eig daenim (named_scene S nm1 st) geo flat fuel h up cs scale update)).
Proof.
  intros Ha (Rc & Rd & Ri & F & Cg & Dj & Mv & Kn & Iv) En.
  destruct (C39_poses (ds_e S) (ds_sc S) h t (ds_J S) fuel (ds_st S) Rd Ri F) as (st & sd & dd & Ug & _).
  destruct (world_iterators (ds_e S) h (reachable_forest 0 _ _ _ Rc)) as (t2 & R2 & E2 & N2 & _ & It). assert (t2 = t) by (apply (rep_unique (ds_e S) h t2 t R2 (proj1 Rd)); rewrite E2; symmetry; apply Rd). subst t2. destruct (It fuel) as (It' & _). destruct (It' F) as (Ib & _).
  assert (C : exists cs, match cg with Some cs => Ok cs | None => let* bs := iterbodies (ds_e S) fuel h in new_colors [] (length bs) end = Ok cs /\ exists m nb, new_colors m nb = Ok cs).
  { destruct cg as [cs | ]; [exists cs; split; [reflexivity | now apply Cg] | ]. rewrite Ib. cbn [rbind]. destruct (new_ok [] (length (bodies t)) ltac:(constructor)) as (cs & Ec & _). exists cs. split; [exact Ec | eauto]. }
  destruct C as (cs & Ec & Nc). exists cs, st. split; [exact Ug | ]. split.
  - split; [exact Rc | ]. split; [exact Rd | ]. split; [exact Ri | ]. split; [exact F | ]. split; [exact Nc | ]. split; [intros j f0 k Ij Ef; destruct (Dj j f0 (FMov k) k Ij Ef) as (_ & Q); now apply Q | ]. split; [exact Kn | ]. split; [exact Iv | ]. exists (ds_st S). exact Ug.
  - unfold write_collada_scene. rewrite En. f_equal. rewrite Ec. cbn [rbind]. rewrite Ug. cbn [rbind]. destruct (dae_world _ _ _ _ _ _ _ _ _ _ _ _ _); reflexivity.
Qed.

(** A world is drawn by write_collada_scene, then simulated with a SaveLogger of the same mode that saves the transforms, then
    write_collada_animation is given both files.  The instants of the animation are those of the steps; at the k-th one the node of
    each frame of the world, moving subframes included, is shown where the frame was at this step. *)
Theorem C85_animation : forall argsort eigvals eig daenim str_id S geo flat g0 t fuel up cg scale update nm S1 D U O t0 ts obs x y i o g ext ft A,
  let h := s_heap (w_s (sm_w x)) in
  argsort_ok argsort -> showable S g0 h t fuel cg -> writable eigvals eig S1 geo h t up ->
  write_collada_scene argsort eigvals eig daenim str_id S geo flat fuel h up cg scale update nm = (sm_names x, Ok (S1, D)) ->
  well_named daenim S1 geo h t ->
  su_e U = ds_e S -> sub_bpose (su_sc U) = sub_bpose (ds_sc S) -> (height t < su_fuel U)%nat -> (forall j, In j (joints t) -> jndof (su_e U) j = ndof_of (s_ty (w_s (sm_w x)) j)) ->
  NoDup obs -> In i obs -> O i = OLog o -> lo_transforms o = true -> lo_flat o = flat ->
  simulate U O (t0 :: ts) (IterList obs) x = (y, Ok tt) -> sm_obs y i = MLog g -> write_collada_animation D g ext ft = Ok A ->
  an_doc A = D /\ an_time A = removelast (t0 :: ts) /\
  forall k v, at_step U O t0 ts obs x k v -> let w := w_v (sm_w v) in rigid_scene (su_e U) (su_sc U) t (joints_of (v_s w)) ->
    forall f, in_world (ds_e S) h t f -> exists n P, d_frames (da_draw D) f = Some n /\ frame_pose (ds_e S) (scene_of U w) (v_st w) f = Ok P /\ forall Q, shown A k n Q <-> Q = P.
Proof.
  intros argsort eigvals eig daenim str_id S geo flat g0 t fuel up cg scale update nm S1 D U O t0 ts obs x y i o g ext ft A h Ha Sh Wr Ws Wn Eu Es Fu Hty No Hi Ei Ht Ef Sm Eg Wa.
  (* the scene *)
  destruct (scene_names str_id (ds_e S) fuel h flat nm) as (nm1, r) eqn:En. assert (Er : nm1 = sm_names x /\ r = Ok tt).
  { unfold write_collada_scene in Ws. rewrite En in Ws. destruct r as [[] | ]; [ | discriminate]. injection Ws as -> _. auto. } destruct Er as (-> & ->).
  destruct (scene_written argsort eigvals eig daenim str_id S geo flat g0 h t fuel up cg scale update nm _ Ha Sh En) as (cs & st & Ug & Dw & Ew). rewrite Ew in Ws. injection Ws as Ws.
  set (S2 := named_scene S (sm_names x) st) in *. destruct (dae_world argsort eigvals eig daenim S2 geo flat fuel h up cs scale update) as [D2 | ] eqn:ED; [ | discriminate]. injection Ws as <- <-. rename D2 into D.
  destruct Sh as (Rc & Rd & Ri & F & _ & Dj & Mv & _ & Iv). assert (Rt := proj1 Rd). assert (Ero := proj1 (proj2 Rd)). assert (Nb := proj1 (proj2 (proj2 Rd))).
  destruct (world_iterators (ds_e S) h (reachable_forest 0 _ _ _ Rc)) as (t2 & R2 & E2 & N2 & _ & It). assert (t2 = t) by (apply (rep_unique (ds_e S) h t2 t R2 Rt); congruence). subst t2. destruct (It fuel) as (It1 & _). destruct (It1 F) as (Ib0 & Ij0). destruct (It (su_fuel U)) as (It2 & _). destruct (It2 Fu) as (Ib & Ij). clear It It1 It2.
  destruct (written argsort eigvals eig daenim S2 geo flat g0 h t fuel up cs scale update Ha Dw Wr) as (D' & ED' & _ & Ed & _). rewrite ED in ED'. apply Ok_inj in ED'. subst D'.
  destruct (drawn S2 flat g0 h t fuel cs Dw) as (d & evs & Ed' & _ & _ & _ & Fr & _ & _ & _ & _ & _ & _ & DI). rewrite Ed in Ed'. apply Ok_inj in Ed'. subst d.
  destruct Wn as (Dn & Ne & Ng). destruct (C84_ids argsort eigvals eig daenim S2 geo flat g0 h t fuel up cs scale update Ha Dw Wr Dn) as (D' & ED' & _ & Ids & _). rewrite ED in ED'. apply Ok_inj in ED'. subst D'.
  change (ds_e S2) with (ds_e S) in *. assert (Nm : forall f, ds_nm S2 (OFrame f) = sm_names x (id_frame f)) by reflexivity.
  (* the logged frames *)
  assert (Nl : forall f tg, logged U h flat f tg -> sm_names x (id_frame f) <> None).
  { apply (scene_named str_id (ds_e S) fuel h flat nm (sm_names x) U Eu); [intros bs Q; rewrite Ib in Q; congruence | intros js Q; rewrite Ij in Q; congruence | exact En]. }
  assert (Lw : forall f tg, logged U h flat f tg -> in_world (ds_e S) h t f).
  { intros f tg Lg. inversion Lg as [b bs Fl Eb Hb | j js f0 f1 Fl Ej Hj Ef' | m Im]; subst.
    - rewrite Eu, Ib in Eb. injection Eb as <-. split; [exact Hb | exact Logic.I].
    - rewrite Eu, Ij in Ej. injection Ej as <-. exact (link_known S g0 h t f0 j f Rc Rt (conj Hj Ef')).
    - split; [exact (Mv m Im) | exact Im]. }
  assert (Lf : forall f tg tg', logged U h flat f tg -> logged U h flat f tg' -> tg = tg').
  { intros f tg tg' L1 L2. inversion L1 as [b bs Fl Eb Hb | j js f0 f1 Fl Ej Hj Ef1 | m Im]; subst; inversion L2 as [b' bs' Fl' Eb' Hb' | j' js' f0' f1' Fl' Ej' Hj' Ef2 | m' Im']; subst; try congruence.
    - rewrite Eu, Ij in Ej, Ej'. injection Ej as <-. injection Ej' as <-. destruct (link_bodies _ _ _ _ _ _ Rt (conj Hj Ef1 : tree_link h t f0 j f)) as (_ & _ & Q1), (link_bodies _ _ _ _ _ _ Rt (conj Hj' Ef2 : tree_link h t f0' j' f)) as (_ & _ & Q2). congruence.
    - rewrite Eu, Ij in Ej. injection Ej as <-. destruct (Dj _ _ _ m' Hj Ef1) as (_ & Q). congruence.
    - rewrite Eu, Ij in Ej'. injection Ej' as <-. destruct (Dj _ _ _ m Hj' Ef2) as (_ & Q). congruence. }
  set (gnd := FBody (ground (ds_e S))).
  assert (Inj : forall f f' s, in_world (ds_e S) h t f -> in_world (ds_e S) h t f' -> sm_names x (id_frame f) = Some s -> sm_names x (id_frame f') = Some s -> f = f').
  { intros f f' s If If' N1 N2'. destruct (frame_eq_dec f gnd) as [G | G], (frame_eq_dec f' gnd) as [G' | G']; [congruence | | | ].
    - subst f. destruct (Ng f' (proj1 If') (proj2 If') G') as (_ & Q). rewrite !Nm in Q. exfalso. apply Q; [congruence | ]. fold gnd. congruence.
    - subst f'. destruct (Ng f (proj1 If) (proj2 If) G) as (_ & Q). rewrite !Nm in Q. exfalso. apply Q; [congruence | ]. fold gnd. congruence.
    - assert (X : TFrame f = TFrame f'); [ | now injection X]. apply (Dn (TFrame f) (TFrame f') s); [split; [apply If | split; [apply If | exact G]] | split; [apply If' | split; [apply If' | exact G']] | exact N1 | exact N2' | ]. intros ->. exact (Ne f (proj1 If) (proj2 If) N1). }
  (* the log *)
  destruct (C20_logger_partial U O t0 ts obs x y i o No Hi Ei Sm) as (g' & Eg' & Tm & _ & _ & Tr). rewrite Eg in Eg'. injection Eg' as <-. destruct (Tr Ht) as (T1 & _ & T3). rewrite Ef in *. fold h in T1, T3.
  assert (Ky : keeps (sm_names x) (sm_names y)).
  { assert (X : forall a l b, performed (interp U O (t0 :: ts)) a l b -> keeps (sm_names a) (sm_names b)). { induction 1 as [z | z c z1 l b E _ IH]; [apply keeps_refl | ]. eapply keeps_trans; [exact (proj1 (interp_frame _ _ _ _ _ _ _ E)) | exact IH]. }
    destruct (C18_schedule U O t0 ts obs x y) as (Y & _ & _). exact (X _ _ _ (proj1 Y Sm)). }
  assert (Fn : forall f tg, logged U h flat f tg -> exists s, sm_names x (id_frame f) = Some s /\ name_of (sm_names y) (id_frame f) = s).
  { intros f tg Lg. destruct (sm_names x (id_frame f)) as [s | ] eqn:E; [ | destruct (Nl f tg Lg E)]. exists s. split; [reflexivity | ]. exact (proj1 (name_of_keeps _ _ _ _ Ky E)). }
  (* the animation *)
  unfold write_collada_animation in Wa. destruct (existsb _ _); [ | discriminate]. injection Wa as <-. unfold animation_from_transforms. cbn [an_doc an_time].
  split; [reflexivity | ]. split. { rewrite Tm. unfold saved_times. rewrite map_map. apply map_id. }
  intros k v As Rv f If. set (w := w_v (sm_w v)) in *.
  destruct (step_posed U O t0 ts obs x k v g0 t) as (Gp & Fp & Jp); [rewrite Eu; exact Rc | rewrite Eu; exact Rt | rewrite Eu; exact Ero | exact Fu | exact Hty | exact As | exact Rv | ]. fold w in Gp, Fp, Jp. fold h in Jp. rewrite Eu in Gp, Fp, Jp.
  destruct (anim_poses S2 flat h t (da_draw D) U w DI Rt) as ((pz & An) & At); try assumption.
  { intros j f0 m Ij' Ef'. destruct (Dj j f0 (FMov m) m Ij' Ef') as (_ & Q). now apply Q. }
  { intros f'. change (ds_e S2) with (ds_e S). rewrite <- (Fr f'). split; [intros Q; destruct (d_frames (da_draw D) f') as [n | ]; [now exists n | congruence] | intros (n & ->); discriminate]. }
  { intros s. rewrite scene_of_sub, Es. exact (proj1 Ri (FSub s)). }
  { intros f0 j f1 (Ij' & Ef'). apply Jp; [split; assumption | intros m Q; destruct (Dj j f0 f1 m Ij' Ef'); contradiction | intros m Q; destruct (Dj j f0 f1 m Ij' Ef'); contradiction]. }
  set (A := Anim D (saved_times (lg_time g)) (map (fun z => (fst z, saved_rows (snd z))) (lg_tr g))).
  (* the channels *)
  assert (Ch : forall f tg, logged U h flat f tg -> exists s M H, sm_names x (id_frame f) = Some s /\ dic_get (an_chan A) s = Ok M /\ nth_error M k = Some H /\ target_pose U w flat tg = Ok H).
  { intros f' tg Lg. destruct (Fn f' tg Lg) as (s & E1 & E3). destruct (T1 f' tg Lg) as (M & EM & _ & Row).
    - intros f2 tg2 Lg2 Eq. destruct (Fn f2 tg2 Lg2) as (s2' & E1' & E3'). rewrite E3, E3' in Eq. subst s2'. assert (f2 = f') by (apply (Inj f2 f' s); [exact (Lw _ _ Lg2) | exact (Lw _ _ Lg) | exact E1' | exact E1]). subst f2. exact (Lf _ _ _ Lg2 Lg).
    - destruct (Row k v As) as (H & EH & Nth). exists s, (saved_rows M), H. split; [exact E1 | ]. split; [ | split; [exact (nth_rows _ _ _ Nth) | exact EH]]. cbn [an_chan A]. rewrite dic_get_map. rewrite <- E3, EM. reflexivity. }
  assert (Ch' : forall s M, dic_get (an_chan A) s = Ok M -> exists f tg, logged U h flat f tg /\ sm_names x (id_frame f) = Some s).
  { intros s M E. cbn [an_chan A] in E. rewrite dic_get_map in E. destruct (dic_get (lg_tr g) s) as [M0 | ] eqn:E0; [ | discriminate]. destruct (T3 s M0 E0) as (f' & tg & Lg & En' & _). exists f', tg. split; [exact Lg | ]. destruct (Fn f' tg Lg) as (s' & E1 & E3). congruence. }
  assert (Nod : forall n z, In (n, z) (d_nodes (da_draw D)) -> in_world (ds_e S) h t (n_frame z) /\ n_frame z <> gnd /\ node_id D n = nonempty (sm_names x (id_frame (n_frame z)))).
  { intros n z J. destruct (s1 _ _ _ _ _ _ (proj1 DI) n z J) as (Q & _ & E1 & _). assert (Iw : in_world (ds_e S) h t (n_frame z)) by (apply Fr; eauto). assert (G : n_frame z <> gnd). { intros E. assert (Z := s0 _ _ _ _ _ _ (proj1 DI)). change (FBody (ground (ds_e S2))) with gnd in Z. rewrite <- E, E1 in Z. injection Z as ->. lia. }
    split; [exact Iw | ]. split; [exact G | ]. destruct (Ids (n_frame z) Iw G) as (n' & _ & E1' & Eid). rewrite E1 in E1'. injection E1' as <-. exact Eid. }
  assert (Cc : forall n z, In (n, z) (d_nodes (da_draw D)) -> n_const z = true -> forall M, ~ channel A n M).
  { intros n z J Ek M (s & Es' & EM). destruct (Nod n z J) as (Iw & G & Eid). change (an_doc A) with D in Es'. rewrite Eid in Es'. destruct (Ch' s M EM) as (f' & tg & Lg & En').
    assert (Ez : sm_names x (id_frame (n_frame z)) = Some s). { destruct (sm_names x (id_frame (n_frame z))) as [[ | a s'] | ]; cbn in Es'; congruence. }
    assert (f' = n_frame z) by (apply (Inj f' (n_frame z) s); [exact (Lw _ _ Lg) | exact Iw | exact En' | exact Ez]). subst f'. exact (const_not_logged S2 flat h t (da_draw D) U DI Rt Ero Nb Eu Ij n z J Ek tg Lg). }
  assert (Cm : forall n z, In (n, z) (d_nodes (da_draw D)) -> n_const z = false -> exists M, channel A n M /\ nth_error M k = Some (pz z)).
  { intros n z J Ek. assert (Az := An n z J). rewrite Ek in Az. destruct Az as (tg & Lg & Et). destruct (Ch _ _ Lg) as (s & M & H & E1 & EM & Nth & EH). rewrite Et in EH. apply Ok_inj in EH. subst H. exists M. split; [ | exact Nth]. exists s. split; [ | exact EM].
    destruct (Nod n z J) as (Iw & G & Eid). change (an_doc A) with D. rewrite Eid, E1. destruct s; [ | reflexivity]. destruct (Ne (n_frame z) (proj1 Iw) (proj2 Iw)). exact E1. }
  assert (Cg : forall M, channel A 0 M -> nth_error M k = Some eye4).
  { intros M (s & Es' & EM). cbn in Es'. injection Es' as <-. destruct (Ch' _ M EM) as (f' & tg & Lg & En'). assert (Iw := Lw _ _ Lg). destruct (frame_eq_dec f' gnd) as [-> | G]; [ | destruct (Ng f' (proj1 Iw) (proj2 Iw) G) as (Q & _); now destruct Q].
    destruct (Ch _ _ Lg) as (s & M' & H & E1 & EM' & Nth & EH). rewrite En' in E1. injection E1 as <-. rewrite EM in EM'. apply Ok_inj in EM'. subst M'. rewrite Nth. f_equal.
    inversion Lg as [b bs Fl Eb Hb Q0 | j js f0 f1 Fl Ej Hj Ef' Q0 | m Im]; subst.
    - cbn [target_pose] in EH. rewrite Eu in EH. unfold frame_pose in EH. cbn [frame_body] in EH. rewrite Gp in EH. cbn in EH. now apply Ok_inj in EH.
    - exfalso. rewrite Eu, Ij in Ej. injection Ej as <-. destruct (link_bodies _ _ _ _ _ _ Rt (conj Hj Ef' : tree_link h t f0 j gnd)) as (_ & Tb & _). cbn [gnd frame_body] in Tb. rewrite <- Ero in Tb. rewrite bodies_tail in Nb. inversion Nb; contradiction. }
  assert (Fun : forall n M M', channel A n M -> channel A n M' -> M = M') by (intros n M M' (s & E1 & E3) (s' & E1' & E3'); congruence).
  assert (Eqv : forall n Q, shown A k n Q <-> at_pose pz (d_nodes (da_draw D)) n Q).
  { intros n Q. split.
    - induction 1 as [_ | M H C N | n z P J C _ IH | n z M H P J C N _ IH].
      + constructor.
      + rewrite (Cg M C) in N. injection N as <-. constructor.
      + assert (Ez : pz z = n_pose z). { assert (Az := An n z J). destruct (n_const z) eqn:Ek; [exact Az | ]. destruct (Cm n z J Ek) as (M & CM & _). destruct (C M CM). } rewrite <- Ez. now constructor.
      + assert (Ez : pz z = H). { destruct (n_const z) eqn:Ek; [destruct (Cc n z J Ek M C) | ]. destruct (Cm n z J Ek) as (M' & CM & Nth). rewrite (Fun _ _ _ CM C), N in Nth. now injection Nth. } rewrite <- Ez. now constructor.
    - induction 1 as [ | n z P J _ IH].
      + destruct (dic_get (an_chan A) "ground"%string) as [M | e] eqn:E.
        * assert (C : channel A 0 M) by (exists "ground"%string; split; [reflexivity | exact E]). exact (shown_ground_moved A k M eye4 C (Cg M C)).
        * apply shown_ground. intros M (s & Es' & EM). cbn in Es'. injection Es' as <-. change ground_id with "ground"%string in EM. rewrite E in EM. discriminate.
      + destruct (n_const z) eqn:Ek.
        * assert (Az := An n z J). rewrite Ek in Az. rewrite Az. apply shown_still; [exact J | exact (Cc n z J Ek) | exact IH].
        * destruct (Cm n z J Ek) as (M & C & N). exact (shown_moved A k n z M (pz z) P J C N IH). }
  destruct (At pz An f If) as (n & P & Ef' & EP & HP). exists n, P. split; [exact Ef' | ]. split; [exact EP | ]. intros Q. rewrite Eqv. apply HP.
Qed.
Print Assumptions C85_animation.
