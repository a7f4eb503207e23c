(** C87: the viewer shows the simulation as it runs. *)
From Coq Require Import Lra Lia.
From Verif Require Import Spec_Com Spec_Step Spec_Dyn Proof_SE3 Proof_Linalg Proof_World Proof_World2 Proof_World3 Proof_Register Proof_World4 Proof_Tree Proof_Step Proof_Joints Proof_Sim Proof_Sim2 Proof_Sim3 Proof_Sim5 Proof_Draw Props_Dyn Props_Named Props_Sim2 Props_Draw Props_Draw2 Props_Draw3.
From Verif Require Import Props_Sim Props_Sim5 Props_Sim6 Props_Dae Props_Dae4 Proof_Anim Proof_Anim2 Props_Anim Proof_Com Props_Com.
Open Scope R_scope.
Open Scope list_scope.

Lemma rmapM_ok {A B} (f : A -> res B) (g : A -> B) l : (forall x, In x l -> f x = Ok (g x)) -> rmapM f l = Ok (map g l).
Proof. induction l as [ | x l IH]; intros H; [reflexivity | ]. cbn [rmapM map]. rewrite (H x (or_introl eq_refl)). cbn [rbind]. rewrite IH by (intros y J; apply H; now right). reflexivity. Qed.
Lemma dic_get_only {A} (d : dic A) k v : In (k, v) d -> (forall w, In (k, w) d -> w = v) -> dic_get d k = Ok v.
Proof.
  induction d as [ | (a, b) d IH]; intros J H; [destruct J | ]. cbn [dic_get]. destruct (String.eqb_spec a k) as [-> | N]; [rewrite (H b (or_introl eq_refl)); reflexivity | ].
  apply IH; [destruct J as [Q | J]; [injection Q as -> _; congruence | exact J] | intros w Jw; apply H; now right].
Qed.
Lemma SE3_affine H : SE3 H -> affine H.
Proof. intros (_ & B & C). split; assumption. Qed.
Lemma mm4_affine A B : affine A -> affine B -> affine (mm4 A B).
Proof. intros (A1 & A2) (B1 & B2). destruct A as [[] [] a b], B as [[] [] c d]. cbn in *. subst. unfold affine. split; unf; cbn; [f_equal | ]; ring. Qed.

(** A world is drawn by write_collada_scene (with the driver of the viewer or not) and then simulated.  At each step a DaenimCom of the
    same mode sends a message of one line for each moved object (for each body or each joint and each MovingSubFrame), and whoever reads
    these lines finds their names and their current poses, rounded.  The names must be words. *)
Theorem C87_message : forall argsort eigvals eig daenim str_id S geo flat g0 t fuel up cg scale update nm S1 D U O t0 ts obs x k v str num rnd,
  let h := s_heap (w_s (sm_w x)) in
  argsort_ok argsort -> showable S g0 h t fuel cg -> writable eigvals eig S1 geo h t up ->
  write_collada_scene argsort eigvals eig daenim str_id S geo flat fuel h up cg scale update nm = (sm_names x, Ok (S1, D)) ->
  well_named daenim S1 geo h t ->
  su_e U = ds_e S -> sub_bpose (su_sc U) = sub_bpose (ds_sc S) -> (height t < su_fuel U)%nat -> (forall j, In j (joints t) -> jndof (su_e U) j = ndof_of (s_ty (w_s (sm_w x)) j)) ->
  at_step U O t0 ts obs x k v -> let w := w_v (sm_w v) in rigid_scene (su_e U) (su_sc U) t (joints_of (v_s w)) ->
  reads str num rnd -> (forall f tg s, logged U h flat f tg -> sm_names x (id_frame f) = Some s -> word s) ->
  exists msg rows, daenim_message str U flat (sm_names v) w = Ok msg /\ read_message num msg = map (fun r => (fst r, rounded rnd (snd r))) rows /\
    length rows = (length (if flat then bodies t else joints t) + length (itermovingsubframes h))%nat /\
    (forall f tg, logged U h flat f tg -> exists s H, sm_names x (id_frame f) = Some s /\ target_pose U w flat tg = Ok H /\ In (s, H) rows) /\
    (forall s H, In (s, H) rows -> exists f tg, logged U h flat f tg /\ sm_names x (id_frame f) = Some s /\ target_pose U w flat tg = Ok H).
Proof.
  intros argsort eigvals eig daenim str_id S geo flat g0 t fuel up cg scale update nm S1 D U O t0 ts obs x k v str num rnd h Ha Sh Wr Ws Wn Eu Es Fu Hty As w Rv Ex Wd.
  destruct (logged_facts argsort eigvals eig daenim str_id S geo flat g0 t fuel up cg scale update nm S1 D U O t0 ts obs x k v (Anim D [] []) Ha Sh Wr Ws Wn Eu Es Fu Hty As Rv) as (Nl & Lw & Lf & Inj). fold h in Nl, Lw, Lf, Inj.
  assert (Sh' := Sh). destruct Sh' as (Rc & Rd & Ri & F & _ & Dj & Mv & _ & Iv). fold h in Rc, Rd, Dj, Mv. assert (Rt := proj1 Rd). assert (Ero := proj1 (proj2 Rd)).
  destruct (world_iterators (ds_e S) h (reachable_forest 0 _ _ _ Rc)) as (t2 & R2 & E2 & N2 & _ & It). assert (t2 = t) by (apply (rep_unique (ds_e S) h t2 t R2 Rt); congruence). subst t2. destruct (It (su_fuel U)) as (It1 & _). destruct (It1 Fu) as (Ib & Ij). clear It It1.
  destruct (step_posed U O t0 ts obs x k v g0 t) as (_ & Fp & _); [rewrite Eu; exact Rc | rewrite Eu; exact Rt | rewrite Eu; exact Ero | exact Fu | exact Hty | exact As | exact Rv | ]. fold w in Fp. rewrite Eu in Fp.
  destruct (step_current U O t0 ts obs x k v g0 t) as (So & _ & _ & Kp & _); [rewrite Eu; exact Rc | rewrite Eu; exact Rt | rewrite Eu; exact Ero | exact Fu | exact Hty | exact As | ]. fold h in So.
  (* the objects *)
  set (f1 := fun j => match jframes h j with Some (_, f) => f | None => FBody 0 end).
  set (objs := (if flat then map (fun b => (FBody b, TBody b)) (bodies t) else map (fun j => (f1 j, TJoint j)) (joints t)) ++ map (fun m => (FMov m, TMov m)) (itermovingsubframes h)).
  assert (Fj : forall j, In j (joints t) -> exists f0, jframes h j = Some (f0, f1 j)).
  { intros j J. destruct (subtree_joint t j J) as (b & ks & u & Su & Iu). assert (Rb := subtree_rep (ds_e S) h _ _ Su Rt). inversion Rb as [? ? _ Fk]; subst. rewrite Forall_forall in Fk. destruct (Fk _ Iu) as (((f0 & f1' & Ef & _) & _) & _). cbn [fst] in Ef. exists f0. unfold f1. now rewrite Ef. }
  assert (Ims : forall m, In m (itermovingsubframes h) <-> In (FMov m) (w_subframes h)).
  { intros m. unfold itermovingsubframes. rewrite in_flat_map. split; [intros ([b | s | m'] & J & K); cbn in K; try contradiction; destruct K as [<- | []]; exact J | intros J; exists (FMov m); split; [exact J | now left]]. }
  assert (Ol : forall f tg, In (f, tg) objs <-> logged U h flat f tg).
  { intros f tg. unfold objs. rewrite in_app_iff. split.
    - intros [J | J].
      + destruct flat; apply in_map_iff in J; destruct J as (a & Q & J); injection Q as <- <-.
        * eapply logged_body; [reflexivity | rewrite Eu; exact Ib | exact J].
        * destruct (Fj a J) as (f0 & Ef). eapply logged_joint; [reflexivity | rewrite Eu; exact Ij | exact J | exact Ef].
      + apply in_map_iff in J. destruct J as (m & Q & J). injection Q as <- <-. apply logged_mov. now apply Ims.
    - intros L. inversion L as [b bs Fl Eb Hb | j js f0 f' Fl Ej Hj Ef | m Im]; subst.
      + left. rewrite Eu, Ib in Eb. injection Eb as <-. apply in_map_iff. now exists b.
      + left. rewrite Eu, Ij in Ej. injection Ej as <-. apply in_map_iff. exists j. split; [ | exact Hj]. unfold f1. now rewrite Ef.
      + right. apply in_map_iff. exists m. split; [reflexivity | now apply Ims]. }
  assert (Tp : forall f tg, logged U h flat f tg -> exists H, target_pose U w flat tg = Ok H).
  { intros f tg L. inversion L as [b bs Fl Eb Hb | j js f0 f' Fl Ej Hj Ef | m Im]; subst; cbn [target_pose].
    - rewrite Eu, Ib in Eb. injection Eb as <-. destruct (Fp (FBody b) Hb) as (H & SH & _ & E). rewrite Eu, E. eexists. reflexivity.
    - eexists. reflexivity.
    - destruct flat; [ | eexists; reflexivity]. destruct (Fp (FMov m) (Mv m Im)) as (H & SH & _ & E). rewrite Eu, E. eexists. reflexivity. }
  set (tp := fun tg => match target_pose U w flat tg with Ok H => H | Err _ => eye4 end).
  assert (Tq : forall f tg, logged U h flat f tg -> target_pose U w flat tg = Ok (tp tg)) by (intros f tg L; unfold tp; destruct (Tp f tg L) as (H & ->); auto).
  set (nm1 := fun f => match sm_names x (id_frame f) with Some s => s | None => EmptyString end).
  assert (Nn : forall f tg, logged U h flat f tg -> sm_names x (id_frame f) = Some (nm1 f) /\ name_str (sm_names v) (id_frame f) = Ok (nm1 f)).
  { intros f tg L. unfold nm1, name_str. destruct (sm_names x (id_frame f)) as [s | ] eqn:E; [ | destruct (Nl f tg L E)]. now rewrite (Kp _ _ E). }
  set (xs := map (fun y => (nm1 (fst y), tp (snd y))) objs).
  assert (Em : daenim_message str U flat (sm_names v) w = Ok (String.concat EmptyString (map (fun y => packing_transform str (fst y) (snd y)) xs))).
  { unfold daenim_message. change (s_heap (v_s w)) with (heap_of v). rewrite (iter_same _ _ _ _ So), (bodies_same _ _ _ _ So), Eu, Ib, Ij. cbn [rbind].
    assert (Ei : itermovingsubframes (heap_of v) = itermovingsubframes h) by (unfold itermovingsubframes; f_equal; apply So). rewrite Ei.
    rewrite (rmapM_ok _ (fun m => packing_transform str (nm1 (FMov m)) (tp (TMov m))) (itermovingsubframes h)).
    2: { intros m J. assert (L : logged U h flat (FMov m) (TMov m)) by (apply logged_mov; now apply Ims). assert (T := Tq _ _ L). cbn [target_pose] in T. rewrite Eu in T. rewrite T. cbn [rbind]. rewrite (proj2 (Nn _ _ L)). reflexivity. }
    assert (E1 : (if flat then rmapM (fun b => let* H := frame_pose (ds_e S) (scene_of U w) (v_st w) (FBody b) in let* s := name_str (sm_names v) (id_frame (FBody b)) in Ok (packing_transform str s H)) (bodies t)
       else rmapM (fun j => match jframes (heap_of v) j with None => Err AttributeError | Some (_, f1) => let* s := name_str (sm_names v) (id_frame f1) in Ok (packing_transform str s (Model_Joints.pose (joints_of (v_s w) j))) end) (joints t))
       = Ok (if flat then map (fun b => packing_transform str (nm1 (FBody b)) (tp (TBody b))) (bodies t) else map (fun j => packing_transform str (nm1 (f1 j)) (tp (TJoint j))) (joints t))).
    { destruct flat; apply rmapM_ok.
      - intros b J. assert (L : logged U h true (FBody b) (TBody b)) by (apply Ol; unfold objs; apply in_app_iff; left; apply in_map_iff; now exists b). assert (T := Tq _ _ L). cbn [target_pose] in T. rewrite Eu in T. rewrite T. cbn [rbind]. rewrite (proj2 (Nn _ _ L)). reflexivity.
      - intros j J. destruct (Fj j J) as (f0 & Ef). rewrite (proj1 (proj2 So)), Ef. assert (L : logged U h false (f1 j) (TJoint j)) by (apply Ol; unfold objs; apply in_app_iff; left; apply in_map_iff; now exists j). rewrite (proj2 (Nn _ _ L)). cbn [rbind]. assert (T := Tq _ _ L). cbn [target_pose] in T. apply Ok_inj in T. now rewrite T. }
    rewrite E1. cbn [rbind]. f_equal. f_equal. unfold xs, objs. rewrite !map_app. f_equal; [destruct flat; now rewrite !map_map | now rewrite !map_map]. }
  destruct (message_read str num rnd xs Ex) as (_ & Mr).
  { intros y J. unfold xs in J. apply in_map_iff in J. destruct J as ((f, tg) & <- & J). apply Ol in J. cbn [fst snd]. exact (Wd f tg _ J (proj1 (Nn f tg J))). }
  eexists. exists xs. split; [exact Em | ]. split; [exact Mr | ]. split.
  { unfold xs, objs. rewrite !map_length, app_length, !map_length. destruct flat; rewrite map_length; reflexivity. }
  split.
  - intros f tg L. exists (nm1 f), (tp tg). split; [apply (Nn _ _ L) | ]. split; [exact (Tq _ _ L) | ]. unfold xs. apply in_map_iff. exists (f, tg). split; [reflexivity | now apply Ol].
  - intros s H J. unfold xs in J. apply in_map_iff in J. destruct J as ((f, tg) & Q & J). cbn [fst snd] in Q. injection Q as <- <-. apply Ol in J. exists f, tg. split; [exact J | ]. split; [apply (Nn _ _ J) | exact (Tq _ _ J)].
Qed.
(** A viewer that reads this message, and places the nodes of the document that it names, shows every frame of the world, moving
    subframes included, where the frame is at this step (when the numbers are written exactly). *)
Theorem C87_viewer : forall argsort eigvals eig daenim str_id S geo flat g0 t fuel up cg scale update nm S1 D U O t0 ts obs x k v str num rnd,
  let h := s_heap (w_s (sm_w x)) in
  argsort_ok argsort -> showable S g0 h t fuel cg -> writable eigvals eig S1 geo h t up ->
  write_collada_scene argsort eigvals eig daenim str_id S geo flat fuel h up cg scale update nm = (sm_names x, Ok (S1, D)) ->
  well_named daenim S1 geo h t ->
  su_e U = ds_e S -> sub_bpose (su_sc U) = sub_bpose (ds_sc S) -> (height t < su_fuel U)%nat -> (forall j, In j (joints t) -> jndof (su_e U) j = ndof_of (s_ty (w_s (sm_w x)) j)) ->
  at_step U O t0 ts obs x k v -> let w := w_v (sm_w v) in rigid_scene (su_e U) (su_sc U) t (joints_of (v_s w)) ->
  reads str num rnd -> (forall f tg s, logged U h flat f tg -> sm_names x (id_frame f) = Some s -> word s) ->
  (forall m, In (FMov m) (w_subframes h) -> affine (mov_bpose (scene_of U w) m)) ->
  (forall f tg H, logged U h flat f tg -> target_pose U w flat tg = Ok H -> forall r, In r (row12 H) -> rnd r = r) ->
  exists msg, daenim_message str U flat (sm_names v) w = Ok msg /\
    forall f, in_world (ds_e S) h t f -> exists n P, d_frames (da_draw D) f = Some n /\ frame_pose (ds_e S) (scene_of U w) (v_st w) f = Ok P /\
      forall Q, displayed D (read_message num msg) n Q <-> Q = P.
Proof.
  intros argsort eigvals eig daenim str_id S geo flat g0 t fuel up cg scale update nm S1 D U O t0 ts obs x k v str num rnd h Ha Sh Wr Ws Wn Eu Es Fu Hty As w Rv Ex Wd Af Ent.
  destruct (logged_facts argsort eigvals eig daenim str_id S geo flat g0 t fuel up cg scale update nm S1 D U O t0 ts obs x k v (Anim D [] []) Ha Sh Wr Ws Wn Eu Es Fu Hty As Rv) as (Nl & Lw & Lf & Inj). fold h in Nl, Lw, Lf, Inj.
  destruct (C87_message argsort eigvals eig daenim str_id S geo flat g0 t fuel up cg scale update nm S1 D U O t0 ts obs x k v str num rnd Ha Sh Wr Ws Wn Eu Es Fu Hty As Rv Ex Wd) as (msg & rows & Em & Mr & _ & R1 & R2). fold h w in Em, R1, R2.
  exists msg. split; [exact Em | ].
  assert (Sh' := Sh). destruct Sh' as (Rc & Rd & Ri & F & _ & Dj & Mv & _ & Iv). fold h in Rc, Rd, Dj, Mv. assert (Rt := proj1 Rd). assert (Ero := proj1 (proj2 Rd)).
  destruct (world_iterators (ds_e S) h (reachable_forest 0 _ _ _ Rc)) as (t2 & R2' & E2 & N2 & _ & It). assert (t2 = t) by (apply (rep_unique (ds_e S) h t2 t R2' Rt); congruence). subst t2. destruct (It (su_fuel U)) as (It1 & _). destruct (It1 Fu) as (Ib & Ij). clear It It1.
  destruct (step_posed U O t0 ts obs x k v g0 t) as (_ & Fp & _); [rewrite Eu; exact Rc | rewrite Eu; exact Rt | rewrite Eu; exact Ero | exact Fu | exact Hty | exact As | exact Rv | ]. fold w in Fp. rewrite Eu in Fp.
  assert (Tp : forall f tg H, logged U h flat f tg -> target_pose U w flat tg = Ok H -> affine H).
  { intros f tg H L. inversion L as [b bs Fl Eb Hb | j js f0 f' Fl Ej Hj Ef | m Im]; subst; cbn [target_pose].
    - rewrite Eu, Ib in Eb. injection Eb as <-. destruct (Fp (FBody b) Hb) as (H' & SH & _ & E). rewrite Eu, E. cbn [bpose]. rewrite eye_r. intros Q. apply Ok_inj in Q. subst H'. now apply SE3_affine.
    - rewrite Eu, Ij in Ej. injection Ej as <-. intros Q. apply Ok_inj in Q. subst H. apply SE3_affine, pose_SE3. apply (proj2 Rv j Hj).
    - destruct flat; [ | intros Q; apply Ok_inj in Q; subst H; exact (Af m Im)]. destruct (Fp (FMov m) (Mv m Im)) as (H' & SH & _ & E). rewrite Eu, E. intros Q. apply Ok_inj in Q. subst H. apply mm4_affine; [now apply SE3_affine | exact (Af m Im)]. }
  assert (Er : map (fun r => (fst r, rounded rnd (snd r))) rows = rows).
  { rewrite <- (map_id rows) at 2. apply map_ext_in. intros (s, H) J. cbn [fst snd]. destruct (R2 s H J) as (f & tg & L & _ & T). rewrite rounded_fix; [reflexivity | exact (Tp f tg H L T) | exact (Ent f tg H L T)]. }
  rewrite Mr, Er.
  assert (Cs := channels_shown argsort eigvals eig daenim str_id S geo flat g0 t fuel up cg scale update nm S1 D U O t0 ts obs x k v (Anim D [] (map (fun y => (fst y, [snd y])) rows)) Ha Sh Wr Ws Wn Eu Es Fu Hty As Rv 0%nat eq_refl). cbn [an_chan] in Cs.
  apply Cs.
  - intros f tg L. destruct (R1 f tg L) as (s & H & Es' & T & J). exists s, [H], H. split; [exact Es' | ]. split; [ | split; [reflexivity | exact T]]. apply dic_get_only; [apply in_map_iff; exists (s, H); auto | ].
    intros M K. apply in_map_iff in K. destruct K as ((s', H') & Q & K). cbn [fst snd] in Q. injection Q as -> <-. destruct (R2 s H' K) as (f' & tg' & L' & E' & T'). assert (f' = f) by (apply (Inj f' f s); [exact (Lw _ _ L') | exact (Lw _ _ L) | exact E' | exact Es']). subst f'. rewrite (Lf _ _ _ L' L), T in T'. apply Ok_inj in T'. now subst H'.
  - intros s M E. apply dic_get_ok_in in E. apply in_map_iff in E. destruct E as ((s', H) & Q & J). cbn [fst snd] in Q. injection Q as -> _. destruct (R2 s H J) as (f & tg & L & E' & _). now exists f, tg.
Qed.
Print Assumptions C87_viewer.
