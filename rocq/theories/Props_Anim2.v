(** C85: a concrete animation; the files that are refused; the defects. *)
From Coq Require Import Lra Lia.
From Verif Require Import Spec_Anim Spec_Step Spec_Dyn Proof_SE3 Proof_Linalg Proof_World Proof_World2 Proof_World3 Proof_Register Proof_World4 Proof_Tree Proof_Step Proof_Coll Proof_Matrix Proof_Sim Proof_Sim2 Proof_Sim3 Proof_Sim4 Proof_Sim5 Proof_Draw Props_Dyn Props_DynEx Props_Mass Props_Named Props_EnergyEx Props_Sim Props_Sim2 Props_Sim3 Props_Sim4 Props_Sim6 Props_Draw Props_Draw2 Props_Draw3 Props_Color Props_Color2.
From Verif Require Import Props_Weight Props_Dae Props_Dae4 Props_Dae5 Proof_Anim Proof_Anim2 Props_Anim.
Open Scope R_scope.

(** write_collada_scene succeeds on a world that can be drawn, unless a name is refused *)
Theorem C85_scene : forall argsort eigvals eig daenim str_id S geo flat g0 h t fuel up cg scale update nm, argsort_ok argsort -> showable S g0 h t fuel cg ->
  (forall nm1 st, scene_names str_id (ds_e S) fuel h flat nm = (nm1, Ok tt) -> writable eigvals eig (named_scene S nm1 st) geo h t up) ->
  exists nm1 r, write_collada_scene argsort eigvals eig daenim str_id S geo flat fuel h up cg scale update nm = (nm1, r) /\ keeps nm nm1 /\
    ((exists S1 D, r = Ok (S1, D)) \/ exists l, r = Err (DuplicateNameError l)).
Proof.
  intros argsort eigvals eig daenim str_id S geo flat g0 h t fuel up cg scale update nm Ha Sh Wr.
  destruct (scene_names str_id (ds_e S) fuel h flat nm) as (nm1, r) eqn:En.
  assert (Kp : keeps nm nm1 /\ ((exists e, r = Err e) -> exists l, r = Err (DuplicateNameError l))).
  { assert (Rc := proj1 Sh). assert (Rd := proj1 (proj2 Sh)). assert (F : (height t < fuel)%nat) by apply Sh.
    destruct (world_iterators (ds_e S) h (reachable_forest 0 _ _ _ Rc)) as (t2 & R2 & E2 & N2 & _ & It). assert (t2 = t) by (apply (rep_unique (ds_e S) h t2 t R2 (proj1 Rd)); rewrite E2; symmetry; apply Rd). subst t2. destruct (It fuel) as (It' & _). destruct (It' F) as (Ib & Ij).
    assert (Fj : forall j, In j (joints t) -> jframes h j <> None). { intros j J E0. destruct (subtree_joint t j J) as (b & ks & u & Su & Iu). assert (Rb := subtree_rep (ds_e S) h _ _ Su (proj1 Rd)). inversion Rb as [? ? _ Fk]; subst. rewrite Forall_forall in Fk. destruct (Fk _ Iu) as (((f0 & f1 & Ef & _) & _) & _). cbn [fst] in Ef. congruence. }
    unfold scene_names in En.
    assert (X : forall it nm0 r0, name_all_elements str_id nm it true = (nm0, r0) -> match r0 with Err x => (nm0, Err x) | Ok _ => name_all_elements str_id nm0 (IterGen (map (fun m => id_frame (FMov m)) (itermovingsubframes h))) true end = (nm1, r) -> keeps nm nm1 /\ ((exists e, r = Err e) -> exists l, r = Err (DuplicateNameError l))).
    { intros it nm0 r0 E0 E1. assert (K0 := name_all_keeps _ _ _ _ _ _ E0). destruct r0 as [[] | e0].
      - split; [exact (keeps_trans _ _ _ K0 (name_all_keeps _ _ _ _ _ _ E1)) | ]. intros (e & ->). destruct (name_all_err _ _ _ _ _ _ E1) as (l & ->). now exists l.
      - injection E1 as <- <-. split; [exact K0 | ]. intros _. destruct (name_all_err _ _ _ _ _ _ E0) as (l & ->). now exists l. }
    destruct flat.
    - rewrite Ib in En. destruct (name_all_elements str_id nm (IterList _) true) as (nm0, r0) eqn:E0. exact (X _ _ _ E0 En).
    - rewrite Ij in En. destruct (frames1_total h (joints t) Fj) as (fs & Ef). rewrite Ef in En. destruct (name_all_elements str_id nm (IterList _) true) as (nm0, r0) eqn:E0. exact (X _ _ _ E0 En). }
  destruct Kp as (K & Er). destruct r as [[] | e].
  - destruct (scene_written argsort eigvals eig daenim str_id S geo flat g0 h t fuel up cg scale update nm _ Ha Sh En) as (cs & st & Ug & Dw & Ew). rewrite Ew.
    destruct (written argsort eigvals eig daenim (named_scene S nm1 st) geo flat g0 h t fuel up cs scale update Ha Dw (Wr nm1 st eq_refl)) as (D & ED & _). rewrite ED. eexists. eexists. split; [reflexivity | ]. split; [exact K | ]. left. eexists. eexists. reflexivity.
  - destruct (Er (ex_intro _ e eq_refl)) as (l & Q). injection Q as ->. unfold write_collada_scene. rewrite En. eexists. eexists. split; [reflexivity | ]. split; [exact K | ]. right. now exists l.
Qed.
Print Assumptions C85_scene.

(** the arm of C18_C20_witness, with names, saved by a logger of relative transforms *)
Definition an_nm (i : nat) : option string := match i with 1%nat => Some "ground"%string | 4%nat => Some "slide"%string | 5%nat => Some "arm"%string | _ => None end.
Definition an_x : sim := sy_names an_nm.
Definition an_O (i : nat) : okind := OLog (LO true false false false).
Definition an_S : dscene := DS (ch_e ky) (fun _ => None) (ch_sc ky_m) (fun _ => no_attr) (joints_of (w_s (sm_w an_x))) (fun _ => true) inv_.
Lemma an_ready : ready (ch_e ky) sy_h (ch_t 0 1).
Proof. ch_ready. Qed.
Lemma an_rigid (s : wst) : s_ty s = s_ty (w_s (sm_w an_x)) -> rigid_scene (ch_e ky) (ch_sc ky_m) (ch_t 0 1) (joints_of s).
Proof.
  intros Et. split; [intros [b | b | b]; apply SE3_eye | ]. intros j Ij. cbn in Ij. destruct Ij as [<- | []]. assert (Tj : jt (joints_of s 1%nat) = TyJoint) by (cbn; rewrite Et; reflexivity). split; [intros E; rewrite Tj in E; discriminate | rewrite Tj; reflexivity].
Qed.
Lemma an_showable : showable an_S (fun _ _ => 1) sy_h (ch_t 0 1) 10 None.
Proof.
  split; [exact sy_reachable | ]. split; [exact an_ready | ]. split; [apply an_rigid; reflexivity | ]. split; [cbn; lia | ]. split; [discriminate | ]. split.
  { intros j f0 f1 k Ij Ef. cbn in Ij. destruct Ij as [<- | []]. cbn in Ef. injection Ef as <- <-. split; discriminate. }
  split; [intros k J; destruct J | ]. split; [reflexivity | exact inv4_rigid].
Qed.
Lemma an_writable nm st : nm 1%nat <> None -> nm 5%nat <> None -> writable ky_eigvals ky_eig (named_scene an_S nm st) dn_geo sy_h (ch_t 0 1) (V3 0 1 0).
Proof.
  intros N1 N5. split; [right; left; reflexivity | ]. split; [intros s _; cbn; lra | ]. intros b (Ib & _). split.
  - exists 1, zero3, (M3 2 0 0 0 3 0 0 0 4). change (b_mass (ds_sc (named_scene an_S nm st)) b) with wm. 
    destruct (ky_solids 1%nat) as (A & B & C & D & E); [cbn; auto | ]. 
    split; [lin | ]. split; [reflexivity | ]. split; [exact C | ]. split; [exact D | exact E].
  - cbn in Ib. destruct Ib as [<- | [<- | []]]; assumption.
Qed.
Lemma an_well_named nm st : nm 1%nat = Some "ground"%string -> nm 5%nat = Some "arm"%string -> well_named true (named_scene an_S nm st) dn_geo sy_h (ch_t 0 1).
Proof.
  intros N1 N5.
  assert (Fr : forall f, In (frame_body (ch_e ky) f) (bodies (ch_t 0 1)) -> known sy_h f -> f = FBody 0 \/ f = FBody 1).
  { intros [b | s | m] J K; [cbn in J; destruct J as [<- | [<- | []]]; auto | destruct K | destruct K]. }
  split; [ | split].
  - assert (L : forall x s, in_doc (named_scene an_S nm st) sy_h (ch_t 0 1) x -> label true (named_scene an_S nm st) dn_geo x = Some s ->
      (s = "arm" /\ x = TFrame (FBody 1) \/ s = "ground.inertia" /\ x = TInertia 0 \/ s = "arm.inertia" /\ x = TInertia 1)%string).
    { intros [f | k | b] s J E.
      - destruct J as (J1 & J2 & J3). destruct (Fr f J1 J2) as [-> | ->]; [now destruct J3 | ]. cbn in E. rewrite N5 in E. injection E as <-. auto.
      - destruct J as (J & _). destruct J.
      - destruct J as (J & _). cbn in J. destruct J as [<- | [<- | []]]; cbn in E; [rewrite N1 in E | rewrite N5 in E]; cbn in E; injection E as <-; auto. }
    intros x y s Jx Jy Ex Ey _. apply (L _ _ Jx) in Ex. apply (L _ _ Jy) in Ey.
    destruct Ex as [(-> & ->) | [(-> & ->) | (-> & ->)]]; destruct Ey as [(Q & ->) | [(Q & ->) | (Q & ->)]]; first [reflexivity | discriminate Q].
  - intros f J K. destruct (Fr f J K) as [-> | ->]; cbn; rewrite ?N1, ?N5; discriminate.
  - intros f J K G. destruct (Fr f J K) as [-> | ->]; [now destruct G | ]. cbn. rewrite N1, N5. split; [discriminate | intros _; discriminate].
Qed.

Lemma steps_exist U O t0 ts obs x y k : simulate U O (t0 :: ts) (IterList obs) x = (y, Ok tt) -> (k < length ts)%nat -> exists v, at_step U O t0 ts obs x k v.
Proof.
  intros E Hk. destruct (run_decomp U O t0 ts obs x y E) as (x1 & x2 & vs & x3 & _ & _ & P & Sx & _). assert (L := sees_length _ _ _ _ _ _ _ Sx).
  destruct (nth_error vs k) as [v | ] eqn:Ev; [ | apply nth_error_None in Ev; lia]. exists v. exact (proj1 (sees_at_step U O t0 ts obs x x2 vs x3 P Sx) k v Ev).
Qed.
(** the hypotheses of C85_animation hold of a simulation of three times: the world is drawn, simulated with a logger, animated *)
Example C85_witness : exists S1 D x y g A, sm_w x = sm_w an_x /\ showable an_S (fun _ _ => 1) (s_heap (w_s (sm_w x))) (ch_t 0 1) 10 None /\
  writable ky_eigvals ky_eig S1 dn_geo (s_heap (w_s (sm_w x))) (ch_t 0 1) (V3 0 1 0) /\
  write_collada_scene argsort0 ky_eigvals ky_eig true (fun _ => EmptyString) an_S dn_geo false 10 (s_heap (w_s (sm_w x))) (V3 0 1 0) None 1 (fun o => o) an_nm = (sm_names x, Ok (S1, D)) /\
  well_named true S1 dn_geo (s_heap (w_s (sm_w x))) (ch_t 0 1) /\
  simulate sy_U an_O [0; 1 / 2; 1] (IterList [0%nat]) x = (y, Ok tt) /\ sm_obs y 0%nat = MLog g /\ write_collada_animation D g "h5" None = Ok A /\ an_time A = [0; 1 / 2] /\
  exists n, d_frames (da_draw D) (FBody 1) = Some n /\
  forall k, (k < 2)%nat -> exists v P, at_step sy_U an_O 0 [1 / 2; 1] [0%nat] x k v /\ frame_pose (ch_e ky) (scene_of sy_U (w_v (sm_w v))) (v_st (w_v (sm_w v))) (FBody 1) = Ok P /\ shown A k n P.
Proof.
  destruct (scene_names (fun _ => EmptyString) (ch_e ky) 10 sy_h false an_nm) as (nm1, r) eqn:En.
  assert (Er : r = Ok tt). { vm_compute in En. injection En as _ <-. reflexivity. } subst r.
  assert (Kp : keeps an_nm nm1).
  { unfold scene_names in En. assert (Ij : iterjoints (ch_e ky) 10 sy_h = Ok [1%nat]) by reflexivity. rewrite Ij in En. assert (Ef : frames1 sy_h [1%nat] = Ok [FBody 1]) by reflexivity. rewrite Ef in En.
    destruct (name_all_elements _ an_nm _ _) as (nm0, [[] | e]) eqn:E0; [ | discriminate]. exact (keeps_trans _ _ _ (name_all_keeps _ _ _ _ _ _ E0) (name_all_keeps _ _ _ _ _ _ En)). }
  assert (N1 : nm1 1%nat = Some "ground"%string) by (apply Kp; reflexivity). assert (N4 : nm1 4%nat = Some "slide"%string) by (apply Kp; reflexivity). assert (N5 : nm1 5%nat = Some "arm"%string) by (apply Kp; reflexivity).
  destruct (scene_written argsort0 ky_eigvals ky_eig true (fun _ => EmptyString) an_S dn_geo false (fun _ _ => 1) sy_h (ch_t 0 1) 10 (V3 0 1 0) None 1 (fun o => o) an_nm nm1 argsort0_ok an_showable En) as (cs & st & Ug & Dw & Ew).
  set (S1 := named_scene an_S nm1 st) in *. assert (Wr : writable ky_eigvals ky_eig S1 dn_geo sy_h (ch_t 0 1) (V3 0 1 0)) by (apply an_writable; congruence).
  destruct (written argsort0 ky_eigvals ky_eig true S1 dn_geo false (fun _ _ => 1) sy_h (ch_t 0 1) 10 (V3 0 1 0) cs 1 (fun o => o) argsort0_ok Dw Wr) as (D & ED & _). rewrite ED in Ew. cbn [rmap] in Ew.
  set (x := sy_names nm1).
  destruct (sy_progress sy_U an_O x eq_refl eq_refl eq_refl gauss_inv_spec eq_refl eq_refl eq_refl eq_refl 0 [1 / 2; 1] []) as (y0 & E0); [constructor | intros i [] | | ].
  { intros k Hk. cbn in Hk. destruct k as [ | [ | k]]; cbn; lra || lia. }
  assert (No : NoDup [0%nat]) by (repeat constructor; intros []).
  assert (Hty : forall j, In j (joints (ch_t 0 1)) -> jndof (su_e sy_U) j = ndof_of (s_ty (w_s (sm_w x)) j)) by (intros j Ij; cbn in Ij; destruct Ij as [<- | []]; reflexivity).
  destruct (C20_loggers_harmless sy_U an_O 0 [1 / 2; 1] [0%nat] x y0 (fun _ _ => 1) (ch_t 0 1) sy_reachable sy_rep eq_refl ltac:(cbn; lia) Hty No) as (y & r & E & _ & Nm); [intros i _; eexists; reflexivity | intros m J; destruct J | exact E0 | ].
  assert (r = Ok tt) as ->.
  { apply Nm.
    - cbn [joints ch_t map id_joint Nat.mul Nat.add app]. split; [intros a [<- | []]; change (nm1 4%nat <> None); congruence | ]. repeat constructor. intros [].
    - intros fs Ef. change (frames1 sy_h [1%nat] = Ok fs) in Ef. assert (fs = [FBody 1]) as -> by (vm_compute in Ef; congruence). split; [intros a [<- | []]; change (nm1 5%nat <> None); congruence | ]. repeat constructor. intros []. }
  destruct (C20_logger_partial sy_U an_O 0 [1 / 2; 1] [0%nat] x y 0%nat _ No ltac:(cbn; auto) eq_refl E) as (g & Eg & _).
  destruct (write_collada_animation D g "h5" None) as [A | e] eqn:EA; [ | discriminate]. exists S1, D, x, y, g, A.
  assert (Wn : well_named true S1 dn_geo sy_h (ch_t 0 1)) by (apply an_well_named; assumption).
  split; [reflexivity | ]. split; [exact an_showable | ]. split; [exact Wr | ]. split; [exact Ew | ]. split; [exact Wn | ]. split; [exact E | ]. split; [exact Eg | ]. split; [exact EA | ].
  destruct (C85_animation argsort0 ky_eigvals ky_eig true (fun _ => EmptyString) an_S dn_geo false (fun _ _ => 1) (ch_t 0 1) 10 (V3 0 1 0) None 1 (fun o => o) an_nm S1 D sy_U an_O 0 [1 / 2; 1] [0%nat] x y 0%nat (LO true false false false) g "h5"%string None A
    argsort0_ok an_showable Wr Ew Wn eq_refl eq_refl ltac:(cbn; lia) Hty No ltac:(cbn; auto) eq_refl eq_refl eq_refl E Eg EA) as (_ & Et & Sh).
  split; [exact Et | ].
  assert (Iw : in_world (ds_e an_S) (s_heap (w_s (sm_w x))) (ch_t 0 1) (FBody 1)) by (split; cbn; auto).
  assert (St : forall k, (k < 2)%nat -> exists v, at_step sy_U an_O 0 [1 / 2; 1] [0%nat] x k v).
  { intros k Hk. destruct (steps_exist sy_U an_O 0 [1 / 2; 1] [0%nat] x y k E Hk) as (v & Av). now exists v. }
  assert (Rv : forall k v, at_step sy_U an_O 0 [1 / 2; 1] [0%nat] x k v -> rigid_scene (su_e sy_U) (su_sc sy_U) (ch_t 0 1) (joints_of (v_s (w_v (sm_w v))))).
  { intros k v Av. apply an_rigid. destruct (step_current sy_U an_O 0 [1 / 2; 1] [0%nat] x k v (fun _ _ => 1) (ch_t 0 1) sy_reachable sy_rep eq_refl ltac:(cbn; lia) Hty Av) as (_ & _ & Q & _). exact Q. }
  destruct (St 0%nat ltac:(lia)) as (v0 & A0). destruct (Sh 0%nat v0 A0 (Rv 0%nat v0 A0) (FBody 1) Iw) as (n & P0 & En' & _). exists n. split; [exact En' | ].
  intros k Hk. destruct (St k Hk) as (v & Av). destruct (Sh k v Av (Rv k v Av) (FBody 1) Iw) as (n' & P & En2 & EP & HP). rewrite En' in En2. injection En2 as <-. exists v, P. split; [exact Av | ]. split; [exact EP | now apply HP].
Qed.

(** Finding: the function view of visu_collada.py gives the group of the HDF5 file as the type of the file: no animation is made,
    whatever the files, unless the group happens to be called "hdf5", "h5", "pickle" or "pkl"; in particular for the default group *)
Theorem C85_view_refuted : forall D g ext group, ~ In group ["hdf5"; "h5"; "pickle"; "pkl"]%string -> view_animation D g ext group = Err RuntimeError.
Proof.
  intros D g ext group N. unfold view_animation, write_collada_animation. destruct (existsb (String.eqb group) _) eqn:E; [ | reflexivity]. exfalso. apply existsb_exists in E. destruct E as (s & J & Q). apply String.eqb_eq in Q. subst s. exact (N J).
Qed.
Example C85_view_default : forall D g ext, view_animation D g ext "/" = Err RuntimeError.
Proof. intros D g ext. apply C85_view_refuted. cbn. intuition discriminate. Qed.
Print Assumptions C85_witness.

(** At each step of a simulation, when the observers are updated, the poses they read are those of the current positions of the
    joints: the ground is at the identity, and the second frame of each joint is moved by the current pose of the joint from the
    first one. *)
Theorem C20_observed_poses : forall U O t0 ts obs x k v g0 t, let h := s_heap (w_s (sm_w x)) in let w := w_v (sm_w v) in
  reachable 0 (su_e U) g0 h -> rep (su_e U) h t -> root t = ground (su_e U) -> (height t < su_fuel U)%nat ->
  (forall j, In j (joints t) -> jndof (su_e U) j = ndof_of (s_ty (w_s (sm_w x)) j)) -> at_step U O t0 ts obs x k v -> rigid_scene (su_e U) (su_sc U) t (joints_of (v_s w)) ->
  a_pose (v_st w (ground (su_e U))) = Some eye4 /\
  (forall f, In (frame_body (su_e U) f) (bodies t) -> exists H, SE3 H /\ a_pose (v_st w (frame_body (su_e U) f)) = Some H /\ frame_pose (su_e U) (scene_of U w) (v_st w) f = Ok (mm4 H (bpose (scene_of U w) f))) /\
  (forall f0 j f1, In j (joints t) -> jframes h j = Some (f0, f1) -> (forall m, f0 <> FMov m) -> (forall m, f1 <> FMov m) ->
     exists F0, frame_pose (su_e U) (scene_of U w) (v_st w) f0 = Ok F0 /\ frame_pose (su_e U) (scene_of U w) (v_st w) f1 = Ok (mm4 F0 (Model_Joints.pose (joints_of (v_s w) j)))).
Proof.
  intros U O t0 ts obs x k v g0 t h w Rc Rt Er F Hty As Ri. destruct (step_posed U O t0 ts obs x k v g0 t Rc Rt Er F Hty As Ri) as (A & B & C). split; [exact A | ]. split; [exact B | ]. intros f0 j f1 Ij Ef N0 N1. exact (C f0 j f1 (conj Ij Ef) N0 N1).
Qed.
Print Assumptions C20_observed_poses.
