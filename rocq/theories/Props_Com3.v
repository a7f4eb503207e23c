(** C87: an example, names with spaces, viewers that are not there. *)
From Coq Require Import Lra Lia.
From Verif Require Import Spec_Com Spec_Step Spec_Dyn Proof_SE3 Proof_Linalg Proof_World Proof_World2 Proof_World3 Proof_Register Proof_World4 Proof_Tree Proof_Step Proof_Joints Proof_Coll Proof_Sim Proof_Sim2 Proof_Sim3 Proof_Sim5 Proof_Draw Props_Dyn Props_DynEx Props_EnergyEx Props_Named Props_Sim2 Props_Sim4 Props_Draw Props_Draw2 Props_Draw3.
From Verif Require Import Props_Sim Props_Sim5 Props_Sim6 Props_Dae Props_Dae4 Props_Dae5 Proof_Anim Proof_Anim2 Props_Anim Props_Anim2 Proof_Com Props_Com Props_Com2.
Open Scope R_scope.
Open Scope list_scope.

(** any finite set of numbers can be written exactly *)
Fixpoint place (l : list R) (x : R) : nat := match l with [] => 0%nat | y :: l' => if Req_EM_T x y then 0%nat else Datatypes.S (place l' x) end.
Fixpoint ones (n : nat) : string := match n with 0%nat => "1"%string | Datatypes.S m => String "1"%char (ones m) end.
Lemma ones_word n : word (ones n). Proof. induction n as [ | n (A & B)]; [split; reflexivity | split; [exact A | exact B]]. Qed.
Lemma ones_length n : String.length (ones n) = Datatypes.S n. Proof. induction n as [ | n IH]; [reflexivity | cbn; now rewrite IH]. Qed.
Lemma writer_exists l : exists str num rnd, reads str num rnd /\ forall x, In x l -> rnd x = x.
Proof.
  exists (fun x => ones (place l x)), (fun s => Some (nth (String.length s - 1) l 0)), (fun x => nth (place l x) l 0). split.
  - intros x. split; [apply ones_word | ]. rewrite ones_length. cbn [Nat.sub]. now rewrite Nat.sub_0_r.
  - induction l as [ | y l IH]; intros x J; [destruct J | ]. cbn [place]. destruct (Req_EM_T x y) as [-> | N]; [reflexivity | ]. cbn [nth]. apply IH. destruct J as [<- | J]; [congruence | exact J].
Qed.
(** the simulation of C85_witness, watched *)
Example C87_witness : exists S1 D x y v n P msg str num rnd, sm_w x = sm_w an_x /\
  write_collada_scene argsort0 ky_eigvals ky_eig true (fun _ => EmptyString) an_S dn_geo false 10 sy_h (V3 0 1 0) None 1 (fun o => o) an_nm = (sm_names x, Ok (S1, D)) /\
  simulate sy_U an_O [0; 1 / 2; 1] (IterList [0%nat]) x = (y, Ok tt) /\ at_step sy_U an_O 0 [1 / 2; 1] [0%nat] x 1 v /\ reads str num rnd /\
  daenim_message str sy_U false (sm_names v) (w_v (sm_w v)) = Ok msg /\ length (read_message num msg) = 1%nat /\
  d_frames (da_draw D) (FBody 1) = Some n /\ frame_pose (ch_e ky) (scene_of sy_U (w_v (sm_w v))) (v_st (w_v (sm_w v))) (FBody 1) = Ok P /\ displayed D (read_message num msg) n P.
Proof.
  destruct C85_witness as (S1 & D & x & y & g & A & Ew & Sh & Wr & Ec & Wn & E & _).
  assert (Hh : s_heap (w_s (sm_w x)) = sy_h) by (rewrite Ew; reflexivity).
  assert (Hty : forall j, In j (joints (ch_t 0 1)) -> jndof (su_e sy_U) j = ndof_of (s_ty (w_s (sm_w x)) j)) by (rewrite Ew; intros j Ij; cbn in Ij; destruct Ij as [<- | []]; reflexivity).
  destruct (steps_exist sy_U an_O 0 [1 / 2; 1] [0%nat] x y 1%nat E ltac:(cbn; lia)) as (v & Av).
  destruct (writer_exists (row12 (Model_Joints.pose (joints_of (v_s (w_v (sm_w v))) 1%nat)))) as (str & num & rnd & Rd & Fx).
  assert (Ri : rigid_scene (su_e sy_U) (su_sc sy_U) (ch_t 0 1) (joints_of (v_s (w_v (sm_w v))))).
  { apply an_rigid. destruct (step_current sy_U an_O 0 [1 / 2; 1] [0%nat] x 1%nat v (fun _ _ => 1) (ch_t 0 1)) as (_ & _ & Q & _); [rewrite Hh; exact sy_reachable | rewrite Hh; exact sy_rep | reflexivity | cbn; lia | exact Hty | exact Av | ]. change (s_ty (w_s (sm_w v)) = s_ty (w_s (sm_w an_x))). rewrite Q, Ew. reflexivity. }
  assert (Lg : forall f tg, logged sy_U sy_h false f tg -> f = FBody 1 /\ tg = TJoint 1).
  { intros f tg L. inversion L as [b bs Fl | j js f0 f1 Fl Ej Hj Ef | k Ik]; subst; [discriminate | | destruct Ik]. assert (Ij : iterjoints (ch_e ky) 10 sy_h = Ok [1%nat]) by reflexivity. change (iterjoints (ch_e ky) 10 sy_h = Ok js) in Ej. rewrite Ij in Ej. injection Ej as <-. destruct Hj as [<- | []]. change (Some (FBody 0, FBody 1) = Some (f0, f)) in Ef. injection Ef as _ <-. auto. }
  assert (N5 : sm_names x 5%nat = Some "arm"%string).
  { unfold write_collada_scene in Ec. destruct (scene_names _ _ _ _ _ _) as (nm1, r) eqn:En. destruct r as [[] | ]; [ | discriminate]. injection Ec as <- _. rewrite Hh in En.
    assert (Kp : keeps an_nm nm1); [ | apply Kp; reflexivity]. unfold scene_names in En. assert (Ij : iterjoints (ch_e ky) 10 sy_h = Ok [1%nat]) by reflexivity. change (ds_e an_S) with (ch_e ky) in En. rewrite Ij in En. assert (Ef : frames1 sy_h [1%nat] = Ok [FBody 1]) by reflexivity. rewrite Ef in En.
    destruct (name_all_elements _ an_nm _ _) as (nm0, [[] | e]) eqn:E0; [ | discriminate]. exact (keeps_trans _ _ _ (name_all_keeps _ _ _ _ _ _ E0) (name_all_keeps _ _ _ _ _ _ En)). }
  assert (Wd : forall f tg s, logged sy_U (s_heap (w_s (sm_w x))) false f tg -> sm_names x (id_frame f) = Some s -> word s).
  { intros f tg s L Q. rewrite Hh in L. destruct (Lg f tg L) as (-> & _). change (sm_names x 5%nat = Some s) in Q. rewrite N5 in Q. injection Q as <-. split; reflexivity. }
  destruct (C87_message argsort0 ky_eigvals ky_eig true (fun _ => EmptyString) an_S dn_geo false (fun _ _ => 1) (ch_t 0 1) 10 (V3 0 1 0) None 1 (fun o => o) an_nm S1 D sy_U an_O 0 [1 / 2; 1] [0%nat] x 1%nat v str num rnd
    argsort0_ok Sh Wr Ec Wn eq_refl eq_refl ltac:(cbn; lia) Hty Av Ri Rd Wd) as (msg & rows & Em & Mr & Lr & _).
  destruct (C87_viewer argsort0 ky_eigvals ky_eig true (fun _ => EmptyString) an_S dn_geo false (fun _ _ => 1) (ch_t 0 1) 10 (V3 0 1 0) None 1 (fun o => o) an_nm S1 D sy_U an_O 0 [1 / 2; 1] [0%nat] x 1%nat v str num rnd
    argsort0_ok Sh Wr Ec Wn eq_refl eq_refl ltac:(cbn; lia) Hty Av Ri Rd Wd) as (msg' & Em' & Vw).
  { rewrite Hh. intros m J. destruct J. }
  { rewrite Hh. intros f tg H L T r J. destruct (Lg f tg L) as (-> & ->). cbn [target_pose] in T. apply Ok_inj in T. subst H. now apply Fx. }
  rewrite Em in Em'. apply Ok_inj in Em'. subst msg'. destruct (Vw (FBody 1)) as (n & P & En & EP & HP); [split; cbn; auto | ].
  exists S1, D, x, y, v, n, P, msg, str, num, rnd. rewrite Hh in Ec, Lr. split; [exact Ew | ]. split; [exact Ec | ]. split; [exact E | ]. split; [exact Av | ]. split; [exact Rd | ]. split; [exact Em | ]. split; [rewrite Mr, map_length, Lr; reflexivity | ]. split; [exact En | ]. split; [exact EP | now apply HP].
Qed.

(** Finding: a frame whose name has a space is lost: its line has more than the thirteen words of a name and a transform, whatever the
    pose and the writing of the numbers (the names of the examples of arboris have no space, but those of the user may) *)
Theorem C87_space_refuted : forall str num name H, has sp name = true ->
  (13 < length (words (String.concat " " (name :: map str (row12 H)))))%nat /\ read_line num (String.concat " " (name :: map str (row12 H))) = [].
Proof. intros str num name H Hn. exact (line_long str num name H Hn). Qed.
Example C87_space_witness : has sp "left arm"%string = true. Proof. reflexivity. Qed.

(** a viewer keeps its data *)
Lemma com_mem U O tl i x l y : O i = com_kind false -> performed (interp U O tl) x l y -> (exists d, sm_obs x i = MUser d) -> exists d, sm_obs y i = MUser d.
Proof.
  intros Eo P. induction P as [z | z c z1 l y Ec _ IH]; [auto | ]. intros M. apply IH. clear IH.
    assert (W : forall f : world -> world * res unit, (let (w, r) := f (sm_w z) in (set_w z w, r)) = (z1, Ok tt) -> exists d, sm_obs z1 i = MUser d).
    { intros f Q. destruct (f (sm_w z)) as (w, r). injection Q as <- _. exact M. }
    destruct c as [ | i' | | | | i' dt | | i']; cbn [interp] in Ec; try exact (W _ Ec).
    - destruct (Nat.eq_dec i' i) as [-> | Ni].
      + unfold obs_init in Ec. rewrite Eo in Ec. cbn in Ec. destruct M as (d0 & Md). rewrite Md in Ec. injection Ec as <-. cbn. unfold upd. rewrite Nat.eqb_refl. eauto.
      + assert (Q : sm_obs z1 i = sm_obs z i); [ | now rewrite Q]. unfold obs_init in Ec.
        destruct (O i') as [fi f | o' | | fi fu ff]; [destruct (fi _); [ | discriminate] | destruct (log_init _ _ _ _ _) as (nm, [g | ]); [ | discriminate] | destruct (em_init _ _ _ _ _ _); [ | discriminate] | destruct (sm_obs z i'); try discriminate; destruct (fi _ _ _); [ | discriminate]];
          injection Ec as <-; cbn [sm_obs set_o]; unfold upd; destruct (Nat.eqb_spec i i'); congruence.
    - destruct (Nat.eq_dec i' i) as [-> | Ni].
      + unfold obs_update in Ec. rewrite Eo in Ec. cbn in Ec. destruct M as (d0 & Md). rewrite Md in Ec. injection Ec as <-. cbn. unfold upd. rewrite Nat.eqb_refl. eauto.
      + assert (Q : sm_obs z1 i = sm_obs z i); [ | now rewrite Q]. unfold obs_update in Ec. cbv zeta in Ec.
        destruct (O i'); destruct (sm_obs z i'); try discriminate; match type of Ec with match ?a with _ => _ end = _ => destruct a; [ | discriminate] end; injection Ec as <-; cbn [sm_obs set_o]; unfold upd; destruct (Nat.eqb_spec i i'); congruence.
    - destruct (Nat.eq_dec i' i) as [-> | Ni].
      + unfold obs_finish in Ec. rewrite Eo in Ec. cbn in Ec. destruct M as (d0 & Md). rewrite Md in Ec. discriminate.
      + assert (Q : sm_obs z1 i = sm_obs z i); [ | now rewrite Q]. unfold obs_finish in Ec. destruct (O i'); destruct (sm_obs z i'); try (injection Ec as <-; reflexivity). destruct (ff _); [ | discriminate]. injection Ec as <-. cbn [sm_obs set_o]. unfold upd. destruct (Nat.eqb_spec i i'); congruence.
Qed.
Lemma split_at {A} (x : A) : forall a b l1 l2, ~ In x a -> a ++ b = l1 ++ x :: l2 -> exists m, l1 = a ++ m /\ b = m ++ x :: l2.
Proof.
  induction a as [ | y a IH]; intros b l1 l2 N E; [exists l1; auto | ]. destruct l1 as [ | z l1]; cbn in E; [injection E as -> _; exfalso; apply N; now left | ]. injection E as <- E. destruct (IH b l1 l2) as (m & -> & ->); [intros J; apply N; now right | exact E | ]. now exists m.
Qed.
Lemma no_fin obs t0 ts j r : ~ In (OFin j, r) (at_ t0 (WInit :: map OInit obs) ++ steps obs t0 ts).
Proof.
  intros J. apply in_app_iff in J. destruct J as [J | J].
  - unfold at_ in J. apply in_map_iff in J. destruct J as (c & Q & J). injection Q as -> _. destruct J as [J | J]; [discriminate | ]. apply in_map_iff in J. destruct J as (k & Q & _). discriminate.
  - revert t0 J. induction ts as [ | u us IH]; intros t0 J; [destruct J | ]. cbn [steps] in J. apply in_app_iff in J. destruct J as [J | J]; [ | exact (IH _ J)]. unfold step_calls, at_ in J. apply in_map_iff in J. destruct J as (c & Q & J). injection Q as -> _.
    apply in_app_iff in J. destruct J as [J | J]; [cbn in J; intuition discriminate | ]. apply in_app_iff in J. destruct J as [J | J]; [ | cbn in J; intuition discriminate]. apply in_map_iff in J. destruct J as (k & Q & _). discriminate.
Qed.
Lemma fin_prefix obs t0 ts l1 i r l2 : schedule obs t0 ts = l1 ++ (OFin i, r) :: l2 -> world_calls l1 = schedule [] t0 ts /\ exists o1 o2, obs = o1 ++ i :: o2 /\ forall j s, In (OFin j, s) l1 -> In j o1.
Proof.
  intros Es. assert (Ew := world_schedule obs t0 ts). rewrite Es in Ew. unfold schedule in Es. rewrite app_assoc in Es. destruct (split_at _ _ _ _ _ (no_fin obs t0 ts i r) Es) as (m & -> & Em).
  assert (Sp : exists o1 o2, obs = o1 ++ i :: o2 /\ m = at_ (last ts t0) (map OFin o1)).
  { clear - Em. unfold at_ in *. revert m Em. induction obs as [ | a obs IH]; intros m Em; [destruct m; discriminate | ]. destruct m as [ | b m]; cbn in Em.
    - injection Em as -> _ _. exists [], obs. auto.
    - injection Em as <- Em. destruct (IH m Em) as (o1 & o2 & -> & ->). exists (a :: o1), o2. auto. }
  destruct Sp as (o1 & o2 & Eo & ->). split.
  - rewrite Eo in *. unfold schedule in Ew. rewrite <- (world_schedule (o1 ++ i :: o2) t0 ts). unfold schedule. rewrite app_assoc. rewrite world_calls_app, (world_calls_app _ (at_ _ (map OFin (o1 ++ i :: o2)))). f_equal. now rewrite !(world_calls_none _ OFin) by reflexivity.
  - exists o1, o2. split; [exact Eo | ]. intros j s J. apply in_app_iff in J. destruct J as [J | J]; [exfalso; exact (no_fin _ _ _ _ _ J) | ]. unfold at_ in J. apply in_map_iff in J. destruct J as (c & Q & J). injection Q as -> _. apply in_map_iff in J. destruct J as (k & Q & J). now injection Q as <-.
Qed.

(** Finding: when no viewer has connected, a simulation that would succeed without it performs all its steps, then ends with AttributeError. *)
Theorem C87_unconnected_refuted : forall U O t0 ts i x y d, O i = com_kind false -> sm_obs x i = MUser d ->
  simulate U O (t0 :: ts) (IterList []) x = (y, Ok tt) ->
  exists y', simulate U O (t0 :: ts) (IterList [i]) x = (y', Err AttributeError) /\ sm_w y' = sm_w y.
Proof.
  intros U O t0 ts i x y d Eo Ed E. destruct (simulate U O (t0 :: ts) (IterList [i]) x) as (y', r) eqn:E'.
  destruct (C65_observers_passive U O O t0 ts [i] x x y' r eq_refl E') as (y2 & r2 & E2 & Ds). rewrite E in E2. injection E2 as <- <-.
  set (I := interp U O (t0 :: ts)) in *.
  assert (M0 : exists d, sm_obs (set_w x (set_time (sm_w x) t0)) i = MUser d) by (exists d; exact Ed).
  destruct (C18_schedule U O t0 ts [i] x y') as (Sc & _ & Sr). fold I in Sc, Sr. rewrite E' in Sc, Sr.
  destruct r as [[] | e].
  - exfalso. assert (P := proj1 Sc eq_refl). unfold schedule in P. apply perf_inv_app in P. destruct P as (x2 & P1 & P). apply perf_inv_app in P. destruct P as (x3 & P2 & P3). cbn [at_ map] in P3. inversion P3 as [ | ? ? z ? ? Ec _]; subst.
    destruct (com_mem _ _ _ _ _ _ _ Eo P2 (com_mem _ _ _ _ _ _ _ Eo P1 M0)) as (d3 & M3). unfold I in Ec. cbn [interp] in Ec. unfold obs_finish in Ec. rewrite Eo, M3 in Ec. discriminate.
  - destruct Ds as [(Q & _) | (e' & i' & c & l1 & l2 & x1 & Q & Ii & Oc & Es & P & Ec)]; [discriminate | ]. injection Q as <-. destruct Ii as [<- | []].
    destruct (com_mem _ _ _ _ _ _ _ Eo P M0) as (d1 & M1).
    assert (Hc : c = OFin i). { unfold I in Ec. destruct c as [ | i' | | | | i' dt | | i']; try discriminate; cbn [of_observer] in Oc; injection Oc as ->; [ | | reflexivity]; exfalso; cbn [interp] in Ec; unfold obs_init, obs_update in Ec; rewrite Eo, M1 in Ec; discriminate. }
    subst c. unfold I in Ec. cbn [interp] in Ec. unfold obs_finish in Ec. rewrite Eo, M1 in Ec. cbn [com_kind] in Ec. injection Ec as <- <-. eexists. split; [reflexivity | ].
    destruct (perf_world U O O (t0 :: ts) (t0 :: ts) _ _ _ P _ eq_refl) as (y2 & P2 & W2). rewrite (proj1 (fin_prefix _ _ _ _ _ _ _ Es)) in P2. apply (proj1 (C18_schedule U O t0 ts [] x y2)) in P2. rewrite E in P2. injection P2 as <-. now symmetry.
Qed.
(** In any list of observers with such a viewer the simulation ends with an exception, and the observers that follow it in the list
    never finish: a logger after it does not write its file. *)
Theorem C87_unfinished_refuted : forall U O t0 ts o1 i o2 x y r d, O i = com_kind false -> sm_obs x i = MUser d -> NoDup (o1 ++ i :: o2) ->
  simulate U O (t0 :: ts) (IterList (o1 ++ i :: o2)) x = (y, r) ->
  exists e made c rest x1, r = Err e /\ schedule (o1 ++ i :: o2) t0 ts = made ++ (c, now x1) :: rest /\
    performed (interp U O (t0 :: ts)) (set_w x (set_time (sm_w x) t0)) made x1 /\ interp U O (t0 :: ts) c x1 = (y, Err e) /\ forall j s, In j o2 -> ~ In (OFin j, s) made.
Proof.
  intros U O t0 ts o1 i o2 x y r d Eo Ed N E. set (obs := o1 ++ i :: o2) in *. set (I := interp U O (t0 :: ts)) in *.
  assert (M0 : exists d, sm_obs (set_w x (set_time (sm_w x) t0)) i = MUser d) by (exists d; exact Ed).
  assert (Nv : forall l z, performed I (set_w x (set_time (sm_w x) t0)) l z -> forall s, ~ In (OFin i, s) l).
  { intros l z P s J. apply in_split in J. destruct J as (a & b & ->). apply perf_inv_app in P. destruct P as (z1 & P1 & P2). inversion P2 as [ | ? ? z2 ? ? Ec _]; subst. destruct (com_mem _ _ _ _ _ _ _ Eo P1 M0) as (d1 & M1). unfold I in Ec. cbn [interp] in Ec. unfold obs_finish in Ec. rewrite Eo, M1 in Ec. discriminate. }
  destruct (C18_schedule U O t0 ts obs x y) as (Sc & _ & Sr). fold I in Sc, Sr. rewrite E in Sc, Sr.
  assert (Hin : In (OFin i, last ts t0) (schedule obs t0 ts)). { unfold schedule. apply in_app_iff. right. apply in_app_iff. right. unfold at_. apply in_map_iff. exists (OFin i). split; [reflexivity | ]. apply in_map. unfold obs. apply in_elt. }
  destruct r as [[] | e]; [exfalso; exact (Nv _ _ (proj1 Sc eq_refl) _ Hin) | ]. destruct (proj1 (Sr e) eq_refl) as (l1 & c & l2 & x1 & Es & P & Ec). exists e, l1, c, l2, x1. split; [reflexivity | ]. split; [exact Es | ]. split; [exact P | ]. split; [exact Ec | ].
  intros j s Jj J. apply in_split in J. destruct J as (a & b & ->). rewrite <- app_assoc in Es. cbn [app] in Es. assert (Es2 := Es). apply fin_prefix in Es. destruct Es as (_ & p1 & p2 & Eobs & _).
  unfold schedule in Es2. rewrite app_assoc in Es2. destruct (split_at _ _ _ _ _ (no_fin obs t0 ts j s) Es2) as (m & -> & Em).
  assert (Sp : exists q1 q2, obs = q1 ++ j :: q2 /\ m = at_ (last ts t0) (map OFin q1)).
  { clear - Em. unfold at_ in *. revert m Em. induction obs as [ | a0 obs IH]; intros m Em; [destruct m; discriminate | ]. destruct m as [ | b0 m]; cbn in Em.
    - injection Em as -> _ _. exists [], obs. auto.
    - injection Em as <- Em. destruct (IH m Em) as (q1 & q2 & -> & ->). exists (a0 :: q1), q2. auto. }
  destruct Sp as (q1 & q2 & Eq & ->).
  assert (Iq : In i q1).
  { unfold obs in Eq. apply in_split in Jj. destruct Jj as (u1 & u2 & ->). assert (Q : q1 = o1 ++ i :: u1); [ | rewrite Q; apply in_elt].
    assert (Nd : ~ In j (o1 ++ i :: u1)). { unfold obs in N. replace (o1 ++ i :: u1 ++ j :: u2) with ((o1 ++ i :: u1) ++ j :: u2) in N by (rewrite <- app_assoc; reflexivity). apply NoDup_remove_2 in N. intros K. apply N. apply in_app_iff. now left. }
    assert (Eq' : (o1 ++ i :: u1) ++ j :: u2 = q1 ++ j :: q2) by (rewrite <- app_assoc; exact Eq). destruct (split_at j _ _ _ _ Nd Eq') as (m2 & -> & Em2). destruct m2 as [ | z m2]; [now rewrite app_nil_r | ]. exfalso.
    unfold obs in N. replace (o1 ++ i :: u1 ++ j :: u2) with ((o1 ++ i :: u1) ++ j :: u2) in N by (rewrite <- app_assoc; reflexivity). cbn in Em2. injection Em2 as <- Em2. apply NoDup_remove_2 in N. apply N. apply in_app_iff. right. rewrite Em2. apply in_elt. }
  apply (Nv _ _ P (last ts t0)). apply in_app_iff. left. apply in_app_iff. right. unfold at_. apply in_map_iff. exists (OFin i). split; [reflexivity | ]. now apply in_map.
Qed.
Print Assumptions C87_unfinished_refuted.
