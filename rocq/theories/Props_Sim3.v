(** C18: simulations that do not raise. *)
From Verif Require Import Spec_Sim Spec_Step Proof_Sim6 Proof_Tree Proof_World Proof_Dyn Proof_Dyn2 Proof_Matrix Proof_Step Proof_SE3 Proof_Linalg.
From Verif Require Import Props_World Props_Dyn Props_Step Props_Weight Props_Sim Props_Sim2.
From Coq Require Import Lra.

(** the bodies of the world [t] have been updated *)
Definition posed (t : tree) (st : store) : Prop :=
  forall b, In b (bodies t) -> exists H A, SE3 H /\ a_pose (st b) = Some H /\ a_jac (st b) = Some A /\ exists T, a_twist (st b) = Some T.
(** a recorder whose quantity is defined as soon as the bodies are updated *)
Definition calm (t : tree) (k : okind) : Prop :=
  match k with ORec fi f => (forall v, exists c, fi v = Ok c) /\ (forall c v, posed t (v_st v) -> exists d, f c v = Ok d) | _ => False end.
(** joint classes and sizes agree, no FreeJoint (C35 is about these) *)
Definition hinged (e : env) (t : tree) (ty : nat -> jtype) : Prop := forall j, In j (joints t) -> jndof e j = ndof_of (ty j) /\ ty j <> FreeJoint.

(** a passive world between two calls of the loop *)
Definition running (U : setup) (t : tree) (h0 : @heap R) (ty0 : nat -> jtype) (w : world) : Prop :=
  same_objects h0 (s_heap (w_s w)) /\ live (su_e U) (s_heap (w_s w)) t /\ s_ty (w_s w) = ty0 /\ v_cs (w_v w) = [] /\
  (forall a, In a (w_controllers h0) -> exists g c, w_ctl w a = KWeight g (Some c) /\ wc_imp c = mzero /\ forall b, In b (wc_bodies c) -> In b (bodies t)).

Section Progress.
  Context (U : setup) (O : nat -> okind) (tl : list R) (t : tree) (h0 : @heap R) (ty0 : nat -> jtype) (obs : list nat).
  Hypothesis Hinv : inv_spec (su_linv U).
  Hypothesis Hfr : forall f, SE3 (bpose (su_sc U) f).
  Hypothesis Hh : hinged (su_e U) t ty0.
  Hypothesis Hf : (height t < su_fuel U)%nat.
  Hypothesis Nobs : NoDup obs.
  Hypothesis Hobs : forall i, In i obs -> calm t (O i).
  Let I := interp U O tl.
  (** an impedance met by the simulation *)
  Definition met (Z : mat) : Prop := exists h J st st' d dt, same_objects h0 h /\ live (su_e U) h t /\ (forall j, jt (J j) = ty0 j) /\
    world_update_dynamic (su_e U) (su_sc U) h J (su_fuel U) st = Ok (st', d) /\ 0 < dt /\ Z = mplus (mmul (/ dt) (d_mass d)) (mplus (d_nle d) (d_visc d)).

  Lemma rigid_run w : running U t h0 ty0 w -> rigid_scene (su_e U) (su_sc U) t (joints_of (w_s w)).
  Proof.
    intros (_ & _ & Ty & _). split; [exact Hfr | ]. intros j Ij. destruct (Hh j Ij) as [A B]. cbn. rewrite Ty. split; [ | exact A]. intros E. cbn in E. rewrite Ty in E. contradiction.
  Qed.
  Lemma run_dyn w : running U t h0 ty0 w -> exists w', world_dynamic U w = (w', Ok tt) /\ running U t h0 ty0 w' /\ posed t (v_st (w_v w')) /\ w_time w' = w_time w /\
    world_update_dynamic (su_e U) (su_sc U) (s_heap (w_s w)) (joints_of (w_s w)) (su_fuel U) (v_st (w_v w)) = Ok (v_st (w_v w'), s_dyn (w_s w')) /\
    s_heap (w_s w') = s_heap (w_s w).
  Proof.
    intros Rn. assert (Ri := rigid_run w Rn). destruct Rn as (G & Lv & Ty & Cs & Ct).
    destruct (C39_poses (su_e U) (su_sc U) (s_heap (w_s w)) t (joints_of (w_s w)) (su_fuel U) (v_st (w_v w)) (proj1 Lv) Ri Hf) as (sg & sd & d & _ & E & HP & _).
    unfold world_dynamic. rewrite E. eexists. split; [reflexivity | ]. split; [ | split; [ | split; [reflexivity | split; reflexivity]]].
    - repeat split; try apply G; try apply Lv; auto.
    - intros b Ib. destruct (HP (FBody b) Ib) as (H & SH & _ & EP & _). cbn [frame_body] in EP. 
      destruct (world_ok (su_e U) (su_sc U) (s_heap (w_s w)) t (joints_of (w_s w)) (su_fuel U) (v_st (w_v w)) (proj1 Lv) Ri Hf) as (sd' & d' & E' & P & _). rewrite E in E'. injection E' as <- <-.
      destruct (path_of t b Ib) as [ps Pb]. assert (Q := P b ps Pb). cbn [v_st w_v]. rewrite Q in EP |- *. exists H. eexists. split; [exact SH | ]. split; [exact EP | ]. split; [reflexivity | eexists; reflexivity].
  Qed.
  Lemma weights_ok w dt : running U t h0 ty0 w -> posed t (v_st (w_v w)) -> forall a, In a (w_controllers (s_heap (w_s w))) -> exists f, ctl_update U w a dt = Ok (f, mzero).
  Proof.
    intros (G & Lv & Ty & Cs & Ct) Po a Ia. destruct G as (_ & _ & _ & Gc). rewrite Gc in Ia. destruct (Ct a Ia) as (g & c & Ea & Ei & Eb). unfold ctl_update. rewrite Ea. unfold wc_update.
    destruct (wc_loop_ok (su_sc U) (v_st (w_v w)) (wc_dtwist c) t (fun b => match a_pose (v_st (w_v w) b) with Some P => P | None => eye4 end) (fun b => match a_jac (v_st (w_v w) b) with Some A => A | None => fun _ => zero6 end) (wc_bodies c) Eb) with (f := vzero) as (f & El & _).
    { intros b Ib. destruct (Po b Ib) as (H & A & SH & EP & EA & _). rewrite EP, EA. auto. }
    exists f. rewrite El. cbn. rewrite Ei. reflexivity.
  Qed.
  Lemma sumlist_mzero {A} (l : list A) i j : sumlist (fun _ => mzero i j) l = 0.
  Proof. induction l as [ | x l IH]; cbn; [reflexivity | ]. rewrite IH. unfold mzero. ring. Qed.
  Lemma ctl_choice (w : world) dt l : (forall a, In a l -> exists f, ctl_update U w a dt = Ok (f, mzero)) -> exists fa, forall a, In a l -> ctl_update U w a dt = Ok (fa a, mzero).
  Proof.
    intros H. exists (fun a => match ctl_update U w a dt with Ok (f, _) => f | Err _ => vzero end). intros a Ia. destruct (H a Ia) as (f & ->). reflexivity.
  Qed.
  Lemma run_ctl w dt : running U t h0 ty0 w -> posed t (v_st (w_v w)) -> 0 < dt ->
    let Z := mplus (mmul (/ dt) (d_mass (s_dyn (w_s w)))) (mplus (d_nle (s_dyn (w_s w))) (d_visc (s_dyn (w_s w)))) in
    exists w', ((singular (w_ndof (s_heap (w_s w))) Z /\ world_controllers U dt w = (w', Err LinAlgError)) \/ world_controllers U dt w = (w', Ok tt)) /\
      running U t h0 ty0 w' /\ posed t (v_st (w_v w')) /\ w_time w' = w_time w /\ s_dyn (w_s w') = s_dyn (w_s w).
  Proof.
    intros Rn Po P Z. destruct (ctl_choice w dt _ (weights_ok w dt Rn Po)) as (fa & Ha).
    destruct (C45_singular (su_linv U) (ctl_update U w) dt (w_s w) fa (fun _ => mzero) Hinv P Ha) as (s1 & D & _).
    destruct (update_controllers_frame (su_linv U) (ctl_update U w) dt (w_s w)) as (f & Z' & Y & Fr).
    assert (Pack : forall w', w' = set_s w s1 -> s1 = set_forces (w_s w) f Z' Y -> running U t h0 ty0 w' /\ posed t (v_st (w_v w')) /\ w_time w' = w_time w /\ s_dyn (w_s w') = s_dyn (w_s w)).
    { intros w' -> ->. destruct Rn as (G & Lv & Ty & Cs & Ct). split; [repeat split; try apply G; try apply Lv; auto | ]. auto. }
    exists (set_s w s1). unfold world_controllers. destruct D as [[Sg E] | (NS & E & _)]; rewrite E in *; cbn [fst] in Fr.
    - split; [left; split; [ | reflexivity] | apply (Pack _ eq_refl Fr)]. 
      destruct Sg as (v & Nv & Kv). exists v. split; [exact Nv | ]. intros i Li. rewrite <- (Kv i Li). apply mvn_ext; [ | intros ? ?; reflexivity]. intros k _. unfold Z, mminus. rewrite sumlist_mzero. ring.
    - split; [right; reflexivity | apply (Pack _ eq_refl Fr)].
  Qed.
  Lemma relax_nil (E : cenv) dt tol n Y : forall iters k (v p : vec), exists v', relax (con_ops E) dt tol n Y iters k [] v p = Ok ([], v').
  Proof. induction iters as [ | m IH]; intros k v p; [exists v; reflexivity | ]. cbn. destruct (_ && _); [exists v; reflexivity | apply IH]. Qed.
  Lemma run_cons w dt : running U t h0 ty0 w -> posed t (v_st (w_v w)) -> 0 < dt ->
    exists w', world_constraints U dt w = (w', Ok tt) /\ running U t h0 ty0 w' /\ posed t (v_st (w_v w')) /\ w_time w' = w_time w.
  Proof.
    intros (G & Lv & Ty & Cs & Ct) Po P. unfold world_constraints, update_constraints. rewrite Cs. cbn [activate rbind stack add_gforces]. destruct (Rlt_dec 0 dt); [ | lra].
    match goal with |- context [relax ?a ?b ?c ?d ?e ?f ?g [] ?h ?i] => destruct (relax_nil (con_env U w) b c d e f g h i) as (v' & ->) end. cbn [rbind add_gforces map].
    eexists. split; [reflexivity | ]. split; [repeat split; try apply G; try apply Lv; auto | ]. auto.
  Qed.
  Lemma run_int w dt : running U t h0 ty0 w -> 0 < dt -> exists w', world_integrate U dt w = (w', Ok tt) /\ running U t h0 ty0 w' /\ w_time w' = w_time w + dt.
  Proof.
    intros (G & Lv & Ty & Cs & Ct) P. assert (Hty : forall j, In j (joints t) -> jndof (su_e U) j = ndof_of (s_ty (w_s w) j)) by (intros j Ij; rewrite Ty; apply (Hh j Ij)).
    destruct (integrate_ok (su_e U) t dt (su_fuel U) (w_s w) Lv Hf P Hty) as (s' & E & L' & _ & _ & _ & _ & Ty' & _ & _ & Ti).
    unfold world_integrate. rewrite E. eexists. split; [reflexivity | ]. split; [ | exact Ti].
    split; [ | split; [exact L' | split; [change (s_ty s' = ty0); congruence | split; [exact Cs | exact Ct]]]].
    eapply same_objects_trans; [exact G | ].
    assert (Q : interp U O tl (Int dt) (Sim w (fun _ => None) (fun _ => MUser (VNum 0))) = (Sim (set_s w s') (fun _ => None) (fun _ => MUser (VNum 0)), Ok tt)).
    { cbn. unfold world_integrate. rewrite E. reflexivity. }
    exact (interp_graph _ _ _ _ _ _ Q).
  Qed.
  (** the observers *)
  Definition recs (n : nat) (k : nat) (l : list nat) (x : sim) : Prop := forall i, In i l -> exists r ds, sm_obs x i = MRec r /\ rc_index r = length ds /\ length ds = k /\ filled n ds (rc_record r).
  Lemma run_upd n k dt l : forall x, (forall i, In i l -> In i obs) -> NoDup l -> posed t (v_st (w_v (sm_w x))) -> (k < n)%nat -> recs n k l x ->
    exists y, calls I (map (fun i => OUpd i dt) l) x = (y, Ok tt) /\ sm_w y = sm_w x /\ recs n (S k) l y /\ forall i, ~ In i l -> sm_obs y i = sm_obs x i.
  Proof.
    induction l as [ | i l IH]; intros x Inc N Po Lk Rc; [exists x; repeat split; auto; intros i [] | ].
    cbn [map calls]. inversion N as [ | ? ? Ni Nl]; subst. assert (Ci := Hobs i (Inc i (or_introl eq_refl))). destruct (Rc i (or_introl eq_refl)) as (r & ds & Er & Ei & Ld & F).
    unfold I at 1. cbn [interp]. unfold obs_update. destruct (O i) as [fi f | | | ] eqn:Eo; try contradiction. rewrite Er. cbn zeta.
    destruct (proj2 Ci (rc_com r) (w_v (sm_w x)) Po) as (d & Ed). rewrite Ed. cbn [rbind]. unfold save_data. rewrite Ei. destruct (proj1 (set_filled n ds _ d F)) as (l' & El & F'); [lia | ]. rewrite El. cbn [rbind rmap bind_].
    destruct (IH (set_o x i (MRec (Rec l' (S (length ds)) (rc_com r))))) as (y & E & Wy & Ry & Oy).
    - intros j Hj. apply Inc. now right.
    - exact Nl.
    - exact Po.
    - exact Lk.
    - intros j Hj. destruct (Rc j (or_intror Hj)) as (r' & ds' & A). exists r', ds'. cbn. unfold upd. destruct (Nat.eqb_spec j i) as [-> | ]; [contradiction | exact A].
    - exists y. split; [exact E | ]. split; [exact Wy | ]. split.
      + intros j [<- | Hj]; [ | apply Ry; exact Hj]. rewrite (Oy i Ni). cbn. unfold upd. rewrite Nat.eqb_refl. exists (Rec l' (S (length ds)) (rc_com r)), (ds ++ [d]). cbn. rewrite app_length. cbn.
        split; [reflexivity | ]. split; [lia | ]. split; [lia | exact F'].
      + intros j Hj. rewrite Oy by (intros H; apply Hj; now right). cbn. unfold upd. destruct (Nat.eqb_spec j i) as [-> | ]; [exfalso; apply Hj; now left | reflexivity].
  Qed.
  Lemma run_init l : forall x, (forall i, In i l -> In i obs) -> NoDup l -> 
    exists y, calls I (map OInit l) x = (y, Ok tt) /\ sm_w y = sm_w x /\ recs (length tl - 1) 0 l y /\ forall i, ~ In i l -> sm_obs y i = sm_obs x i.
  Proof.
    induction l as [ | i l IH]; intros x Inc N; [exists x; repeat split; auto; intros i [] | ].
    cbn [map calls]. inversion N as [ | ? ? Ni Nl]; subst. assert (Ci := Hobs i (Inc i (or_introl eq_refl))).
    unfold I at 1. cbn [interp]. unfold obs_init. destruct (O i) as [fi f | | | ] eqn:Eo; try contradiction. destruct (proj1 Ci (w_v (sm_w x))) as (c & ->). cbn [bind_].
    destruct (IH (set_o x i (MRec (rec_init tl c)))) as (y & E & Wy & Ry & Oy); [intros j Hj; apply Inc; now right | exact Nl | ].
    exists y. split; [exact E | ]. split; [exact Wy | ]. split.
    - intros j [<- | Hj]; [ | apply Ry; exact Hj]. rewrite (Oy i Ni). cbn. unfold upd. rewrite Nat.eqb_refl. exists (rec_init tl c), []. cbn. split; [reflexivity | ]. split; [reflexivity | ]. split; [reflexivity | apply filled_0].
    - intros j Hj. rewrite Oy by (intros H; apply Hj; now right). cbn. unfold upd. destruct (Nat.eqb_spec j i) as [-> | ]; [exfalso; apply Hj; now left | reflexivity].
  Qed.
  Lemma run_fin l : forall x, (forall i, In i l -> In i obs) -> exists y, calls I (map OFin l) x = (y, Ok tt).
  Proof.
    induction l as [ | i l IH]; intros x Inc; [exists x; reflexivity | ]. cbn [map calls]. assert (Ci := Hobs i (Inc i (or_introl eq_refl))). unfold I at 1. cbn [interp]. unfold obs_finish.
    destruct (O i) as [fi f | | | ] eqn:Eo; try contradiction. assert (Q : (match sm_obs x i with MRec _ | _ => (x, Ok tt) end) = (x, Ok tt)) by (destruct (sm_obs x i); reflexivity).
    destruct (sm_obs x i); cbn [bind_]; apply IH; intros j Hj; apply Inc; now right.
  Qed.
  Lemma run_loop n ts : forall x k, running U t h0 ty0 (sm_w x) -> recs n k obs x -> (k + length ts = n)%nat -> increasing (now x :: ts) ->
    exists y, sim_loop I obs ts x = (y, Ok tt) \/ (sim_loop I obs ts x = (y, Err LinAlgError) /\ exists Z, met Z /\ singular (total_ndof (su_e U) (joints t)) Z).
  Proof.
    induction ts as [ | t' ts IH]; intros x k Rn Rc Ln Inc; [exists x; left; reflexivity | ]. cbn [sim_loop].
    assert (P : 0 < t' - now x). { specialize (Inc 0%nat). cbn in Inc. assert (now x < t') by (apply Inc; lia). lra. }
    destruct (run_dyn _ Rn) as (w1 & E1 & R1 & P1 & T1 & U1 & H1). destruct (run_ctl w1 (t' - now x) R1 P1 P) as (w2 & D2 & R2 & P2 & T2 & Y2).
    cbn [calls]. assert (D1 : I Dyn x = (set_w x w1, Ok tt)) by (unfold I; cbn; rewrite E1; reflexivity). rewrite D1. cbn [bind_].
    destruct D2 as [[Sg E2] | E2].
    - assert (D2 : I (Ctl (t' - now x)) (set_w x w1) = (set_w (set_w x w1) w2, Err LinAlgError)) by (unfold I; cbn; rewrite E2; reflexivity). rewrite D2. cbn [bind_].
      eexists. right. split; [reflexivity | ]. eexists. split; [ | ].
      + exists (s_heap (w_s (sm_w x))), (joints_of (w_s (sm_w x))), (v_st (w_v (sm_w x))), (v_st (w_v w1)), (s_dyn (w_s w1)), (t' - now x).
        destruct Rn as (G & Lv & Ty & _). split; [exact G | ]. split; [exact Lv | ]. split; [intros j; cbn; rewrite Ty; reflexivity | ]. split; [exact U1 | ]. split; [exact P | reflexivity].
      + destruct R1 as (_ & L1 & _). rewrite (proj1 (proj2 (proj2 (proj2 (proj1 L1))))) in Sg. exact Sg.
    - assert (D2 : I (Ctl (t' - now x)) (set_w x w1) = (set_w (set_w x w1) w2, Ok tt)) by (unfold I; cbn; rewrite E2; reflexivity). rewrite D2. cbn [bind_].
      destruct (run_cons w2 (t' - now x) R2 P2 P) as (w3 & E3 & R3 & P3 & T3). set (x2 := set_w (set_w x w1) w2).
      assert (D3 : I (Cons (t' - now x)) x2 = (set_w x2 w3, Ok tt)) by (unfold I; cbn; rewrite E3; reflexivity). rewrite D3. cbn [bind_].
      set (x3 := set_w x2 w3).
      destruct (run_upd n k (t' - now x) obs x3 (fun i H => H) Nobs P3) as (y & Ey & Wy & Ry & _); [cbn in Ln; lia | intros i Hi; exact (Rc i Hi) | ]. rewrite Ey. cbn [bind_].
      destruct (run_int w3 (t' - now x) R3 P) as (w4 & E4 & R4 & T4).
      assert (D4 : I (Int (t' - now x)) y = (set_w y w4, Ok tt)) by (unfold I; cbn; rewrite Wy; change (sm_w x3) with w3; rewrite E4; reflexivity). rewrite D4. cbn [bind_].
      apply (IH _ (S k)); [exact R4 | exact Ry | cbn in Ln; lia | ].
      assert (Nx : now (set_w y w4) = t') by (unfold now in *; cbn [sm_w set_w]; rewrite T4, T3, T2, T1; lra). rewrite Nx.
      intros q Hq. specialize (Inc (S q)). apply Inc. cbn in *. lia.
  Qed.
End Progress.

(** A world built with the API, of rigid bodies hanging on any joints but free ones, with any number of WeightControllers,
    without constraints, and recorders of joint or body quantities: the simulation over an increasing timeline returns normally,
    unless one of the impedance matrices is singular; it then raises LinAlgError. *)
Theorem C18_progress : forall U O t0 ts obs x g0 t, let h := s_heap (w_s (sm_w x)) in let ty := s_ty (w_s (sm_w x)) in
  reachable 0 (su_e U) g0 h -> rep (su_e U) h t -> root t = ground (su_e U) -> (height t < su_fuel U)%nat ->
  inv_spec (su_linv U) -> (forall f, SE3 (bpose (su_sc U) f)) -> hinged (su_e U) t ty -> v_cs (w_v (sm_w x)) = [] ->
  NoDup (w_controllers h) -> (forall a, In a (w_controllers h) -> exists g c, w_ctl (sm_w x) a = KWeight g c) ->
  NoDup obs -> (forall i, In i obs -> calm t (O i)) -> increasing (t0 :: ts) ->
  exists y, simulate U O (t0 :: ts) (IterList obs) x = (y, Ok tt) \/
    (simulate U O (t0 :: ts) (IterList obs) x = (y, Err LinAlgError) /\
     exists h' J st st' d dt, same_objects h h' /\ live (su_e U) h' t /\ (forall j, jt (J j) = ty j) /\ 0 < dt /\
       world_update_dynamic (su_e U) (su_sc U) h' J (su_fuel U) st = Ok (st', d) /\
       singular (w_ndof h') (mplus (mmul (/ dt) (d_mass d)) (mplus (d_nle d) (d_visc d)))).
Proof.
  intros U O t0 ts obs x g0 t h ty Rch Rp Er F Hi Hfr Hh Cs Nc Wc No Ho Inc.
  destruct (C45_reachable _ _ _ Rch) as (t2 & Rp2 & Er2 & Hin). assert (t2 = t) as -> by (apply (rep_unique (su_e U) h); auto; congruence).
  destruct (Hin (su_fuel U) F) as (h' & Ei & Lv).
  unfold simulate. cbn [consume fst]. set (x0 := set_w x (set_time (sm_w x) t0)).
  assert (WI : exists w1, world_init U (sm_w x0) = (w1, Ok tt) /\ running U t h ty w1 /\ w_time w1 = t0).
  { unfold world_init. change (s_heap (w_s (sm_w x0))) with h. rewrite Ei. change (v_cs (w_v (sm_w x0))) with (v_cs (w_v (sm_w x))). rewrite Cs. cbn [rmapM].
    assert (G : same_objects h h').
    { unfold Model_World.init in Ei. destruct (iterjoints _ _ _); [ | discriminate]. destruct (assign_dofs _ _ _ _). destruct (copy_gvels _ _ _ _ _) as [[a_ g] | ]; [ | discriminate]. injection Ei as <-. repeat split. }
    assert (Gc : w_controllers h' = w_controllers h) by apply G.
    assert (K : forall l k, NoDup l -> (forall a, In a l -> exists g c, k a = KWeight g c) -> exists k', ctl_inits U h' l k = Ok k' /\ (forall a, ~ In a l -> k' a = k a) /\
       forall a, In a l -> exists g c, k' a = KWeight g (Some c) /\ wc_imp c = mzero /\ forall b, In b (wc_bodies c) -> In b (bodies t)).
    { induction l as [ | a l IH]; intros k N H; [exists k; repeat split; auto; intros a [] | ]. cbn [ctl_inits]. inversion N as [ | ? ? Na Nl]; subst. destruct (H a (or_introl eq_refl)) as (g & c & ->). cbn [ctl_init].
      unfold wc_init. rewrite <- Er. rewrite (proj1 (C09_descendants R (su_e U) h' t (su_fuel U) (proj1 (proj1 Lv)) F)). cbn [rbind].
      match goal with |- context [upd k a ?v] => destruct (IH (upd k a v) Nl) as (k' & E & Eo & Ein) end.
      { intros a' Ha'. unfold upd. destruct (Nat.eqb_spec a' a) as [-> | ]; [contradiction | apply H; now right]. }
      exists k'. split; [exact E | ]. split.
      - intros a' Na'. rewrite Eo by (intros Q; apply Na'; now right). unfold upd. destruct (Nat.eqb_spec a' a) as [-> | ]; [exfalso; apply Na'; now left | reflexivity].
      - intros a' [<- | Ha']; [ | apply Ein; exact Ha']. rewrite (Eo a Na). unfold upd. rewrite Nat.eqb_refl. do 2 eexists. split; [reflexivity | ]. split; [reflexivity | ].
        cbn [wc_bodies]. intros b Hb. apply filter_In in Hb. destruct Hb as [Hb _]. destruct (bodies t); [destruct Hb | now right]. }
    rewrite Gc. destruct (K (w_controllers h) (w_ctl (sm_w x0)) Nc Wc) as (k' & -> & _ & Ek).
    eexists. split; [reflexivity | ]. split; [ | reflexivity]. split; [exact G | ]. split; [exact Lv | ]. split; [reflexivity | ]. split; [reflexivity | exact Ek]. }
  destruct WI as (w1 & E1 & R1 & T1). cbn [interp]. rewrite E1. cbn [bind_].
  destruct (run_init U O (t0 :: ts) t obs Ho obs (set_w x0 w1) (fun i H => H) No) as (x2 & E2 & W2 & R2 & _). rewrite E2. cbn [bind_].
  destruct (run_loop U O (t0 :: ts) t h ty obs Hi Hfr Hh F No Ho (length (t0 :: ts) - 1) ts x2 0%nat) as (y & [E3 | (E3 & Z & (h2 & J & st & st' & d & dt & M1 & M2 & M3 & M4 & M5 & ->) & Sg)]).
  - rewrite W2. exact R1.
  - exact R2.
  - cbn. lia.
  - unfold now. rewrite W2. cbn [sm_w set_w]. rewrite T1. exact Inc.
  - rewrite E3. cbn [bind_]. destruct (run_fin U O (t0 :: ts) t obs Ho obs y (fun i H => H)) as (z & Ez). exists z. left. exact Ez.
  - rewrite E3. cbn [bind_]. exists y. right. split; [reflexivity | ]. exists h2, J, st, st', d, dt. repeat split; auto; try apply M1; try apply M2.
    rewrite (proj1 (proj2 (proj2 (proj2 (proj1 M2))))). exact Sg.
Qed.
