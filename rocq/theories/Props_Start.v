(** C105: the instant at which a simulation starts does not matter. *)
From Coq Require Import String Lra Lia FunctionalExtensionality.
From Verif Require Import Spec_Start Proof_Step Proof_Sim Proof_Sim2 Proof_Sim3 Proof_Dyn2 Props_Sim Props_Resume Props_Sim4 Props_Apart2.
Open Scope R_scope.

Section Start.
  Context (U : setup) (O : nat -> okind) (d : R).
  Definition lw (w : world) : world := W (later_v d (w_v w)) (w_ctl w).
  Definition lwr (p : world * res unit) : world * res unit := (lw (fst p), snd p).
  Definition blind (w : world) : Prop := forall a, blind_to_clock d (w_ctl w a).

  Lemma dyn_l w : world_dynamic U (lw w) = lwr (world_dynamic U w).
  Proof. unfold world_dynamic. change (scene_of U (w_v (lw w))) with (scene_of U (w_v w)). cbv zeta. cbn [lw w_s w_v v_s v_st later_v later_s s_heap s_time].
    change (joints_of (later_s d (v_s (w_v w)))) with (joints_of (v_s (w_v w))). destruct (world_update_dynamic _ _ _ _ _ _) as [[st e] | ]; reflexivity. Qed.
  Lemma init_l w : world_init U (lw w) = lwr (world_init U w).
  Proof.
    unfold world_init. change (s_heap (w_s (lw w))) with (s_heap (w_s w)). destruct (Model_World.init 0 _ _ _) as [h [[] | ]]; [ | reflexivity]. cbv zeta. change (v_cs (w_v (lw w))) with (v_cs (w_v w)). change (w_ctl (lw w)) with (w_ctl w).
    destruct (rmapM _ _) as [cs | ]; [ | reflexivity]. destruct (ctl_inits _ _ _ _) as [k | ]; reflexivity.
  Qed.
  Lemma add_l ctl dt m : forall s, add_controllers ctl dt m (later_s d s) = (later_s d (fst (add_controllers ctl dt m s)), snd (add_controllers ctl dt m s)).
  Proof. induction m as [ | a m IH]; intros s; [reflexivity | ]. cbn [add_controllers]. destruct (ctl a dt) as [[f Z] | ]; [ | reflexivity]. apply (IH (set_forces s (vplus (s_gforce s) f) (mminus (s_imp s) Z) (s_adm s))). Qed.
  Lemma ctl_ext w : blind w -> ctl_update U (lw w) = ctl_update U w.
  Proof. intros B. extensionality a. extensionality dt. specialize (B a). unfold ctl_update. change (w_ctl (lw w) a) with (w_ctl w a). destruct (w_ctl w a) as [g [c | ] | c | f]; try reflexivity. apply B. Qed.
  Lemma ctl_l w dt : blind w -> world_controllers U dt (lw w) = lwr (world_controllers U dt w).
  Proof.
    intros B. unfold world_controllers, update_controllers. rewrite (ctl_ext w B). destruct (Rlt_dec 0 dt); [ | reflexivity]. cbv zeta. change (w_s (lw w)) with (later_s d (w_s w)).
    match goal with |- context [add_controllers _ _ (w_controllers (s_heap (w_s w))) ?s] => set (s0 := s) end. match goal with |- context [add_controllers _ _ ?m ?s] => match m with context [later_s] => change s with (later_s d s0); change m with (w_controllers (s_heap (w_s w))) end end.
    rewrite add_l. destruct (add_controllers _ dt _ s0) as [s1 [[] | ]]; cbn [fst snd]; [ | reflexivity]. change (s_imp (later_s d s1)) with (s_imp s1). change (s_heap (later_s d (w_s w))) with (s_heap (w_s w)).
    change (s_heap (later_s d s1)) with (s_heap s1).
    destruct (su_linv U _ _) as [Y | ]; reflexivity.
  Qed.
  Lemma cons_l w dt : world_constraints U dt (lw w) = lwr (world_constraints U dt w).
  Proof.
    unfold world_constraints, update_constraints. change (con_env U (lw w)) with (con_env U w). change (v_cs (w_v (lw w))) with (v_cs (w_v w)). destruct (Rlt_dec 0 dt); [ | reflexivity].
    destruct (activate _ _ _ _) as [[a m] | ]; [ | reflexivity]. cbn [rbind]. destruct (stack _ _ _) as [jac | ]; [ | reflexivity]. cbn [rbind]. change (s_gforce (w_s (lw w))) with (s_gforce (w_s w)). destruct (add_gforces _ a _) as [f | ]; [ | reflexivity]. cbn [rbind].
    change (next_gvel (w_s (lw w)) dt f) with (next_gvel (w_s w) dt f). change (s_heap (w_s (lw w))) with (s_heap (w_s w)). change (s_adm (w_s (lw w))) with (s_adm (w_s w)).
    destruct (relax _ _ _ _ _ _ _ _ _ _) as [[l1 v1] | ]; [ | reflexivity]. cbn [rbind]. destruct (add_gforces _ l1 _); reflexivity.
  Qed.
  Lemma int_joints_l dt js : forall s, integrate_joints dt js (later_s d s) = (later_s d (fst (integrate_joints dt js s)), snd (integrate_joints dt js s)).
  Proof.
    induction js as [ | j js IH]; intros s; [reflexivity | ]. cbn [integrate_joints]. assert (Q : integrate_joint dt j (later_s d s) = rmap (later_s d) (integrate_joint dt j s)) by (unfold integrate_joint; cbn [later_s s_heap]; destruct (jdof (s_heap s) j) as [[a b] | ]; reflexivity).
    rewrite Q. destruct (integrate_joint dt j s) as [s1 | ]; [ | reflexivity]. cbn [rmap rbind]. apply IH.
  Qed.
  Lemma int_l w dt : world_integrate U dt (lw w) = lwr (world_integrate U dt w).
  Proof.
    unfold world_integrate, integrate. destruct (Rlt_dec 0 dt); [ | reflexivity]. cbv zeta. change (w_s (lw w)) with (later_s d (w_s w)). change (next_gvel (later_s d (w_s w)) dt (s_gforce (later_s d (w_s w)))) with (next_gvel (w_s w) dt (s_gforce (w_s w))).
    set (v := next_gvel (w_s w) dt (s_gforce (w_s w))). change (s_heap (later_s d (w_s w))) with (s_heap (w_s w)). destruct (iterjoints _ _ _) as [js | ]; [ | reflexivity].
    set (s0 := WS (write_world_gvel (s_heap (w_s w)) v) (s_ty (w_s w)) (s_qH (w_s w)) (s_q (w_s w)) (s_dyn (w_s w)) (s_gforce (w_s w)) (s_imp (w_s w)) (s_adm (w_s w)) (s_time (w_s w))).
    match goal with |- context [integrate_joints dt js ?s] => match s with context [later_s] => change s with (later_s d s0) end end.
    rewrite int_joints_l. destruct (integrate_joints dt js s0) as [s2 [[] | ]]; cbn [fst snd]; [ | reflexivity]. cbn [later_s s_heap s_ty s_qH s_q s_dyn s_gforce s_imp s_adm s_time]. unfold lwr, lw, later_v, later_s. cbn. replace (s_time s2 + d + dt) with (s_time s2 + dt + d) by ring. reflexivity.
  Qed.
  Lemma keeps w : w_ctl (fst (world_dynamic U w)) = w_ctl w /\ (forall dt, w_ctl (fst (world_controllers U dt w)) = w_ctl w) /\ (forall dt, w_ctl (fst (world_constraints U dt w)) = w_ctl w) /\ (forall dt, w_ctl (fst (world_integrate U dt w)) = w_ctl w).
  Proof.
    split; [unfold world_dynamic; destruct (world_update_dynamic _ _ _ _ _ _) as [[st e] | ]; reflexivity | ].
    split; [intros dt; unfold world_controllers; destruct (update_controllers _ _ _ _); reflexivity | ]. split; [ | intros dt; unfold world_integrate; destruct (integrate _ _ _ _); reflexivity].
    intros dt. unfold world_constraints. destruct (update_constraints _ _ _ _ _ _) as [[[a b] c] | ]; reflexivity.
  Qed.
  Lemma loop_l tl tl' ts : forall x, blind (sm_w x) -> sim_loop (interp U O tl') [] (map (fun t => t + d) ts) (later d x) = (later d (fst (sim_loop (interp U O tl) [] ts x)), snd (sim_loop (interp U O tl) [] ts x)).
  Proof.
    induction ts as [ | t1 ts IH]; intros x B; cbn [sim_loop map calls interp]; [reflexivity | ]. cbv zeta. replace (t1 + d - now (later d x)) with (t1 - now x) by (unfold now, w_time, w_s; cbn [later sm_w w_v later_v v_s later_s s_time]; ring). set (dt := t1 - now x).
    change (sm_w (later d x)) with (lw (sm_w x)). rewrite dyn_l. unfold lwr. destruct (keeps (sm_w x)) as (A & _). destruct (world_dynamic U (sm_w x)) as [w1 [[] | z]]; cbn [fst snd bind_ sm_w set_w sm_names sm_obs] in *; [ | reflexivity].
    rewrite ctl_l by (intros a; rewrite A; apply B). unfold lwr. destruct (keeps w1) as (_ & A2 & _). specialize (A2 dt). destruct (world_controllers U dt w1) as [w2 [[] | z]]; cbn [fst snd bind_ sm_w set_w sm_names sm_obs] in *; [ | reflexivity].
    rewrite cons_l. unfold lwr. destruct (keeps w2) as (_ & _ & A3 & _). specialize (A3 dt). destruct (world_constraints U dt w2) as [w3 [[] | z]]; cbn [fst snd bind_ sm_w set_w sm_names sm_obs] in *; [ | reflexivity].
    rewrite int_l. unfold lwr. destruct (keeps w3) as (_ & _ & _ & A4). specialize (A4 dt). destruct (world_integrate U dt w3) as [w4 [[] | z]]; cbn [fst snd bind_ sm_w set_w sm_names sm_obs] in *; [ | reflexivity].
    apply (IH (Sim w4 (sm_names x) (sm_obs x))). intros a. cbn [sm_w]. rewrite A4, A3, A2, A. apply B.
  Qed.
  Lemma init_blind w : blind w -> blind (fst (world_init U w)).
  Proof.
    intros B. unfold world_init. destruct (Model_World.init 0 _ _ _) as [h [[] | ]]; [ | exact B]. cbv zeta. destruct (rmapM _ _) as [cs | ]; [ | exact B]. destruct (ctl_inits U h _ (w_ctl w)) as [k | ] eqn:Ek; [ | exact B].
    cbn [fst]. intros a. cbn [w_ctl]. assert (B' : forall a, blind_to_clock d (w_ctl w a)) by exact B. clear - Ek B'. revert Ek B'. generalize (w_ctl w). induction (w_controllers h) as [ | b q IH]; intros k0 Ek B'; cbn [ctl_inits] in Ek; [injection Ek as <-; apply B' | ].
    destruct (ctl_init U h (k0 b)) as [c | ] eqn:E1; [ | discriminate]. cbn [rbind] in Ek. apply (IH _ Ek). intros a'. unfold upd. destruct (Nat.eqb_spec a' b) as [-> | ]; [ | apply B'].
    specialize (B' b). destruct (k0 b) as [g c0 | c0 | f]; cbn [ctl_init] in E1; [destruct (wc_init _ _ _ _ _); [ | discriminate]; injection E1 as <-; exact Logic.I | destruct (pd_init _ _); [ | discriminate]; injection E1 as <-; exact Logic.I | injection E1 as <-; exact B'].
  Qed.
End Start.

(** [C105] Shift a timeline by [d]: from the same world, whatever its controllers (that do not look at the clock), constraints and joints, the simulation has the same outcome
    (a normal end or the same error), and ends in the same state but for the clock, which is [d] later. *)
Theorem C105_start : forall U O t0 ts x d, (forall a, blind_to_clock d (w_ctl (sm_w x) a)) ->
  simulate U O (map (fun t => t + d) (t0 :: ts)) (IterList []) x = (later d (fst (simulate U O (t0 :: ts) (IterList []) x)), snd (simulate U O (t0 :: ts) (IterList []) x)).
Proof.
  intros U O t0 ts x d B. cbn [map]. rewrite !simulate_alone. change (set_time (sm_w x) (t0 + d)) with (lw d (set_time (sm_w x) t0)). rewrite init_l. unfold lwr. assert (B1 := init_blind U d (set_time (sm_w x) t0) B).
  destruct (world_init U (set_time (sm_w x) t0)) as [w1 [[] | z]]; cbn [fst snd bind_] in *; [ | reflexivity]. apply (loop_l U O d _ _ ts (set_w x w1)). exact B1.
Qed.

(** the two slides of Props_Apart2 started at time 100 move as when started at time 0 *)
Example C105_witness : forall c v q, 0 < c -> exists y, simulate (ty_U c) sy_O [0; 1 / 2; 1] (IterList []) (ty_x v q) = (y, Ok tt) /\
  simulate (ty_U c) sy_O [0 + 100; 1 / 2 + 100; 1 + 100] (IterList []) (ty_x v q) = (later 100 y, Ok tt).
Proof.
  intros c v q Pc. assert (Inc : Spec_Sim.increasing [0; 1 / 2; 1]) by (intros k Hk; cbn in Hk; destruct k as [ | [ | k]]; cbn; lra || lia). destruct (ty_progress c v q 0 [1 / 2; 1] Pc Inc) as (y & E). exists y. split; [exact E | ].
  change [0 + 100; 1 / 2 + 100; 1 + 100] with (map (fun t => t + 100) [0; 1 / 2; 1]). rewrite (C105_start (ty_U c) sy_O 0 [1 / 2; 1] (ty_x v q) 100); [ | intros a; exact Logic.I]. rewrite E. reflexivity.
Qed.
