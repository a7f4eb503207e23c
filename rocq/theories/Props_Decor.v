(** C107: names, frames and shapes are only decoration. *)
From Coq Require Import String Lra Lia FunctionalExtensionality.
From Verif Require Import Spec_Decor Proof_Step Proof_Sim Proof_Sim2 Proof_Sim3 Proof_Dyn2 Props_Sim Props_Resume Props_Sim4 Props_Apart2.
Open Scope R_scope.

Section Decor.
  Context (U : setup) (O : nat -> okind) (F : list frame) (Sh : list nat).
  Notation hp w := (s_heap (w_s w)).
  Definition blind (w : world) : Prop := forall a, blind_to_decor F Sh (w_ctl w a).
  Definition dw (w : world) : world := W (decor_v F Sh (w_v w)) (w_ctl w).
  Definition dwr (p : world * res unit) : world * res unit := (dw (fst p), snd p).

  Lemma iter_joints_d e fuel h b : iter_descendant_joints e fuel (decor_h F Sh h) b = iter_descendant_joints e fuel h b.
  Proof.
    revert b. induction fuel as [ | n IH]; intros b; [reflexivity | ]. cbn [iter_descendant_joints]. change (childrenjoints (decor_h F Sh h) b) with (childrenjoints h b). apply rconcat_ext. intros j.
    change (child_body e (decor_h F Sh h) j) with (child_body e h j). destruct (child_body e h j) as [c | ]; [ | reflexivity]. cbn [rbind]. rewrite IH. reflexivity.
  Qed.
  Lemma iter_bodies_d e fuel h b : iter_descendant_bodies e fuel (decor_h F Sh h) b = iter_descendant_bodies e fuel h b.
  Proof.
    revert b. induction fuel as [ | n IH]; intros b; [reflexivity | ]. cbn [iter_descendant_bodies]. change (childrenjoints (decor_h F Sh h) b) with (childrenjoints h b). 
    change (child_body e (decor_h F Sh h)) with (child_body e h). destruct (rmapM (child_body e h) (childrenjoints h b)) as [bs | ]; [ | reflexivity]. cbn [rbind]. apply rconcat_ext. intros j. rewrite IH. reflexivity.
  Qed.
  Lemma update_dynamic_d e sc h J fuel : forall b k st, update_dynamic e sc (decor_h F Sh h) J fuel b k st = update_dynamic e sc h J fuel b k st.
  Proof.
    induction fuel as [ | n IH]; intros b k st; [reflexivity | ]. cbn [update_dynamic]. change (childrenjoints (decor_h F Sh h) b) with (childrenjoints h b). change (jframes (decor_h F Sh h)) with (jframes h).
    generalize (upd st b (BA (Some (k_pose k)) (Some (k_jac k)) (Some (k_djac k)) (Some (k_twist k)) (Some (body_nle (b_mass sc b) (k_twist k))))). induction (childrenjoints h b) as [ | j js IHj]; intros s; [reflexivity | ].
    destruct (jframes h j) as [[f0 f1] | ]; [ | reflexivity]. change (child_kin sc (decor_h F Sh h) j (J j) f0 f1 k) with (child_kin sc h j (J j) f0 f1 k). destruct (child_kin sc h j (J j) f0 f1 k) as [k1 | ]; [ | reflexivity]. cbn [rbind].
    rewrite IH. destruct (update_dynamic e sc h J n (frame_body e f1) k1 s) as [s1 | ]; [ | reflexivity]. cbn [rbind]. apply IHj.
  Qed.
  Lemma joints_d s : joints_of (decor_s F Sh s) = joints_of s. Proof. reflexivity. Qed.
  Lemma dyn_d w : world_dynamic U (dw w) = dwr (world_dynamic U w).
  Proof.
    unfold world_dynamic, world_update_dynamic. cbn [dw w_s w_v v_s decor_v v_st]. rewrite joints_d. cbn [decor_s s_heap]. rewrite update_dynamic_d, iter_bodies_d.
    destruct (update_dynamic _ _ _ _ _ _ _ _) as [st | ]; [ | reflexivity]. cbn [rbind]. destruct (iter_descendant_bodies _ _ _ _) as [bs | ]; [ | reflexivity]. cbn [rbind]. destruct (accumulate _ _ _ _); reflexivity.
  Qed.
  (** *** init *)
  Lemma init_d e fuel h : Model_World.init 0 e fuel (decor_h F Sh h) = (decor_h F Sh (fst (Model_World.init 0 e fuel h)), snd (Model_World.init 0 e fuel h)).
  Proof.
    unfold Model_World.init, iterjoints. rewrite iter_joints_d. destruct (iter_descendant_joints _ _ _ _) as [js | ]; [ | reflexivity]. cbn [jdof decor_h set_registered next_arr arr jgvel]. destruct (assign_dofs _ _ _ _) as [n d]. destruct (copy_gvels _ _ _ _ _) as [[a g] | ]; reflexivity.
  Qed.
  Lemma ctl_init_d h k : ctl_init U (decor_h F Sh h) k = ctl_init U h k.
  Proof. destruct k as [g c | c | f]; cbn [ctl_init]; [unfold wc_init; rewrite iter_bodies_d; reflexivity | reflexivity | reflexivity]. Qed.
  Lemma ctl_inits_d h : forall m k, ctl_inits U (decor_h F Sh h) m k = ctl_inits U h m k.
  Proof. induction m as [ | a m IH]; intros k; [reflexivity | ]. cbn [ctl_inits]. rewrite ctl_init_d. destruct (ctl_init U h (k a)); [ | reflexivity]. cbn [rbind]. apply IH. Qed.
  Lemma world_init_d w : world_init U (dw w) = dwr (world_init U w).
  Proof.
    unfold world_init. change (hp (dw w)) with (decor_h F Sh (hp w)). rewrite init_d. destruct (Model_World.init 0 (su_e U) (su_fuel U) (hp w)) as [h [[] | z]]; [ | reflexivity]. cbn [fst snd]. change (v_cs (w_v (dw w))) with (v_cs (w_v w)). change (con_init (decor_h F Sh h)) with (con_init h). cbv zeta.
    rewrite ctl_inits_d. change (w_controllers (decor_h F Sh h)) with (w_controllers h). change (w_ctl (dw w)) with (w_ctl w). destruct (rmapM (con_init h) (v_cs (w_v w))) as [cs | ]; [ | reflexivity]. destruct (ctl_inits _ _ _ _) as [k | ]; reflexivity.
  Qed.
  Lemma add_d ctl dt m : forall s, add_controllers ctl dt m (decor_s F Sh s) = (decor_s F Sh (fst (add_controllers ctl dt m s)), snd (add_controllers ctl dt m s)).
  Proof. induction m as [ | a m IH]; intros s; [reflexivity | ]. cbn [add_controllers]. destruct (ctl a dt) as [[f Z] | ]; [ | reflexivity]. apply (IH (set_forces s (vplus (s_gforce s) f) (mminus (s_imp s) Z) (s_adm s))). Qed.
  Lemma ctl_ext w : blind w -> ctl_update U (dw w) = ctl_update U w.
  Proof. intros B. extensionality a. extensionality dt. specialize (B a). unfold ctl_update. change (w_ctl (dw w) a) with (w_ctl w a). destruct (w_ctl w a) as [g [c | ] | c | f]; try reflexivity. apply B. Qed.
  Lemma ctl_d w dt : blind w -> world_controllers U dt (dw w) = dwr (world_controllers U dt w).
  Proof.
    intros B. unfold world_controllers, update_controllers. rewrite (ctl_ext w B). destruct (Rlt_dec 0 dt); [ | reflexivity]. cbv zeta. change (w_s (dw w)) with (decor_s F Sh (w_s w)).
    match goal with |- context [add_controllers _ _ (w_controllers (s_heap (w_s w))) ?s] => set (s0 := s) end. match goal with |- context [add_controllers _ _ ?m ?s] => match m with context [decor_s] => change s with (decor_s F Sh s0); change m with (w_controllers (s_heap (w_s w))) end end.
    rewrite add_d. destruct (add_controllers _ dt _ s0) as [s1 [[] | ]]; cbn [fst snd]; [ | reflexivity]. change (s_imp (decor_s F Sh s1)) with (s_imp s1). change (w_ndof (s_heap (decor_s F Sh (w_s w)))) with (w_ndof (s_heap (w_s w))).
    destruct (su_linv U _ _) as [Y | ]; reflexivity.
  Qed.
  Lemma cons_d w dt : world_constraints U dt (dw w) = dwr (world_constraints U dt w).
  Proof.
    unfold world_constraints, update_constraints. change (con_env U (dw w)) with (con_env U w). change (v_cs (w_v (dw w))) with (v_cs (w_v w)). destruct (Rlt_dec 0 dt); [ | reflexivity].
    destruct (activate _ _ _ _) as [[a m] | ]; [ | reflexivity]. cbn [rbind]. destruct (stack _ _ _) as [jac | ]; [ | reflexivity]. cbn [rbind]. change (s_gforce (w_s (dw w))) with (s_gforce (w_s w)). destruct (add_gforces _ a _) as [f | ]; [ | reflexivity]. cbn [rbind].
    change (next_gvel (w_s (dw w)) dt f) with (next_gvel (w_s w) dt f). change (w_ndof (s_heap (w_s (dw w)))) with (w_ndof (s_heap (w_s w))). change (s_adm (w_s (dw w))) with (s_adm (w_s w)).
    destruct (relax _ _ _ _ _ _ _ _ _ _) as [[l1 v1] | ]; [ | reflexivity]. cbn [rbind]. destruct (add_gforces _ l1 _); reflexivity.
  Qed.
  Lemma int_joints_d dt js : forall s, integrate_joints dt js (decor_s F Sh s) = (decor_s F Sh (fst (integrate_joints dt js s)), snd (integrate_joints dt js s)).
  Proof.
    induction js as [ | j js IH]; intros s; [reflexivity | ]. cbn [integrate_joints]. assert (Q : integrate_joint dt j (decor_s F Sh s) = rmap (decor_s F Sh) (integrate_joint dt j s)) by (unfold integrate_joint; cbn [decor_s s_heap decor_h set_registered jdof]; destruct (jdof (s_heap s) j) as [[a b] | ]; reflexivity).
    rewrite Q. destruct (integrate_joint dt j s) as [s1 | ]; [ | reflexivity]. cbn [rmap rbind]. apply IH.
  Qed.
  Lemma int_d w dt : world_integrate U dt (dw w) = dwr (world_integrate U dt w).
  Proof.
    unfold world_integrate, integrate. destruct (Rlt_dec 0 dt); [ | reflexivity]. cbv zeta. change (w_s (dw w)) with (decor_s F Sh (w_s w)). change (next_gvel (decor_s F Sh (w_s w)) dt (s_gforce (decor_s F Sh (w_s w)))) with (next_gvel (w_s w) dt (s_gforce (w_s w))).
    set (v := next_gvel (w_s w) dt (s_gforce (w_s w))). change (write_world_gvel (s_heap (decor_s F Sh (w_s w))) v) with (decor_h F Sh (write_world_gvel (hp w) v)). unfold iterjoints. rewrite iter_joints_d. destruct (iter_descendant_joints _ _ _ _) as [js | ]; [ | reflexivity].
    set (s0 := WS (write_world_gvel (s_heap (w_s w)) v) (s_ty (w_s w)) (s_qH (w_s w)) (s_q (w_s w)) (s_dyn (w_s w)) (s_gforce (w_s w)) (s_imp (w_s w)) (s_adm (w_s w)) (s_time (w_s w))).
    match goal with |- context [integrate_joints dt js ?s] => match s with context [decor_s] => change s with (decor_s F Sh s0) | context [decor_h] => change s with (decor_s F Sh s0) end end.
    rewrite int_joints_d. destruct (integrate_joints dt js s0) as [s2 [[] | ]]; cbn [fst snd]; [ | reflexivity]. reflexivity.
  Qed.
  Lemma keeps w : w_ctl (fst (world_dynamic U w)) = w_ctl w /\ (forall dt, w_ctl (fst (world_controllers U dt w)) = w_ctl w) /\ (forall dt, w_ctl (fst (world_constraints U dt w)) = w_ctl w) /\ (forall dt, w_ctl (fst (world_integrate U dt w)) = w_ctl w).
  Proof.
    split; [unfold world_dynamic; destruct (world_update_dynamic _ _ _ _ _ _) as [[st e] | ]; reflexivity | ].
    split; [intros dt; unfold world_controllers; destruct (update_controllers _ _ _ _); reflexivity | ]. split; [ | intros dt; unfold world_integrate; destruct (integrate _ _ _ _); reflexivity].
    intros dt. unfold world_constraints. destruct (update_constraints _ _ _ _ _ _) as [[[a b] c] | ]; reflexivity.
  Qed.
  Lemma loop_d N tl ts : forall x, blind (sm_w x) -> sim_loop (interp U O tl) [] ts (decorated F Sh N x) = (decorated F Sh N (fst (sim_loop (interp U O tl) [] ts x)), snd (sim_loop (interp U O tl) [] ts x)).
  Proof.
    induction ts as [ | t1 ts IH]; intros x B; cbn [sim_loop map calls interp]; [reflexivity | ]. cbv zeta. change (now (decorated F Sh N x)) with (now x). set (dt := t1 - now x).
    change (sm_w (decorated F Sh N x)) with (dw (sm_w x)). rewrite dyn_d. unfold dwr. destruct (keeps (sm_w x)) as (A & _). destruct (world_dynamic U (sm_w x)) as [w1 [[] | z]]; cbn [fst snd bind_ sm_w set_w sm_names sm_obs] in *; [ | reflexivity].
    rewrite ctl_d by (intros a; rewrite A; apply B). unfold dwr. destruct (keeps w1) as (_ & A2 & _). specialize (A2 dt). destruct (world_controllers U dt w1) as [w2 [[] | z]]; cbn [fst snd bind_ sm_w set_w sm_names sm_obs] in *; [ | reflexivity].
    rewrite cons_d. unfold dwr. destruct (keeps w2) as (_ & _ & A3 & _). specialize (A3 dt). destruct (world_constraints U dt w2) as [w3 [[] | z]]; cbn [fst snd bind_ sm_w set_w sm_names sm_obs] in *; [ | reflexivity].
    rewrite int_d. unfold dwr. destruct (keeps w3) as (_ & _ & _ & A4). specialize (A4 dt). destruct (world_integrate U dt w3) as [w4 [[] | z]]; cbn [fst snd bind_ sm_w set_w sm_names sm_obs] in *; [ | reflexivity].
    apply (IH (Sim w4 (sm_names x) (sm_obs x))). intros a. cbn [sm_w]. rewrite A4, A3, A2, A. apply B.
  Qed.
  Lemma init_blind w : blind w -> blind (fst (world_init U w)).
  Proof.
    intros B. unfold world_init. destruct (Model_World.init 0 _ _ _) as [h [[] | ]]; [ | exact B]. cbv zeta. destruct (rmapM _ _) as [cs | ]; [ | exact B]. destruct (ctl_inits U h _ (w_ctl w)) as [k | ] eqn:Ek; [ | exact B].
    cbn [fst]. intros a. cbn [w_ctl]. assert (B' : forall a, blind_to_decor F Sh (w_ctl w a)) by exact B. clear - Ek B'. revert Ek B'. generalize (w_ctl w). induction (w_controllers h) as [ | b q IH]; intros k0 Ek B'; cbn [ctl_inits] in Ek; [injection Ek as <-; apply B' | ].
    destruct (ctl_init U h (k0 b)) as [c | ] eqn:E1; [ | discriminate]. cbn [rbind] in Ek. apply (IH _ Ek). intros a'. unfold upd. destruct (Nat.eqb_spec a' b) as [-> | ]; [ | apply B'].
    specialize (B' b). destruct (k0 b) as [g c0 | c0 | f]; cbn [ctl_init] in E1; [destruct (wc_init _ _ _ _ _); [ | discriminate]; injection E1 as <-; exact Logic.I | destruct (pd_init _ _); [ | discriminate]; injection E1 as <-; exact Logic.I | injection E1 as <-; exact B'].
  Qed.
End Decor.

(** [C107] Whatever the frames and the shapes registered in a world, and the names of its objects, a simulation has the same outcome (a normal end or the same error) and ends in the same
    state: shapes act only through the constraints that use them. *)
Theorem C107_decor : forall U O timeline x F Sh N, (forall a, blind_to_decor F Sh (w_ctl (sm_w x) a)) ->
  simulate U O timeline (IterList []) (decorated F Sh N x) = (decorated F Sh N (fst (simulate U O timeline (IterList []) x)), snd (simulate U O timeline (IterList []) x)).
Proof.
  intros U O [ | t0 ts] x F Sh N B; [reflexivity | ]. rewrite !simulate_alone. change (set_time (sm_w (decorated F Sh N x)) t0) with (dw F Sh (set_time (sm_w x) t0)). rewrite world_init_d. unfold dwr. assert (B1 := init_blind U F Sh (set_time (sm_w x) t0) B).
  destruct (world_init U (set_time (sm_w x) t0)) as [w1 [[] | z]]; cbn [fst snd bind_] in *; [ | reflexivity]. apply (loop_d U O F Sh N _ ts (set_w x w1)). exact B1.
Qed.

(** the two slides of Props_Apart2, decorated with a frame, two shapes and names *)
Example C107_witness : forall c v q, 0 < c -> exists y, simulate (ty_U c) sy_O [0; 1 / 2; 1] (IterList []) (ty_x v q) = (y, Ok tt) /\
  simulate (ty_U c) sy_O [0; 1 / 2; 1] (IterList []) (decorated [FSub 0] [0; 1]%nat (fun _ => Some EmptyString) (ty_x v q)) = (decorated [FSub 0] [0; 1]%nat (fun _ => Some EmptyString) y, Ok tt).
Proof.
  intros c v q Pc. assert (Inc : Spec_Sim.increasing [0; 1 / 2; 1]) by (intros k Hk; cbn in Hk; destruct k as [ | [ | k]]; cbn; lra || lia). destruct (ty_progress c v q 0 [1 / 2; 1] Pc Inc) as (y & E). exists y. split; [exact E | ].
  rewrite C107_decor by (intros a; exact Logic.I). rewrite E. reflexivity.
Qed.

(** Calls of World.register on frames and shapes: the world becomes a decorated one, so that they change no simulation. *)
Theorem C107_register : forall e l (h : @heap R), (forall o, In o l -> (exists f, o = OFrame f) \/ exists s, o = OShape s) ->
  exists F Sh, fold_left (fun h o => fst (register e o h)) l h = decor_h F Sh h.
Proof.
  intros e l h. assert (Rf : forall f h, exists F Sh, @register_frame R f h = decor_h F Sh h).
  { intros [b | b | b] h1; [exists (w_subframes h1), (w_shapes h1); destruct h1; reflexivity | | ]; eexists; eexists; reflexivity. }
  assert (Dd : forall F Sh F' Sh' (h : @heap R), decor_h F Sh (decor_h F' Sh' h) = decor_h F Sh h) by reflexivity.
  revert h. induction l as [ | o l IH]; intros h Ho; [exists (w_subframes h), (w_shapes h); destruct h; reflexivity | ]. cbn [fold_left].
  destruct (IH (fst (register e o h))) as (F & Sh & E); [intros o' Io; apply Ho; right; exact Io | ]. rewrite E.
  assert (Q : exists F' Sh', fst (register e o h) = decor_h F' Sh' h).
  { destruct (Ho o (or_introl eq_refl)) as [[f ->] | [s ->]]; cbn [register fst]; [apply Rf | ]. 
    destruct (Rf (shape_frame e s) (set_registered h (w_subframes h) (add_once Nat.eqb s (w_shapes h)) (w_constraints h) (w_controllers h))) as (F' & Sh' & E'). exists F', Sh'. rewrite E'. reflexivity. }
  destruct Q as (F' & Sh' & Q). rewrite Q, Dd. exists F, Sh. reflexivity.
Qed.
