(** C104: the order in which the controllers are registered does not matter. *)
From Coq Require Import String Lra Lia FunctionalExtensionality.
From Verif Require Import Spec_Order Proof_Step Proof_Sim Proof_Sim2 Proof_Sim3 Proof_Dyn2 Props_Sim Props_Resume Spec_Apart Proof_Linalg Proof_SE3 Proof_Tree Proof_World Proof_Dyn Proof_Matrix Props_Mass Props_Sim3 Props_DynEx Props_EnergyEx Props_Sim4 Props_Apart2.
Open Scope R_scope.

Section Order.
  Context (U : setup) (O : nat -> okind) (l0 l : list nat).
  Hypothesis Pm : Permutation l0 l.
  Notation hp w := (s_heap (w_s w)).
  Definition rw (w : world) : world := W (reordered_v l (w_v w)) (w_ctl w).
  Definition rwr (p : world * res unit) : world * res unit := (rw (fst p), snd p).

  Lemma iter_joints_r e fuel h b : iter_descendant_joints e fuel (with_controllers l h) b = iter_descendant_joints e fuel h b.
  Proof.
    revert b. induction fuel as [ | n IH]; intros b; [reflexivity | ]. cbn [iter_descendant_joints]. change (childrenjoints (with_controllers l h) b) with (childrenjoints h b). apply rconcat_ext. intros j.
    change (child_body e (with_controllers l h) j) with (child_body e h j). destruct (child_body e h j) as [c | ]; [ | reflexivity]. cbn [rbind]. rewrite IH. reflexivity.
  Qed.
  Lemma iter_bodies_r e fuel h b : iter_descendant_bodies e fuel (with_controllers l h) b = iter_descendant_bodies e fuel h b.
  Proof.
    revert b. induction fuel as [ | n IH]; intros b; [reflexivity | ]. cbn [iter_descendant_bodies]. change (childrenjoints (with_controllers l h) b) with (childrenjoints h b). 
    change (child_body e (with_controllers l h)) with (child_body e h). destruct (rmapM (child_body e h) (childrenjoints h b)) as [bs | ]; [ | reflexivity]. cbn [rbind]. apply rconcat_ext. intros j. rewrite IH. reflexivity.
  Qed.
  Lemma update_dynamic_r e sc h J fuel : forall b k st, update_dynamic e sc (with_controllers l h) J fuel b k st = update_dynamic e sc h J fuel b k st.
  Proof.
    induction fuel as [ | n IH]; intros b k st; [reflexivity | ]. cbn [update_dynamic]. change (childrenjoints (with_controllers l h) b) with (childrenjoints h b). change (jframes (with_controllers l h)) with (jframes h).
    generalize (upd st b (BA (Some (k_pose k)) (Some (k_jac k)) (Some (k_djac k)) (Some (k_twist k)) (Some (body_nle (b_mass sc b) (k_twist k))))). induction (childrenjoints h b) as [ | j js IHj]; intros s; [reflexivity | ].
    destruct (jframes h j) as [[f0 f1] | ]; [ | reflexivity]. change (child_kin sc (with_controllers l h) j (J j) f0 f1 k) with (child_kin sc h j (J j) f0 f1 k). destruct (child_kin sc h j (J j) f0 f1 k) as [k1 | ]; [ | reflexivity]. cbn [rbind].
    rewrite IH. destruct (update_dynamic e sc h J n (frame_body e f1) k1 s) as [s1 | ]; [ | reflexivity]. cbn [rbind]. apply IHj.
  Qed.
  Lemma joints_r s : joints_of (reordered_s l s) = joints_of s. Proof. reflexivity. Qed.
  Lemma dyn_r w : world_dynamic U (rw w) = rwr (world_dynamic U w).
  Proof.
    unfold world_dynamic, world_update_dynamic. cbn [rw w_s w_v v_s reordered_v v_st]. rewrite joints_r. cbn [reordered_s s_heap]. rewrite update_dynamic_r, iter_bodies_r.
    destruct (update_dynamic _ _ _ _ _ _ _ _) as [st | ]; [ | reflexivity]. cbn [rbind]. destruct (iter_descendant_bodies _ _ _ _) as [bs | ]; [ | reflexivity]. cbn [rbind]. destruct (accumulate _ _ _ _); reflexivity.
  Qed.
  (** *** init *)
  Lemma init_r e fuel h : Model_World.init 0 e fuel (with_controllers l h) = (with_controllers l (fst (Model_World.init 0 e fuel h)), snd (Model_World.init 0 e fuel h)).
  Proof.
    unfold Model_World.init, iterjoints. rewrite iter_joints_r. destruct (iter_descendant_joints _ _ _ _) as [js | ]; [ | reflexivity]. cbn [jdof with_controllers set_registered next_arr arr jgvel]. destruct (assign_dofs _ _ _ _) as [n d]. destruct (copy_gvels _ _ _ _ _) as [[a g] | ]; reflexivity.
  Qed.
  Lemma ctl_init_r h k : ctl_init U (with_controllers l h) k = ctl_init U h k.
  Proof. destruct k as [g c | c | f]; cbn [ctl_init]; [unfold wc_init; rewrite iter_bodies_r; reflexivity | reflexivity | reflexivity]. Qed.
  Lemma ctl_inits_r h : forall m k, ctl_inits U (with_controllers l h) m k = ctl_inits U h m k.
  Proof. induction m as [ | a m IH]; intros k; [reflexivity | ]. cbn [ctl_inits]. rewrite ctl_init_r. destruct (ctl_init U h (k a)); [ | reflexivity]. cbn [rbind]. apply IH. Qed.
  Lemma ctl_inits_perm h m m' : Permutation m m' -> forall k r, ctl_inits U h m k = Ok r -> ctl_inits U h m' k = Ok r.
  Proof.
    induction 1 as [ | a m m' _ IH | a b m | m1 m2 m3 _ IH1 _ IH2]; intros k r E.
    - exact E.
    - cbn [ctl_inits] in *. destruct (ctl_init U h (k a)); [ | discriminate]. cbn [rbind] in *. apply IH. exact E.
    - cbn [ctl_inits] in *. destruct (Nat.eq_dec a b) as [-> | N]; [exact E | ]. destruct (ctl_init U h (k b)) as [c | ] eqn:Eb; [ | discriminate]. cbn [rbind] in E. unfold upd at 1 in E. rewrite (proj2 (Nat.eqb_neq a b) N) in E.
      destruct (ctl_init U h (k a)) as [d | ] eqn:Ea; [ | discriminate]. cbn [rbind] in E |- *. unfold upd at 1. rewrite (proj2 (Nat.eqb_neq b a) (fun H => N (eq_sym H))), Eb. cbn [rbind]. assert (Q : upd (upd k a d) b c = upd (upd k b c) a d).
      { apply functional_extensionality. intros x. unfold upd. destruct (Nat.eqb_spec x b) as [Hb | ], (Nat.eqb_spec x a) as [Ha | ]; congruence || reflexivity. }
      rewrite Q. exact E.
    - apply IH2, IH1. exact E.
  Qed.
  Lemma world_init_r w w1 : w_controllers (hp w) = l0 -> world_init U w = (w1, Ok tt) -> world_init U (rw w) = (rw w1, Ok tt) /\ w_controllers (hp w1) = l0 /\
    (forall m a, blind_to_order m (w_ctl w a) -> blind_to_order m (w_ctl w1 a)).
  Proof.
    intros El E. unfold world_init in *. change (hp (rw w)) with (with_controllers l (hp w)). rewrite init_r. assert (Hw : w_controllers (fst (Model_World.init 0 (su_e U) (su_fuel U) (hp w))) = l0).
    { rewrite <- El. unfold Model_World.init. destruct (iterjoints _ _ _); [ | reflexivity]. destruct (assign_dofs _ _ _ _) as [n d]. destruct (copy_gvels _ _ _ _ _) as [[a1 g1] | ]; reflexivity. }
    destruct (Model_World.init 0 (su_e U) (su_fuel U) (hp w)) as [h [[] | z]]; [ | discriminate]. cbn [fst snd] in *. change (v_cs (w_v (rw w))) with (v_cs (w_v w)). change (con_init (with_controllers l h)) with (con_init h). cbv zeta in *.
    destruct (rmapM (con_init h) (v_cs (w_v w))) as [cs | ]; [ | discriminate]. rewrite ctl_inits_r. change (w_controllers (with_controllers l h)) with l. rewrite Hw in E. destruct (ctl_inits U h l0 (w_ctl w)) as [k | ] eqn:Ek; [ | discriminate].
    change (w_ctl (rw w)) with (w_ctl w). rewrite (ctl_inits_perm h l0 l Pm _ _ Ek). injection E as <-. split; [reflexivity | ]. split; [exact Hw | ]. cbn [w_ctl]. intros m a Ha. clear - Ek Ha. revert Ek Ha. generalize (w_ctl w). induction l0 as [ | b q IH]; intros k0 Ek Ha; cbn [ctl_inits] in Ek; [injection Ek as <-; exact Ha | ].
    destruct (ctl_init U h (k0 b)) as [c | ] eqn:E1; [ | discriminate]. cbn [rbind] in Ek. apply (IH _ Ek). unfold upd. destruct (Nat.eqb_spec a b) as [-> | ]; [ | exact Ha].
    destruct (k0 b) as [g c0 | c0 | f]; cbn [ctl_init] in E1; [destruct (wc_init _ _ _ _ _); [ | discriminate]; injection E1 as <-; exact Logic.I | destruct (pd_init _ _); [ | discriminate]; injection E1 as <-; exact Logic.I | injection E1 as <-; exact Ha].
  Qed.
  (** *** controllers *)
  Lemma add_perm ctl dt m m' : Permutation m m' -> forall s s1, add_controllers ctl dt m s = (s1, Ok tt) -> add_controllers ctl dt m' s = (s1, Ok tt).
  Proof.
    induction 1 as [ | a m m' _ IH | a b m | m1 m2 m3 _ IH1 _ IH2]; intros s s1 E.
    - exact E.
    - cbn [add_controllers] in *. destruct (ctl a dt) as [[f Z] | ]; [ | discriminate]. apply IH. exact E.
    - cbn [add_controllers] in *. destruct (ctl b dt) as [[f Z] | ]; [ | discriminate]. destruct (ctl a dt) as [[f' Z'] | ]; [ | discriminate]. rewrite <- E. f_equal. unfold set_forces. cbn [s_heap s_ty s_qH s_q s_dyn s_gforce s_imp s_adm s_time]. f_equal.
      + extensionality i. unfold vplus. ring.
      + extensionality i. extensionality j. unfold mminus. ring.
    - apply IH2, IH1. exact E.
  Qed.
  Lemma add_r ctl dt m : forall s, add_controllers ctl dt m (reordered_s l s) = (reordered_s l (fst (add_controllers ctl dt m s)), snd (add_controllers ctl dt m s)).
  Proof. induction m as [ | a m IH]; intros s; [reflexivity | ]. cbn [add_controllers]. destruct (ctl a dt) as [[f Z] | ]; [ | reflexivity]. apply (IH (set_forces s (vplus (s_gforce s) f) (mminus (s_imp s) Z) (s_adm s))). Qed.
  Lemma add_ext c c' dt m : (forall a, In a m -> c a dt = c' a dt) -> forall s, add_controllers c dt m s = add_controllers c' dt m s.
  Proof. induction m as [ | a m IH]; intros H s; [reflexivity | ]. cbn [add_controllers]. rewrite (H a (or_introl eq_refl)). destruct (c' a dt) as [[f Z] | ]; [ | reflexivity]. apply IH. intros b Hb. apply H. right. exact Hb. Qed.
  Lemma ctl_r w w1 dt : w_controllers (hp w) = l0 -> (forall a, In a l0 -> blind_to_order l (w_ctl w a)) -> world_controllers U dt w = (w1, Ok tt) -> world_controllers U dt (rw w) = (rw w1, Ok tt).
  Proof.
    intros El Hb E. unfold world_controllers, update_controllers in *. destruct (Rlt_dec 0 dt); [ | discriminate]. cbv zeta in *. change (w_controllers (hp (rw w))) with l. rewrite El in E. change (w_s (rw w)) with (reordered_s l (w_s w)). cbn [reordered_s s_dyn s_adm s_heap with_controllers set_registered w_ndof].
    match type of E with context [add_controllers _ _ _ ?s] => set (s0 := s) in E end. match goal with |- context [add_controllers _ _ _ ?s] => change s with (reordered_s l s0) end.
    rewrite (add_ext (ctl_update U (rw w)) (ctl_update U w)).
    2: { intros a Ia. assert (Ia0 := Permutation_in _ (Permutation_sym Pm) Ia). specialize (Hb a Ia0). unfold ctl_update. change (w_ctl (rw w) a) with (w_ctl w a). destruct (w_ctl w a) as [g [c | ] | c | f]; try reflexivity. apply Hb. }
    rewrite add_r. destruct (add_controllers (ctl_update U w) dt l0 s0) as [s1 [[] | ]] eqn:Ea; [ | discriminate]. rewrite (add_perm _ _ _ _ Pm _ _ Ea). cbn [fst snd]. change (s_imp (reordered_s l s1)) with (s_imp s1). change (w_ndof (set_registered _ _ _ _ l)) with (w_ndof (hp w)).
    destruct (su_linv U _ _) as [Y | ]; [ | discriminate]. injection E as <-. reflexivity.
  Qed.
  (** *** constraints and integration *)
  Lemma cons_r w dt : world_constraints U dt (rw w) = rwr (world_constraints U dt w).
  Proof.
    unfold world_constraints, update_constraints. change (con_env U (rw w)) with (con_env U w). change (v_cs (w_v (rw w))) with (v_cs (w_v w)). destruct (Rlt_dec 0 dt); [ | reflexivity].
    destruct (activate _ _ _ _) as [[a m] | ]; [ | reflexivity]. cbn [rbind]. destruct (stack _ _ _) as [jac | ]; [ | reflexivity]. cbn [rbind]. change (s_gforce (w_s (rw w))) with (s_gforce (w_s w)). destruct (add_gforces _ a _) as [f | ]; [ | reflexivity]. cbn [rbind].
    change (next_gvel (w_s (rw w)) dt f) with (next_gvel (w_s w) dt f). change (w_ndof (hp (rw w))) with (w_ndof (hp w)). change (s_adm (w_s (rw w))) with (s_adm (w_s w)).
    destruct (relax _ _ _ _ _ _ _ _ _ _) as [[l1 v1] | ]; [ | reflexivity]. cbn [rbind]. destruct (add_gforces _ l1 _); reflexivity.
  Qed.
  Lemma int_joints_r dt js : forall s, integrate_joints dt js (reordered_s l s) = (reordered_s l (fst (integrate_joints dt js s)), snd (integrate_joints dt js s)).
  Proof.
    induction js as [ | j js IH]; intros s; [reflexivity | ]. cbn [integrate_joints]. assert (Q : integrate_joint dt j (reordered_s l s) = rmap (reordered_s l) (integrate_joint dt j s)) by (unfold integrate_joint; cbn [reordered_s s_heap with_controllers set_registered jdof]; destruct (jdof (s_heap s) j) as [[a b] | ]; reflexivity).
    rewrite Q. destruct (integrate_joint dt j s) as [s1 | ]; [ | reflexivity]. cbn [rmap rbind]. apply IH.
  Qed.
  Lemma int_r w dt : world_integrate U dt (rw w) = rwr (world_integrate U dt w).
  Proof.
    unfold world_integrate, integrate. destruct (Rlt_dec 0 dt); [ | reflexivity]. cbv zeta. change (w_s (rw w)) with (reordered_s l (w_s w)). change (next_gvel (reordered_s l (w_s w)) dt (s_gforce (reordered_s l (w_s w)))) with (next_gvel (w_s w) dt (s_gforce (w_s w))).
    set (v := next_gvel (w_s w) dt (s_gforce (w_s w))). change (write_world_gvel (s_heap (reordered_s l (w_s w))) v) with (with_controllers l (write_world_gvel (hp w) v)). unfold iterjoints. rewrite iter_joints_r. destruct (iter_descendant_joints _ _ _ _) as [js | ]; [ | reflexivity].
    match goal with |- context [integrate_joints dt js ?s] => match s with context [with_controllers] => change s with (reordered_s l (WS (write_world_gvel (hp w) v) (s_ty (w_s w)) (s_qH (w_s w)) (s_q (w_s w)) (s_dyn (w_s w)) (s_gforce (w_s w)) (s_imp (w_s w)) (s_adm (w_s w)) (s_time (w_s w)))) end end.
    rewrite int_joints_r. destruct (integrate_joints dt js _) as [s2 [[] | ]]; reflexivity.
  Qed.
  (** *** the loop *)
  Lemma keeps_ctl w : w_controllers (hp (fst (world_dynamic U w))) = w_controllers (hp w) /\ w_ctl (fst (world_dynamic U w)) = w_ctl w /\
    (forall dt, w_controllers (hp (fst (world_controllers U dt w))) = w_controllers (hp w) /\ w_ctl (fst (world_controllers U dt w)) = w_ctl w) /\
    (forall dt, w_controllers (hp (fst (world_constraints U dt w))) = w_controllers (hp w) /\ w_ctl (fst (world_constraints U dt w)) = w_ctl w) /\
    (forall dt, w_ctl (fst (world_integrate U dt w)) = w_ctl w).
  Proof.
    unfold world_dynamic. destruct (world_update_dynamic _ _ _ _ _ _) as [[st d] | ]; (split; [reflexivity | split; [reflexivity | ]]); (split; [ | split; [ | intros dt; unfold world_integrate; destruct (integrate _ _ _ _); reflexivity]]); intros dt.
    1, 3: unfold world_controllers; destruct (Props_Step.update_controllers_frame (su_linv U) (ctl_update U w) dt (w_s w)) as (f & Z & Y & Fr); destruct (update_controllers _ _ _ _) as [s r]; cbn [fst] in *; subst s; split; reflexivity.
    all: unfold world_constraints, update_constraints; destruct (Rlt_dec 0 dt); [ | split; reflexivity]; destruct (activate _ _ _ _) as [[a m] | ]; [ | split; reflexivity]; cbn [rbind]; destruct (stack _ _ _) as [jac | ]; [ | split; reflexivity]; cbn [rbind];
      destruct (add_gforces _ a _) as [f | ]; [ | split; reflexivity]; cbn [rbind]; destruct (relax _ _ _ _ _ _ _ _ _ _) as [[l1 v1] | ]; [ | split; reflexivity]; cbn [rbind]; destruct (add_gforces _ l1 _); split; reflexivity.
  Qed.
  Lemma loop_r tl ts : forall x y, w_controllers (hp (sm_w x)) = l0 -> (forall a, In a l0 -> blind_to_order l (w_ctl (sm_w x) a)) -> sim_loop (interp U O tl) [] ts x = (y, Ok tt) -> sim_loop (interp U O tl) [] ts (reordered l x) = (reordered l y, Ok tt).
  Proof.
    induction ts as [ | t1 ts IH]; intros x y Hl Hb E; cbn [sim_loop map calls interp] in *; [injection E as <-; reflexivity | ]. cbv zeta in *. change (now (reordered l x)) with (now x). set (dt := t1 - now x) in *.
    change (sm_w (reordered l x)) with (rw (sm_w x)). rewrite dyn_r. unfold rwr. destruct (keeps_ctl (sm_w x)) as (A1 & A2 & _). destruct (world_dynamic U (sm_w x)) as [w1 [[] | z]]; cbn [fst snd bind_ sm_w set_w sm_names sm_obs] in *; [ | discriminate].
    destruct (keeps_ctl w1) as (_ & _ & B & _). destruct (B dt) as [B1 B2]. destruct (world_controllers U dt w1) as [w2 [[] | z]] eqn:E2; cbn [fst snd bind_ sm_w set_w sm_names sm_obs] in *; [ | discriminate].
    rewrite (ctl_r w1 w2 dt); [ | congruence | intros a Ha; rewrite A2; apply Hb; exact Ha | exact E2]. cbn [bind_ sm_w set_w sm_names sm_obs].
    destruct (keeps_ctl w2) as (_ & _ & _ & C & _). destruct (C dt) as [C1 C2]. rewrite cons_r. unfold rwr. destruct (world_constraints U dt w2) as [w3 [[] | z]]; cbn [fst snd bind_ sm_w set_w sm_names sm_obs] in *; [ | discriminate].
    destruct (keeps_ctl w3) as (_ & _ & _ & _ & D2). specialize (D2 dt). rewrite int_r. unfold rwr. destruct (world_integrate U dt w3) as [w4 [[] | z]] eqn:E4; cbn [fst snd bind_ sm_w set_w sm_names sm_obs] in *; [ | discriminate].
    assert (D1 : w_controllers (hp w4) = w_controllers (hp w3)).
    { assert (Q : interp U O tl (Int dt) (set_w x w3) = (set_w x w4, Ok tt)) by (cbn [interp set_w sm_w sm_names sm_obs]; rewrite E4; reflexivity). exact (proj2 (proj2 (proj2 (interp_graph _ _ _ _ _ _ Q)))). }
    apply IH in E; [exact E | cbn [sm_w set_w]; congruence | ]. cbn [sm_w set_w]. intros a Ha. rewrite D2, C2, B2, A2. apply Hb. exact Ha.
  Qed.
End Order.

(** [C104] If a simulation ends, the same simulation of the same world whose controllers were registered in another order ends too, in the same state (whatever the controllers,
    the constraints and the joints): positions, velocities, forces, matrices, time. *)
Theorem C104_order : forall U O timeline x y l, Permutation (w_controllers (s_heap (w_s (sm_w x)))) l ->
  (forall a, In a l -> blind_to_order l (w_ctl (sm_w x) a)) ->
  simulate U O timeline (IterList []) x = (y, Ok tt) -> simulate U O timeline (IterList []) (reordered l x) = (reordered l y, Ok tt).
Proof.
  intros U O [ | t0 ts] x y l Pm Hb E; [discriminate | ]. rewrite simulate_alone in *. change (set_time (sm_w (reordered l x)) t0) with (rw l (set_time (sm_w x) t0)).
  destruct (world_init U (set_time (sm_w x) t0)) as [w1 [[] | z]] eqn:Ei; cbn [bind_] in E; [ | discriminate]. destruct (world_init_r U _ l Pm (set_time (sm_w x) t0) w1 eq_refl Ei) as (E1 & Hl & Hk). rewrite E1. cbn [bind_].
  change (set_w (reordered l x) (rw l w1)) with (reordered l (set_w x w1)). apply (loop_r U O _ l Pm); [exact Hl | | exact E]. intros a Ha. cbn [sm_w set_w]. apply Hk. apply Hb. exact (Permutation_in _ Pm Ha).
Qed.

(** Two slides, two WeightControllers of different gravities, registered in the order [a] then [b]. *)
Definition oy_h (v : nat -> R) (a b : nat) : @heap R := run 0 ty_e 10 [AddLink (FBody 0) 1 (FBody 1); AddLink (FBody 0) 2 (FBody 2); Init; Register (OController a); Register (OController b)] (fresh ty_e (fun j _ => v j)).
Definition oy_of (q : nat -> R) (h : @heap R) : sim :=
  Sim (W (WV (WS h (fun _ => TyJoint) (fun _ => eye4) (fun j _ => q j) wdyn0 vzero mzero mzero 0) (fun _ => no_attr) []) (fun i => KWeight (if Nat.eqb i 0 then - (981 / 100) else 3) None)) (fun _ => None) (fun _ => MUser (VNum 0)).
Definition oy_x (v q : nat -> R) (a b : nat) : sim := oy_of q (oy_h v a b).
Lemma oy_rep v : rep ty_e (oy_h v 0 1) ty_t.
Proof.
  constructor; [reflexivity | ]. constructor; [split; [split; [do 2 eexists; split; [reflexivity | split; reflexivity] | reflexivity] | constructor; [reflexivity | constructor]] | ].
  constructor; [split; [split; [do 2 eexists; split; [reflexivity | split; reflexivity] | reflexivity] | constructor; [reflexivity | constructor]] | constructor].
Qed.
Lemma oy_reachable v : reachable 0 ty_e (fun j _ => v j) (oy_h v 0 1).
Proof.
  unfold oy_h, run. cbn [fold_left]. constructor; [ | exact Logic.I]. constructor; [ | exact Logic.I]. constructor; [ | exact Logic.I]. constructor; [constructor; [constructor | ] | ]; cbn [admissible frame_body].
  - intros B. inversion B as [ | ? ? ? ? ? Ij]; subst. cbn in Ij. contradiction.
  - intros B. inversion B as [ | ? ? ? ? ? Ij ? B2]; subst. cbn in Ij. contradiction.
Qed.
Lemma oy_frames v j : (j = 1 \/ j = 2)%nat -> jframes (oy_h v 0 1) j = Some (FBody 0, FBody j).
Proof. intros [-> | ->]; reflexivity. Qed.
Lemma oy_progress c v q t0 ts : 0 < c -> Spec_Sim.increasing (t0 :: ts) -> exists y, simulate (ty_U c) sy_O (t0 :: ts) (IterList []) (oy_x v q 0 1) = (y, Ok tt).
Proof.
  intros Pc Inc. destruct (C18_progress (ty_U c) sy_O t0 ts [] (oy_x v q 0 1) (fun j _ => v j) ty_t) as (y & [E | (_ & h' & J & st & st' & d & dt & So & Lv & Tj & Pd & E & Sg)]).
  - exact (oy_reachable v).
  - exact (oy_rep v).
  - reflexivity.
  - cbn. lia.
  - exact gauss_inv_spec.
  - intros [b | b | b]; apply SE3_eye.
  - intros j Ij. cbn in Ij. split; [destruct Ij as [<- | [<- | []]]; reflexivity | discriminate].
  - reflexivity.
  - change (NoDup [0; 1]%nat). repeat constructor; cbn; intuition discriminate.
  - intros a _. do 2 eexists. reflexivity.
  - constructor.
  - intros i [].
  - exact Inc.
  - exists y. exact E.
  - exfalso. destruct So as (_ & Sj & _).
    destruct (ty_dyn c h' J st st' d (proj1 Lv) (ltac:(intros j Hj; rewrite Sj; apply (oy_frames v); exact Hj)) Tj E) as (M1 & V1 & N1 & M2 & V2 & N2 & X).
    assert (Nd : w_ndof h' = 2%nat) by (rewrite (proj1 (proj2 (proj2 (proj2 (proj1 Lv))))); reflexivity). rewrite Nd in Sg.
    destruct Sg as (u & Nv & Kv). apply Nv. assert (K0 := Kv 0%nat ltac:(lia)). assert (K1 := Kv 1%nat ltac:(lia)). destruct (X 0 1)%nat as (X1 & X2 & X3); [auto | ]. destruct (X 1 0)%nat as (Y1 & Y2 & Y3); [auto | ].
    unfold mvn, mplus, mmul, vzero in K0, K1. cbn [sumR] in K0, K1. rewrite M1, V1, N1, X1, X2, X3 in K0. rewrite M2, V2, N2, Y1, Y2, Y3 in K1.
    assert (0 < / dt) by (apply Rinv_0_lt_compat; exact Pd). assert (0 < / dt * c) by (apply Rmult_lt_0_compat; assumption).
    assert (A0 : u 0%nat = 0) by (apply (Rmult_eq_reg_l (/ dt + 1)); lra). assert (A1 : u 1%nat = 0) by (apply (Rmult_eq_reg_l (/ dt * c + 1)); lra).
    intros [ | [ | i]] Hi; [exact A0 | exact A1 | lia].
Qed.
(** the world built by the same calls but registering the controllers in the other order is the reordered world *)
Lemma oy_reg h a b : w_controllers h = [] -> a <> b -> run 0 ty_e 10 [Register (OController a); Register (OController b)] h = with_controllers [a; b] h.
Proof.
  intros E N. unfold run. cbn [fold_left step register fst]. unfold with_controllers, set_registered, register. cbn -[Nat.eqb]. rewrite E. cbn -[Nat.eqb].
  unfold add_once. cbn -[Nat.eqb]. rewrite (proj2 (Nat.eqb_neq b a)) by congruence. reflexivity.
Qed.
Lemma run_more e l1 l2 (h : @heap R) : run 0 e 10 (l1 ++ l2) h = run 0 e 10 l2 (run 0 e 10 l1 h).
Proof. unfold run. apply fold_left_app. Qed.
Definition oy_0 v : @heap R := run 0 ty_e 10 [AddLink (FBody 0) 1 (FBody 1); AddLink (FBody 0) 2 (FBody 2); Init] (fresh ty_e (fun j _ => v j)).
Lemma oy_0_none v : w_controllers (oy_0 v) = []. Proof. reflexivity. Qed.
Lemma oy_heap v a b : a <> b -> oy_h v a b = with_controllers [a; b] (oy_0 v).
Proof.
  intros N. rewrite <- (oy_reg _ a b (oy_0_none v) N). exact (run_more ty_e [AddLink (FBody 0) 1 (FBody 1); AddLink (FBody 0) 2 (FBody 2); Init] [Register (OController a); Register (OController b)] _).
Qed.
Lemma oy_again q h l : oy_of q (with_controllers [1; 0]%nat h) = reordered [1; 0]%nat (oy_of q (with_controllers l h)).
Proof. reflexivity. Qed.
Lemma oy_reordered v q : oy_x v q 1 0 = reordered [1; 0]%nat (oy_x v q 0 1).
Proof. unfold oy_x. rewrite (oy_heap v 1 0) by discriminate. rewrite (oy_heap v 0 1) by discriminate. apply oy_again. Qed.
Example C104_witness : forall c v q, 0 < c -> exists y,
  simulate (ty_U c) sy_O [0; 1 / 2; 1] (IterList []) (oy_x v q 0 1) = (y, Ok tt) /\
  simulate (ty_U c) sy_O [0; 1 / 2; 1] (IterList []) (oy_x v q 1 0) = (reordered [1; 0]%nat y, Ok tt).
Proof.
  intros c v q Pc. assert (Inc : Spec_Sim.increasing [0; 1 / 2; 1]) by (intros k Hk; cbn in Hk; destruct k as [ | [ | k]]; cbn; lra || lia). destruct (oy_progress c v q 0 [1 / 2; 1] Pc Inc) as (y & E). exists y. split; [exact E | ]. rewrite oy_reordered.
  apply C104_order; [ | intros a _; exact Logic.I | exact E]. change (Permutation (w_controllers (oy_h v 0 1)) [1; 0]%nat). rewrite (oy_heap v 0 1) by discriminate. apply perm_swap.
Qed.
