(** Lemmas for C18-C20. *)
From Verif Require Export Spec_Sim.
From Coq Require Import Lra.

(** *** time *)
Lemma add_controllers_time ctl dt l s s' r : add_controllers ctl dt l s = (s', r) -> s_time s' = s_time s.
Proof.
  revert s. induction l as [ | a l IH]; cbn; intros s E; [injection E as <- _; reflexivity | ].
  destruct (ctl a dt) as [[f Z] | x]; [apply IH in E; exact E | injection E as <- _; reflexivity].
Qed.
Lemma update_controllers_time linv ctl dt s s' r : update_controllers linv ctl dt s = (s', r) -> s_time s' = s_time s.
Proof.
  unfold update_controllers. destruct (Rlt_dec 0 dt); [ | intros E; injection E as <- _; reflexivity].
  destruct (add_controllers _ _ _ _) as [s1 [[] | x]] eqn:A; apply add_controllers_time in A.
  - destruct (linv _ _); intros E; injection E as <- _; exact A.
  - intros E; injection E as <- _; exact A.
Qed.
Lemma update_constraints_time {C} (ops : cops C) dt tol n cs s s' l v : update_constraints ops dt tol n cs s = Ok (s', l, v) -> s_time s' = s_time s.
Proof.
  unfold update_constraints. destruct (Rlt_dec 0 dt); [ | discriminate]. destruct (activate _ _ _ _) as [[a m] | ]; [ | discriminate]. cbn [rbind].
  destruct (stack _ _ _); [ | discriminate]. cbn [rbind]. destruct (add_gforces _ _ _); [ | discriminate]. cbn [rbind].
  destruct (relax _ _ _ _ _ _ _ _ _ _) as [[l1 v1] | ]; [ | discriminate]. cbn [rbind]. destruct (add_gforces _ l1 _); [ | discriminate]. cbn [rbind].
  intros E. injection E as <- _ _. reflexivity.
Qed.
Lemma integrate_joints_time dt js s s' r : integrate_joints dt js s = (s', r) -> s_time s' = s_time s.
Proof.
  revert s. induction js as [ | j js IH]; cbn; intros s E; [injection E as <- _; reflexivity | ].
  unfold integrate_joint in E. destruct (jdof (s_heap s) j) as [[a b] | ]; [apply IH in E; exact E | injection E as <- _; reflexivity].
Qed.
Lemma integrate_time e fuel dt s s' : integrate e fuel dt s = (s', Ok tt) -> s_time s' = s_time s + dt.
Proof.
  unfold integrate. destruct (Rlt_dec 0 dt); [ | discriminate]. destruct (iterjoints _ _ _); [ | discriminate].
  destruct (integrate_joints _ _ _) as [s2 [[] | x]] eqn:A; [ | discriminate]. apply integrate_joints_time in A. intros E. injection E as <-. cbn. rewrite A. reflexivity.
Qed.
Lemma interp_time U O tl c x x1 : interp U O tl c x = (x1, Ok tt) -> now x1 = now x + match c with Int dt => dt | _ => 0 end.
Proof.
  unfold interp, now, w_time. destruct c; rewrite ?Rplus_0_r.
  - unfold world_init. destruct (Model_World.init _ _ _ _) as [h [[] | y]]; [ | discriminate].
    destruct (rmapM _ _); [ | discriminate]. destruct (ctl_inits _ _ _ _); [ | discriminate]. intros E. injection E as <-. reflexivity.
  - unfold obs_init. destruct (O i).
    + destruct (fi _); [ | discriminate]. intros E. injection E as <-. reflexivity.
    + destruct (log_init _ _ _ _ _) as [nm [g | y]]; [ | discriminate]. intros E. injection E as <-. reflexivity.
    + destruct (em_init _ _ _ _ _ _); [ | discriminate]. intros E. injection E as <-. reflexivity.
    + destruct (sm_obs x i); try discriminate. destruct (fi _ _ _); [ | discriminate]. intros E. injection E as <-. reflexivity.
  - unfold world_dynamic. destruct (world_update_dynamic _ _ _ _ _ _) as [[st d] | ]; [ | discriminate]. intros E. injection E as <-. reflexivity.
  - unfold world_controllers. destruct (update_controllers _ _ _ _) as [s r] eqn:A. apply update_controllers_time in A. intros E. injection E as <- _. exact A.
  - unfold world_constraints. destruct (update_constraints _ _ _ _ _ _) as [[[s l] v] | ] eqn:A; [ | discriminate].
    apply update_constraints_time in A. intros E. injection E as <-. exact A.
  - unfold obs_update. destruct (O i), (sm_obs x i); try discriminate; cbn zeta.
    + destruct (rmap _ _); [ | discriminate]. intros E. injection E as <-. reflexivity.
    + destruct (rmap _ _); [ | discriminate]. intros E. injection E as <-. reflexivity.
    + destruct (rmap _ _); [ | discriminate]. intros E. injection E as <-. reflexivity.
    + destruct (rmap _ _); [ | discriminate]. intros E. injection E as <-. reflexivity.
  - unfold world_integrate. destruct (integrate _ _ _ _) as [s r] eqn:A. intros E. injection E as <- ->. apply integrate_time in A. exact A.
  - unfold obs_finish. destruct (O i), (sm_obs x i); try (intros E; injection E as <-; reflexivity).
    destruct (ff _); [ | discriminate]. intros E. injection E as <-. reflexivity.
Qed.

(** *** sequences of calls *)
Section Calls.
  Variable I : call -> sim -> sim * res unit.
  Hypothesis T : forall c x x1, I c x = (x1, Ok tt) -> now x1 = now x + match c with Int dt => dt | _ => 0 end.

  Lemma perf_app x l1 y l2 z : performed I x l1 y -> performed I y l2 z -> performed I x (l1 ++ l2) z.
  Proof. induction 1; cbn; [auto | ]. intros H'. econstructor; eauto. Qed.
  Lemma perf_inv_app x l1 l2 z : performed I x (l1 ++ l2) z -> exists y, performed I x l1 y /\ performed I y l2 z.
  Proof.
    revert x. induction l1 as [ | [c t] l1 IH]; cbn; intros x H; [exists x; split; [constructor | exact H] | ].
    inversion H as [ | ? ? ? ? ? Ec Pc]; subst. destruct (IH _ Pc) as (y & A & B). exists y. split; [econstructor; eassumption | exact B].
  Qed.
  Lemma raises_app_l x l y e l' : raises I x l y e -> raises I x (l ++ l') y e.
  Proof. intros (l1 & c & l2 & x1 & -> & P & E). exists l1, c, (l2 ++ l'), x1. rewrite <- app_assoc. auto. Qed.
  Lemma raises_app_r x l z l' y e : performed I x l z -> raises I z l' y e -> raises I x (l ++ l') y e.
  Proof. intros P (l1 & c & l2 & x1 & -> & P' & E). exists (l ++ l1), c, l2, x1. rewrite <- app_assoc. split; [reflexivity | split; [eapply perf_app; eauto | exact E]]. Qed.

  Definition no_int (l : list call) : Prop := forall dt, ~ In (Int dt) l.
  Lemma calls_spec l x : no_int l ->
    match calls I l x with
    | (y, Ok _) => performed I x (at_ (now x) l) y /\ now y = now x
    | (y, Err e) => raises I x (at_ (now x) l) y e
    end.
  Proof.
    revert x. induction l as [ | c l IH]; cbn [calls at_ map]; intros x N; [split; [constructor | reflexivity] | ].
    destruct (I c x) as [x1 [[] | e]] eqn:E; cbn [bind_].
    - assert (N1 : now x1 = now x).
      { rewrite (T _ _ _ E). destruct c; try lra. exfalso. apply (N dt). now left. }
      specialize (IH x1 (fun dt H => N dt (or_intror H))). destruct (calls I l x1) as [y [[] | e]]; rewrite N1 in IH.
      + split; [econstructor; [exact E | exact (proj1 IH)] | exact (proj2 IH)].
      + destruct IH as (l1 & c' & l2 & x2 & EL & P & E'). exists ((c, now x) :: l1), c', l2, x2. change (map (fun c0 => (c0, now x)) l) with (at_ (now x) l). rewrite EL.
        split; [reflexivity | split; [econstructor; eassumption | exact E']].
    - exists [], c, (at_ (now x) l), x. split; [reflexivity | split; [constructor | exact E]].
  Qed.

  Lemma at_app t a b : at_ t (a ++ b) = at_ t a ++ at_ t b. Proof. apply map_app. Qed.
  Lemma no_int_map f (obs : list nat) : (forall i dt, f i <> Int dt) -> no_int (map f obs).
  Proof. intros H dt E. apply in_map_iff in E. destruct E as (i & E & _). exact (H _ _ E). Qed.
  Lemma no_int3 dt : no_int [Dyn; Ctl dt; Cons dt].
  Proof. intros d [E | [E | [E | []]]]; discriminate. Qed.

  Lemma sim_loop_spec obs ts x :
    match sim_loop I obs ts x with
    | (y, Ok _) => performed I x (steps obs (now x) ts) y /\ now y = last ts (now x)
    | (y, Err e) => raises I x (steps obs (now x) ts) y e
    end.
  Proof.
    revert x. induction ts as [ | t ts IH]; cbn [sim_loop steps]; intros x; [split; [constructor | reflexivity] | ]. cbn zeta.
    set (dt := t - now x). unfold step_calls. fold dt.
    assert (A := calls_spec [Dyn; Ctl dt; Cons dt] x (no_int3 dt)). destruct (calls I [Dyn; Ctl dt; Cons dt] x) as [x1 [[] | e]]; unfold bind_ at 1.
    2:{ rewrite at_app, <- app_assoc. apply raises_app_l. exact A. }
    destruct A as [A A1].
    assert (B := calls_spec (map (fun i => OUpd i dt) obs) x1 (no_int_map (fun i => OUpd i dt) obs ltac:(intros ? ?; discriminate))). rewrite A1 in B.
    destruct (calls I (map (fun i => OUpd i dt) obs) x1) as [x2 [[] | e]]; cbn [bind_].
    2:{ rewrite !at_app, <- !app_assoc. eapply raises_app_r; [exact A | ]. apply raises_app_l. exact B. }
    destruct B as [B B1]. rewrite !at_app, <- !app_assoc. cbn [at_ map app].
    destruct (I (Int dt) x2) as [x3 [[] | e]] eqn:E; cbn [bind_].
    2:{ change (map (fun c => (c, now x)) (map (fun i => OUpd i dt) obs)) with (at_ (now x) (map (fun i => OUpd i dt) obs)).
        eapply raises_app_r with (l := at_ (now x) [Dyn; Ctl dt; Cons dt]); [exact A | ]. eapply raises_app_r; [exact B | ].
        exists [], (Int dt), (steps obs t ts), x2. rewrite B1. split; [reflexivity | split; [constructor | exact E]]. }
    assert (N3 : now x3 = t) by (rewrite (T _ _ _ E), B1; unfold dt; ring).
    specialize (IH x3). rewrite N3 in IH. destruct (sim_loop I obs ts x3) as [y [[] | e]].
    - split.
      + eapply perf_app with (l1 := at_ (now x) [Dyn; Ctl dt; Cons dt]); [exact A | ]. eapply perf_app; [exact B | ]. rewrite <- B1. econstructor; [exact E | exact (proj1 IH)].
      + rewrite (proj2 IH). destruct ts; [reflexivity | ]. cbn. clear. destruct ts; [reflexivity | ]. revert r. induction ts as [ | a ts IHt]; intros; [reflexivity | ]. cbn. destruct ts; auto.
    - eapply raises_app_r with (l := at_ (now x) [Dyn; Ctl dt; Cons dt]); [exact A | ]. eapply raises_app_r; [exact B | ].
      eapply raises_app_r with (l := [(Int dt, now x)]); [ | exact IH]. rewrite <- B1. econstructor; [exact E | constructor].
  Qed.
End Calls.

(** determinism *)
Lemma perf_fun I x l y : performed I x l y -> forall y', performed I x l y' -> y = y'.
Proof.
  induction 1 as [x | x c x1 l y E P IH]; intros y' H; inversion H as [ | ? ? ? ? ? E' P']; subst; [reflexivity | ].
  rewrite E in E'. injection E' as <-. apply IH. exact P'.
Qed.
Lemma perf_not_raises I x l y y' e : performed I x l y -> raises I x l y' e -> False.
Proof.
  intros P (l1 & c & l2 & x1 & -> & P1 & E). apply perf_inv_app in P. destruct P as (z & Pz & P2).
  assert (z = x1) by (eapply perf_fun; eassumption). subst z. inversion P2 as [ | ? ? ? ? ? E' P']; subst. congruence.
Qed.

Definition start (x : sim) (t0 : R) : sim := set_w x (set_time (sm_w x) t0).
Lemma now_start x t0 : now (start x t0) = t0. Proof. reflexivity. Qed.
Lemma last_cons {A} (l : list A) a d : last (a :: l) d = last l a.
Proof. revert a d. induction l as [ | b l IH]; intros a d; [reflexivity | ]. change (last (a :: b :: l) d) with (last (b :: l) d). rewrite (IH b d), (IH b a). reflexivity. Qed.

Lemma simulate_spec U O t0 ts obs x : let I := interp U O (t0 :: ts) in
  match simulate U O (t0 :: ts) (IterList obs) x with
  | (y, Ok _) => performed I (start x t0) (schedule obs t0 ts) y /\ now y = last ts t0
  | (y, Err e) => raises I (start x t0) (schedule obs t0 ts) y e
  end.
Proof.
  intros I. unfold simulate. cbn [consume fst]. fold I. change (set_w x (set_time (sm_w x) t0)) with (start x t0).
  assert (T : forall c x x1, I c x = (x1, Ok tt) -> now x1 = now x + match c with Int dt => dt | _ => 0 end) by (intros; eapply interp_time; eassumption).
  clearbody I. unfold schedule.
  assert (A := calls_spec I T (WInit :: map OInit obs) (start x t0)). rewrite now_start in A.
  assert (NI : no_int (WInit :: map OInit obs)).
  { intros dt [E | E]; [discriminate | ]. apply in_map_iff in E. destruct E as (i & E & _). discriminate. }
  specialize (A NI). cbn [calls] in A. destruct (I WInit (start x t0)) as [x1 [[] | e]] eqn:E; cbn [bind_] in *; [ | apply raises_app_l; exact A].
  destruct (calls I (map OInit obs) x1) as [x2 [[] | e]]; cbn [bind_]; [ | apply raises_app_l; exact A].
  destruct A as [A A1]. assert (B := sim_loop_spec I T obs ts x2). rewrite A1 in B.
  destruct (sim_loop I obs ts x2) as [x3 [[] | e]]; cbn [bind_]; [ | eapply raises_app_r; [exact A | apply raises_app_l; exact B]].
  destruct B as [B B1]. assert (C := calls_spec I T (map OFin obs) x3). rewrite B1 in C.
  assert (NI2 : no_int (map OFin obs)).
  { intros dt E2. apply in_map_iff in E2. destruct E2 as (i & E2 & _). discriminate. }
  specialize (C NI2). destruct (calls I (map OFin obs) x3) as [y [[] | e]].
  - split; [eapply perf_app; [exact A | eapply perf_app; [exact B | exact (proj1 C)]] | exact (proj2 C)].
  - eapply raises_app_r; [exact A | eapply raises_app_r; [exact B | exact C]].
Qed.
