(** C108: a disabled constraint is an absent constraint. *)
From Coq Require Import String Lra Lia FunctionalExtensionality.
From Verif Require Import Spec_Disabled Proof_Step Proof_Sim Proof_Sim2 Proof_Sim3 Proof_Dyn2 Props_Sim Props_Resume Props_Sim4 Props_Apart2 Proof_Dofs Proof_World4.
Open Scope R_scope.

Section Ops.
  Context (E : cenv).
  Notation ops := (con_ops E).
  Notation entry := (con * option nat)%type.
  Definition keep1 (p : entry) : bool := kept (fst p).
  Notation thin l := (filter keep1 l).
  Definition fair (l : list entry) : Prop := forall c a, In (c, Some a) l -> kept c = true.

  Lemma on_kept c : c_enabled ops c = true -> kept c = true.
  Proof. destruct c; cbn; auto. Qed.
  Lemma update_kept c dt c1 : c_update ops c dt = Ok c1 -> kept c1 = kept c.
  Proof.
    destruct c as [x | x | x]; cbn [con_ops c_update]; intros H.
    - injection H as <-. reflexivity.
    - unfold bs_update in H. repeat (match type of H with context [rbind ?r _] => destruct r as [? | ]; [ | discriminate H]; cbn [rbind rmap] in H | context [rmap _ ?r] => destruct r as [? | ] eqn:?; [ | discriminate H]; cbn [rmap] in H end); injection H as <-; reflexivity.
    - destruct (sf_update E x dt) as [y | ]; [ | discriminate]. injection H as <-. reflexivity.
  Qed.
  Lemma solve_kept c vel Y dt c1 df : c_solve ops c vel Y dt = Ok (c1, df) -> kept c1 = kept c.
  Proof.
    destruct c as [x | x | x]; cbn [con_ops c_solve]; intros H.
    - unfold jl_solve in H. cbv zeta in H. destruct (existsb_n _ _); [ | destruct (existsb_n _ _)]; injection H as <- _; reflexivity.
    - injection H as <- _. reflexivity.
    - destruct (sf_solve E x vel Y dt) as [[y d] | ]; [ | discriminate]. injection H as <- _. reflexivity.
  Qed.
  Lemma activate_k dt cs : forall n l m, activate ops dt n cs = Ok (l, m) -> activate ops dt n (filter kept cs) = Ok (thin l, m) /\ fair l.
  Proof.
    induction cs as [ | c cs IH]; intros n l m H; cbn [activate] in H; [injection H as <- <-; split; [reflexivity | intros ? ? []] | ]. cbn [filter].
    destruct (c_enabled ops c) eqn:On.
    - rewrite (on_kept c On). cbn [activate]. rewrite On. destruct (c_update ops c dt) as [c1 | ] eqn:Eu; [ | discriminate]. cbn [rbind] in *. assert (K1 : kept c1 = true) by (rewrite (update_kept _ _ _ Eu); apply on_kept; exact On).
      destruct (c_active ops c1).
      + destruct (activate ops dt _ cs) as [[l1 m1] | ] eqn:Ea; [ | discriminate]. cbn [rbind] in H. injection H as <- <-. destruct (IH _ _ _ Ea) as [A B]. rewrite A. cbn [rbind filter keep1 fst]. unfold keep1 at 2. cbn [fst]. rewrite K1. split; [reflexivity | ].
        intros d a [I1 | I1]; [injection I1 as <- <-; exact K1 | exact (B _ _ I1)].
      + destruct (activate ops dt _ cs) as [[l1 m1] | ] eqn:Ea; [ | discriminate]. cbn [rbind] in H. injection H as <- <-. destruct (IH _ _ _ Ea) as [A B]. rewrite A. cbn [rbind filter]. unfold keep1 at 2. cbn [fst]. rewrite K1. split; [reflexivity | ].
        intros d a [I1 | I1]; [discriminate | exact (B _ _ I1)].
    - destruct (activate ops dt _ cs) as [[l1 m1] | ] eqn:Ea; [ | discriminate]. cbn [rbind] in H. injection H as <- <-. destruct (IH _ _ _ Ea) as [A B]. split; [ | intros d a [I1 | I1]; [discriminate | exact (B _ _ I1)]].
      cbn [filter]. change (keep1 (c, None)) with (kept c). destruct (kept c); [ | exact A]. cbn [activate]. rewrite On, A. reflexivity.
  Qed.
  Lemma stack_k l : fair l -> forall jac, stack ops (thin l) jac = stack ops l jac.
  Proof.
    induction l as [ | [c [a | ]] l IH]; intros F jac; [reflexivity | | ]; assert (F' : fair l) by (intros d b I1; apply (F d b); right; exact I1); cbn [filter]; unfold keep1 at 1; cbn [fst].
    - rewrite (F c a (or_introl eq_refl)). cbn [stack]. destruct (c_jac ops c); [ | reflexivity]. cbn [rbind]. apply IH. exact F'.
    - destruct (kept c); cbn [stack]; apply IH; exact F'.
  Qed.
  Lemma gforces_k l : fair l -> forall f, add_gforces ops (thin l) f = add_gforces ops l f.
  Proof.
    induction l as [ | [c [a | ]] l IH]; intros F f; [reflexivity | | ]; assert (F' : fair l) by (intros d b I1; apply (F d b); right; exact I1); cbn [filter]; unfold keep1 at 1; cbn [fst].
    - rewrite (F c a (or_introl eq_refl)). cbn [add_gforces]. destruct (c_gforce ops c); [ | reflexivity]. cbn [rbind]. apply IH. exact F'.
    - destruct (kept c); cbn [add_gforces]; apply IH; exact F'.
  Qed.
  Lemma sweep_k dt Y l : fair l -> forall v l1 v1, sweep ops dt Y l v = Ok (l1, v1) -> sweep ops dt Y (thin l) v = Ok (thin l1, v1) /\ fair l1.
  Proof.
    induction l as [ | [c [a | ]] l IH]; intros F v l1 v1 H; cbn [sweep] in H; [injection H as <- <-; split; [reflexivity | exact F] | | ]; assert (F' : fair l) by (intros d b I1; apply (F d b); right; exact I1); cbn [filter]; unfold keep1 at 1; cbn [fst].
    - rewrite (F c a (or_introl eq_refl)). cbn [sweep]. destruct (c_solve ops c _ _ dt) as [[c1 df] | ] eqn:Es; [ | discriminate]. cbn [rbind] in *. destruct (sweep ops dt Y l _) as [[r w] | ] eqn:Er; [ | discriminate]. cbn [rbind] in H. injection H as <- <-.
      destruct (IH F' _ _ _ Er) as [A B]. rewrite A. cbn [rbind filter]. assert (K1 : kept c1 = true) by (rewrite (solve_kept _ _ _ _ _ _ Es); exact (F c a (or_introl eq_refl))). unfold keep1 at 2. cbn [fst]. rewrite K1. split; [reflexivity | ]. intros d b [I1 | I1]; [injection I1 as <- <-; exact K1 | exact (B _ _ I1)].
    - destruct (sweep ops dt Y l v) as [[r w] | ] eqn:Er; [ | discriminate]. cbn [rbind] in H. injection H as <- <-. destruct (IH F' _ _ _ Er) as [A B]. split; [ | intros d b [I1 | I1]; [discriminate | exact (B _ _ I1)]]. cbn [filter]. change (keep1 (c, None)) with (kept c).
      destruct (kept c); [ | exact A]. cbn [sweep]. rewrite A. reflexivity.
  Qed.
  Lemma relax_k dt tol n Y it : forall k l v p l1 v1, fair l -> relax ops dt tol n Y it k l v p = Ok (l1, v1) -> relax ops dt tol n Y it k (thin l) v p = Ok (thin l1, v1) /\ fair l1.
  Proof.
    induction it as [ | it IH]; intros k l v p l1 v1 F H; cbn [relax] in *; [injection H as <- <-; split; [reflexivity | exact F] | ].
    destruct (sweep ops dt Y l v) as [[l2 v2] | ] eqn:Es; [ | discriminate]. cbn [rbind] in H. destruct (sweep_k dt Y l F _ _ _ Es) as [A B]. rewrite A. cbn [rbind].
    destruct (Nat.ltb 0 k && _); [injection H as <- <-; split; [reflexivity | exact B] | ]. apply IH; assumption.
  Qed.
  Lemma constraints_k dt tol it cs s s1 l v : update_constraints ops dt tol it cs s = Ok (s1, l, v) -> update_constraints ops dt tol it (filter kept cs) s = Ok (s1, thin l, v).
  Proof.
    unfold update_constraints. destruct (Rlt_dec 0 dt); [ | discriminate]. cbv zeta. destruct (activate ops dt 0 cs) as [[l0 m] | ] eqn:Ea; [ | discriminate]. destruct (activate_k _ _ _ _ _ Ea) as [A F]. rewrite A. cbn [rbind]. rewrite (stack_k l0 F).
    destruct (stack ops l0 mzero) as [jac | ]; [ | discriminate]. cbn [rbind]. rewrite (gforces_k l0 F). destruct (add_gforces ops l0 _) as [f | ]; [ | discriminate]. cbn [rbind]. destruct (relax ops _ _ _ _ _ _ l0 _ _) as [[l1 v1] | ] eqn:Er; [ | discriminate].
    destruct (relax_k _ _ _ _ _ _ _ _ _ _ _ F Er) as [A1 F1]. rewrite A1. cbn [rbind]. rewrite (gforces_k l1 F1). destruct (add_gforces ops l1 _) as [f1 | ]; [ | discriminate]. cbn [rbind]. intros H. injection H as <- <- <-. reflexivity.
  Qed.
  Lemma activate_e dt cs : forall e n, activate ops dt n cs = Err e -> activate ops dt n (filter kept cs) = Err e.
  Proof.
    induction cs as [ | c cs IH]; intros e n H; cbn [activate] in H; [discriminate | ]. cbn [filter]. destruct (c_enabled ops c) eqn:On.
    - rewrite (on_kept c On). cbn [activate]. rewrite On. destruct (c_update ops c dt) as [c1 | ]; [ | exact H]. cbn [rbind] in *. destruct (c_active ops c1); destruct (activate ops dt _ cs) as [[l1 m1] | ] eqn:Ea; cbn [rbind] in H; try discriminate; rewrite (IH _ _ Ea); exact H.
    - destruct (activate ops dt _ cs) as [[l1 m1] | ] eqn:Ea; cbn [rbind] in H; [discriminate | ]. destruct (kept c); [cbn [activate]; rewrite On, (IH _ _ Ea); exact H | rewrite (IH _ _ Ea); exact H].
  Qed.
  Lemma sweep_e dt Y l : fair l -> forall e v, sweep ops dt Y l v = Err e -> sweep ops dt Y (thin l) v = Err e.
  Proof.
    induction l as [ | [c [a | ]] l IH]; intros F e v H; cbn [sweep] in H; [discriminate | | ]; assert (F' : fair l) by (intros d b I1; apply (F d b); right; exact I1); cbn [filter].
    - change (keep1 (c, Some a)) with (kept c). rewrite (F c a (or_introl eq_refl)). cbn [sweep]. destruct (c_solve ops c _ _ dt) as [[c1 df] | ]; [ | exact H]. cbn [rbind] in *. destruct (sweep ops dt Y l _) as [[r w] | ] eqn:Er; cbn [rbind] in H; [discriminate | ]. rewrite (IH F' _ _ Er). exact H.
    - change (keep1 (c, None)) with (kept c). destruct (sweep ops dt Y l v) as [[r w] | ] eqn:Er; cbn [rbind] in H; [discriminate | ]. destruct (kept c); [cbn [sweep]; rewrite (IH F' _ _ Er); exact H | rewrite (IH F' _ _ Er); exact H].
  Qed.
  Lemma relax_e dt tol n Y e it : forall k l v p, fair l -> relax ops dt tol n Y it k l v p = Err e -> relax ops dt tol n Y it k (thin l) v p = Err e.
  Proof.
    induction it as [ | it IH]; intros k l v p F H; cbn [relax] in *; [discriminate | ].
    destruct (sweep ops dt Y l v) as [[l2 v2] | ] eqn:Es; cbn [rbind] in H; [ | rewrite (sweep_e _ _ _ F _ _ Es); exact H]. destruct (sweep_k dt Y l F _ _ _ Es) as [A B]. rewrite A. cbn [rbind].
    destruct (Nat.ltb 0 k && _); [discriminate | ]. apply IH; assumption.
  Qed.
  Lemma constraints_e dt tol it cs s e : update_constraints ops dt tol it cs s = Err e -> update_constraints ops dt tol it (filter kept cs) s = Err e.
  Proof.
    unfold update_constraints. destruct (Rlt_dec 0 dt); [ | auto]. cbv zeta. destruct (activate ops dt 0 cs) as [[l0 m] | ] eqn:Ea; [ | cbn [rbind]; rewrite (activate_e _ _ _ _ Ea); auto]. destruct (activate_k _ _ _ _ _ Ea) as [A F]. rewrite A. cbn [rbind]. rewrite (stack_k l0 F).
    destruct (stack ops l0 mzero) as [jac | ]; [ | auto]. cbn [rbind]. rewrite (gforces_k l0 F). destruct (add_gforces ops l0 _) as [f | ]; [ | auto]. cbn [rbind]. destruct (relax ops _ _ _ _ _ _ l0 _ _) as [[l1 v1] | ] eqn:Er; [ | cbn [rbind]; rewrite (relax_e _ _ _ _ _ _ _ _ _ _ F Er); auto].
    destruct (relax_k _ _ _ _ _ _ _ _ _ _ _ F Er) as [A1 F1]. rewrite A1. cbn [rbind]. rewrite (gforces_k l1 F1). destruct (add_gforces ops l1 _) as [f1 | ]; [discriminate | auto].
  Qed.
End Ops.

Lemma scene_k U v : scene_of U (without_v v) = scene_of U v.
Proof.
  unfold scene_of. cbn [without_v v_cs]. generalize (su_sc U). induction (v_cs v) as [ | c cs IH]; intros sc; [reflexivity | ]. cbn [filter]. destruct c as [x | x | x]; cbn [kept fold_left]; [destruct (jl_on x) | destruct (bs_on x) | ]; apply IH.
Qed.

Section Disabled.
  Context (U : setup) (O : nat -> okind).
  Definition kw (w : world) : world := W (without_v (w_v w)) (w_ctl w).
  Definition kwr (p : world * res unit) : world * res unit := (kw (fst p), snd p).
  Definition blind (w : world) : Prop := forall a, blind_to_disabled (w_ctl w a).
  Lemma dyn_k w : world_dynamic U (kw w) = kwr (world_dynamic U w).
  Proof. unfold world_dynamic. cbv zeta. change (w_s (kw w)) with (w_s w). change (v_st (w_v (kw w))) with (v_st (w_v w)). destruct (world_update_dynamic _ _ _ _ _ _) as [[st e] | ]; reflexivity. Qed.
  Lemma ctl_k w dt : blind w -> world_controllers U dt (kw w) = kwr (world_controllers U dt w).
  Proof.
    intros B. unfold world_controllers. assert (Q : ctl_update U (kw w) = ctl_update U w).
    { extensionality a. extensionality t. specialize (B a). unfold ctl_update. change (w_ctl (kw w) a) with (w_ctl w a). destruct (w_ctl w a) as [g [c | ] | c | f]; try reflexivity. apply B. }
    rewrite Q. change (w_s (kw w)) with (w_s w). destruct (update_controllers _ _ _ _); reflexivity.
  Qed.
  Lemma cons_k w dt : world_constraints U dt (kw w) = kwr (world_constraints U dt w).
  Proof.
    unfold world_constraints. assert (Q : con_env U (kw w) = con_env U w) by (unfold con_env; change (w_v (kw w)) with (without_v (w_v w)) at 1; rewrite scene_k; reflexivity). rewrite Q. change (w_s (kw w)) with (w_s w). change (v_cs (w_v (kw w))) with (filter kept (v_cs (w_v w))).
    destruct (update_constraints _ dt _ _ (v_cs (w_v w)) (w_s w)) as [[[s l] v] | ] eqn:Eu; [ | rewrite (constraints_e _ _ _ _ _ _ _ Eu); reflexivity]. rewrite (constraints_k _ _ _ _ _ _ _ _ _ Eu). unfold kwr, kw, without_v. cbn [fst snd w_v v_s v_st v_cs w_ctl]. do 3 f_equal.
    clear. induction l as [ | p l IH]; [reflexivity | ]. cbn [filter map]. unfold keep1 at 1. destruct (kept (fst p)); cbn [map]; rewrite IH; reflexivity.
  Qed.
  Lemma int_k w dt : world_integrate U dt (kw w) = kwr (world_integrate U dt w).
  Proof. unfold world_integrate. change (w_s (kw w)) with (w_s w). destruct (integrate _ _ _ _); reflexivity. Qed.
  (** the joints of the disabled limits are in the world when World.init numbers the joints *)
  Definition in_world (w : world) : Prop := forall c h, In c (v_cs (w_v w)) -> kept c = false -> Model_World.init 0 (su_e U) (su_fuel U) (s_heap (w_s w)) = (h, Ok tt) -> exists c1, con_init h c = Ok c1.
  Lemma init_k w : in_world w -> world_init U (kw w) = kwr (world_init U w).
  Proof.
    intros Hw. unfold world_init, in_world in *. change (w_s (kw w)) with (w_s w). destruct (Model_World.init 0 _ _ _) as [h [[] | ]]; [ | reflexivity]. cbv zeta. change (v_cs (w_v (kw w))) with (filter kept (v_cs (w_v w))). change (w_ctl (kw w)) with (w_ctl w).
    assert (Q : rmapM (con_init h) (filter kept (v_cs (w_v w))) = rmap (filter kept) (rmapM (con_init h) (v_cs (w_v w)))).
    { assert (Hc : forall c, In c (v_cs (w_v w)) -> kept c = false -> exists c1, con_init h c = Ok c1) by (intros c Ic Kc; exact (Hw c h Ic Kc eq_refl)). clear - Hc. revert Hc. induction (v_cs (w_v w)) as [ | c l IH]; intros Hc; [reflexivity | ].
      assert (K : forall c1, con_init h c = Ok c1 -> kept c1 = kept c) by (intros c1 E1; destruct c as [x | x | x]; cbn [con_init] in E1; [destruct (jdof h (jl_joint x)) as [[a b] | ]; [ | unfold jl_init_lost in E1; destruct (_ || _ || _); [ | discriminate]] | | ]; injection E1 as <-; reflexivity).
      specialize (IH (fun d Id => Hc d (or_intror Id))). cbn [filter]. destruct (kept c) eqn:Kc.
      - cbn [rmapM]. destruct (con_init h c) as [c1 | ]; [ | reflexivity]. cbn [rbind]. rewrite IH. destruct (rmapM (con_init h) l) as [cs1 | ]; [ | reflexivity]. cbn [rbind rmap filter]. rewrite (K c1 eq_refl). reflexivity.
      - rewrite IH. cbn [rmapM]. destruct (Hc c (or_introl eq_refl) Kc) as (c1 & E1). rewrite E1 in *. cbn [rbind]. destruct (rmapM (con_init h) l) as [cs1 | ]; [ | reflexivity]. cbn [rbind rmap filter]. rewrite (K c1 eq_refl). reflexivity. }
    rewrite Q. clear Q. destruct (rmapM (con_init h) (v_cs (w_v w))) as [cs | ]; [ | reflexivity]. cbn [rmap]. destruct (ctl_inits _ _ _ _) as [k | ]; reflexivity.
  Qed.
  Lemma keeps w : w_ctl (fst (world_dynamic U w)) = w_ctl w /\ (forall dt, w_ctl (fst (world_controllers U dt w)) = w_ctl w) /\ (forall dt, w_ctl (fst (world_constraints U dt w)) = w_ctl w) /\ (forall dt, w_ctl (fst (world_integrate U dt w)) = w_ctl w).
  Proof.
    split; [unfold world_dynamic; destruct (world_update_dynamic _ _ _ _ _ _) as [[st e] | ]; reflexivity | ].
    split; [intros dt; unfold world_controllers; destruct (update_controllers _ _ _ _); reflexivity | ]. split; [ | intros dt; unfold world_integrate; destruct (integrate _ _ _ _); reflexivity].
    intros dt. unfold world_constraints. destruct (update_constraints _ _ _ _ _ _) as [[[a b] c] | ]; reflexivity.
  Qed.
  Lemma loop_k tl ts : forall x, blind (sm_w x) -> sim_loop (interp U O tl) [] ts (without x) = (without (fst (sim_loop (interp U O tl) [] ts x)), snd (sim_loop (interp U O tl) [] ts x)).
  Proof.
    induction ts as [ | t1 ts IH]; intros x B; cbn [sim_loop map calls interp]; [reflexivity | ]. cbv zeta. change (now (without x)) with (now x). set (dt := t1 - now x).
    change (sm_w (without x)) with (kw (sm_w x)). rewrite dyn_k. unfold kwr. destruct (keeps (sm_w x)) as (A & _). destruct (world_dynamic U (sm_w x)) as [w1 [[] | z]]; cbn [fst snd bind_ sm_w set_w sm_names sm_obs] in *; [ | reflexivity].
    rewrite ctl_k by (intros a; rewrite A; apply B). unfold kwr. destruct (keeps w1) as (_ & A2 & _). specialize (A2 dt). destruct (world_controllers U dt w1) as [w2 [[] | z]]; cbn [fst snd bind_ sm_w set_w sm_names sm_obs] in *; [ | reflexivity].
    rewrite cons_k. unfold kwr. destruct (keeps w2) as (_ & _ & A3 & _). specialize (A3 dt). destruct (world_constraints U dt w2) as [w3 [[] | z]]; cbn [fst snd bind_ sm_w set_w sm_names sm_obs] in *; [ | reflexivity].
    rewrite int_k. unfold kwr. destruct (keeps w3) as (_ & _ & _ & A4). specialize (A4 dt). destruct (world_integrate U dt w3) as [w4 [[] | z]]; cbn [fst snd bind_ sm_w set_w sm_names sm_obs] in *; [ | reflexivity].
    apply (IH (Sim w4 (sm_names x) (sm_obs x))). intros a. cbn [sm_w]. rewrite A4, A3, A2, A. apply B.
  Qed.
  Lemma init_blind w : blind w -> blind (fst (world_init U w)).
  Proof.
    intros B. unfold world_init. destruct (Model_World.init 0 _ _ _) as [h [[] | ]]; [ | exact B]. cbv zeta. destruct (rmapM _ _) as [cs | ]; [ | exact B]. destruct (ctl_inits U h _ (w_ctl w)) as [k | ] eqn:Ek; [ | exact B].
    cbn [fst]. intros a. cbn [w_ctl]. assert (B' : forall a, blind_to_disabled (w_ctl w a)) by exact B. clear - Ek B'. revert Ek B'. generalize (w_ctl w). induction (w_controllers h) as [ | b q IH]; intros k0 Ek B'; cbn [ctl_inits] in Ek; [injection Ek as <-; apply B' | ].
    destruct (ctl_init U h (k0 b)) as [c | ] eqn:E1; [ | discriminate]. cbn [rbind] in Ek. apply (IH _ Ek). intros a'. unfold upd. destruct (Nat.eqb_spec a' b) as [-> | ]; [ | apply B'].
    specialize (B' b). destruct (k0 b) as [g c0 | c0 | f]; cbn [ctl_init] in E1; [destruct (wc_init _ _ _ _ _); [ | discriminate]; injection E1 as <-; exact Logic.I | destruct (pd_init _ _); [ | discriminate]; injection E1 as <-; exact Logic.I | injection E1 as <-; exact B'].
  Qed.
End Disabled.

(** [C108] The simulation of a world and that of the same world without its disabled joint limits and ball and socket constraints have the same outcome (a normal end or the same error)
    and the same final state, whatever the other constraints, the controllers and the joints; the disabled limits are on joints of the world. *)
Theorem C108_disabled : forall U O timeline x, (forall a, blind_to_disabled (w_ctl (sm_w x) a)) ->
  (forall c h, In c (v_cs (w_v (sm_w x))) -> kept c = false -> Model_World.init 0 (su_e U) (su_fuel U) (s_heap (w_s (sm_w x))) = (h, Ok tt) -> exists c1, con_init h c = Ok c1) ->
  simulate U O timeline (IterList []) (without x) = (without (fst (simulate U O timeline (IterList []) x)), snd (simulate U O timeline (IterList []) x)).
Proof.
  intros U O [ | t0 ts] x B Hw; [reflexivity | ]. rewrite !simulate_alone. change (set_time (sm_w (without x)) t0) with (kw (set_time (sm_w x) t0)). assert (B1 := init_blind U (set_time (sm_w x) t0) B).
  rewrite (init_k U (set_time (sm_w x) t0) Hw). unfold kwr. destruct (world_init U (set_time (sm_w x) t0)) as [w1 [[] | z]]; cbn [fst snd bind_] in *; [ | reflexivity]. apply (loop_k U O _ ts (set_w x w1) B1).
Qed.
(** a disabled limit on a joint of two dofs that is not in the world is not harmless: World.init raises *)
Theorem C108_limit_refuted : exists h c, kept c = false /\ con_init h c = Err ValueError.
Proof. exists (fresh ty_e (fun _ _ => 0)), (CJ (JL false 1 2 (fun _ => 0) (fun _ => 1) (fun _ => 0) (fun _ => 0) mzero vzero)). split; reflexivity. Qed.

(** the two slides of Props_Apart2, with a disabled limit on the first one and a disabled ball and socket between the two bodies *)
Definition dy_cs : list con := [CJ (JL false 1 1 (fun _ => 0) (fun _ => 1) (fun _ => 0) (fun _ => 0) mzero vzero); CB (BS false (FBody 1) (FBody 2) zero3 vzero)].
Definition with_cs (cs : list con) (x : sim) : sim := Sim (W (WV (w_s (sm_w x)) (v_st (w_v (sm_w x))) cs) (w_ctl (sm_w x))) (sm_names x) (sm_obs x).
Lemma with_cs_none x : v_cs (w_v (sm_w x)) = [] -> without (with_cs dy_cs x) = x.
Proof. destruct x as [[[s st cs] k] n o]. cbn. intros ->. reflexivity. Qed.
Example C108_witness : forall c v q, 0 < c -> exists y, simulate (ty_U c) sy_O [0; 1 / 2; 1] (IterList []) (with_cs dy_cs (ty_x v q)) = (y, Ok tt) /\
  simulate (ty_U c) sy_O [0; 1 / 2; 1] (IterList []) (ty_x v q) = (without y, Ok tt).
Proof.
  intros c v q Pc. assert (Inc : Spec_Sim.increasing [0; 1 / 2; 1]) by (intros k Hk; cbn in Hk; destruct k as [ | [ | k]]; cbn; lra || lia). destruct (ty_progress c v q 0 [1 / 2; 1] Pc Inc) as (y & E).
  assert (Q := C108_disabled (ty_U c) sy_O [0; 1 / 2; 1] (with_cs dy_cs (ty_x v q))). rewrite (with_cs_none (ty_x v q) eq_refl), E in Q.
  destruct (simulate (ty_U c) sy_O [0; 1 / 2; 1] (IterList []) (with_cs dy_cs (ty_x v q))) as [y1 r]. cbn [fst snd] in Q. exists y1.
  assert (H : (y, Ok tt) = (without y1, r)). { apply Q; [intros a; exact Logic.I | ]. intros d h Id Kd Ei. destruct Id as [<- | [<- | []]]; [ | eexists; reflexivity].
    change (Model_World.init 0 ty_e 10 (ty_h v) = (h, Ok tt)) in Ei. destruct (init_spec (0:R) ty_e (ty_h v) ty_t 10) as (h' & E' & _ & D' & _).
    - apply (reachable_vinv _ _ _ _ (ty_reachable v)).
    - exact (ty_rep v).
    - reflexivity.
    - cbn. repeat (constructor; [cbn; intuition discriminate | ]). constructor.
    - cbn. lia.
    - assert (h = h') as -> by congruence. cbn [con_init jl_joint]. destruct (D' [] 1%nat [2%nat] eq_refl) as [D1 _]. rewrite D1. eexists. reflexivity. }
  injection H as -> <-. split; [reflexivity | exact E].
Qed.
