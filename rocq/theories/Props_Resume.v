(** C99: a simulation can be interrupted and resumed. *)
From Coq Require Import Lra Lia FunctionalExtensionality.
From Verif Require Import Spec_Resume Proof_World Proof_World2 Proof_World3 Proof_World4 Proof_Tree Proof_Dofs Proof_Step Proof_Sim Proof_Sim2 Proof_Sim3 Props_Dyn Props_Step Proof_Resume Proof_Resume2 Props_World.
From Verif Require Import Props_Sim Props_Sim5.

Lemma loop_tl U O tl tl' ts : forall x, sim_loop (interp U O tl') [] ts x = sim_loop (interp U O tl) [] ts x.
Proof.
  induction ts as [ | t ts IH]; intros x; [reflexivity | ]. cbn [sim_loop map calls interp].
  destruct (world_dynamic U (sm_w x)) as [w1 [[] | e]]; cbn [bind_]; [ | reflexivity]. destruct (world_controllers U _ _) as [w2 [[] | e]]; cbn [bind_]; [ | reflexivity].
  destruct (world_constraints U _ _) as [w3 [[] | e]]; cbn [bind_]; [ | reflexivity]. destruct (world_integrate U _ _) as [w4 [[] | e]]; cbn [bind_]; [ | reflexivity]. apply IH.
Qed.
Lemma loop_app I ts ts' : forall x, sim_loop I [] (ts ++ ts') x = bind_ (sim_loop I [] ts x) (sim_loop I [] ts').
Proof.
  induction ts as [ | t ts IH]; intros x; [reflexivity | ]. cbn [app sim_loop]. cbv zeta. destruct (calls I _ x) as [y [[] | e]]; [ | reflexivity]. cbn [bind_ map calls].
  destruct (I _ y) as [z [[] | e]]; [ | reflexivity]. cbn [bind_]. apply IH.
Qed.
Lemma simulate_alone U O t0 ts x : simulate U O (t0 :: ts) (IterList []) x =
  bind_ (let (w, r) := world_init U (set_time (sm_w x) t0) in (set_w x w, r)) (sim_loop (interp U O (t0 :: ts)) [] ts).
Proof.
  unfold simulate. cbn [consume fst map calls interp].
  change (sm_w (set_w x (set_time (sm_w x) t0))) with (set_time (sm_w x) t0). destruct (world_init U (set_time (sm_w x) t0)) as [w [[] | e]]; cbn [bind_]; [ | reflexivity].
  change (set_w (set_w x (set_time (sm_w x) t0)) w) with (set_w x w). destruct (sim_loop _ _ _ _) as [y [[] | e]]; reflexivity.
Qed.
Lemma ctl_inits_user U h l : forall k k', ctl_inits U h l k = Ok k' -> forall a f, k' a = KUser f -> k a = KUser f.
Proof.
  induction l as [ | b l IH]; cbn [ctl_inits]; intros k k' E a f Ea; [congruence | ]. destruct (ctl_init U h (k b)) as [c | ] eqn:Ec; [ | discriminate]. cbn [rbind] in E.
  assert (X := IH _ _ E a f Ea). unfold upd in X. destruct (Nat.eqb_spec a b) as [-> | ]; [ | exact X]. subst c. destruct (k b) as [g c | c | f']; cbn [ctl_init] in Ec.
  - destruct (wc_init _ _ _ _ _); discriminate.
  - destruct (pd_init h c); discriminate.
  - congruence.
Qed.


Section Resume.
  Context (U : setup) (O : nat -> okind) (g0 : nat -> nat -> R) (t : tree).
  Notation hp w := (s_heap (w_s w)).

  Lemma close_refl w : settled U t w -> close U t w w.
  Proof. intros S. repeat split; try apply S; try reflexivity. apply hsame_refl. Qed.
  Lemma set_w_id x : set_w x (sm_w x) = x.
  Proof. destruct x; reflexivity. Qed.
  Lemma set_time_id w : set_time w (s_time (w_s w)) = w.
  Proof. destruct w as [[[] ? ?] ?]. reflexivity. Qed.

  (** *** what World.init leaves *)
  Lemma started w t0 w1 : reachable 0 (su_e U) g0 (hp w) -> rep (su_e U) (hp w) t -> root t = ground (su_e U) ->
    (forall a f, In a (w_controllers (hp w)) -> w_ctl w a = KUser f -> memoryless t f) ->
    world_init U (set_time w t0) = (w1, Ok tt) -> (height t < su_fuel U)%nat /\ settled U t w1 /\ calm_ctl t w1.
  Proof.
    intros Re Rt Er Hm E.
    assert (Fo := reachable_forest 0 (su_e U) g0 _ Re). assert (Vi := reachable_vinv 0 (su_e U) g0 _ Re).
    assert (Eh : hp (set_time w t0) = hp w) by reflexivity.
    destruct (Model_World.init 0 (su_e U) (su_fuel U) (hp w)) as [h' [[] | e]] eqn:Ei; [ | unfold world_init in E; rewrite Eh, Ei in E; discriminate].
    destruct (init_fuel 0 (su_e U) _ _ _ Fo Vi Ei) as (t1 & Rt1 & Er1 & ND & Hf). assert (t1 = t) as -> by (apply (rep_unique (su_e U) (hp w)); auto; congruence).
    split; [exact Hf | ]. split; [exact (init_settles U t Hf (set_time w t0) w1 Vi Rt Er ND E) | ].
    assert (Hc : w_controllers h' = w_controllers (hp w)).
    { unfold Model_World.init in Ei. destruct (iterjoints _ _ _); [ | discriminate]. destruct (assign_dofs _ _ _ _) as [n d]. destruct (copy_gvels _ _ _ _ _) as [[a1 g1] | ]; [ | discriminate]. injection Ei as <-. reflexivity. }
    unfold world_init in E. rewrite Eh, Ei in E. cbv zeta in E. destruct (rmapM _ _) as [cs | ]; [ | discriminate]. 
    destruct (ctl_inits U h' _ _) as [k | ] eqn:Ek; [ | discriminate]. injection E as <-. intros a Ha. cbn in Ha. rewrite Hc in Ha. cbn [w_ctl].
    destruct (k a) as [g c | c | f] eqn:Ea; try exact Logic.I. apply (Hm a f Ha). exact (ctl_inits_user U h' _ _ _ Ek a f Ea).
  Qed.

  Lemma resume x y z r t0 ts ts' : let h := hp (sm_w x) in reachable 0 (su_e U) g0 h -> rep (su_e U) h t -> root t = ground (su_e U) ->
    (forall a f, In a (w_controllers h) -> w_ctl (sm_w x) a = KUser f -> memoryless t f) ->
    simulate U O (t0 :: ts) (IterList []) x = (y, Ok tt) -> simulate U O (last ts t0 :: ts') (IterList []) y = (z, r) ->
    exists z', simulate U O (t0 :: ts ++ ts') (IterList []) x = (z', r) /\ same_world t (sm_w z') (sm_w z) /\ (r = Ok tt -> ts' <> [] -> same_matrices (sm_w z') (sm_w z)).
  Proof.
    intros h Re Rt Er Hm E1 E2. assert (Nw := proj1 (proj2 (C18_schedule U O t0 ts [] x y)) E1).
    rewrite simulate_alone in E1, E2. rewrite simulate_alone.
    destruct (world_init U (set_time (sm_w x) t0)) as [w1 [[] | e]] eqn:Ew; cbn [bind_] in E1 |- *; [ | discriminate].
    destruct (started _ _ _ Re Rt Er Hm Ew) as (Hf & Se & Cl).
    destruct (close_loop U t Hf O (t0 :: ts) (t0 :: ts) ts (set_w x w1) (set_w x w1)) as (y1 & y2 & r1 & L1 & _ & K1 & Cl1 & _); [exact (close_refl _ Se) | exact Cl | ].
    rewrite E1 in L1. injection L1 as <- <-.
    assert (Sy : settled U t (sm_w y)) by apply K1.
    assert (Et : set_time (sm_w y) (last ts t0) = sm_w y) by (rewrite <- Nw; apply set_time_id). rewrite Et in E2.
    destruct (settled_init U t Hf _ Sy) as (w2 & Ei & K2). rewrite Ei in E2. cbn [bind_] in E2.
    destruct (close_loop U t Hf O (t0 :: ts ++ ts') (last ts t0 :: ts') ts' y (set_w y w2)) as (z1 & z2 & r2 & L1 & L2 & K3 & _ & M); [exact K2 | exact Cl1 | ].
    rewrite E2 in L2. injection L2 as <- <-. exists z1. split; [ | split; [exact (close_same U t _ _ K3) | exact M]].
    rewrite loop_app, (loop_tl U O (t0 :: ts) (t0 :: ts ++ ts') ts), E1. cbn [bind_]. exact L1.
  Qed.
End Resume.

(** [C99] simulate(world, t0...t1) followed by simulate(world, t1...t2), on the same world, ends in the same state as the single simulate(world, t0...t1...t2): same positions, velocities,
    time, poses, jacobians, contact forces; the same outcome if a step of the second part raises; the same World.mass, nleffects, gforce, admittance... if the second part makes a step.
    The controllers written by the user must not read what the previous step left (see [memoryless]). *)
Theorem C99_resume : forall U O g0 t x y z r t0 ts ts', let h := s_heap (w_s (sm_w x)) in
  reachable 0 (su_e U) g0 h -> rep (su_e U) h t -> root t = ground (su_e U) ->
  (forall a f, In a (w_controllers h) -> w_ctl (sm_w x) a = KUser f -> memoryless t f) ->
  simulate U O (t0 :: ts) (IterList []) x = (y, Ok tt) -> simulate U O (last ts t0 :: ts') (IterList []) y = (z, r) ->
  exists z', simulate U O (t0 :: ts ++ ts') (IterList []) x = (z', r) /\ same_world t (sm_w z') (sm_w z) /\
    (r = Ok tt -> ts' <> [] -> same_matrices (sm_w z') (sm_w z)).
Proof. exact resume. Qed.

(** with observers: every observer may be attached to the first, the second, both or the single simulation *)
Corollary C99_observed : forall U O O1 O2 g0 t x y z t0 ts ts' obs1 obs2, let h := s_heap (w_s (sm_w x)) in
  reachable 0 (su_e U) g0 h -> rep (su_e U) h t -> root t = ground (su_e U) ->
  (forall a f, In a (w_controllers h) -> w_ctl (sm_w x) a = KUser f -> memoryless t f) ->
  simulate U O1 (t0 :: ts) (IterList obs1) x = (y, Ok tt) -> simulate U O2 (last ts t0 :: ts') (IterList obs2) y = (z, Ok tt) ->
  exists z', simulate U O (t0 :: ts ++ ts') (IterList []) x = (z', Ok tt) /\ same_world t (sm_w z') (sm_w z) /\
    (ts' <> [] -> same_matrices (sm_w z') (sm_w z)).
Proof.
  intros U O O1 O2 g0 t x y z t0 ts ts' obs1 obs2 h Re Rt Er Hm E1 E2.
  destruct (C65_observers_passive U O1 O t0 ts obs1 x x y (Ok tt) eq_refl E1) as (y' & r1 & F1 & [(-> & Wy) | (e & ? & ? & ? & ? & ? & Q & _)]); [ | discriminate].
  destruct (C65_observers_passive U O2 O (last ts t0) ts' obs2 y y' z (Ok tt) Wy E2) as (z' & r2 & F2 & [(-> & Wz) | (e & ? & ? & ? & ? & ? & Q & _)]); [ | discriminate].
  destruct (C99_resume U O g0 t x y' z' (Ok tt) t0 ts ts' Re Rt Er Hm F1 F2) as (z1 & G & A & B). rewrite Wz in A, B. exists z1. auto.
Qed.

(** *** the pendulum of C20, simulated over [0, 1/2] and then over [1/2, 1] *)
From Verif Require Import Proof_Matrix Props_DynEx Props_Sim4.
Example C99_witness : exists y z, simulate sy_U sy_O [0; 1 / 2] (IterList [0; 1]%nat) sy_x = (y, Ok tt) /\ simulate sy_U sy_O [1 / 2; 1] (IterList []) y = (z, Ok tt) /\
  exists z', simulate sy_U sy_O [0; 1 / 2; 1] (IterList []) sy_x = (z', Ok tt) /\ same_world (ch_t 0 1) (sm_w z') (sm_w z) /\ same_matrices (sm_w z') (sm_w z) /\ now z = 1.
Proof.
  assert (No : NoDup [0; 1]%nat) by (repeat constructor; cbn; intuition discriminate).
  destruct (sy_progress sy_U sy_O sy_x eq_refl eq_refl eq_refl gauss_inv_spec eq_refl eq_refl eq_refl eq_refl 0 [1 / 2; 1] []) as (z' & E); [constructor | intros i [] | intros k Hk; cbn in Hk; destruct k as [ | [ | k]]; cbn; lra || lia | ].
  destruct (sy_progress sy_U sy_O sy_x eq_refl eq_refl eq_refl gauss_inv_spec eq_refl eq_refl eq_refl eq_refl 0 [1 / 2] [0; 1]%nat No) as (y & E0); [intros i _; apply sy_calm | intros k Hk; cbn in Hk; destruct k as [ | k]; cbn; lra || lia | ].
  destruct (simulate sy_U sy_O [1 / 2; 1] (IterList []) y) as [z r] eqn:Ez.
  destruct (C65_observers_passive sy_U sy_O sy_O 0 [1 / 2] [0; 1]%nat sy_x sy_x y (Ok tt) eq_refl E0) as (y' & r1 & F1 & [(-> & Wy) | (e & ? & ? & ? & ? & ? & Q & _)]); [ | discriminate].
  destruct (C65_observers_passive sy_U sy_O sy_O (1 / 2) [1] [] y y' z r Wy Ez) as (z1 & r2 & F2 & [(-> & Wz) | (e & i & ? & ? & ? & ? & _ & [] & _)]).
  assert (Hm : forall a f, In a (w_controllers (s_heap (w_s (sm_w sy_x)))) -> w_ctl (sm_w sy_x) a = KUser f -> memoryless (ch_t 0 1) f) by (intros a f _ Q; discriminate).
  destruct (C99_resume sy_U sy_O (fun _ _ => 1) (ch_t 0 1) sy_x y' z1 r 0 [1 / 2] [1] sy_reachable sy_rep eq_refl Hm F1 F2) as (z2 & G & _). change ([1 / 2] ++ [1]) with [1 / 2; 1] in G.
  rewrite E in G. injection G as <- <-.
  destruct (C99_observed sy_U sy_O sy_O sy_O (fun _ _ => 1) (ch_t 0 1) sy_x y z 0 [1 / 2] [1] [0; 1]%nat [] sy_reachable sy_rep eq_refl Hm E0 Ez) as (z2 & G & A & B).
  exists y, z. split; [exact E0 | ]. split; [exact Ez | ]. exists z2. split; [exact G | ]. split; [exact A | ]. split; [apply B; discriminate | ].
  exact (proj1 (proj2 (C18_schedule sy_U sy_O (1 / 2) [1] [] y z)) Ez).
Qed.
