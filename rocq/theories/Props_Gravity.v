(** C109: gravities add up. *)
From Coq Require Import String Lra Lia FunctionalExtensionality.
From Verif Require Import Spec_Gravity Proof_Step Proof_Sim Proof_Sim2 Proof_Sim3 Proof_Dyn2 Props_Sim Props_Resume Spec_Apart Proof_Linalg Proof_SE3 Proof_Tree Proof_World Proof_Dyn Proof_Matrix Props_Mass Props_Sim3 Props_DynEx Props_EnergyEx Props_Sim4 Props_Apart2 Props_Order.
Open Scope R_scope.

Definition pull (g : R) : v6 := V6 zero3 (vscal g world_up).
Lemma pull_add g1 g2 : pull (g1 + g2) = v6add (pull g1) (pull g2).
Proof. unfold pull, v6add, vscal, vadd, zero3, world_up. cbn [ang lin vx vy vz]. f_equal; f_equal; ring. Qed.
Lemma dot_lin J M A u v : dot6 J (mv6 M (mv6 A (v6add u v))) = dot6 J (mv6 M (mv6 A u)) + dot6 J (mv6 M (mv6 A v)).
Proof. rewrite !mv6_add. generalize (mv6 M (mv6 A u)) (mv6 M (mv6 A v)). intros p q. unfold dot6, v6add, vadd, dot3. cbn [ang lin vx vy vz]. ring. Qed.
Lemma wc_add sc st u v bs : forall f1 f2 r1 r2, wc_loop sc st u bs f1 = Ok r1 -> wc_loop sc st v bs f2 = Ok r2 -> wc_loop sc st (v6add u v) bs (vplus f1 f2) = Ok (vplus r1 r2).
Proof.
  induction bs as [ | b bs IH]; intros f1 f2 r1 r2 E1 E2; cbn [wc_loop] in *; [injection E1 as <-; injection E2 as <-; reflexivity | ].
  destruct (Model_Dyn.get (a_pose (st b))) as [P | ]; [ | discriminate]. cbn [rbind] in *. destruct (iadjoint P) as [A | ]; [ | discriminate]. cbn [rbind] in *. destruct (Model_Dyn.get (a_jac (st b))) as [J | ]; [ | discriminate]. cbn [rbind] in *.
  rewrite <- (IH _ _ _ _ E1 E2). f_equal. extensionality k. unfold vplus. rewrite dot_lin. ring.
Qed.

Section Gravity.
  Context (U : setup) (O : nat -> okind) (l : list nat).
  Notation hp w := (s_heap (w_s w)).
  Definition kw (k : nat -> kctl wview) (w : world) : world := W (reordered_v l (w_v w)) k.
  Definition kwr (k : nat -> kctl wview) (p : world * res unit) : world * res unit := (kw k (fst p), snd p).
  Lemma dyn_ctl v k k' : world_dynamic U (W v k) = (W (w_v (fst (world_dynamic U (W v k')))) k, snd (world_dynamic U (W v k'))).
  Proof. unfold world_dynamic. cbn [w_s w_v v_s]. destruct (world_update_dynamic _ _ _ _ _ _) as [[st d] | ]; reflexivity. Qed.
  Lemma cons_ctl dt v k k' : world_constraints U dt (W v k) = (W (w_v (fst (world_constraints U dt (W v k')))) k, snd (world_constraints U dt (W v k'))).
  Proof. unfold world_constraints. change (con_env U (W v k)) with (con_env U (W v k')). cbn [w_s w_v v_s]. destruct (update_constraints _ _ _ _ _ _) as [[[s cs] f] | ]; reflexivity. Qed.
  Lemma int_ctl dt v k k' : world_integrate U dt (W v k) = (W (w_v (fst (world_integrate U dt (W v k')))) k, snd (world_integrate U dt (W v k'))).
  Proof. unfold world_integrate. change (w_s (W v k)) with (w_s (W v k')). destruct (integrate _ _ _ _) as [s r]; reflexivity. Qed.
  Lemma dyn_g k w : world_dynamic U (kw k w) = kwr k (world_dynamic U w).
  Proof. unfold kw at 1. rewrite (dyn_ctl _ k (w_ctl w)). change (W (reordered_v l (w_v w)) (w_ctl w)) with (rw l w). rewrite dyn_r. reflexivity. Qed.
  Lemma cons_g dt k w : world_constraints U dt (kw k w) = kwr k (world_constraints U dt w).
  Proof. unfold kw at 1. rewrite (cons_ctl dt _ k (w_ctl w)). change (W (reordered_v l (w_v w)) (w_ctl w)) with (rw l w). rewrite cons_r. reflexivity. Qed.
  Lemma int_g dt k w : world_integrate U dt (kw k w) = kwr k (world_integrate U dt w).
  Proof. unfold kw at 1. rewrite (int_ctl dt _ k (w_ctl w)). change (W (reordered_v l (w_v w)) (w_ctl w)) with (rw l w). rewrite int_r. reflexivity. Qed.

  (** if the controllers of two worlds give the same sums at every step, the motions are the same *)
  Context (l0 : list nat) (k0 k1 : nat -> kctl wview).
  Definition same_sum : Prop := forall v dt s s1, add_controllers (ctl_update U (W v k0)) dt l0 s = (s1, Ok tt) -> add_controllers (ctl_update U (W (reordered_v l v) k1)) dt l s = (s1, Ok tt).
  Hypothesis Hs : same_sum.
  Lemma ctl_g w w1 dt : w_controllers (hp w) = l0 -> w_ctl w = k0 -> world_controllers U dt w = (w1, Ok tt) -> world_controllers U dt (kw k1 w) = (kw k1 w1, Ok tt).
  Proof.
    intros El Ek E. unfold world_controllers, update_controllers in *. destruct (Rlt_dec 0 dt); [ | discriminate]. cbv zeta in *. change (w_controllers (hp (kw k1 w))) with l. rewrite El in E. change (w_s (kw k1 w)) with (reordered_s l (w_s w)). cbn [reordered_s s_dyn s_adm s_heap with_controllers set_registered w_ndof].
    match type of E with context [add_controllers _ _ _ ?s] => set (s0 := s) in E end. match goal with |- context [add_controllers _ _ _ ?s] => change s with (reordered_s l s0) end.
    rewrite add_r. destruct (add_controllers (ctl_update U w) dt l0 s0) as [s1 [[] | ]] eqn:Ea; [ | discriminate].
    assert (Q : w = W (w_v w) k0) by (destruct w; cbn in *; subst; reflexivity). rewrite Q in Ea. apply Hs in Ea. change (W (reordered_v l (w_v w)) k1) with (kw k1 w) in Ea. rewrite Ea. cbn [fst snd]. change (s_imp (reordered_s l s1)) with (s_imp s1). change (w_ndof (set_registered _ _ _ _ l)) with (w_ndof (hp w)).
    destruct (su_linv U _ _) as [Y | ]; [ | discriminate]. injection E as <-. reflexivity.
  Qed.
  Definition kx (x : sim) : sim := Sim (kw k1 (sm_w x)) (sm_names x) (sm_obs x).
  Lemma loop_g tl ts : forall x y, w_controllers (hp (sm_w x)) = l0 -> w_ctl (sm_w x) = k0 -> sim_loop (interp U O tl) [] ts x = (y, Ok tt) -> sim_loop (interp U O tl) [] ts (kx x) = (kx y, Ok tt).
  Proof.
    induction ts as [ | t1 ts IH]; intros x y Hl Hb E; cbn [sim_loop map calls interp] in *; [injection E as <-; reflexivity | ]. cbv zeta in *. change (now (kx x)) with (now x). set (dt := t1 - now x) in *.
    change (sm_w (kx x)) with (kw k1 (sm_w x)). rewrite dyn_g. unfold kwr. destruct (keeps_ctl U (sm_w x)) as (A1 & A2 & _). destruct (world_dynamic U (sm_w x)) as [w1 [[] | z]]; cbn [fst snd bind_ sm_w set_w sm_names sm_obs] in *; [ | discriminate].
    destruct (keeps_ctl U w1) as (_ & _ & B & _). destruct (B dt) as [B1 B2]. destruct (world_controllers U dt w1) as [w2 [[] | z]] eqn:E2; cbn [fst snd bind_ sm_w set_w sm_names sm_obs] in *; [ | discriminate].
    rewrite (ctl_g w1 w2 dt); [ | congruence | congruence | exact E2]. cbn [bind_ sm_w set_w sm_names sm_obs].
    destruct (keeps_ctl U w2) as (_ & _ & _ & C & _). destruct (C dt) as [C1 C2]. rewrite cons_g. unfold kwr. destruct (world_constraints U dt w2) as [w3 [[] | z]]; cbn [fst snd bind_ sm_w set_w sm_names sm_obs] in *; [ | discriminate].
    destruct (keeps_ctl U w3) as (_ & _ & _ & _ & D2). specialize (D2 dt). rewrite int_g. unfold kwr. destruct (world_integrate U dt w3) as [w4 [[] | z]] eqn:E4; cbn [fst snd bind_ sm_w set_w sm_names sm_obs] in *; [ | discriminate].
    assert (D1 : w_controllers (hp w4) = w_controllers (hp w3)).
    { assert (Q : interp U O tl (Int dt) (set_w x w3) = (set_w x w4, Ok tt)) by (cbn [interp set_w sm_w sm_names sm_obs]; rewrite E4; reflexivity). exact (proj2 (proj2 (proj2 (interp_graph _ _ _ _ _ _ Q)))). }
    apply IH in E; [exact E | cbn [sm_w set_w]; congruence | cbn [sm_w set_w]; congruence].
  Qed.
End Gravity.

Section Inits.
  Context (U : setup) (h : @heap R).
  Lemma inits_out c : forall m k r, ctl_inits U h m k = Ok r -> ~ In c m -> r c = k c.
  Proof.
    induction m as [ | a m IH]; intros k r E N; cbn [ctl_inits] in E; [injection E as <-; reflexivity | ]. destruct (ctl_init U h (k a)) as [d | ]; [ | discriminate]. cbn [rbind] in E. rewrite (IH _ _ E) by (intros H; apply N; right; exact H). unfold upd. destruct (Nat.eqb_spec c a) as [-> | ]; [exfalso; apply N; left; reflexivity | reflexivity].
  Qed.
  Lemma inits_same : forall m k k' r, (forall c, In c m -> k' c = k c) -> ctl_inits U h m k = Ok r -> exists r', ctl_inits U h m k' = Ok r' /\ forall c, In c m -> r' c = r c.
  Proof.
    induction m as [ | a m IH]; intros k k' r H E; cbn [ctl_inits] in *; [exists k'; split; [reflexivity | intros c []] | ]. rewrite (H a (or_introl eq_refl)). destruct (ctl_init U h (k a)) as [d | ]; [ | discriminate]. cbn [rbind] in *.
    destruct (IH (upd k a d) (upd k' a d) r) as (r' & E' & H'); [ | exact E | ].
    - intros c Ic. unfold upd. destruct (Nat.eqb c a); [reflexivity | apply H; right; exact Ic].
    - exists r'. split; [exact E' | ]. intros c [<- | Ic]; [ | apply H'; exact Ic]. destruct (in_dec Nat.eq_dec a m) as [I1 | I1]; [apply H'; exact I1 | ]. rewrite (inits_out a m _ _ E' I1), (inits_out a m _ _ E I1). unfold upd. rewrite Nat.eqb_refl. reflexivity.
  Qed.
  Lemma inits_blind n c : forall m k r, ctl_inits U h m k = Ok r -> blind_to_order n (k c) -> blind_to_order n (r c).
  Proof.
    induction m as [ | b q IH]; intros k r Ek Ha; cbn [ctl_inits] in Ek; [injection Ek as <-; exact Ha | ].
    destruct (ctl_init U h (k b)) as [d | ] eqn:E1; [ | discriminate]. cbn [rbind] in Ek. apply (IH _ _ Ek). unfold upd. destruct (Nat.eqb_spec c b) as [-> | ]; [ | exact Ha].
    destruct (k b) as [g c0 | c0 | f]; cbn [ctl_init] in E1; [destruct (wc_init _ _ _ _ _); [ | discriminate]; injection E1 as <-; exact Logic.I | destruct (pd_init _ _); [ | discriminate]; injection E1 as <-; exact Logic.I | injection E1 as <-; exact Ha].
  Qed.
End Inits.
Lemma init_g U l l0 kk w w1 : w_controllers (s_heap (w_s w)) = l0 -> world_init U w = (w1, Ok tt) -> exists h, ctl_inits U h l0 (w_ctl w) = Ok (w_ctl w1) /\ w_controllers (s_heap (w_s w1)) = l0 /\
  forall r, ctl_inits U h l kk = Ok r -> world_init U (kw l kk w) = (kw l r w1, Ok tt).
Proof.
  intros El E. unfold world_init in *. change (s_heap (w_s (kw l kk w))) with (with_controllers l (s_heap (w_s w))). rewrite init_r. assert (Hw : w_controllers (fst (Model_World.init 0 (su_e U) (su_fuel U) (s_heap (w_s w)))) = l0).
  { rewrite <- El. unfold Model_World.init. destruct (iterjoints _ _ _); [ | reflexivity]. destruct (assign_dofs _ _ _ _) as [n d]. destruct (copy_gvels _ _ _ _ _) as [[a1 b1] | ]; reflexivity. }
  destruct (Model_World.init 0 (su_e U) (su_fuel U) (s_heap (w_s w))) as [h [[] | z]]; [ | discriminate]. cbn [fst snd] in *. change (v_cs (w_v (kw l kk w))) with (v_cs (w_v w)). change (con_init (with_controllers l h)) with (con_init h). cbv zeta in *.
  destruct (rmapM (con_init h) (v_cs (w_v w))) as [cs | ]; [ | discriminate]. rewrite Hw in E. destruct (ctl_inits U h l0 (w_ctl w)) as [k | ] eqn:Ek; [ | discriminate]. injection E as <-. exists h. cbn [w_ctl]. split; [exact Ek | ]. split; [exact Hw | ]. intros r Er.
  change (w_ctl (kw l kk w)) with kk. rewrite ctl_inits_r. change (w_controllers (with_controllers l h)) with l. rewrite Er. reflexivity.
Qed.
Lemma rest_sum U l k0 k1 v dt rest : (forall r, In r rest -> k1 r = k0 r /\ blind_to_order l (k0 r)) -> forall s, add_controllers (ctl_update U (W (reordered_v l v) k1)) dt rest s = add_controllers (ctl_update U (W v k0)) dt rest s.
Proof.
  intros H. apply add_ext. intros r Ir. destruct (H r Ir) as [E B]. unfold ctl_update. cbn [w_ctl]. rewrite E. destruct (k0 r) as [g [c | ] | c | f]; try reflexivity. apply B.
Qed.
Lemma merge_sum U a b rest bs g1 g2 k0 k1 : k0 a = KWeight g1 (Some (WC bs (pull g1) mzero)) -> k0 b = KWeight g2 (Some (WC bs (pull g2) mzero)) -> k1 a = KWeight (g1 + g2) (Some (WC bs (pull (g1 + g2)) mzero)) ->
  (forall r, In r rest -> k1 r = k0 r /\ blind_to_order (a :: rest) (k0 r)) -> same_sum U (a :: rest) (a :: b :: rest) k0 k1.
Proof.
  intros Ka Kb K1 Kr v dt s s1 E. cbn [add_controllers] in *. unfold ctl_update at 1 in E. unfold ctl_update at 1. cbn [w_ctl w_v v_st reordered_v] in *. rewrite Ka in E. rewrite K1. unfold wc_update in *. cbn [wc_dtwist wc_bodies wc_imp] in *.
  destruct (wc_loop _ _ (pull g1) bs vzero) as [f1 | ] eqn:E1; [ | discriminate]. cbn [rbind] in E. unfold ctl_update at 1 in E. cbn [w_ctl w_v v_st] in E. rewrite Kb in E. unfold wc_update in E. cbn [wc_dtwist wc_bodies wc_imp] in E. destruct (wc_loop _ _ (pull g2) bs vzero) as [f2 | ] eqn:E2; [ | discriminate]. cbn [rbind] in E.
  assert (Q := wc_add _ _ _ _ _ _ _ _ _ E1 E2). assert (Z : vplus vzero vzero = vzero) by (extensionality i; unfold vplus, vzero; ring). rewrite Z in Q. rewrite pull_add, Q. cbn [rbind]. rewrite (rest_sum U (a :: rest) k0 k1 v dt rest Kr). rewrite <- E. f_equal. unfold set_forces. cbn [s_heap s_ty s_qH s_q s_dyn s_gforce s_imp s_adm s_time]. f_equal.
  - extensionality i. unfold vplus. ring.
  - extensionality i. extensionality j. unfold mminus, mzero. ring.
Qed.
Lemma wc_none sc st bs : forall f r, wc_loop sc st (pull 0) bs f = Ok r -> r = f.
Proof.
  induction bs as [ | b bs IH]; intros f r E; cbn [wc_loop] in E; [injection E as <-; reflexivity | ].
  destruct (Model_Dyn.get (a_pose (st b))) as [P | ]; [ | discriminate]. cbn [rbind] in *. destruct (iadjoint P) as [A | ]; [ | discriminate]. cbn [rbind] in *. destruct (Model_Dyn.get (a_jac (st b))) as [J | ]; [ | discriminate]. cbn [rbind] in *.
  rewrite (IH _ _ E). extensionality k. assert (Q : dot6 (J k) (mv6 (b_mass sc b) (mv6 A (pull 0))) = 0).
  { assert (Z : pull 0 = v6add (pull 0) (pull 0)) by (rewrite <- pull_add; f_equal; ring). assert (Y := dot_lin (J k) (b_mass sc b) A (pull 0) (pull 0)). rewrite <- Z in Y. lra. }
  rewrite Q. ring.
Qed.
Lemma zero_sum U a rest bs k0 k1 : k0 a = KWeight 0 (Some (WC bs (pull 0) mzero)) -> (forall r, In r rest -> k1 r = k0 r /\ blind_to_order rest (k0 r)) -> same_sum U rest (a :: rest) k0 k1.
Proof.
  intros Ka Kr v dt s s1 E. cbn [add_controllers] in *. unfold ctl_update at 1 in E. cbn [w_ctl w_v v_st reordered_v] in *. rewrite Ka in E. unfold wc_update in *. cbn [wc_dtwist wc_bodies wc_imp] in *.
  destruct (wc_loop _ _ (pull 0) bs vzero) as [f1 | ] eqn:E1; [ | discriminate]. cbn [rbind] in E. rewrite (wc_none _ _ _ _ _ E1) in E. rewrite (rest_sum U rest k0 k1 v dt rest Kr). rewrite <- E. f_equal. destruct s as [u1 u2 u3 u4 u5 u6 u7 u8 u9]. unfold set_forces. cbn [s_heap s_ty s_qH s_q s_dyn s_gforce s_imp s_adm s_time]. f_equal.
  - extensionality i. unfold vplus, vzero. ring.
  - extensionality i. extensionality j. unfold mminus, mzero. ring.
Qed.
Lemma merge_exact U O timeline x y a b rest g1 g2 o1 o2 : w_controllers (s_heap (w_s (sm_w x))) = a :: b :: rest -> NoDup (a :: b :: rest) -> w_ctl (sm_w x) a = KWeight g1 o1 -> w_ctl (sm_w x) b = KWeight g2 o2 ->
  (forall r, In r rest -> blind_to_order (a :: rest) (w_ctl (sm_w x) r)) -> simulate U O timeline (IterList []) x = (y, Ok tt) ->
  exists y', simulate U O timeline (IterList []) (one_weight a rest (g1 + g2) x) = (y', Ok tt) /\ w_v (sm_w y') = reordered_v (a :: rest) (w_v (sm_w y)).
Proof.
  intros El Nd Ka Kb Kr E. destruct timeline as [ | t0 ts]; [discriminate | ]. rewrite simulate_alone in *. set (kk := upd (w_ctl (sm_w x)) a (KWeight (g1 + g2) None)).
  change (set_time (sm_w (one_weight a rest (g1 + g2) x)) t0) with (kw (a :: rest) kk (set_time (sm_w x) t0)). destruct (world_init U (set_time (sm_w x) t0)) as [w1 [[] | z]] eqn:Ei; cbn [bind_] in E; [ | discriminate].
  destruct (init_g U (a :: rest) (a :: b :: rest) kk (set_time (sm_w x) t0) w1 El Ei) as (h & Ec & El1 & Hk). change (w_ctl (set_time (sm_w x) t0)) with (w_ctl (sm_w x)) in Ec.
  inversion Nd as [ | ? ? Na Nd1]; subst. inversion Nd1 as [ | ? ? Nb _]; subst. assert (Nab : a <> b) by (intros ->; apply Na; left; reflexivity). assert (Nar : ~ In a rest) by (intros H; apply Na; right; exact H).
  cbn [ctl_inits] in Ec. rewrite Ka in Ec. cbn [ctl_init] in Ec. unfold wc_init in Ec. destruct (iter_descendant_bodies (su_e U) (su_fuel U) h (ground (su_e U))) as [bs0 | ] eqn:Eb; [ | discriminate]. cbn [rbind] in Ec. set (bs := filter _ bs0) in Ec.
  unfold upd at 1 in Ec. rewrite (proj2 (Nat.eqb_neq b a) (fun H => Nab (eq_sym H))), Kb in Ec. cbn [ctl_init] in Ec. unfold wc_init in Ec. rewrite Eb in Ec. cbn [rbind] in Ec. fold bs in Ec. fold (pull g1) in Ec. fold (pull g2) in Ec.
  set (k2 := upd (upd (w_ctl (sm_w x)) a _) b _) in Ec. set (k3 := upd kk a (KWeight (g1 + g2) (Some (WC bs (pull (g1 + g2)) mzero)))).
  destruct (inits_same U h rest k2 k3 (w_ctl w1)) as (r & Er & Hr); [ | exact Ec | ].
  { intros c Ic. unfold k2, k3, kk, upd. destruct (Nat.eqb_spec c a) as [-> | ]; [contradiction | ]. destruct (Nat.eqb_spec c b) as [-> | ]; [contradiction | reflexivity]. }
  assert (Ei2 : world_init U (kw (a :: rest) kk (set_time (sm_w x) t0)) = (kw (a :: rest) r w1, Ok tt)).
  { apply Hk. cbn [ctl_inits]. unfold kk at 1, upd at 1. rewrite Nat.eqb_refl. cbn [ctl_init]. unfold wc_init. rewrite Eb. cbn [rbind]. exact Er. }
  rewrite Ei2. cbn [bind_]. exists (kx (a :: rest) r y). split; [ | reflexivity]. change (set_w (one_weight a rest (g1 + g2) x) (kw (a :: rest) r w1)) with (kx (a :: rest) r (set_w x w1)).
  apply (loop_g U O (a :: rest) (a :: b :: rest) (w_ctl w1) r); [ | exact El1 | reflexivity | exact E].
  apply (merge_sum U a b rest bs g1 g2).
  - rewrite (inits_out U h a rest _ _ Ec Nar). unfold k2, upd. rewrite (proj2 (Nat.eqb_neq a b) Nab), Nat.eqb_refl. reflexivity.
  - rewrite (inits_out U h b rest _ _ Ec Nb). unfold k2, upd. rewrite Nat.eqb_refl. reflexivity.
  - rewrite (inits_out U h a rest _ _ Er Nar). unfold k3, upd. rewrite Nat.eqb_refl. reflexivity.
  - intros c Ic. split; [apply Hr; exact Ic | ]. apply (inits_blind U h _ c rest k2 _ Ec). unfold k2, upd. destruct (Nat.eqb_spec c b) as [-> | ]; [contradiction | ]. destruct (Nat.eqb_spec c a) as [-> | ]; [contradiction | ]. apply Kr. exact Ic.
Qed.
Lemma drop_exact U O timeline x y a rest o : w_controllers (s_heap (w_s (sm_w x))) = a :: rest -> NoDup (a :: rest) -> w_ctl (sm_w x) a = KWeight 0 o ->
  (forall r, In r rest -> blind_to_order rest (w_ctl (sm_w x) r)) -> simulate U O timeline (IterList []) x = (y, Ok tt) ->
  exists y', simulate U O timeline (IterList []) (no_weight rest x) = (y', Ok tt) /\ w_v (sm_w y') = reordered_v rest (w_v (sm_w y)).
Proof.
  intros El Nd Ka Kr E. destruct timeline as [ | t0 ts]; [discriminate | ]. rewrite simulate_alone in *. set (kk := w_ctl (sm_w x)).
  change (set_time (sm_w (no_weight rest x)) t0) with (kw rest kk (set_time (sm_w x) t0)). destruct (world_init U (set_time (sm_w x) t0)) as [w1 [[] | z]] eqn:Ei; cbn [bind_] in E; [ | discriminate].
  destruct (init_g U rest (a :: rest) kk (set_time (sm_w x) t0) w1 El Ei) as (h & Ec & El1 & Hk). change (w_ctl (set_time (sm_w x) t0)) with (w_ctl (sm_w x)) in Ec.
  inversion Nd as [ | ? ? Nar _]; subst.
  cbn [ctl_inits] in Ec. rewrite Ka in Ec. cbn [ctl_init] in Ec. unfold wc_init in Ec. destruct (iter_descendant_bodies (su_e U) (su_fuel U) h (ground (su_e U))) as [bs0 | ] eqn:Eb; [ | discriminate]. cbn [rbind] in Ec. set (bs := filter _ bs0) in Ec. fold (pull 0) in Ec.
  set (k2 := upd (w_ctl (sm_w x)) a _) in Ec.
  destruct (inits_same U h rest k2 kk (w_ctl w1)) as (r & Er & Hr); [ | exact Ec | ].
  { intros c Ic. unfold k2, kk, upd. destruct (Nat.eqb_spec c a) as [-> | ]; [contradiction | reflexivity]. }
  rewrite (Hk r Er). cbn [bind_]. exists (kx rest r y). split; [ | reflexivity]. change (set_w (no_weight rest x) (kw rest r w1)) with (kx rest r (set_w x w1)).
  apply (loop_g U O rest (a :: rest) (w_ctl w1) r); [ | exact El1 | reflexivity | exact E].
  apply (zero_sum U a rest bs).
  - rewrite (inits_out U h a rest _ _ Ec Nar). unfold k2, upd. rewrite Nat.eqb_refl. reflexivity.
  - intros c Ic. split; [apply Hr; exact Ic | ]. apply (inits_blind U h _ c rest k2 _ Ec). unfold k2, upd. destruct (Nat.eqb_spec c a) as [-> | ]; [contradiction | ]. apply Kr. exact Ic.
Qed.

(** [C109] If the simulation of a world with two weight controllers, of gravities g1 and g2, ends, that of the same world where they are replaced by one
    weight controller of gravity g1 + g2 ends too, in the same state (positions, velocities, forces, matrices, time), whatever the other controllers,
    the constraints, the joints and the order of registration. *)
Theorem C109_gravities : forall U O timeline x y a b rest g1 g2 o1 o2, Permutation (w_controllers (s_heap (w_s (sm_w x)))) (a :: b :: rest) -> NoDup (a :: b :: rest) ->
  w_ctl (sm_w x) a = KWeight g1 o1 -> w_ctl (sm_w x) b = KWeight g2 o2 -> (forall l r, In r rest -> blind_to_order l (w_ctl (sm_w x) r)) ->
  simulate U O timeline (IterList []) x = (y, Ok tt) ->
  exists y', simulate U O timeline (IterList []) (one_weight a rest (g1 + g2) x) = (y', Ok tt) /\ w_v (sm_w y') = reordered_v (a :: rest) (w_v (sm_w y)).
Proof.
  intros U O tl x y a b rest g1 g2 o1 o2 Pm Nd Ka Kb Kr E. apply (C104_order U O tl x y (a :: b :: rest) Pm) in E.
  2: { intros r [<- | [<- | Ir]]; [rewrite Ka; exact Logic.I | rewrite Kb; exact Logic.I | apply Kr; exact Ir]. }
  exact (merge_exact U O tl (reordered (a :: b :: rest) x) (reordered (a :: b :: rest) y) a b rest g1 g2 o1 o2 eq_refl Nd Ka Kb (fun r Ir => Kr _ r Ir) E).
Qed.
(** and a weight controller of gravity 0 may be left out *)
Theorem C109_weightless : forall U O timeline x y a rest o, Permutation (w_controllers (s_heap (w_s (sm_w x)))) (a :: rest) -> NoDup (a :: rest) ->
  w_ctl (sm_w x) a = KWeight 0 o -> (forall l r, In r rest -> blind_to_order l (w_ctl (sm_w x) r)) ->
  simulate U O timeline (IterList []) x = (y, Ok tt) ->
  exists y', simulate U O timeline (IterList []) (no_weight rest x) = (y', Ok tt) /\ w_v (sm_w y') = reordered_v rest (w_v (sm_w y)).
Proof.
  intros U O tl x y a rest o Pm Nd Ka Kr E. apply (C104_order U O tl x y (a :: rest) Pm) in E.
  2: { intros r [<- | Ir]; [rewrite Ka; exact Logic.I | apply Kr; exact Ir]. }
  exact (drop_exact U O tl (reordered (a :: rest) x) (reordered (a :: rest) y) a rest o eq_refl Nd Ka (fun r Ir => Kr _ r Ir) E).
Qed.
(** the two slides of Props_Order, with gravities -9.81 and 3: one weight controller of gravity -6.81 is enough *)
Lemma oy_list v : w_controllers (oy_h v 0 1) = [0; 1]%nat.
Proof. rewrite (oy_heap v 0 1) by discriminate. reflexivity. Qed.
Example C109_witness : forall c v q, 0 < c -> exists y y',
  simulate (ty_U c) sy_O [0; 1 / 2; 1] (IterList []) (oy_x v q 0 1) = (y, Ok tt) /\
  simulate (ty_U c) sy_O [0; 1 / 2; 1] (IterList []) (one_weight 0 [] (- (981 / 100) + 3) (oy_x v q 0 1)) = (y', Ok tt) /\ w_v (sm_w y') = reordered_v [0]%nat (w_v (sm_w y)).
Proof.
  intros c v q Pc. assert (Inc : Spec_Sim.increasing [0; 1 / 2; 1]) by (intros k Hk; cbn in Hk; destruct k as [ | [ | k]]; cbn; lra || lia). destruct (oy_progress c v q 0 [1 / 2; 1] Pc Inc) as (y & E).
  destruct (C109_gravities (ty_U c) sy_O [0; 1 / 2; 1] (oy_x v q 0 1) y 0 1 [] (- (981 / 100)) 3 None None) as (y' & E' & Q); [ | | reflexivity | reflexivity | intros l r [] | exact E | exists y, y'; split; [exact E | split; [exact E' | exact Q]]].
  - change (Permutation (w_controllers (oy_h v 0 1)) [0; 1]%nat). rewrite oy_list. apply Permutation_refl.
  - repeat constructor; cbn; intuition discriminate.
Qed.

(** the same slides, with gravities 0 and -9.81 *)
Definition zy_x (v q : nat -> R) (a b : nat) : sim :=
  Sim (W (WV (WS (oy_h v a b) (fun _ => TyJoint) (fun _ => eye4) (fun j _ => q j) wdyn0 vzero mzero mzero 0) (fun _ => no_attr) []) (fun i => KWeight (if Nat.eqb i 0 then 0 else - (981 / 100)) None)) (fun _ => None) (fun _ => MUser (VNum 0)).
Lemma zy_progress c v q t0 ts : 0 < c -> Spec_Sim.increasing (t0 :: ts) -> exists y, simulate (ty_U c) sy_O (t0 :: ts) (IterList []) (zy_x v q 0 1) = (y, Ok tt).
Proof.
  intros Pc Inc. destruct (C18_progress (ty_U c) sy_O t0 ts [] (zy_x v q 0 1) (fun j _ => v j) ty_t) as (y & [E | (_ & h' & J & st & st' & d & dt & So & Lv & Tj & Pd & E & Sg)]).
  - exact (oy_reachable v).
  - exact (oy_rep v).
  - reflexivity.
  - cbn. lia.
  - exact gauss_inv_spec.
  - intros [b | b | b]; apply SE3_eye.
  - intros j Ij. cbn in Ij. split; [destruct Ij as [<- | [<- | []]]; reflexivity | discriminate].
  - reflexivity.
  - change (NoDup [0; 1]%nat). repeat constructor; cbn; intuition discriminate.
  - intros a _. do 2 eexists. reflexivity.
  - constructor.
  - intros i [].
  - exact Inc.
  - exists y. exact E.
  - exfalso. destruct So as (_ & Sj & _).
    destruct (ty_dyn c h' J st st' d (proj1 Lv) (ltac:(intros j Hj; rewrite Sj; apply (oy_frames v); exact Hj)) Tj E) as (M1 & V1 & N1 & M2 & V2 & N2 & X).
    assert (Nd : w_ndof h' = 2%nat) by (rewrite (proj1 (proj2 (proj2 (proj2 (proj1 Lv))))); reflexivity). rewrite Nd in Sg.
    destruct Sg as (u & Nv & Kv). apply Nv. assert (K0 := Kv 0%nat ltac:(lia)). assert (K1 := Kv 1%nat ltac:(lia)). destruct (X 0 1)%nat as (X1 & X2 & X3); [auto | ]. destruct (X 1 0)%nat as (Y1 & Y2 & Y3); [auto | ].
    unfold mvn, mplus, mmul, vzero in K0, K1. cbn [sumR] in K0, K1. rewrite M1, V1, N1, X1, X2, X3 in K0. rewrite M2, V2, N2, Y1, Y2, Y3 in K1.
    assert (0 < / dt) by (apply Rinv_0_lt_compat; exact Pd). assert (0 < / dt * c) by (apply Rmult_lt_0_compat; assumption).
    assert (A0 : u 0%nat = 0) by (apply (Rmult_eq_reg_l (/ dt + 1)); lra). assert (A1 : u 1%nat = 0) by (apply (Rmult_eq_reg_l (/ dt * c + 1)); lra).
    intros [ | [ | i]] Hi; [exact A0 | exact A1 | lia].
Qed.
Example C109_weightless_witness : forall c v q, 0 < c -> exists y y',
  simulate (ty_U c) sy_O [0; 1 / 2; 1] (IterList []) (zy_x v q 0 1) = (y, Ok tt) /\
  simulate (ty_U c) sy_O [0; 1 / 2; 1] (IterList []) (no_weight [1]%nat (zy_x v q 0 1)) = (y', Ok tt) /\ w_v (sm_w y') = reordered_v [1]%nat (w_v (sm_w y)).
Proof.
  intros c v q Pc. assert (Inc : Spec_Sim.increasing [0; 1 / 2; 1]) by (intros k Hk; cbn in Hk; destruct k as [ | [ | k]]; cbn; lra || lia). destruct (zy_progress c v q 0 [1 / 2; 1] Pc Inc) as (y & E).
  destruct (C109_weightless (ty_U c) sy_O [0; 1 / 2; 1] (zy_x v q 0 1) y 0 [1]%nat None) as (y' & E' & Q); [ | | reflexivity | intros l r _; exact Logic.I | exact E | exists y, y'; split; [exact E | split; [exact E' | exact Q]]].
  - change (Permutation (w_controllers (oy_h v 0 1)) [0; 1]%nat). rewrite oy_list. apply Permutation_refl.
  - repeat constructor; cbn; intuition discriminate.
Qed.
