(** C102: a robot at rest without forces stays at rest. *)
From Coq Require Import Lra Lia FunctionalExtensionality.
From Verif Require Import Spec_Rest Proof_Linalg Proof_SE3 Proof_Exp Proof_Tree Proof_World Proof_World2 Proof_World3 Proof_World4 Proof_Dofs Proof_Step Proof_Sim Proof_Sim2 Proof_Sim3 Props_Dyn Props_Step Proof_Resume Proof_Resume2 Props_World Props_Sim Props_Resume.
Open Scope R_scope.

Definition zl (l : list R) : Prop := forall i, nth i l 0 = 0.
Lemma zl_in l : zl l <-> forall x, In x l -> x = 0.
Proof.
  split; [intros Z x Hx; apply In_nth with (d := 0) in Hx; destruct Hx as (i & _ & <-); apply Z | ]. intros H i. destruct (Nat.lt_ge_cases i (length l)); [apply H; apply nth_In; assumption | apply nth_overflow; assumption].
Qed.
Lemma zl_read (a : aid -> list R) v : zl (a (v_arr v)) -> zl (read a v).
Proof.
  rewrite !zl_in. unfold read. intros H x Hx. apply H. 
  rewrite <- (firstn_skipn (v_start v) (a (v_arr v))). apply in_or_app. right. rewrite <- (firstn_skipn (v_len v) (skipn (v_start v) (a (v_arr v)))). apply in_or_app. left. exact Hx.
Qed.
Lemma sumR_zero n f : (forall k, (k < n)%nat -> f k = 0) -> sumR n f = 0.
Proof. induction n as [ | n IH]; intros H; cbn [sumR]; [reflexivity | ]. rewrite IH by (intros k Hk; apply H; lia). rewrite H by lia. ring. Qed.
Lemma exp_eye : exp zero6 = eye4.
Proof. change zero6 with (V6 zero3 zero3). rewrite exp_zero. unfold screw0, eye4. cbn [ang lin]. f_equal. lin. Qed.
Lemma assign_zero m : forall k (v x : nat -> R), (forall i, v i = 0) -> (forall i, x i = 0) -> forall i, assign m k v x i = 0.
Proof. induction m as [ | a m IH]; intros k v x Hv Hx i; cbn [assign]; [apply Hx | ]. apply IH; [exact Hv | ]. intros n. unfold upd. destruct (Nat.eqb n a); [apply Hv | apply Hx]. Qed.

Section Rest.
  Context (U : setup) (O : nat -> okind) (t : tree) (q : nat -> nat -> R) (qH : nat -> m4).
  Let e := su_e U.
  Notation hp w := (s_heap (w_s w)).
  Record still (w : world) : Prop := {
    sl_q : s_q (w_s w) = q;
    sl_qH : s_qH (w_s w) = qH;
    sl_zero : zl (world_gvel (hp w));
    sl_view : forall j, In j (joints t) -> v_arr (jgvel (hp w) j) = w_gvel (hp w);
    sl_con : Forall (quiet q) (v_cs (w_v w));
    sl_ctl : forall a, In a (w_controllers (hp w)) -> holds e q qH (w_ctl w a) }.
  Definition no_force (w : world) : Prop := forall i, s_gforce (w_s w) i = 0.

  Lemma still_dyn w : still w -> still (fst (world_dynamic U w)).
  Proof. intros [A B C D E F]. unfold world_dynamic. destruct (world_update_dynamic _ _ _ _ _ _) as [[st d] | ]; constructor; assumption. Qed.
  (** *** controllers *)
  Lemma pd_hold n v c dt F Z : holds e q qH (KPD c) -> pd_update e n q v c dt = Ok (F, Z) -> forall i, F i = 0.
  Proof.
    intros [Hq Hv] E. unfold pd_update in E. destruct (np_stack (map (coords e q) (pd_joints c)) (pd_cndof c)) as [g | ] eqn:Eg; [ | discriminate]. cbn [rbind] in E. destruct (np_stack (map (coords e v) (pd_joints c)) (pd_cndof c)) as [g2 | ]; [ | discriminate]. cbn [rbind] in E.
    assert (G : g = concat (map (coords e q) (pd_joints c))). { unfold np_stack in Eg. destruct (map (coords e q) (pd_joints c)) as [ | x l]; [destruct (Nat.eqb _ _); [injection Eg as <-; reflexivity | discriminate] | destruct (_ && _); [injection Eg as <-; reflexivity | discriminate]]. }
    destruct (set_at _ _ _ _) as [f | ] eqn:Ef; [ | discriminate]. cbn [rbind] in E. destruct (set_block _ _ _ _) as [bb | ]; [ | discriminate]. injection E as <- _.
    unfold set_at in Ef. destruct (pd_map c) as [ | a m]; [discriminate | ]. destruct (forallb _ _); [ | discriminate]. injection Ef as <-. apply (assign_zero (a :: m)); [ | reflexivity].
    intros i. unfold vplus, mvn. rewrite !sumR_zero; [ring | | ]; intros k Hk.
    - rewrite Hv by exact Hk. ring.
    - unfold vminus. rewrite Hq by exact Hk. rewrite G. unfold coords. rewrite Rminus_diag_eq by reflexivity. ring.
  Qed.
  Lemma add_zero ctl dt l : (forall a F Z, In a l -> ctl a dt = Ok (F, Z) -> forall i, F i = 0) -> forall s, (forall i, s_gforce s i = 0) -> forall i, s_gforce (fst (add_controllers ctl dt l s)) i = 0.
  Proof.
    induction l as [ | a l IH]; intros H s Hs i; cbn [add_controllers]; [apply Hs | ]. destruct (ctl a dt) as [[F Z] | ] eqn:Ea; [ | apply Hs]. apply IH; [intros b F' Z' Hb; apply H; right; exact Hb | ].
    intros k. cbn [s_gforce set_forces]. unfold vplus. rewrite Hs, (H a F Z (or_introl eq_refl) Ea). ring.
  Qed.
  Lemma still_ctl w dt : still w -> still (fst (world_controllers U dt w)) /\ (snd (world_controllers U dt w) = Ok tt -> no_force (fst (world_controllers U dt w))).
  Proof.
    intros S. destruct (S) as [A B C D E F].
    assert (Q : snd (update_controllers (su_linv U) (ctl_update U w) dt (w_s w)) = Ok tt -> forall i, s_gforce (fst (update_controllers (su_linv U) (ctl_update U w) dt (w_s w))) i = 0).
    { unfold update_controllers. destruct (Rlt_dec 0 dt); [ | discriminate]. cbv zeta. match goal with |- context [add_controllers _ _ ?l ?s] => assert (K := add_zero (ctl_update U w) dt l); specialize (fun H => K H s (fun i => eq_refl)) end.
      destruct (add_controllers _ _ _ _) as [s1 [u | ]]; [ | discriminate]. destruct (su_linv U _ _); [ | discriminate]. intros _ i. cbn [fst s_gforce set_forces]. apply K.
      intros a F0 Z Ha Ea. specialize (F a Ha). unfold ctl_update in Ea. fold e in Ea. destruct (w_ctl w a) as [g c | c | f]; [contradiction F | | ].
      - rewrite A in Ea. exact (pd_hold _ _ _ _ _ _ F Ea).
      - exact (F (w_v w) dt F0 Z A B C Ea). }
    unfold world_controllers. destruct (update_controllers_frame (su_linv U) (ctl_update U w) dt (w_s w)) as (f & Z & Y & Fr). destruct (update_controllers (su_linv U) (ctl_update U w) dt (w_s w)) as [s r]. cbn [fst snd] in *.
    split; [subst s; constructor; assumption | exact Q].
  Qed.
  (** *** constraints: none is active *)
  Lemma quiet_activate E cs dt : ce_q E = q -> Forall (quiet q) cs -> forall n l m, activate (con_ops E) dt n cs = Ok (l, m) -> Forall (fun c => snd c = None /\ quiet q (fst c)) l.
  Proof.
    intros Eq. induction cs as [ | c cs IH]; intros H n l m Ea; cbn [activate] in Ea; [injection Ea as <- _; constructor | ]. inversion H as [ | ? ? Hc Hcs]; subst.
    destruct (c_enabled (con_ops E) c) eqn:En.
    - destruct c as [x | x | x]; cbn [con_ops c_enabled c_update c_active quiet] in *; [ | congruence | congruence]. destruct Hc as [Hc | Hc]; [congruence | ]. cbn [rbind] in Ea.
      assert (Na : jl_active (jl_update E x) = false).
      { unfold jl_active, existsb_n. cbn [jl_update jl_nd jl_pos0 jl_min jl_max jl_prox]. apply Bool.orb_false_iff. 
        split; (destruct (existsb _ _) eqn:Ex; [exfalso | reflexivity]); apply existsb_exists in Ex; destruct Ex as (i & Hi & Hx); apply in_seq in Hi; specialize (Hc i ltac:(lia)); unfold Rltb in Hx; destruct (Rlt_dec _ _) as [L | ]; try discriminate; lra. }
      rewrite Na in Ea. destruct (activate (con_ops E) dt n cs) as [[l0 m0] | ] eqn:E0; [ | discriminate]. injection Ea as <- _. constructor; [ | exact (IH Hcs _ _ _ E0)]. split; [reflexivity | ]. cbn [fst quiet jl_update jl_on jl_nd jl_min jl_prox jl_max jl_joint]. right. exact Hc.
    - destruct (activate (con_ops E) dt n cs) as [[l0 m0] | ] eqn:E0; [ | discriminate]. injection Ea as <- _. constructor; [split; [reflexivity | exact Hc] | exact (IH Hcs _ _ _ E0)].
  Qed.
  Lemma quiet_sweep (ops : cops con) dt Y l : Forall (fun c => snd c = None /\ quiet q (fst c)) l -> forall v, sweep ops dt Y l v = Ok (l, v).
  Proof. induction l as [ | [c [a | ]] l IH]; intros H v; [reflexivity | | ]; inversion H as [ | ? ? [Hc _] Hl]; subst; [discriminate | ]. cbn [sweep]. rewrite IH by exact Hl. reflexivity. Qed.
  Lemma quiet_relax (ops : cops con) dt tol n Y l iters : Forall (fun c => snd c = None /\ quiet q (fst c)) l -> forall k v p, relax ops dt tol n Y iters k l v p = Ok (l, v).
  Proof. intros H. induction iters as [ | m IH]; intros k v p; [reflexivity | ]. cbn [relax]. rewrite quiet_sweep by exact H. cbn [rbind]. destruct (_ && _); [reflexivity | apply IH]. Qed.
  Lemma quiet_gforces (ops : cops con) l : Forall (fun c => snd c = None /\ quiet q (fst c)) l -> forall f, add_gforces ops l f = Ok f.
  Proof. induction l as [ | [c [a | ]] l IH]; intros H f; [reflexivity | | ]; inversion H as [ | ? ? [Hc _] Hl]; subst; [discriminate | ]. cbn [add_gforces]. apply IH. exact Hl. Qed.
  Lemma still_cons w dt : still w -> no_force w -> still (fst (world_constraints U dt w)) /\ no_force (fst (world_constraints U dt w)).
  Proof.
    intros S N. destruct (S) as [A B C D E F]. unfold world_constraints. destruct (update_constraints _ _ _ _ _ _) as [[[s l] v] | ] eqn:Eu; [ | split; assumption]. cbn [fst].
    unfold update_constraints in Eu. destruct (Rlt_dec 0 dt); [ | discriminate]. destruct (activate _ _ _ _) as [[l0 m] | ] eqn:Ea; [ | discriminate]. cbn [rbind] in Eu.
    assert (Ql := quiet_activate (con_env U w) (v_cs (w_v w)) dt A E _ _ _ Ea). destruct (stack _ _ _); [ | discriminate]. cbn [rbind] in Eu. rewrite quiet_gforces in Eu by exact Ql. cbn [rbind] in Eu. rewrite quiet_relax in Eu by exact Ql. cbn [rbind] in Eu.
    rewrite quiet_gforces in Eu by exact Ql. cbn [rbind] in Eu. injection Eu as <- <- _. split; [ | exact N]. constructor; try assumption. cbn [w_v v_cs]. apply Forall_map. revert Ql. apply Forall_impl. intros c [_ Hc]. exact Hc.
  Qed.
  (** *** integrate *)
  Lemma int_joint dt j s s1 : zl (world_gvel (s_heap s)) -> integrate_joint dt j s = Ok s1 -> s_q s1 = s_q s /\ s_qH s1 = s_qH s /\ world_gvel (s_heap s1) = world_gvel (s_heap s) /\ w_controllers (s_heap s1) = w_controllers (s_heap s) /\
    (forall i, v_arr (jgvel (s_heap s) i) = w_gvel (s_heap s) -> v_arr (jgvel (s_heap s1) i) = w_gvel (s_heap s1)).
  Proof.
    intros Z E. unfold integrate_joint in E. destruct (jdof (s_heap s) j) as [[a b] | ]; [ | discriminate]. cbv zeta in E. injection E as <-. cbn [s_q s_qH s_heap].
    set (v := fun i => nth i (read (arr (s_heap s)) (View (w_gvel (s_heap s)) a (b - a))) 0).
    assert (V : v = fun _ => 0) by (extensionality i; apply (zl_read (arr (s_heap s)) (View (w_gvel (s_heap s)) a (b - a))); exact Z). rewrite V.
    assert (P : gpos (j_integrate (joints_of s j) (fun _ => 0) dt) = s_q s j /\ gposH (j_integrate (joints_of s j) (fun _ => 0) dt) = s_qH s j).
    { unfold j_integrate, joints_of, joint_state. cbn [jt gpos gposH]. assert (X : (fun i => s_q s j i + dt * 0) = s_q s j) by (extensionality i; ring).
      assert (Y : mm4 (s_qH s j) (exp (v6scal dt (v6of (fun _ => 0)))) = s_qH s j) by (replace (v6scal dt (v6of (fun _ => 0))) with zero6 by (unfold v6of; unf; f_equal; f_equal; ring); rewrite exp_eye; apply mm4_1_r).
      destruct (s_ty s j); cbn [gpos gposH]; rewrite ?X, ?Y; split; reflexivity. }
    destruct P as [-> ->]. split; [extensionality i; unfold upd; destruct (Nat.eqb_spec i j) as [-> | ]; reflexivity | ]. split; [extensionality i; unfold upd; destruct (Nat.eqb_spec i j) as [-> | ]; reflexivity | ].
    split; [reflexivity | ]. split; [reflexivity | ]. intros i Hi. cbn [set_dofs jgvel w_gvel]. destruct (s_ty s j); unfold upd; try (destruct (Nat.eqb_spec i j); [reflexivity | exact Hi]); exact Hi.
  Qed.
  Lemma int_joints dt js : forall s, zl (world_gvel (s_heap s)) -> let s1 := fst (integrate_joints dt js s) in s_q s1 = s_q s /\ s_qH s1 = s_qH s /\ world_gvel (s_heap s1) = world_gvel (s_heap s) /\ w_controllers (s_heap s1) = w_controllers (s_heap s) /\
    (forall i, v_arr (jgvel (s_heap s) i) = w_gvel (s_heap s) -> v_arr (jgvel (s_heap s1) i) = w_gvel (s_heap s1)).
  Proof.
    induction js as [ | j js IH]; intros s Z; cbn [integrate_joints]; [cbn; auto 6 | ]. destruct (integrate_joint dt j s) as [s1 | ] eqn:E; [ | cbn; auto 6]. destruct (int_joint dt j s s1 Z E) as (A & B & C & D & F).
    destruct (IH s1 ltac:(rewrite C; exact Z)) as (A' & B' & C' & D' & F'). cbv zeta. split; [congruence | ]. split; [congruence | ]. split; [congruence | ]. split; [congruence | ]. intros i Hi. apply F'. apply F. exact Hi.
  Qed.
  Lemma still_int w dt : still w -> no_force w -> still (fst (world_integrate U dt w)).
  Proof.
    intros S N. destruct (S) as [A B C D E F]. unfold world_integrate, integrate. destruct (Rlt_dec 0 dt); [ | cbn [fst]; constructor; assumption]. cbv zeta.
    set (h1 := write_world_gvel (hp w) (next_gvel (w_s w) dt (s_gforce (w_s w)))).
    assert (Z1 : zl (world_gvel h1)).
    { apply zl_in. intros x Hx. unfold h1, write_world_gvel, world_gvel in Hx. cbn [set_dofs arr w_gvel] in Hx. unfold upd_arr in Hx. rewrite aid_eqb_refl in Hx. apply in_map_iff in Hx. destruct Hx as (k & <- & _).
      unfold next_gvel, mvn. apply sumR_zero. intros i _. unfold vplus. rewrite N, sumR_zero; [ring | ]. intros k0 _. unfold vmul, gvel_vec. rewrite C. ring. }
    set (s1 := WS h1 (s_ty (w_s w)) (s_qH (w_s w)) (s_q (w_s w)) (s_dyn (w_s w)) (s_gforce (w_s w)) (s_imp (w_s w)) (s_adm (w_s w)) (s_time (w_s w))).
    assert (S1 : still (set_s w s1)) by (constructor; try assumption).
    destruct (iterjoints (su_e U) (su_fuel U) h1) as [js | ]; [ | exact S1].
    destruct (int_joints dt js s1 Z1) as (A' & B' & C' & D' & F'). cbv zeta in *. destruct (integrate_joints dt js s1) as [s2 r2]. cbn [fst] in *.
    assert (S2 : still (set_s w s2)).
    { constructor; cbn [set_s w_s w_v v_s v_cs w_ctl].
      - rewrite A'. exact A.
      - rewrite B'. exact B.
      - rewrite C'. exact Z1.
      - intros j Hj. apply F'. exact (D j Hj).
      - exact E.
      - rewrite D'. exact F. }
    destruct r2 as [u | x]; [ | exact S2]. destruct S2 as [a b c d f g]. constructor; assumption.
  Qed.
  (** *** the loop *)
  Lemma still_loop tl ts : forall x y r, still (sm_w x) -> sim_loop (interp U O tl) [] ts x = (y, r) -> still (sm_w y).
  Proof.
    induction ts as [ | t1 ts IH]; intros x y r S E; cbn [sim_loop map calls interp] in E; [injection E as <- _; exact S | ]. cbv zeta in E. set (dt := t1 - now x) in *.
    assert (S1 := still_dyn _ S). destruct (world_dynamic U (sm_w x)) as [w1 [[] | z]]; cbn [fst snd bind_ sm_w set_w sm_names sm_obs] in *; [ | injection E as <- _; exact S1].
    destruct (still_ctl w1 dt S1) as [S2 N2]. destruct (world_controllers U dt w1) as [w2 [[] | z]]; cbn [fst snd bind_ sm_w set_w sm_names sm_obs] in *; [ | injection E as <- _; exact S2].
    destruct (still_cons w2 dt S2 (N2 eq_refl)) as [S3 N3]. destruct (world_constraints U dt w2) as [w3 [[] | z]]; cbn [fst snd bind_ sm_w set_w sm_names sm_obs] in *; [ | injection E as <- _; exact S3].
    assert (S4 := still_int w3 dt S3 N3). destruct (world_integrate U dt w3) as [w4 [[] | z]]; cbn [fst snd bind_ sm_w set_w sm_names sm_obs] in *; [ | injection E as <- _; exact S4].
    apply IH in E; [exact E | exact S4].
  Qed.
End Rest.

(** [C102] A robot whose joints do not move, with no gravity, whose PD controllers are asked to hold its position, whose other controllers apply no force in this state, and whose constraints
    are disabled or limits that are not near: however long and by whatever steps it is simulated (even if a step raises), the positions of the joints do not change and their velocities
    remain null. *)
Theorem C102_rest : forall U O g0 t t0 ts x y r, let s := w_s (sm_w x) in let h := s_heap s in
  reachable 0 (su_e U) g0 h -> rep (su_e U) h t -> root t = ground (su_e U) -> at_rest h t ->
  (forall a, In a (w_controllers h) -> holds (su_e U) (s_q s) (s_qH s) (w_ctl (sm_w x) a)) -> Forall (quiet (s_q s)) (v_cs (w_v (sm_w x))) ->
  simulate U O (t0 :: ts) (IterList []) x = (y, r) ->
  s_q (w_s (sm_w y)) = s_q s /\ s_qH (w_s (sm_w y)) = s_qH s /\
  (r = Ok tt -> at_rest (s_heap (w_s (sm_w y))) t /\ forall i, nth i (world_gvel (s_heap (w_s (sm_w y)))) 0 = 0).
Proof.
  intros U O g0 t t0 ts x y r s h Re Rt Er Ar Hk Hc E. rewrite simulate_alone in E.
  assert (Fo := reachable_forest 0 (su_e U) g0 _ Re). assert (Vi := reachable_vinv 0 (su_e U) g0 _ Re).
  unfold world_init in E. change (s_heap (w_s (set_time (sm_w x) t0))) with h in E.
  destruct (Model_World.init 0 (su_e U) (su_fuel U) h) as [h' [[] | z]] eqn:Ei; [ | cbn [bind_] in E; injection E as <- <-; split; [reflexivity | split; [reflexivity | discriminate]]].
  cbv zeta in E. destruct (rmapM (con_init h') _) as [cs | z] eqn:Ec; [ | cbn [bind_] in E; injection E as <- <-; split; [reflexivity | split; [reflexivity | discriminate]]].
  destruct (ctl_inits U h' (w_controllers h') _) as [k | z] eqn:Ek; [ | cbn [bind_] in E; injection E as <- <-; split; [reflexivity | split; [reflexivity | discriminate]]].
  cbn [bind_] in E. destruct (init_fuel 0 (su_e U) _ _ _ Fo Vi Ei) as (t1 & Rt1 & Er1 & ND & Hf). assert (t1 = t) as -> by (apply (rep_unique (su_e U) h); auto; congruence).
  destruct (init_spec 0 (su_e U) h t (su_fuel U) Vi Rt Er ND Hf) as (h1 & H1 & _ & Hs & _ & Hg & _). rewrite Ei in H1. injection H1 as <-.
  assert (Hw : w_controllers h' = w_controllers h). { unfold Model_World.init in Ei. destruct (iterjoints _ _ _); [ | discriminate]. destruct (assign_dofs _ _ _ _) as [n d]. destruct (copy_gvels _ _ _ _ _) as [[a1 g1] | ]; [ | discriminate]. injection Ei as <-. reflexivity. }
  match type of E with sim_loop _ _ _ ?a = _ => set (x1 := a) in E end.
  assert (S1 : still U t (s_q s) (s_qH s) (sm_w x1)).
  { constructor; cbn [x1 set_w sm_w w_s w_v v_s v_cs w_ctl s_q s_qH s_heap].
    - reflexivity.
    - reflexivity.
    - rewrite Hg. apply zl_in. intros z Hz. apply in_concat in Hz. destruct Hz as (l & Hl & Hz). apply in_map_iff in Hl. destruct Hl as (j & <- & Hj). revert z Hz. apply zl_in. exact (Ar j Hj).
    - intros j Hj. destruct (in_split _ _ Hj) as (l1 & l2 & El). destruct (Hs l1 j l2 El) as [_ ->]. reflexivity.
    - cbn [set_time set_s w_v v_cs] in Ec. clear - Ec Hc. revert cs Ec. induction Hc as [ | c l Qc Hl IH]; intros cs Ec; cbn [rmapM] in Ec; [injection Ec as <-; constructor | ].
      destruct (con_init h' c) as [c1 | ] eqn:E1; [ | discriminate]. cbn [rbind] in Ec. destruct (rmapM (con_init h') l) as [l1 | ] eqn:E2; [ | discriminate]. injection Ec as <-. constructor; [ | apply IH; reflexivity].
      destruct c as [z | z | z]; cbn [con_init] in E1; [destruct (jdof h' (jl_joint z)) as [[a b] | ]; [ | unfold jl_init_lost in E1; destruct (_ || _ || _); [ | discriminate]] | | ]; injection E1 as <-; exact Qc.
    - rewrite Hw. intros a Ha. specialize (Hk a Ha). rewrite Hw in Ek. clear - Ek Hk. cbn [set_time set_s w_ctl] in Ek. set (k0 := w_ctl (sm_w x)) in *. clearbody k0. revert k0 Ek Hk. induction (w_controllers h) as [ | b l IH]; intros k0 Ek Hk; cbn [ctl_inits] in Ek; [injection Ek as <-; exact Hk | ].
      destruct (ctl_init U h' (k0 b)) as [c | ] eqn:E1; [ | discriminate]. cbn [rbind] in Ek. apply (IH _ Ek). unfold upd. destruct (Nat.eqb_spec a b) as [-> | ]; [ | exact Hk].
      destruct (k0 b) as [g c0 | c0 | f]; cbn [ctl_init] in E1; [contradiction Hk | | injection E1 as <-; exact Hk]. unfold pd_init in E1. destruct (rconcat _ _); [ | discriminate]. injection E1 as <-. exact Hk. }
  destruct (still_loop U O t (s_q s) (s_qH s) (t0 :: ts) ts x1 y r S1 E) as [A B C D _ _]. split; [exact A | ]. split; [exact B | ]. intros _. split; [ | exact C].
  intros j Hj. unfold joint_gvel. apply zl_read. rewrite (D j Hj). exact C.
Qed.

(** *** a body on a slide, simulated without gravity *)
From Verif Require Import Spec_Step Proof_Joints Proof_Dyn Proof_Dyn2 Proof_Matrix Props_Mass Proof_Ctl Props_Weight Props_Energy Props_DynEx Props_EnergyEx Props_Sim3 Props_Sim4.
Definition ry_h : @heap R := run 0 (ch_e ky) 10 (ch_ops ky) (fresh (ch_e ky) (fun _ _ => 0)).
Definition ry_x : sim := Sim (W (WV (WS ry_h (s_ty (w_s (sm_w sy_x))) (fun _ => eye4) (fun _ _ => 5) wdyn0 vzero mzero mzero 0) (fun _ => no_attr) []) (fun _ => KWeight 0 None)) (fun _ => None) (fun _ => MUser (VNum 0)).
Lemma ry_rep : rep (ch_e ky) ry_h (ch_t 0 1).
Proof.
  repeat (constructor; [reflexivity | ]; constructor;
      [split; [split; [do 2 eexists; split; [reflexivity | split; reflexivity] | reflexivity] | cbn [snd]] | constructor]); constructor; [reflexivity | constructor].
Qed.
Lemma ry_reachable : reachable 0 (ch_e ky) (fun _ _ => 0) ry_h.
Proof.
  unfold ry_h, ch_ops. cbn [map seq length ky app]. unfold run. cbn [fold_left]. constructor; [ | exact Logic.I]. constructor; [constructor | ]. cbn [admissible].
  intros B. cbn [frame_body] in B. inversion B as [ | ? ? ? ? ? Ij]; subst. cbn in Ij. contradiction.
Qed.
Lemma ry_progress : exists y, simulate sy_U sy_O [0; 1 / 2; 1] (IterList []) ry_x = (y, Ok tt).
Proof.
  destruct (C18_progress sy_U sy_O 0 [1 / 2; 1] [] ry_x (fun _ _ => 0) (ch_t 0 1)) as (y & [E | (_ & h' & J & st & st' & d & dt & So & Lv & Tj & Pd & E & Sg)]).
  - exact ry_reachable.
  - exact ry_rep.
  - reflexivity.
  - cbn. lia.
  - exact gauss_inv_spec.
  - intros [b | b | b]; apply SE3_eye.
  - intros j Ij. cbn in Ij. destruct Ij as [<- | []]. split; [reflexivity | discriminate].
  - reflexivity.
  - constructor.
  - intros a [].
  - constructor.
  - intros i [].
  - intros k Hk; cbn in Hk; destruct k as [ | [ | k]]; cbn; lra || lia.
  - exists y. exact E.
  - exfalso. destruct So as (_ & Sj & _).
    destruct (sy_dyn h' J st st' d (proj1 Lv) (ltac:(rewrite Sj; reflexivity)) (Tj 1%nat) E) as (M1 & V1 & N1).
    assert (Nd : w_ndof h' = 1%nat) by (rewrite (proj1 (proj2 (proj2 (proj2 (proj1 Lv))))); reflexivity). rewrite Nd in Sg.
    destruct Sg as (v & Nv & Kv). apply Nv. intros i Hi. assert (i = 0)%nat as -> by lia. specialize (Kv 0%nat ltac:(lia)). unfold mvn, mplus, mmul, vzero in *. cbn [sumR] in Kv. rewrite M1, V1, N1 in Kv.
    assert (0 < / dt) by (apply Rinv_0_lt_compat; exact Pd). nra.
Qed.
Example C102_witness : exists y, simulate sy_U sy_O [0; 1 / 2; 1] (IterList []) ry_x = (y, Ok tt) /\ now y = 1 /\ s_q (w_s (sm_w y)) 1%nat 0%nat = 5 /\ at_rest (s_heap (w_s (sm_w y))) (ch_t 0 1).
Proof.
  destruct ry_progress as (y & E). destruct (C102_rest sy_U sy_O (fun _ _ => 0) (ch_t 0 1) 0 [1 / 2; 1] ry_x y (Ok tt) ry_reachable ry_rep eq_refl) as (A & _ & B).
  - intros j Hj. cbn in Hj. destruct Hj as [<- | []]. intros [ | [ | i]]; reflexivity.
  - intros a [].
  - constructor.
  - exact E.
  - exists y. split; [exact E | ]. split; [exact (proj1 (proj2 (C18_schedule sy_U sy_O 0 [1 / 2; 1] [] ry_x y)) E) | ]. split; [rewrite A; reflexivity | apply B; reflexivity].
Qed.
(** a PD controller that holds, and limits that are far *)
Example C102_witness_pd : forall K D, holds (ch_e ky) (fun _ _ => 5) (fun _ => eye4) (KPD (PD [1%nat] 1 [0%nat] K D (fun _ => 5) vzero)) /\
  quiet (fun _ _ => 5) (CJ (JL true 1 1 (fun _ => 0) (fun _ => 10) (fun _ => 1) vzero mzero vzero)).
Proof.
  intros K D. split.
  - split; intros r Hr; cbn in Hr; [ | reflexivity]. assert (r = 0)%nat as -> by lia. reflexivity.
  - right. intros i _. cbn. lra.
Qed.
