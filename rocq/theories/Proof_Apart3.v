(** Lemmas for C103: the simulation. *)
From Coq Require Import Lra Lia FunctionalExtensionality.
From Verif Require Import Spec_Apart Proof_Linalg Proof_SE3 Proof_Tree Proof_World Proof_World2 Proof_Dofs Proof_Dyn Proof_Dyn2 Proof_Matrix Proof_Step Proof_Ctl Proof_Apart Proof_Apart2 Proof_Sim Proof_Sim2 Proof_Sim3 Props_Weight Props_Step Props_Sim Props_Sim3 Props_Resume.
Open Scope R_scope.

Lemma gvel_out e s t j i : live e (s_heap s) t -> In j (joints t) -> (jndof e j <= i)%nat -> gvel (joints_of s j) i = 0.
Proof.
  intros (Rd & _ & V) Ij L. destruct (ready_dof e _ t j Rd Ij) as (a & D & _). cbn [joints_of joint_state gvel]. unfold joint_gvel. rewrite (V j _ _ Ij D). apply nth_overflow. unfold read. cbn [v_len v_start v_arr]. rewrite firstn_length. lia.
Qed.
Lemma integrate_exact e t dt fuel s : live e (s_heap s) t -> (height t < fuel)%nat -> 0 < dt ->
  exists s', integrate e fuel dt s = (s', Ok tt) /\ live e (s_heap s') t /\ veq (w_ndof (s_heap s)) (gvel_vec (s_heap s')) (next_gvel s dt (s_gforce s)) /\
    (forall j, In j (joints t) -> let r := j_integrate (JS (s_ty s j) (s_qH s j) (s_q s j) (gvel (joints_of s' j))) (gvel (joints_of s' j)) dt in s_q s' j = gpos r /\ s_qH s' j = gposH r) /\
    s_ty s' = s_ty s /\ s_time s' = s_time s + dt /\ jframes (s_heap s') = jframes (s_heap s) /\ w_controllers (s_heap s') = w_controllers (s_heap s).
Proof.
  intros Lv F P. unfold integrate. destruct (Rlt_dec 0 dt) as [_ | ]; [ | lra].
  set (h1 := write_world_gvel _ _). set (s1 := WS h1 _ _ _ _ _ _ _ _).
  assert (L1 : live e h1 t).
  { apply live_set; auto. unfold upd_arr. rewrite aid_eqb_refl, map_length, seq_length. apply Lv. }
  destruct (L1) as ((Rp & Er & ND & Nd & Sl) & Ln & Vw).
  unfold iterjoints. rewrite <- Er, (iter_joints_ok e h1 t Rp fuel F).
  assert (NJ : NoDup (joints t)) by (eapply rep_nodup_joints; eauto).
  assert (Dj : forall j, In j (joints t) -> exists a, jdof h1 j = Some (a, a + jndof e j)%nat /\ jgvel h1 j = View (w_gvel h1) a (jndof e j)).
  { intros j Ij. destruct (in_split _ _ Ij) as (l1 & l2 & El). exists (total_ndof e l1). split; [apply (Sl l1 j l2 El) | ].
    rewrite (Vw j _ _ Ij (Sl l1 j l2 El)). f_equal. lia. }
  destruct (integrate_joints_ok dt (joints t) NJ s1) as (s' & E & (g & Eg & Eh) & Ty & Dy & Fo & Im & Ad & Ti & Out & Inn).
  { intros j Ij. destruct (Dj j Ij) as (a & D & G). exists a, (a + jndof e j)%nat. split; [exact D | ].
    change (s_heap s1) with h1. rewrite G. f_equal. lia. }
  rewrite E. eexists. split; [reflexivity | ]. cbn [s_heap s_ty s_qH s_q s_dyn s_gforce s_imp s_adm s_time].
  assert (L2 : live e (s_heap s') t) by (rewrite Eh; apply live_set; auto).
  assert (V2 : forall k, gvel_vec (s_heap s') k = gvel_vec h1 k) by (intros k; rewrite Eh; reflexivity).
  split; [exact L2 | ]. split.
  { intros i Li. rewrite V2. apply gvel_written. destruct Lv as (_ & -> & _). exact Li. }
  split.
  { intros j Ij. assert (Gv : forall x, gvel (joints_of (WS (s_heap s') (s_ty s') (s_qH s') (s_q s') (s_dyn s') (s_gforce s') (s_imp s') (s_adm s') x) j) = gvel (joints_of s1 j)).
    { intros x. cbn [joints_of joint_state gvel s_heap]. rewrite Eh. unfold joint_gvel. cbn [jgvel arr set_dofs]. rewrite Eg. reflexivity. }
    rewrite Gv. destruct (Inn j Ij) as [Q1 Q2]. rewrite Q1, Q2. unfold j_integrate. cbn [jt]. change (jt (joints_of s1 j)) with (s_ty s j). destruct (s_ty s j); split; reflexivity. }
  rewrite Ty, Ti, Eh. repeat split; reflexivity.
Qed.

Definition begun (sc : scene) (h : @heap R) (t : tree) (k : kctl wview) : Prop :=
  match k with
  | KWeight g c => c = Some (WC (filter (massive sc) (tl (bodies t))) (V6 zero3 (vscal g world_up)) mzero)
  | KPD c => pd_mapped h c
  | KUser _ => True
  end.

Section Twin.
  Context (U U' : setup) (O O' : nat -> okind) (t : tree) (P : nat -> bool) (h0 : @heap R).
  Let e := su_e U.
  Notation hp w := (s_heap (w_s w)).
  Hypothesis Ee : su_e U' = e.
  Hypothesis Hi : inv_spec (su_linv U).
  Hypothesis Hi' : inv_spec (su_linv U').
  Hypothesis F1 : (height t < su_fuel U)%nat.
  Hypothesis F2 : (height t < su_fuel U')%nat.
  Hypothesis B1 : forall f, SE3 (bpose (su_sc U) f).
  Hypothesis B2 : forall f, SE3 (bpose (su_sc U') f).
  Hypothesis Wh : whole_robots t P.
  Hypothesis R0 : ready e h0 t.
  Hypothesis Sc : same_scene t P h0 (su_sc U) (su_sc U').
  Let D := own_dof h0 t P.

  Record twin (w w' : world) : Prop := {
    tw_live : live e (hp w) t; tw_live' : live e (hp w') t;
    tw_fr : jframes (hp w) = jframes h0; tw_fr' : jframes (hp w') = jframes h0;
    tw_list : w_controllers (hp w') = w_controllers (hp w);
    tw_ty : hinges e t (s_ty (w_s w)); tw_ty' : hinges e t (s_ty (w_s w'));
    tw_cs : v_cs (w_v w) = []; tw_cs' : v_cs (w_v w') = [];
    tw_j : forall j, In j (joints t) -> P j = true -> joints_of (w_s w') j = joints_of (w_s w) j;
    tw_time : s_time (w_s w') = s_time (w_s w);
    tw_ctl : forall a, In a (w_controllers (hp w)) -> begun (su_sc U) h0 t (w_ctl w a) /\ begun (su_sc U') h0 t (w_ctl w' a) /\ same_ctl e t P (w_ctl w a) (w_ctl w' a) }.
  Definition fresh (U : setup) (w : world) : Prop := exists st0, world_update_dynamic e (su_sc U) (hp w) (joints_of (w_s w)) (su_fuel U) st0 = Ok (v_st (w_v w), s_dyn (w_s w)).
  Definition solved (dt : R) (w w' : world) : Prop := let n := w_ndof h0 in
    inverse n (s_imp (w_s w)) (s_adm (w_s w)) /\ inverse n (s_imp (w_s w')) (s_adm (w_s w')) /\
    (forall k l, (k < n)%nat -> (l < n)%nat -> D k = true -> D l = true -> s_imp (w_s w') k l = s_imp (w_s w) k l) /\
    (forall k l, (k < n)%nat -> (l < n)%nat -> D k <> D l -> s_imp (w_s w) k l = 0 /\ s_imp (w_s w') k l = 0) /\
    (forall k, (k < n)%nat -> D k = true -> s_gforce (w_s w') k = s_gforce (w_s w) k) /\
    (forall k l, D k = true -> D l = true -> d_mass (s_dyn (w_s w')) k l = d_mass (s_dyn (w_s w)) k l) /\
    (forall k l, D k <> D l -> d_mass (s_dyn (w_s w)) k l = 0 /\ d_mass (s_dyn (w_s w')) k l = 0).

  Lemma rigid_w (V : setup) w : (forall f, SE3 (bpose (su_sc V) f)) -> hinges e t (s_ty (w_s w)) -> rigid_scene e (su_sc V) t (joints_of (w_s w)).
  Proof. intros B Hh. split; [exact B | ]. intros j Ij. destruct (Hh j Ij) as [A N]. cbn. split; [intros Q; cbn in Q; contradiction | exact A]. Qed.
  Lemma twin_dyn w w' w1 w1' : twin w w' -> world_dynamic U w = (w1, Ok tt) -> world_dynamic U' w' = (w1', Ok tt) -> twin w1 w1' /\ fresh U w1 /\ fresh U' w1'.
  Proof.
    intros [A1 A2 A3 A4 A5 A6 A7 A8 A9 A10 A11 A12] E1 E2. unfold world_dynamic in E1, E2. fold e in E1. rewrite Ee in E2.
    destruct (world_update_dynamic e (su_sc U) _ _ _ _) as [[st d] | ] eqn:D1; [ | discriminate]. destruct (world_update_dynamic e (su_sc U') _ _ _ _) as [[st' d'] | ] eqn:D2; [ | discriminate].
    injection E1 as <-. injection E2 as <-. split; [constructor; assumption | ]. split; [exists (v_st (w_v w)); exact D1 | exists (v_st (w_v w')); exact D2].
  Qed.
  Lemma ctl_local w w' a dt r r' : twin w w' -> fresh U w -> fresh U' w' -> In a (w_controllers (hp w)) -> ctl_update U w a dt = Ok r -> ctl_update U' w' a dt = Ok r' -> local (w_ndof h0) D r r'.
  Proof.
    intros T (x & D1) (x' & D2) Ia U1 U2. destruct (T) as [A1 A2 A3 A4 A5 A6 A7 A8 A9 A10 A11 A12]. destruct (A12 a Ia) as (S1 & S2 & Sm). unfold ctl_update in U1, U2. fold e in U1. rewrite Ee in U2.
    assert (N1 := same_ndof e h0 (hp w) t R0 (proj1 A1)). assert (N2 := same_ndof e h0 (hp w') t R0 (proj1 A2)). assert (Ed : own_dof (hp w) t P = D) by (apply (own_dof_same e); [exact R0 | exact (proj1 A1)]).
    assert (Sc1 : same_scene t P (hp w) (su_sc U) (su_sc U')) by (destruct Sc as [X Y]; split; [exact X | rewrite A3; exact Y]).
    assert (Ef : jframes (hp w') = jframes (hp w)) by congruence.
    destruct (w_ctl w a) as [g c | c | f], (w_ctl w' a) as [g' c' | c' | f']; cbn [same_ctl begun] in S1, S2, Sm; try contradiction.
    - subst g'. subst c c'. rewrite <- Ed.
      exact (weights_local e (su_sc U) (su_sc U') (hp w) (hp w') t _ _ P _ _ _ _ _ _ _ _ (proj1 A1) (proj1 A2) (rigid_w U w B1 A6) (rigid_w U' w' B2 A7) F1 F2 Wh Ef Sc1 A10 D1 D2 _ _ r r' U1 U2).
    - destruct Sm as (I1 & I2 & Sm). rewrite N1 in U1. rewrite N2 in U2. refine (pd_local e h0 h0 t P _ _ _ _ _ c c' dt r r' R0 R0 S1 S2 I1 I2 Sm _ U1 U2).
      intros j Ij Pj. specialize (A10 j Ij Pj). split; [injection A10; auto | ]. rewrite A10. reflexivity.
    - rewrite <- Ed, <- N1. apply (Sm (w_v w) (w_v w') dt r r' A1 A2); [ | exact U1 | exact U2]. split; [exact A10 | ]. split; [ | exact A11]. intros b Ob.
      exact (own_attr e (su_sc U) (su_sc U') (hp w) (hp w') t _ _ P _ _ _ _ _ _ _ _ (proj1 A1) (proj1 A2) (rigid_w U w B1 A6) (rigid_w U' w' B2 A7) F1 F2 Ef Sc1 A10 D1 D2 b Ob).
  Qed.
  (** all the controllers answered *)
  Lemma add_answers ctl dt l : forall s s1, add_controllers ctl dt l s = (s1, Ok tt) -> forall a, In a l -> exists r, ctl a dt = Ok r.
  Proof. induction l as [ | b l IH]; intros s s1 E a Ia; [contradiction | ]. cbn [add_controllers] in E. destruct (ctl b dt) as [[f Z] | ] eqn:Eb; [ | discriminate]. destruct Ia as [<- | Ia]; [eexists; exact Eb | exact (IH _ _ E a Ia)]. Qed.
  Lemma uc_shape linv ctl dt s s1 : inv_spec linv -> update_controllers linv ctl dt s = (s1, Ok tt) -> exists fa, 0 < dt /\ (forall a, In a (w_controllers (s_heap s)) -> ctl a dt = Ok (fa a)) /\
    exists f Z Y, s1 = set_forces s f Z Y /\ inverse (w_ndof (s_heap s)) Z Y /\ (forall i, f i = sumlist (fun a => fst (fa a) i) (w_controllers (s_heap s))) /\
      (forall i j, Z i j = / dt * d_mass (s_dyn s) i j + d_visc (s_dyn s) i j + d_nle (s_dyn s) i j - sumlist (fun a => snd (fa a) i j) (w_controllers (s_heap s))).
  Proof.
    intros Hv E. unfold update_controllers in E. destruct (Rlt_dec 0 dt) as [Pd | ]; [ | discriminate]. cbv zeta in E. set (s0 := set_forces s vzero _ (s_adm s)) in E.
    destruct (add_controllers ctl dt (w_controllers (s_heap s)) s0) as [s2 [[] | ]] eqn:Ea; [ | discriminate].
    set (fa := fun a => match ctl a dt with Ok r => r | Err _ => (vzero, mzero) end).
    assert (Ha : forall a, In a (w_controllers (s_heap s)) -> ctl a dt = Ok (fa a)) by (intros a Ia; destruct (add_answers ctl dt _ _ _ Ea a Ia) as (r & Er); unfold fa; rewrite Er; reflexivity).
    destruct (add_controllers_ok ctl dt (fun a => fst (fa a)) (fun a => snd (fa a)) (w_controllers (s_heap s))) with (s := s0) as (f & Z & E0 & Hf & HZ).
    { intros a Ia. rewrite (Ha a Ia). destruct (fa a); reflexivity. }
    rewrite Ea in E0. injection E0 as ->. cbn [s_imp s_gforce set_forces s0] in E, Hf, HZ. specialize (Hv (w_ndof (s_heap s)) Z). destruct (linv _ Z) as [Y | ]; [ | discriminate]. injection E as <-.
    exists fa. split; [exact Pd | ]. split; [exact Ha | ]. exists f, Z, Y. split; [reflexivity | ]. split; [exact Hv | ]. split; [intros i; rewrite Hf; unfold vzero; ring | ]. intros i j. rewrite HZ. unfold mplus, mmul. ring.
  Qed.
  Lemma sumlist_0 {A} (f : A -> R) l : (forall x, In x l -> f x = 0) -> sumlist f l = 0.
  Proof. induction l as [ | x l IH]; intros H; cbn [sumlist]; [reflexivity | ]. rewrite IH, H by (try (intros; apply H); cbn; auto). ring. Qed.
  Lemma twin_ctl dt w w' w1 w1' : twin w w' -> fresh U w -> fresh U' w' -> world_controllers U dt w = (w1, Ok tt) -> world_controllers U' dt w' = (w1', Ok tt) -> twin w1 w1' /\ solved dt w1 w1' /\ 0 < dt.
  Proof.
    intros T Fr Fr' E1 E2. destruct (T) as [A1 A2 A3 A4 A5 A6 A7 A8 A9 A10 A11 A12]. unfold world_controllers in E1, E2.
    destruct (update_controllers (su_linv U) _ _ _) as [s1 r1] eqn:C1. injection E1 as <- ->. destruct (update_controllers (su_linv U') _ _ _) as [s1' r1'] eqn:C2. injection E2 as <- ->.
    destruct (uc_shape _ _ _ _ _ Hi C1) as (fa & Pd & Ha & f & Z & Y & -> & I1 & Hf & HZ). destruct (uc_shape _ _ _ _ _ Hi' C2) as (fa' & _ & Ha' & f' & Z' & Y' & -> & I2 & Hf' & HZ').
    rewrite A5 in Ha', Hf', HZ'. assert (L : forall a, In a (w_controllers (hp w)) -> local (w_ndof h0) D (fa a) (fa' a)) by (intros a Ia; exact (ctl_local w w' a dt _ _ T Fr Fr' Ia (Ha a Ia) (Ha' a Ia))).
    split; [constructor; assumption | ]. split; [ | exact Pd]. destruct Fr as (x & D1), Fr' as (x' & D2).
    assert (Ed : own_dof (hp w) t P = D) by (apply (own_dof_same e); [exact R0 | exact (proj1 A1)]). assert (Ed' : own_dof (hp w') t P = D) by (apply (own_dof_same e); [exact R0 | exact (proj1 A2)]).
    assert (Sc1 : same_scene t P (hp w) (su_sc U) (su_sc U')) by (destruct Sc as [X X']; split; [exact X | rewrite A3; exact X']). assert (Ef : jframes (hp w') = jframes (hp w)) by congruence.
    assert (Sm := dyn_same e (su_sc U) (su_sc U') (hp w) (hp w') t _ _ P _ _ _ _ _ _ _ _ (proj1 A1) (proj1 A2) (rigid_w U w B1 A6) (rigid_w U' w' B2 A7) F1 F2 Wh Ef Sc1 A10 D1 D2). rewrite Ed in Sm.
    assert (X1 := dyn_cross e (su_sc U) (hp w) t _ P _ _ _ _ (proj1 A1) (rigid_w U w B1 A6) F1 Wh D1). rewrite Ed in X1.
    assert (X2 := dyn_cross e (su_sc U') (hp w') t _ P _ _ _ _ (proj1 A2) (rigid_w U' w' B2 A7) F2 Wh D2). rewrite Ed' in X2.
    rewrite (same_ndof e h0 (hp w) t R0 (proj1 A1)) in I1. rewrite (same_ndof e h0 (hp w') t R0 (proj1 A2)) in I2.
    unfold solved. cbn [set_s w_s w_v v_s set_forces s_imp s_adm s_gforce s_dyn]. split; [exact I1 | ]. split; [exact I2 | ]. split; [ | split; [ | split; [ | split]]].
    - intros k l Hk Hl Dk Dl. rewrite HZ, HZ'. destruct (Sm k l Dk Dl) as (-> & -> & ->). f_equal. apply sumlist_ext. intros a Ia. apply (L a Ia); assumption.
    - intros k l Hk Hl N. rewrite HZ, HZ'. destruct (X1 k l N) as (-> & -> & ->), (X2 k l N) as (-> & -> & ->). split; (rewrite sumlist_0; [ring | ]); intros a Ia; apply (L a Ia); assumption.
    - intros k Hk Dk. rewrite Hf, Hf'. apply sumlist_ext. intros a Ia. apply (L a Ia); assumption.
    - intros k l Dk Dl. apply (Sm k l Dk Dl).
    - intros k l N. split; [apply (X1 k l N) | apply (X2 k l N)].
  Qed.
  Lemma cons_none (V : setup) dt w w1 : v_cs (w_v w) = [] -> world_constraints V dt w = (w1, Ok tt) -> w1 = W (WV (set_forces (w_s w) (s_gforce (w_s w)) (s_imp (w_s w)) (s_adm (w_s w))) (v_st (w_v w)) []) (w_ctl w).
  Proof.
    intros Ec E. unfold world_constraints, update_constraints in E. rewrite Ec in E. cbn [activate rbind stack add_gforces] in E. destruct (Rlt_dec 0 dt); [ | discriminate].
    match type of E with context [relax ?a ?b ?c ?d ?e0 ?f ?g [] ?h ?i] => destruct (relax_nil (con_env V w) b c d e0 f g h i) as (v' & Er); rewrite Er in E end. cbn [rbind add_gforces map] in E. injection E as <-. reflexivity.
  Qed.
  Lemma twin_cons dt w w' w1 w1' : twin w w' -> solved dt w w' -> world_constraints U dt w = (w1, Ok tt) -> world_constraints U' dt w' = (w1', Ok tt) -> twin w1 w1' /\ solved dt w1 w1'.
  Proof.
    intros T S E1 E2. destruct (T) as [A1 A2 A3 A4 A5 A6 A7 A8 A9 A10 A11 A12]. rewrite (cons_none U dt w w1 A8 E1), (cons_none U' dt w' w1' A9 E2). split; [constructor; try assumption; reflexivity | exact S].
  Qed.
  Lemma own_gvel w w' : twin w w' -> forall k, (k < w_ndof h0)%nat -> D k = true -> gvel_vec (hp w') k = gvel_vec (hp w) k.
  Proof.
    intros [A1 A2 A3 A4 A5 A6 A7 A8 A9 A10 A11 A12] k Hk Dk. apply own_dof_iff in Dk. destruct Dk as (j & s & d & Ij & Pj & Dj & Hd).
    assert (D1 := same_dof e h0 (hp w) t j R0 (proj1 A1) Ij). assert (D2 := same_dof e h0 (hp w') t j R0 (proj1 A2) Ij). rewrite Dj in D1, D2.
    assert (V1 := live_joint_gvel e (w_s w) t j s d A1 Ij D1 (k - s)%nat ltac:(lia)). assert (V2 := live_joint_gvel e (w_s w') t j s d A2 Ij D2 (k - s)%nat ltac:(lia)).
    replace (s + (k - s))%nat with k in V1, V2 by lia. rewrite <- V1, <- V2, (A10 j Ij Pj). reflexivity.
  Qed.
  Lemma twin_int dt w w' w1 w1' : twin w w' -> solved dt w w' -> 0 < dt -> world_integrate U dt w = (w1, Ok tt) -> world_integrate U' dt w' = (w1', Ok tt) -> twin w1 w1'.
  Proof.
    intros T (I1 & I2 & Zs & Zx & Fs & Ms & Mx) Pd E1 E2. assert (Vs := own_gvel w w' T). destruct (T) as [A1 A2 A3 A4 A5 A6 A7 A8 A9 A10 A11 A12]. unfold world_integrate in E1, E2. fold e in E1. rewrite Ee in E2.
    destruct (integrate_exact e t dt (su_fuel U) (w_s w) A1 F1 Pd) as (s & Es & L1 & V1 & Q1 & T1 & C1 & G1 & K1). destruct (integrate_exact e t dt (su_fuel U') (w_s w') A2 F2 Pd) as (s' & Es' & L2 & V2 & Q2 & T2 & C2 & G2 & K2).
    rewrite Es in E1. rewrite Es' in E2. injection E1 as <-. injection E2 as <-. 
    assert (N1 := same_ndof e h0 (hp w) t R0 (proj1 A1)). assert (N2 := same_ndof e h0 (hp w') t R0 (proj1 A2)). rewrite N1 in V1. rewrite N2 in V2.
    assert (Vn : forall k, (k < w_ndof h0)%nat -> D k = true -> gvel_vec (s_heap s') k = gvel_vec (s_heap s) k).
    { unfold next_gvel in V1, V2. rewrite N1 in V1. rewrite N2 in V2.
      apply (block_solve (w_ndof h0) D _ _ _ _ _ _ _ _ I1 I2 V1 V2 Zs Zx). intros k Hk Dk. unfold vplus. rewrite Fs by assumption. f_equal. unfold mvn. apply sumR_ext. intros l Hl.
      destruct (D l) eqn:Dl; [rewrite Ms by assumption; unfold vmul; rewrite Vs by assumption; reflexivity | ]. destruct (Mx k l ltac:(congruence)) as [-> ->]. ring. }
    constructor; cbn [set_s w_s w_v v_s v_cs w_ctl]; try assumption; try congruence.
    - rewrite T1. exact A6.
    - rewrite T2. exact A7.
    - intros j Ij Pj. assert (Gv : gvel (joints_of s' j) = gvel (joints_of s j)).
      { extensionality i. destruct (Nat.lt_ge_cases i (jndof e j)) as [Li | Li]; [ | rewrite (gvel_out e s' t j i L2 Ij Li), (gvel_out e s t j i L1 Ij Li); reflexivity].
        destruct (ready_dof e h0 t j R0 Ij) as (a & Da & La). assert (D1 := same_dof e h0 (s_heap s) t j R0 (proj1 L1) Ij). assert (D2 := same_dof e h0 (s_heap s') t j R0 (proj1 L2) Ij). rewrite Da in D1, D2.
        rewrite (live_joint_gvel e s t j _ _ L1 Ij D1 i ltac:(lia)), (live_joint_gvel e s' t j _ _ L2 Ij D2 i ltac:(lia)). apply Vn; [lia | ]. apply own_dof_iff. exists j, a, (a + jndof e j)%nat. repeat split; auto; lia. }
      destruct (Q1 j Ij) as [X1 X2], (Q2 j Ij) as [Y1 Y2]. rewrite Gv in Y1, Y2. assert (Ej := A10 j Ij Pj). injection Ej as Et Eh Eq _. rewrite Et, Eh, Eq in Y1, Y2. rewrite <- X1 in Y1. rewrite <- X2 in Y2.
      unfold joints_of, joint_state. rewrite Y1, Y2, T1, T2, Et. f_equal. exact Gv.
    - rewrite K1. exact A12.
  Qed.
  (** *** the loop *)
  Lemma twin_loop tl tl' ts : forall x x' y y', twin (sm_w x) (sm_w x') -> sim_loop (interp U O tl) [] ts x = (y, Ok tt) -> sim_loop (interp U' O' tl') [] ts x' = (y', Ok tt) -> twin (sm_w y) (sm_w y').
  Proof.
    induction ts as [ | t1 ts IH]; intros x x' y y' T E1 E2; cbn [sim_loop map calls interp] in E1, E2; [injection E1 as <-; injection E2 as <-; exact T | ]. cbv zeta in E1, E2.
    assert (En : now x' = now x) by (apply (tw_time _ _ T)). rewrite En in E2. set (dt := t1 - now x) in *.
    destruct (world_dynamic U (sm_w x)) as [w1 [[] | z]] eqn:D1; cbn [bind_ sm_w set_w sm_names sm_obs] in E1; [ | discriminate]. destruct (world_dynamic U' (sm_w x')) as [w1' [[] | z]] eqn:D1'; cbn [bind_ sm_w set_w sm_names sm_obs] in E2; [ | discriminate].
    destruct (twin_dyn _ _ _ _ T D1 D1') as (T1 & Fr & Fr').
    destruct (world_controllers U dt w1) as [w2 [[] | z]] eqn:D2; cbn [bind_ sm_w set_w sm_names sm_obs] in E1; [ | discriminate]. destruct (world_controllers U' dt w1') as [w2' [[] | z]] eqn:D2'; cbn [bind_ sm_w set_w sm_names sm_obs] in E2; [ | discriminate].
    destruct (twin_ctl _ _ _ _ _ T1 Fr Fr' D2 D2') as (T2 & S2 & Pd).
    destruct (world_constraints U dt w2) as [w3 [[] | z]] eqn:D3; cbn [bind_ sm_w set_w sm_names sm_obs] in E1; [ | discriminate]. destruct (world_constraints U' dt w2') as [w3' [[] | z]] eqn:D3'; cbn [bind_ sm_w set_w sm_names sm_obs] in E2; [ | discriminate].
    destruct (twin_cons _ _ _ _ _ T2 S2 D3 D3') as (T3 & S3).
    destruct (world_integrate U dt w3) as [w4 [[] | z]] eqn:D4; cbn [bind_ sm_w set_w sm_names sm_obs] in E1; [ | discriminate]. destruct (world_integrate U' dt w3') as [w4' [[] | z]] eqn:D4'; cbn [bind_ sm_w set_w sm_names sm_obs] in E2; [ | discriminate].
    refine (IH _ _ _ _ _ E1 E2). exact (twin_int _ _ _ _ _ T3 S3 Pd D4 D4').
  Qed.
End Twin.
