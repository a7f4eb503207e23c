(** Controllers, moving frames, integration and initialization on arrays. *)
From Coq Require Import Lra Lia FunctionalExtensionality.
From Verif Require Import Spec_Mem Proof_Mem Proof_Mem2.
Open Scope R_scope.
Lemma put_gforce_ok f w : owned w -> kept w (put_gforce f w) /\ still w (put_gforce f w) /\
  wst_in (put_gforce f w) = set_forces (wst_in w) f (s_imp (wst_in w)) (s_adm (wst_in w)).
Proof.
  intros O. split; [ | split; [now repeat split | ]].
  - split; [apply owned_set; [assumption | repeat split; apply Nat.le_refl] | ].
    intros [a | a | a | a | a | a | v] S; cbn [safe content] in *; try (split; [exact S | reflexivity]).
    destruct S as (S & N & P). split; [split; [exact S | split; [exact N | exact P]] | ]. f_equal. cbn [put_gforce set_ram mw_ram onv rv]. now rewrite put_other.
  - unfold wst_in, put_gforce, set_forces. cbn [set_ram mw_ram onv rn mw_mass mw_visc mw_nle mw_imp mw_adm mw_heap mw_ty mw_qH mw_q mw_gforce mw_time r4 rv s_heap s_ty s_qH s_q s_gforce s_imp s_adm s_time s_dyn].
    f_equal; [ | apply put_same]. apply functional_extensionality. intros j. apply put_other, (ow_gforce _ O).
Qed.
Lemma put_imp_ok Z w : owned w -> kept w (put_imp Z w) /\ still w (put_imp Z w) /\
  wst_in (put_imp Z w) = set_forces (wst_in w) (s_gforce (wst_in w)) Z (s_adm (wst_in w)).
Proof.
  intros O. apart O. split; [ | split; [now repeat split | ]].
  - split; [apply owned_set; [assumption | repeat split; apply Nat.le_refl] | ].
    intros [a | a | a | a | a | a | v] S; cbn [safe content] in *; try (split; [exact S | reflexivity]).
    destruct S as (S & N). split; [split; [exact S | exact N] | ]. f_equal. cbn [put_imp set_ram mw_ram onn rn]. cbn [In] in N. rewrite put_other by (intros ->; tauto). reflexivity.
  - unfold wst_in, put_imp, set_forces. cbn [set_ram mw_ram onn rn mw_mass mw_visc mw_nle mw_imp mw_adm mw_heap mw_ty mw_qH mw_q mw_gforce mw_time r4 rv s_heap s_ty s_qH s_q s_gforce s_imp s_adm s_time s_dyn].
    f_equal.
    + f_equal; apply put_other; intros E; rewrite E in *; tauto.
    + apply put_same.
    + apply put_other; intros E; rewrite E in *; tauto.
Qed.
Lemma store_same w w' : mw_body w' = mw_body w -> rext (mw_ram w) (mw_ram w') -> owned w -> store_in w' = store_in w.
Proof.
  intros Eb X O. apply functional_extensionality. intros b. unfold store_in. rewrite Eb.
  exact (attr_ext w (set_ram (mw_ram w') w) _ (ext_ram w _ X) (owned_fine w O b)).
Qed.
Lemma rext_onn r x : rext r (onn (alloc x) r).
Proof. do 4 (split; [apply mext_refl | ]). split; [apply mext_alloc | apply mext_refl]. Qed.
Lemma new_imp_ok Z w : owned w -> kept w (new_imp Z w) /\ still w (new_imp Z w) /\
  wst_in (new_imp Z w) = set_forces (wst_in w) (s_gforce (wst_in w)) Z (s_adm (wst_in w)).
Proof.
  intros O. assert (W := ow_world _ O). cbn [In] in W. apart O.
  assert (F : forall a, exists_in (rn (mw_ram w)) a -> a <> fresh_addr (rn (mw_ram w))) by (intros a; apply old_not_fresh).
  assert (F1 := F _ (W (mw_mass w) ltac:(auto))). assert (F2 := F _ (W (mw_visc w) ltac:(auto))). assert (F3 := F _ (W (mw_nle w) ltac:(auto))). assert (F5 := F _ (W (mw_adm w) ltac:(auto 6))).
  split; [ | split].
  - split.
    + assert (O' := owned_ram w _ O (rext_onn _ Z)). constructor; cbn [new_imp mw_ram mw_body mw_bmass mw_bvisc mw_sub mw_mov mw_mass mw_visc mw_nle mw_imp mw_adm mw_gforce mw_q mw_qH];
        try apply (ow_pose _ O'); try apply (ow_jac _ O'); try apply (ow_twist _ O'); try apply (ow_mass _ O'); try apply (ow_bpose _ O'); try apply (ow_gforce _ O'); try apply (ow_gpos _ O'); try apply (ow_gpos_inj _ O').
      * intros a [<- | [<- | [<- | [<- | [<- | []]]]]]; try (apply alloc_exists, W; auto 6; fail). apply fresh_exists.
      * repeat constructor; cbn [In]; intros E; decompose [or] E; try tauto; try congruence.
    + intros [a | a | a | a | a | a | v] S; cbn [safe content] in *; try (split; [exact S | reflexivity]).
      destruct S as (S & N). split; [ | f_equal; now apply alloc_old]. split; [now apply alloc_exists | ]. cbn [new_imp mw_mass mw_visc mw_nle mw_imp In] in *. assert (Fa := F _ S). intros E; decompose [or] E; try tauto; congruence.
  - split; [reflexivity | split; [ | reflexivity]]. apply store_same; [reflexivity | apply rext_onn | assumption].
  - unfold wst_in, new_imp, set_forces. cbn [mw_ram onn rn mw_mass mw_visc mw_nle mw_imp mw_adm mw_heap mw_ty mw_qH mw_q mw_gforce mw_time r4 rv s_heap s_ty s_qH s_q s_gforce s_imp s_adm s_time s_dyn].
    rewrite alloc_new, !alloc_old by (apply W; auto 6). reflexivity.
Qed.
Lemma new_adm_ok Y w : owned w -> kept w (new_adm Y w) /\ still w (new_adm Y w) /\
  wst_in (new_adm Y w) = set_forces (wst_in w) (s_gforce (wst_in w)) (s_imp (wst_in w)) Y.
Proof.
  intros O. assert (W := ow_world _ O). cbn [In] in W. apart O.
  assert (F : forall a, exists_in (rn (mw_ram w)) a -> a <> fresh_addr (rn (mw_ram w))) by (intros a; apply old_not_fresh).
  assert (F1 := F _ (W (mw_mass w) ltac:(auto))). assert (F2 := F _ (W (mw_visc w) ltac:(auto))). assert (F3 := F _ (W (mw_nle w) ltac:(auto))). assert (F4 := F _ (W (mw_imp w) ltac:(auto 6))).
  split; [ | split].
  - split.
    + assert (O' := owned_ram w _ O (rext_onn _ Y)). constructor; cbn [new_adm mw_ram mw_body mw_bmass mw_bvisc mw_sub mw_mov mw_mass mw_visc mw_nle mw_imp mw_adm mw_gforce mw_q mw_qH];
        try apply (ow_pose _ O'); try apply (ow_jac _ O'); try apply (ow_twist _ O'); try apply (ow_mass _ O'); try apply (ow_bpose _ O'); try apply (ow_gforce _ O'); try apply (ow_gpos _ O'); try apply (ow_gpos_inj _ O').
      * intros a [<- | [<- | [<- | [<- | [<- | []]]]]]; try (apply alloc_exists, W; auto 6; fail). apply fresh_exists.
      * repeat constructor; cbn [In]; intros E; decompose [or] E; try tauto; try congruence.
    + intros [a | a | a | a | a | a | v] S; cbn [safe content] in *; try (split; [exact S | reflexivity]).
      destruct S as (S & N). split; [ | f_equal; now apply alloc_old]. split; [now apply alloc_exists | exact N].
  - split; [reflexivity | split; [ | reflexivity]]. apply store_same; [reflexivity | apply rext_onn | assumption].
  - unfold wst_in, new_adm, set_forces. cbn [mw_ram onn rn mw_mass mw_visc mw_nle mw_imp mw_adm mw_heap mw_ty mw_qH mw_q mw_gforce mw_time r4 rv s_heap s_ty s_qH s_q s_gforce s_imp s_adm s_time s_dyn].
    rewrite alloc_new, !alloc_old by (apply W; auto 6). reflexivity.
Qed.
Lemma still_trans w w' w'' : still w w' -> still w' w'' -> still w w''.
Proof. intros (A & B & C) (D & E & F). repeat split; congruence. Qed.
Lemma m_add_controllers_ok ctl dt : forall l w, owned w ->
  let (w', r) := m_add_controllers ctl dt l w in kept w w' /\ still w w' /\ (wst_in w', r) = add_controllers ctl dt l (wst_in w).
Proof.
  induction l as [ | a l IH]; intros w O; cbn [m_add_controllers add_controllers].
  - split; [now apply kept_refl | ]. split; [now repeat split | reflexivity].
  - destruct (ctl a dt) as [[f Z] | x]; [ | split; [now apply kept_refl | ]; split; [now repeat split | reflexivity]].
    destruct (put_gforce_ok (vplus (m_at (rv (mw_ram w)) (mw_gforce w)) f) w O) as (K1 & T1 & E1). set (w1 := put_gforce _ w) in *.
    destruct (put_imp_ok (mminus (m_at (rn (mw_ram w1)) (mw_imp w1)) Z) w1 (proj1 K1)) as (K2 & T2 & E2). set (w2 := put_imp _ w1) in *.
    assert (I := IH w2 (proj1 K2)). destruct (m_add_controllers ctl dt l w2) as (w' & r). destruct I as (K3 & T3 & E3).
    split; [eapply kept_trans; [eapply kept_trans; eassumption | assumption] | ]. split; [exact (still_trans _ _ _ (still_trans _ _ _ T1 T2) T3) | ].
    rewrite E3, E2, E1. reflexivity.
Qed.
Lemma m_update_controllers_ok linv ctl dt w : owned w ->
  let (w', r) := m_update_controllers linv ctl dt w in kept w w' /\ scene_in w' = scene_in w /\ store_in w' = store_in w /\ (wst_in w', r) = update_controllers linv ctl dt (wst_in w).
Proof.
  intros O. unfold m_update_controllers, update_controllers. destruct (Rlt_dec 0 dt) as [H | H]; [ | split; [now apply kept_refl | ]; repeat split; reflexivity].
  destruct (put_gforce_ok vzero w O) as (K0 & T0 & E0). set (w0 := put_gforce vzero w) in *.
  set (Z := mplus (mplus (mmul (/ dt) (d_mass (wdyn_in w0))) (d_visc (wdyn_in w0))) (d_nle (wdyn_in w0))).
  destruct (new_imp_ok Z w0 (proj1 K0)) as (K1 & T1 & E1).
  assert (I := m_add_controllers_ok ctl dt (w_controllers (mw_heap (new_imp Z w0))) (new_imp Z w0) (proj1 K1)).
  assert (K01 := kept_trans _ _ _ K0 K1). assert (T01 := still_trans _ _ _ T0 T1). cbv zeta.
  destruct (m_add_controllers ctl dt _ (new_imp Z w0)) as (w2 & r2). destruct I as (K2 & T2 & E2).
  assert (K := kept_trans _ _ _ K01 K2). assert (T := still_trans _ _ _ T01 T2).
  rewrite E1, E0 in E2. change (w_controllers (mw_heap (new_imp Z w0))) with (w_controllers (s_heap (wst_in w))) in E2.
  unfold Z, wdyn_in in E2. rewrite E0 in E2.
  match type of E2 with _ = add_controllers _ _ _ ?s => change s with (set_forces (wst_in w) vzero (mplus (mplus (mmul (/ dt) (d_mass (s_dyn (wst_in w)))) (d_visc (s_dyn (wst_in w)))) (d_nle (s_dyn (wst_in w)))) (s_adm (wst_in w))) in E2 end.
  rewrite <- E2. destruct r2 as [u | x].
  - change (m_at (rn (mw_ram w2)) (mw_imp w2)) with (s_imp (wst_in w2)). destruct T as (T3 & T4 & T5). rewrite T5. change (mw_heap w) with (s_heap (wst_in w)).
    destruct (linv (w_ndof (s_heap (wst_in w))) (s_imp (wst_in w2))) as [Y | ]; [ | split; [exact K | repeat split; assumption]].
    destruct (new_adm_ok Y w2 (proj1 K)) as (K3 & (U1 & U2 & U3) & E3). split; [eapply kept_trans; eassumption | ]. split; [congruence | ]. split; [congruence | ]. now rewrite E3.
  - destruct T as (T3 & T4 & T5). split; [exact K | repeat split; assumption].
Qed.

(** [MovingSubFrame.bpose = H] *)
Definition set_mov (m : nat) (H : m4) (sc : scene) : scene := Scene (b_mass sc) (b_visc sc) (sub_bpose sc) (upd (mov_bpose sc) m H).
Lemma m_set_bpose_ok m H w : owned w ->
  let (w', r) := m_set_bpose m H w in
  kept w w' /\ store_in w' = store_in w /\ wst_in w' = wst_in w /\ (mw_sub w' = mw_sub w /\ mw_mov w' = mw_mov w) /\
  if ishomogeneousmatrix H
  then r = Ok tt /\ b_mass (scene_in w') = b_mass (scene_in w) /\ b_visc (scene_in w') = b_visc (scene_in w) /\
    (forall s, sub_bpose (scene_in w') s = if addr_eqb (mw_sub w s) (mw_mov w m) then H else sub_bpose (scene_in w) s) /\
    (forall k, mov_bpose (scene_in w') k = if addr_eqb (mw_mov w k) (mw_mov w m) then H else mov_bpose (scene_in w) k)
  else r = Err AssertionError /\ scene_in w' = scene_in w.
Proof.
  intros O. unfold m_set_bpose. destruct (ishomogeneousmatrix H); [ | split; [now apply kept_refl | repeat split; reflexivity]].
  split; [ | split; [ | split; [ | split; [split; reflexivity | split; [reflexivity | split; [reflexivity | split; [reflexivity | split; intros k; reflexivity]]]]]]].
  - split; [apply owned_set; [assumption | repeat split; apply Nat.le_refl] | ].
    intros [a | a | a | a | a | a | v] S; cbn [safe content] in *; try (split; [exact S | reflexivity]).
    destruct S as (S & N). split; [split; [exact S | exact N] | ]. f_equal. cbn [set_ram mw_ram on4 r4]. rewrite put_other; [reflexivity | ]. intros E. exact (N m (eq_sym E)).
  - apply functional_extensionality. intros b. unfold store_in. cbn [set_ram mw_ram mw_body on4 r4 r6 rj rm]. f_equal.
    destruct (ow_pose _ O b) as (_ & N). destruct (v_pose (mw_body w b)) as [a | ]; [ | reflexivity]. cbn [option_map]. rewrite put_other; [reflexivity | ]. intros E. apply (N m). now rewrite E.
  - unfold wst_in. cbn [set_ram mw_ram on4 rn mw_mass mw_visc mw_nle mw_imp mw_adm mw_heap mw_ty mw_qH mw_q mw_gforce mw_time r4 rv]. f_equal.
    apply functional_extensionality. intros j. apply put_other. intros E. destruct (ow_gpos _ O j) as (_ & _ & N). exact (N m (eq_sym E)).
Qed.
Lemma m_set_bpose_unshared m H w : owned w -> unshared w -> ishomogeneousmatrix H = true -> scene_in (fst (m_set_bpose m H w)) = set_mov m H (scene_in w).
Proof.
  intros O (U1 & U2) G. unfold m_set_bpose. rewrite G. cbn [fst]. unfold scene_in, set_mov. cbn [set_ram mw_ram on4 r4 rm mw_bmass mw_bvisc mw_sub mw_mov b_mass b_visc sub_bpose mov_bpose].
  f_equal; apply functional_extensionality; intros k.
  - apply put_other. intros E. exact (U2 m k (eq_sym E)).
  - unfold upd. destruct (Nat.eqb_spec k m) as [-> | N]; [apply put_same | apply put_other]. intros E. apply N, U1, E.
Qed.
Lemma m_set_bposes_ok : forall l w, owned w ->
  let (w', r) := m_set_bposes l w in
  kept w w' /\ store_in w' = store_in w /\ wst_in w' = wst_in w /\ (mw_sub w' = mw_sub w /\ mw_mov w' = mw_mov w) /\ b_mass (scene_in w') = b_mass (scene_in w) /\ b_visc (scene_in w') = b_visc (scene_in w) /\
  (forall s, (forall m, mw_sub w s <> mw_mov w m) -> sub_bpose (scene_in w') s = sub_bpose (scene_in w) s) /\
  (forall k, (forall m, In m (map fst l) -> mw_mov w k <> mw_mov w m) -> mov_bpose (scene_in w') k = mov_bpose (scene_in w) k).
Proof.
  induction l as [ | (m, H) l IH]; intros w O; cbn [m_set_bposes].
  - split; [now apply kept_refl | ]. repeat split; reflexivity.
  - assert (B := m_set_bpose_ok m H w O). destruct (m_set_bpose m H w) as (w1 & r1). destruct B as (K1 & S1 & W1 & (A1 & A2) & B1).
    assert (Q : b_mass (scene_in w1) = b_mass (scene_in w) /\ b_visc (scene_in w1) = b_visc (scene_in w) /\
      (forall s, (forall m, mw_sub w s <> mw_mov w m) -> sub_bpose (scene_in w1) s = sub_bpose (scene_in w) s) /\
      (forall k, mw_mov w k <> mw_mov w m -> mov_bpose (scene_in w1) k = mov_bpose (scene_in w) k)).
    { destruct (ishomogeneousmatrix H).
      - destruct B1 as (_ & E1 & E2 & E3 & E4). repeat split; [exact E1 | exact E2 | | ].
        + intros s N. rewrite E3, addr_neqb by apply N. reflexivity.
        + intros k N. rewrite E4, addr_neqb by exact N. reflexivity.
      - destruct B1 as (_ & E). rewrite E. repeat split; reflexivity. }
    destruct Q as (Q1 & Q2 & Q3 & Q4). destruct r1 as [u | x].
    + assert (I := IH w1 (proj1 K1)). destruct (m_set_bposes l w1) as (w' & r). destruct I as (K2 & S2 & W2 & (A3 & A4) & I1 & I2 & I3 & I4).
      split; [eapply kept_trans; eassumption | ]. repeat split; try congruence.
      * intros s N. rewrite I3; [now apply Q3 | ]. intros m'. rewrite A1, A2. apply N.
      * intros k N. rewrite I4; [apply Q4, N; now left | ]. intros m' Im. rewrite A2. apply N. now right.
    + split; [exact K1 | ]. repeat split; try congruence; [exact Q3 | ]. intros k N. apply Q4, N. now left.
Qed.
Lemma m_add_gforces_ok : forall fs w, owned w ->
  kept w (m_add_gforces fs w) /\ still w (m_add_gforces fs w) /\
  wst_in (m_add_gforces fs w) = set_forces (wst_in w) (fold_left vplus fs (s_gforce (wst_in w))) (s_imp (wst_in w)) (s_adm (wst_in w)).
Proof.
  induction fs as [ | f fs IH]; intros w O; cbn [m_add_gforces fold_left].
  - split; [now apply kept_refl | ]. split; [now repeat split | reflexivity].
  - destruct (put_gforce_ok (vplus (m_at (rv (mw_ram w)) (mw_gforce w)) f) w O) as (K1 & T1 & E1). destruct (IH _ (proj1 K1)) as (K2 & T2 & E2).
    split; [eapply kept_trans; eassumption | ]. split; [exact (still_trans _ _ _ T1 T2) | ]. rewrite E2, E1. reflexivity.
Qed.
Lemma m_update_constraints_ok bps fs w : owned w ->
  let (w', r) := m_update_constraints bps fs w in kept w w' /\ store_in w' = store_in w /\ mw_heap w' = mw_heap w.
Proof.
  intros O. unfold m_update_constraints. assert (B := m_set_bposes_ok bps w O). destruct (m_set_bposes bps w) as (w1 & [u | x]); destruct B as (K1 & S1 & W1 & _).
  - destruct (m_add_gforces_ok fs w1 (proj1 K1)) as (K2 & (T1 & T2 & T3) & E2). split; [eapply kept_trans; eassumption | ]. split; [congruence | ]. rewrite T3. exact (f_equal s_heap W1).
  - split; [exact K1 | ]. split; [exact S1 | exact (f_equal s_heap W1)].
Qed.

(** [joint.gpos[:] = q] *)
Lemma m_set_gpos_ok j q w : owned w ->
  let (w', r) := m_set_gpos j q w in
  kept w w' /\ still w w' /\ (r = Ok tt -> wst_in w' = WS (s_heap (wst_in w)) (s_ty (wst_in w)) (s_qH (wst_in w)) (upd (s_q (wst_in w)) j q) (s_dyn (wst_in w)) (s_gforce (wst_in w)) (s_imp (wst_in w)) (s_adm (wst_in w)) (s_time (wst_in w))).
Proof.
  intros O.
  assert (Q : let w' := set_ram (onv (put (mw_q w j) q) (mw_ram w)) w in kept w w' /\ still w w' /\
    wst_in w' = WS (s_heap (wst_in w)) (s_ty (wst_in w)) (s_qH (wst_in w)) (upd (s_q (wst_in w)) j q) (s_dyn (wst_in w)) (s_gforce (wst_in w)) (s_imp (wst_in w)) (s_adm (wst_in w)) (s_time (wst_in w))).
  { split; [ | split; [now repeat split | ]].
    - split; [apply owned_set; [assumption | repeat split; apply Nat.le_refl] | ].
      intros [a | a | a | a | a | a | v] S; cbn [safe content] in *; try (split; [exact S | reflexivity]).
      destruct S as (S & N & P). split; [split; [exact S | split; [exact N | exact P]] | ]. f_equal. cbn [set_ram mw_ram onv rv]. rewrite put_other; [reflexivity | ]. intros E. exact (P j (eq_sym E)).
    - unfold wst_in. cbn [set_ram mw_ram onv rn mw_mass mw_visc mw_nle mw_imp mw_adm mw_heap mw_ty mw_qH mw_q mw_gforce mw_time r4 rv s_heap s_ty s_qH s_q s_gforce s_imp s_adm s_time s_dyn]. f_equal.
      + apply functional_extensionality. intros i. unfold upd. destruct (Nat.eqb_spec i j) as [-> | N]; [apply put_same | apply put_other]. intros E. apply N, (ow_gpos_inj _ O), E.
      + apply put_other. intros E. destruct (ow_gforce _ O) as (_ & N). exact (N j (eq_sym E)). }
  cbv zeta in Q. destruct Q as (Q1 & Q2 & Q3).
  unfold m_set_gpos. destruct (mw_ty w j); try (split; [exact Q1 | split; [exact Q2 | intros _; exact Q3]]); (split; [now apply kept_refl | split; [now repeat split | discriminate]]).
Qed.
(** velocities *)
Lemma set_heap_ok h w : owned w -> kept w (set_heap_in h w) /\ scene_in (set_heap_in h w) = scene_in w /\ store_in (set_heap_in h w) = store_in w /\
  wst_in (set_heap_in h w) = (let s := wst_in w in WS h (s_ty s) (s_qH s) (s_q s) (s_dyn s) (s_gforce s) (s_imp s) (s_adm s) (s_time s)).
Proof.
  intros O. split; [ | repeat split; reflexivity]. split; [destruct O; constructor; assumption | ].
  intros [a | a | a | a | a | a | v] S; cbn [safe content] in *; (split; [exact S | reflexivity]) || contradiction.
Qed.
