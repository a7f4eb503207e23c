(** Integration, initialization and readings on arrays. *)
From Coq Require Import Lra Lia FunctionalExtensionality.
From Verif Require Import Spec_Mem Proof_Mem Proof_Mem2 Proof_Mem3.
Open Scope R_scope.
Lemma upd_same {A} (f : nat -> A) j x : x = f j -> upd f j x = f.
Proof. intros ->. apply functional_extensionality. intros i. unfold upd. destruct (Nat.eqb_spec i j) as [-> | _]; reflexivity. Qed.
Definition with_q (j : nat) (q : vec) (s : wst) : wst := WS (s_heap s) (s_ty s) (s_qH s) (upd (s_q s) j q) (s_dyn s) (s_gforce s) (s_imp s) (s_adm s) (s_time s).
Lemma put_q_ok j q w : owned w -> let w' := set_ram (onv (put (mw_q w j) q) (mw_ram w)) w in kept w w' /\ scene_in w' = scene_in w /\ store_in w' = store_in w /\ wst_in w' = with_q j q (wst_in w).
Proof.
  intros O.
  split; [ | split; [reflexivity | split; [reflexivity | ]]].
  - split; [apply owned_set; [assumption | repeat split; apply Nat.le_refl] | ].
    intros [a | a | a | a | a | a | v] S; cbn [safe content] in *; try (split; [exact S | reflexivity]).
    destruct S as (S & N & P). split; [split; [exact S | split; [exact N | exact P]] | ]. f_equal. cbn [set_ram mw_ram onv rv]. rewrite put_other; [reflexivity | ]. intros E. exact (P j (eq_sym E)).
  - unfold wst_in, with_q. cbn [set_ram mw_ram onv rn mw_mass mw_visc mw_nle mw_imp mw_adm mw_heap mw_ty mw_qH mw_q mw_gforce mw_time r4 rv s_heap s_ty s_qH s_q s_gforce s_imp s_adm s_time s_dyn]. f_equal.
    + apply functional_extensionality. intros i. unfold upd. destruct (Nat.eqb_spec i j) as [-> | N]; [apply put_same | apply put_other]. intros E. apply N, (ow_gpos_inj _ O), E.
    + apply put_other. intros E. destruct (ow_gforce _ O) as (_ & N). exact (N j (eq_sym E)).
Qed.
(** [self.gpos = H] for a FreeJoint: a new array *)
Definition new_qH (j : nat) (H : m4) (w : mworld) : mworld :=
  MW (on4 (alloc H) (mw_ram w)) (mw_body w) (mw_bmass w) (mw_bvisc w) (mw_sub w) (mw_mov w) (mw_mass w) (mw_visc w) (mw_nle w) (mw_gforce w) (mw_imp w) (mw_adm w)
     (mw_ty w) (upd (mw_qH w) j (fresh_addr (r4 (mw_ram w)))) (mw_q w) (mw_heap w) (mw_time w).
Lemma new_qH_ok j H w : owned w -> let w' := new_qH j H w in kept w w' /\ scene_in w' = scene_in w /\ store_in w' = store_in w /\
  wst_in w' = (let s := wst_in w in WS (s_heap s) (s_ty s) (upd (s_qH s) j H) (s_q s) (s_dyn s) (s_gforce s) (s_imp s) (s_adm s) (s_time s)).
Proof.
  intros O. assert (X := rext_on4 (mw_ram w) H). assert (O' := owned_ram w _ O X).
  split; [ | split; [ | split]].
  - split.
    + constructor; cbn [new_qH mw_ram mw_body mw_bmass mw_bvisc mw_sub mw_mov mw_mass mw_visc mw_nle mw_imp mw_adm mw_gforce mw_q mw_qH];
        try apply (ow_pose _ O'); try apply (ow_jac _ O'); try apply (ow_twist _ O'); try apply (ow_mass _ O'); try apply (ow_bpose _ O'); try apply (ow_gforce _ O'); try apply (ow_world _ O'); try apply (ow_apart _ O'); try apply (ow_gpos_inj _ O').
      intros i. destruct (ow_gpos _ O' i) as (A & B & C). split; [exact A | ]. unfold upd. destruct (Nat.eqb i j); [ | split; assumption]. split; [apply fresh_exists | intros m; now apply pose_unmoved].
    + intros [a | a | a | a | a | a | v] S; cbn [safe content] in *; try (split; [exact S | reflexivity]). destruct S as (S & N).
      split; [split; [now apply alloc_exists | exact N] | ]. f_equal. now apply alloc_old.
  - exact (ext_scene w (set_ram (on4 (alloc H) (mw_ram w)) w) O (ext_ram w _ X)).
  - apply store_same; [reflexivity | exact X | assumption].
  - unfold wst_in, new_qH. cbn [mw_ram on4 rn mw_mass mw_visc mw_nle mw_imp mw_adm mw_heap mw_ty mw_qH mw_q mw_gforce mw_time r4 rv s_heap s_ty s_qH s_q s_gforce s_imp s_adm s_time s_dyn]. f_equal.
    apply functional_extensionality. intros i. unfold upd. destruct (Nat.eqb i j); [apply alloc_new | apply alloc_old, (ow_gpos _ O)].
Qed.
Lemma m_integrate_joint_ok dt j w : owned w ->
  match m_integrate_joint dt j w with
  | Ok w' => kept w w' /\ scene_in w' = scene_in w /\ store_in w' = store_in w /\ integrate_joint dt j (wst_in w) = Ok (wst_in w')
  | Err x => integrate_joint dt j (wst_in w) = Err x
  end.
Proof.
  intros O. unfold m_integrate_joint, integrate_joint. change (s_heap (wst_in w)) with (mw_heap w). destruct (jdof (mw_heap w) j) as [(a & b) | ]; [ | reflexivity].
  set (v := fun i => nth i _ 0). change (s_ty (wst_in w)) with (mw_ty w). match goal with |- context [set_dofs ?a ?b ?c ?d ?g ?x ?y] => set (h := set_dofs a b c d g x y) end.
  destruct (set_heap_ok h w O) as (K1 & E1 & E2 & E3). set (w1 := set_heap_in h w) in *. cbv zeta.
  assert (Ej : joints_of (wst_in w) j = JS (mw_ty w j) (m_at (r4 (mw_ram w)) (mw_qH w j)) (m_at (rv (mw_ram w)) (mw_q w j)) (fun i => nth i (joint_gvel (mw_heap w) j) 0)) by reflexivity.
  assert (L : mw_ty w j <> FreeJoint -> mw_ty w j <> FixedJoint -> j_integrate (joints_of (wst_in w) j) v dt = JS (mw_ty w j) (m_at (r4 (mw_ram w)) (mw_qH w j)) (fun i => m_at (rv (mw_ram w)) (mw_q w j) i + dt * v i) v).
  { intros N1 N2. rewrite Ej. unfold j_integrate. cbn [jt gposH gpos]. destruct (mw_ty w j); try reflexivity; contradiction. }
  assert (Lin : mw_ty w j <> FreeJoint -> mw_ty w j <> FixedJoint ->
    let w' := set_ram (onv (put (mw_q w j) (fun i => m_at (rv (mw_ram w)) (mw_q w j) i + dt * v i)) (mw_ram w)) w1 in
    kept w w' /\ scene_in w' = scene_in w /\ store_in w' = store_in w /\
    @Ok wst (WS h (s_ty (wst_in w)) (upd (s_qH (wst_in w)) j (gposH (j_integrate (joints_of (wst_in w) j) v dt))) (upd (s_q (wst_in w)) j (gpos (j_integrate (joints_of (wst_in w) j) v dt))) (s_dyn (wst_in w)) (s_gforce (wst_in w)) (s_imp (wst_in w)) (s_adm (wst_in w)) (s_time (wst_in w))) = Ok (wst_in w')).
  { intros N1 N2. destruct (put_q_ok j (fun i => m_at (rv (mw_ram w)) (mw_q w j) i + dt * v i) w1 (proj1 K1)) as (K2 & F1 & F2 & F3).
    cbv zeta. change (set_ram (onv (put (mw_q w j) (fun i => m_at (rv (mw_ram w)) (mw_q w j) i + dt * v i)) (mw_ram w)) w1) with (set_ram (onv (put (mw_q w1 j) (fun i => m_at (rv (mw_ram w)) (mw_q w j) i + dt * v i)) (mw_ram w1)) w1).
    split; [exact (kept_trans _ _ _ K1 K2) | ]. split; [etransitivity; [exact F1 | exact E1] | ]. split; [etransitivity; [exact F2 | exact E2] | ]. f_equal. etransitivity; [ | symmetry; exact F3]. rewrite (L N1 N2), E3. unfold with_q. cbn [gposH gpos]. f_equal. now apply upd_same. }
  assert (Dec : mw_ty w j = FreeJoint \/ mw_ty w j = FixedJoint \/ (mw_ty w j <> FreeJoint /\ mw_ty w j <> FixedJoint)).
  { destruct (mw_ty w j); auto; right; right; split; discriminate. }
  destruct Dec as [E | [E | (N1 & N2)]].
  - rewrite E. destruct (new_qH_ok j (mm4 (m_at (r4 (mw_ram w)) (mw_qH w j)) (exp (v6scal dt (v6of v)))) w1 (proj1 K1)) as (K2 & F1 & F2 & F3).
    change (mw_ram w) with (mw_ram w1). change (MW (on4 (alloc ?H) (mw_ram w1)) (mw_body w1) (mw_bmass w1) (mw_bvisc w1) (mw_sub w1) (mw_mov w1) (mw_mass w1) (mw_visc w1) (mw_nle w1) (mw_gforce w1) (mw_imp w1) (mw_adm w1)
     (mw_ty w1) (upd (mw_qH w1) j (fresh_addr (r4 (mw_ram w1)))) (mw_q w1) (mw_heap w1) (mw_time w1)) with (new_qH j H w1).
    split; [exact (kept_trans _ _ _ K1 K2) | ]. split; [etransitivity; [exact F1 | exact E1] | ]. split; [etransitivity; [exact F2 | exact E2] | ]. f_equal. etransitivity; [ | symmetry; exact F3]. rewrite E3, Ej, E. unfold j_integrate. cbn [jt gposH gpos s_heap s_ty s_qH s_q s_dyn s_gforce s_imp s_adm s_time]. f_equal. now apply upd_same.
  - rewrite E. split; [exact K1 | ]. split; [exact E1 | ]. split; [exact E2 | ]. f_equal. rewrite E3, Ej, E. unfold j_integrate. cbn [jt gposH gpos]. f_equal; now apply upd_same.
  - specialize (Lin N1 N2). cbv zeta in Lin. destruct (mw_ty w j); try exact Lin; contradiction.
Qed.
Lemma m_integrate_joints_ok dt : forall js w, owned w ->
  let (w', r) := m_integrate_joints dt js w in kept w w' /\ scene_in w' = scene_in w /\ store_in w' = store_in w /\ integrate_joints dt js (wst_in w) = (wst_in w', r).
Proof.
  induction js as [ | j js IH]; intros w O; cbn [m_integrate_joints integrate_joints]; [split; [now apply kept_refl | repeat split; reflexivity] | ].
  assert (A := m_integrate_joint_ok dt j w O). destruct (m_integrate_joint dt j w) as [w1 | x].
  - destruct A as (K1 & E1 & E2 & E3). rewrite E3. assert (I := IH w1 (proj1 K1)). destruct (m_integrate_joints dt js w1) as (w' & r). destruct I as (K2 & F1 & F2 & F3).
    split; [exact (kept_trans _ _ _ K1 K2) | ]. split; [congruence | ]. split; [congruence | exact F3].
  - rewrite A. split; [now apply kept_refl | repeat split; reflexivity].
Qed.
Lemma m_integrate_ok e n dt w : owned w ->
  let (w', r) := m_integrate e n dt w in kept w w' /\ scene_in w' = scene_in w /\ store_in w' = store_in w /\ integrate e n dt (wst_in w) = (wst_in w', r).
Proof.
  intros O. unfold m_integrate, integrate. destruct (Rlt_dec 0 dt) as [H | H]; [ | split; [now apply kept_refl | repeat split; reflexivity]]. cbv zeta.
  change (s_heap (wst_in w)) with (mw_heap w). set (h := write_world_gvel _ _). destruct (set_heap_ok h w O) as (K1 & E1 & E2 & E3). set (w1 := set_heap_in h w) in *. change (mw_heap w1) with h.
  cbv zeta in E3. rewrite <- E3. destruct (iterjoints e n h) as [js | x]; [ | split; [exact K1 | repeat split; assumption]].
  assert (I := m_integrate_joints_ok dt js w1 (proj1 K1)). destruct (m_integrate_joints dt js w1) as (w2 & r). destruct I as (K2 & F1 & F2 & F3). rewrite F3.
  assert (K := kept_trans _ _ _ K1 K2). assert (G1 : scene_in w2 = scene_in w) by congruence. assert (G2 : store_in w2 = store_in w) by congruence.
  destruct r as [u | x]; [ | split; [exact K | repeat split; assumption]].
  split; [ | split; [exact G1 | split; [exact G2 | reflexivity]]]. destruct K as (Ok2 & K). split; [destruct Ok2; constructor; assumption | ].
  intros x S. destruct (K x S) as (S' & C). split; [destruct x; exact S' | exact C].
Qed.
(** [World.init] and the other methods of the graph *)
Lemma m_graph_ok e n o w : owned w ->
  let (w', r) := m_graph e n o w in kept w w' /\ scene_in w' = scene_in w /\ store_in w' = store_in w /\ (mw_heap w', r) = step 0 e n (mw_heap w) o /\
  (o = Init -> r = Ok tt -> wst_in w' = (let s := wst_in w in WS (fst (step 0 e n (mw_heap w) o)) (s_ty s) (s_qH s) (s_q s) wdyn0 vzero (s_imp s) (s_adm s) (s_time s))) /\
  (o <> Init -> wst_in w' = (let s := wst_in w in WS (fst (step 0 e n (mw_heap w) o)) (s_ty s) (s_qH s) (s_q s) (s_dyn s) (s_gforce s) (s_imp s) (s_adm s) (s_time s))).
Proof.
  intros O. unfold m_graph. destruct (step 0 e n (mw_heap w) o) as (h & x) eqn:Es. destruct (set_heap_ok h w O) as (K1 & E1 & E2 & E3). cbn [fst].
  assert (D : o <> Init \/ (exists y, x = Err y) \/ (o = Init /\ x = Ok tt)).
  { destruct o; try (left; discriminate). right. destruct x as [[] | y]; [right; split; reflexivity | left; exists y; reflexivity]. }
  assert (P : kept w (set_heap_in h w) /\ scene_in (set_heap_in h w) = scene_in w /\ store_in (set_heap_in h w) = store_in w /\ (mw_heap (set_heap_in h w), x) = (h, x)) by (repeat split; assumption || reflexivity || apply K1; assumption).
  destruct D as [N | [(y & ->) | (-> & ->)]].
  - destruct o; try contradiction; destruct P as (P1 & P2 & P3 & P4); (split; [exact P1 | split; [exact P2 | split; [exact P3 | split; [exact P4 | split; [intros E; discriminate | intros _; exact E3]]]]]).
  - assert (Q : match o, @Err unit y with Init, Ok _ => (w, Ok tt) | _, _ => (set_heap_in h w, @Err unit y) end = (set_heap_in h w, Err y)) by (destruct o; reflexivity).
    destruct P as (P1 & P2 & P3 & P4). destruct o; (split; [exact P1 | split; [exact P2 | split; [exact P3 | split; [exact P4 | split; [intros _ E; discriminate | intros _; exact E3]]]]]).
  - clear P K1 E1 E2 E3. assert (W := ow_world _ O).
    set (r := mw_ram w). set (n1 := alloc mzero (rn r)). set (n2 := alloc mzero n1). set (n3 := alloc mzero n2).
    assert (X1 : mext (rn r) n1) by apply mext_alloc. assert (X2 : mext n1 n2) by apply mext_alloc. assert (X3 : mext n2 n3) by apply mext_alloc.
    assert (X12 := mext_trans _ _ _ X1 X2). assert (X := mext_trans _ _ _ X12 X3).
    set (ram' := Ram (r4 r) (r6 r) (rj r) (rm r) n3 (alloc vzero (rv r))).
    assert (RX : rext (mw_ram w) ram') by (do 4 (split; [apply mext_refl | ]); split; [exact X | apply mext_alloc]).
    assert (O' := owned_ram w _ O RX).
    assert (F : forall a k, exists_in (rn r) a -> a <> ANew (m_next (rn r) + k)) by (intros a k Ea ->; cbn in Ea; lia).
    assert (Fr : fresh_addr (rn r) = ANew (m_next (rn r) + 0) /\ fresh_addr n1 = ANew (m_next (rn r) + 1) /\ fresh_addr n2 = ANew (m_next (rn r) + 2)) by (unfold fresh_addr; cbn; repeat split; f_equal; lia).
    destruct Fr as (Fr0 & Fr1 & Fr2).
    split; [ | split; [ | split; [ | split; [reflexivity | split; [ | intros E; contradiction]]]]].
    + split.
      * constructor; cbn [mw_ram mw_body mw_bmass mw_bvisc mw_sub mw_mov mw_mass mw_visc mw_nle mw_imp mw_adm mw_gforce mw_q mw_qH];
          try apply (ow_pose _ O'); try apply (ow_jac _ O'); try apply (ow_twist _ O'); try apply (ow_mass _ O'); try apply (ow_bpose _ O'); try apply (ow_gpos _ O'); try apply (ow_gpos_inj _ O').
        -- intros a [<- | [<- | [<- | Ia]]].
           ++ apply (mext_exists n2 n3), (mext_exists n1 n2), fresh_exists; assumption.
           ++ apply fresh_exists.
           ++ apply (mext_exists n2 n3), fresh_exists; assumption.
           ++ eapply mext_exists; [exact X | ]. apply W. cbn [In] in *. tauto.
        -- rewrite Fr0, Fr1, Fr2. assert (P := ow_apart _ O). inversion_clear P as [ | ? ? _ P']. inversion_clear P' as [ | ? ? _ P]. inversion_clear P as [ | ? ? _ P'].
           constructor; [ | constructor; [ | constructor; [ | exact P']]].
           ++ intros [E | [E | Ia]]; [injection E; lia | injection E; lia | ]. refine (F _ 0%nat (W _ _) eq_refl). cbn [In] in *. tauto.
           ++ intros [E | Ia]; [injection E; lia | ]. refine (F _ 2%nat (W _ _) eq_refl). cbn [In] in *. tauto.
           ++ intros Ia. refine (F _ 1%nat (W _ _) eq_refl). cbn [In] in *. tauto.
        -- split; [apply fresh_exists | ]. intros j. apply old_not_fresh, (ow_gpos _ O).
      * intros [a | a | a | a | a | a | v] S; cbn [safe content] in *; try (split; [exact S | reflexivity]).
        -- destruct S as (S & N). split; [split; [now apply (mext_exists _ _ _ X) | ] | f_equal; now apply X].
           cbn [mw_mass mw_visc mw_nle mw_imp]. rewrite Fr0, Fr1, Fr2. intros [E | [E | [E | Ia]]]; try (exact (F _ _ S (eq_sym E))). apply N. cbn [In] in *. tauto.
        -- destruct S as (S & N & P). split; [ | f_equal; now apply alloc_old]. split; [now apply alloc_exists | ]. split; [now apply old_not_fresh | exact P].
        -- contradiction.
    + exact (ext_scene w (set_ram ram' w) O (ext_ram w _ RX)).
    + apply store_same; [reflexivity | exact RX | assumption].
    + intros _ _. unfold wst_in. cbn [mw_ram rn mw_mass mw_visc mw_nle mw_imp mw_adm mw_heap mw_ty mw_qH mw_q mw_gforce mw_time r4 rv s_heap s_ty s_qH s_q s_gforce s_imp s_adm s_time s_dyn ram'].
      rewrite (proj2 X3 (fresh_addr (rn r))), (proj2 X2 (fresh_addr (rn r))) by (try apply (mext_exists n1 n2); try exact X2; apply fresh_exists).
      unfold n1 at 1. rewrite alloc_new. unfold n3 at 1. rewrite alloc_new. rewrite (proj2 X3 (fresh_addr n1)) by apply fresh_exists. unfold n2 at 1. rewrite !alloc_new.
      rewrite !(proj2 X) by (apply W; cbn; tauto). f_equal. apply functional_extensionality. intros j. apply alloc_old, (ow_gpos _ O).
Qed.
