(** Writing in place. *)
From Coq Require Import Lra Lia FunctionalExtensionality.
From Verif Require Import Spec_Mem Proof_Mem.
Open Scope R_scope.

Definition nextle (r r' : ram) : Prop :=
  (m_next (r4 r) <= m_next (r4 r'))%nat /\ (m_next (r6 r) <= m_next (r6 r'))%nat /\ (m_next (rj r) <= m_next (rj r'))%nat /\
  (m_next (rm r) <= m_next (rm r'))%nat /\ (m_next (rn r) <= m_next (rn r'))%nat /\ (m_next (rv r) <= m_next (rv r'))%nat.
Lemma exists_le {A} (m m' : mem A) a : (m_next m <= m_next m')%nat -> exists_in m a -> exists_in m' a.
Proof. destruct a; cbn; lia. Qed.
Lemma all_le {A} (m m' : mem A) o : (m_next m <= m_next m')%nat -> all_exist m o -> all_exist m' o.
Proof. destruct o; cbn; [apply exists_le | auto]. Qed.
Lemma owned_set w r : owned w -> nextle (mw_ram w) r -> owned (set_ram r w).
Proof.
  intros O (L4 & L6 & Lj & Lm & Ln & Lv). constructor; cbn [set_ram mw_ram mw_body mw_bmass mw_bvisc mw_sub mw_mov mw_mass mw_visc mw_nle mw_imp mw_adm mw_gforce mw_q mw_qH].
  - intros b. destruct (ow_pose _ O b). split; [eapply all_le; eassumption | assumption].
  - intros b. destruct (ow_jac _ O b). split; eapply all_le; eassumption.
  - intros b. destruct (ow_twist _ O b). split; eapply all_le; eassumption.
  - intros b. destruct (ow_mass _ O b). split; eapply exists_le; eassumption.
  - intros b. destruct (ow_bpose _ O b). split; eapply exists_le; eassumption.
  - intros a Ia. eapply exists_le; [eassumption | ]. apply (ow_world _ O), Ia.
  - apply (ow_apart _ O).
  - destruct (ow_gforce _ O). split; [eapply exists_le; eassumption | assumption].
  - intros j. destruct (ow_gpos _ O j) as (A & B & C). repeat split; [eapply exists_le; eassumption | eapply exists_le; eassumption | assumption].
  - apply (ow_gpos_inj _ O).
Qed.
(** arrays that the methods of the world do not write *)
Definition safe (w : mworld) (x : handle) : Prop :=
  let r := mw_ram w in
  match x with
  | H4 a => exists_in (r4 r) a /\ forall m, mw_mov w m <> a
  | H6 a => exists_in (r6 r) a
  | HJ a => exists_in (rj r) a
  | HM a => exists_in (rm r) a
  | HN a => exists_in (rn r) a /\ ~ In a [mw_mass w; mw_visc w; mw_nle w; mw_imp w]
  | HV a => exists_in (rv r) a /\ a <> mw_gforce w /\ forall j, mw_q w j <> a
  | HG _ => False
  end.
Definition kept (w w' : mworld) : Prop := owned w' /\ forall x, safe w x -> safe w' x /\ content w' x = content w x.
Lemma kept_refl w : owned w -> kept w w. Proof. intros O. split; auto. Qed.
Lemma kept_trans w w' w'' : kept w w' -> kept w' w'' -> kept w w''.
Proof. intros (_ & A) (O & B). split; [exact O | ]. intros x S. destruct (A x S) as (S' & E). destruct (B x S') as (S'' & E'). split; [exact S'' | congruence]. Qed.
Lemma kept_ext w w' : ext w w' -> owned w' -> kept w w'.
Proof.
  intros ((X4 & X6 & Xj & Xm & Xn & Xv) & Er) O'. split; [exact O' | ]. destruct (rest_inv _ _ Er) as (_ & _ & _ & E4 & (E5 & E6 & E7 & E8 & E9 & E10) & _ & _ & E13 & E14 & _).
  intros [a | a | a | a | a | a | v] S; cbn [safe content] in *; rewrite ?E4, ?E5, ?E6, ?E7, ?E8, ?E9, ?E13.
  - destruct S as (S & N). split; [split; [eapply mext_exists; eassumption | assumption] | f_equal; now apply X4].
  - split; [eapply mext_exists; eassumption | f_equal; now apply X6].
  - split; [eapply mext_exists; eassumption | f_equal; now apply Xj].
  - split; [eapply mext_exists; eassumption | f_equal; now apply Xm].
  - destruct S as (S & N). split; [split; [eapply mext_exists; eassumption | assumption] | f_equal; now apply Xn].
  - destruct S as (S & N & P). split; [split; [eapply mext_exists; eassumption | split; assumption] | f_equal; now apply Xv].
  - contradiction.
Qed.
(** the matrices of the world *)
Ltac apart O := let P := fresh in assert (P := ow_apart _ O); repeat match goal with H : NoDup (_ :: _) |- _ => inversion_clear H end; cbn [In] in *.
Ltac neq := let E := fresh in intros E; subst; repeat match goal with H : ~ _ |- _ => try (apply H; auto 6; fail) end; try tauto; try congruence.
Lemma put3_ok d w : owned w -> kept w (put3 d w) /\ scene_in (put3 d w) = scene_in w /\ store_in (put3 d w) = store_in w /\
  wst_in (put3 d w) = (let s := wst_in w in WS (s_heap s) (s_ty s) (s_qH s) (s_q s) d (s_gforce s) (s_imp s) (s_adm s) (s_time s)) /\ mw_heap (put3 d w) = mw_heap w.
Proof.
  intros O. apart O.
  split; [ | split; [reflexivity | split; [reflexivity | split; [ | reflexivity]]]].
  - split; [apply owned_set; [assumption | repeat split; apply Nat.le_refl] | ].
    intros [a | a | a | a | a | a | v] S; cbn [safe content] in *; try (split; [exact S | reflexivity]).
    destruct S as (S & N). split; [split; [exact S | exact N] | ]. f_equal. cbn [put3 set_ram mw_ram onn rn].
    cbn [In] in N. rewrite !put_other by (intros ->; tauto). reflexivity.
  - unfold wst_in, put3. cbn [set_ram mw_ram onn rn mw_mass mw_visc mw_nle mw_imp mw_adm mw_heap mw_ty mw_qH mw_q mw_gforce mw_time r4 rv s_heap s_ty s_qH s_q s_gforce s_imp s_adm s_time].
    f_equal.
    + destruct d as [dm dv dn]. cbn [d_mass d_visc d_nle]. f_equal.
      * rewrite put_other by (intros E; rewrite E in *; tauto). rewrite put_other by (intros E; rewrite E in *; tauto). apply put_same.
      * rewrite put_other by (intros E; rewrite E in *; tauto). apply put_same.
      * apply put_same.
    + rewrite !put_other; [reflexivity | intros E; rewrite E in *; tauto | intros E; rewrite E in *; tauto | intros E; rewrite E in *; tauto].
    + rewrite !put_other; [reflexivity | intros E; rewrite E in *; tauto | intros E; rewrite E in *; tauto | intros E; rewrite E in *; tauto].
Qed.
Definition with_dyn (d : wdyn) (s : wst) : wst := WS (s_heap s) (s_ty s) (s_qH s) (s_q s) d (s_gforce s) (s_imp s) (s_adm s) (s_time s).
(** same arrays given to the constructors and same state, the matrices of the model set apart *)
Definition still (w w' : mworld) : Prop := scene_in w' = scene_in w /\ store_in w' = store_in w /\ mw_heap w' = mw_heap w.
Lemma accumulate_cons sc st b bs d : accumulate sc st (b :: bs) d = rbind (accumulate sc st [b] d) (accumulate sc st bs).
Proof. cbn. destruct (a_jac (st b)), (a_djac (st b)), (a_nle (st b)); reflexivity. Qed.
Lemma with_dyn_twice d d' s : with_dyn d (with_dyn d' s) = with_dyn d s. Proof. reflexivity. Qed.
Lemma with_dyn_same s : with_dyn (s_dyn s) s = s. Proof. destruct s; reflexivity. Qed.
Lemma m_accumulate_ok : forall bs w, owned w ->
  let (w', r) := m_accumulate bs w in
  kept w w' /\ still w w' /\ (exists d, wst_in w' = with_dyn d (wst_in w)) /\
  match accumulate (scene_in w) (store_in w) bs (wdyn_in w) with Ok d => r = Ok tt /\ wst_in w' = with_dyn d (wst_in w) | Err x => r = Err x end.
Proof.
  induction bs as [ | b bs IH]; intros w O.
  - cbn [m_accumulate accumulate]. split; [now apply kept_refl | ]. split; [now repeat split | ].
    assert (E : wst_in w = with_dyn (wdyn_in w) (wst_in w)) by (symmetry; apply with_dyn_same). split; [exists (wdyn_in w); exact E | ]. split; [reflexivity | exact E].
  - rewrite accumulate_cons. cbn [m_accumulate]. destruct (accumulate (scene_in w) (store_in w) [b] (wdyn_in w)) as [d | x]; cbn [rbind].
    + destruct (put3_ok d w O) as (K & S1 & S2 & S3 & S4). assert (I := IH (put3 d w) (proj1 K)).
      destruct (m_accumulate bs (put3 d w)) as (w' & r). destruct I as (K' & (T1 & T2 & T3) & (d' & T4) & T5).
      change (wst_in (put3 d w) = with_dyn d (wst_in w)) in S3.
      split; [eapply kept_trans; eassumption | ]. split; [repeat split; congruence | ].
      split; [exists d'; rewrite T4, S3; reflexivity | ].
      unfold wdyn_in in T5. rewrite S1, S2, S3 in T5. cbn [with_dyn s_dyn] in T5.
      destruct (accumulate (scene_in w) (store_in w) bs d) as [d2 | x]; [ | exact T5]. destruct T5 as (-> & T5). split; [reflexivity | exact T5].
    + split; [now apply kept_refl | ]. split; [now repeat split | ]. split; [ | reflexivity]. exists (wdyn_in w). symmetry. apply with_dyn_same.
Qed.

(** [World.update_geometric] and [World.update_dynamic] *)
Lemma m_update_geometric_ok e n w : owned w ->
  let (w', r) := m_update_geometric e n w in
  kept w w' /\ scene_in w' = scene_in w /\ wst_in w' = wst_in w /\
  match world_update_geometric e (scene_in w) (mw_heap w) (joints_of (wst_in w)) n (store_in w) with Ok st => r = Ok tt /\ store_in w' = st | Err x => r = Err x end.
Proof.
  intros O. unfold m_update_geometric. set (p := fresh_addr _). set (w1 := set_ram _ w).
  assert (X1 : ext w w1) by apply ext_ram, rext_on4. assert (O1 : owned w1) by (apply owned_ram; [assumption | apply rext_on4]).
  assert (S1 : store_in w1 = store_in w) by (apply store_ram; [assumption | apply rext_on4]).
  assert (I := m_geometric_ok e n (ground e) p w1 O1 (fresh_exists _ _) (fun m => pose_unmoved w m O)).
  rewrite (ext_scene _ _ O X1), (ext_wst _ _ O X1), S1 in I. change (mw_heap w1) with (mw_heap w) in I.
  change (m_at (r4 (mw_ram w1)) p) with (m_at (alloc eye4 (r4 (mw_ram w))) (fresh_addr (r4 (mw_ram w)))) in I. rewrite alloc_new in I.
  destruct (m_geometric e n (ground e) p w1) as (w' & r). destruct I as (X & O' & Rr). cbn [fst snd] in *.
  assert (X' := ext_trans _ _ _ X1 X). split; [apply kept_ext; assumption | ]. split; [apply ext_scene; assumption | ]. split; [apply ext_wst; assumption | exact Rr].
Qed.
Lemma m_update_dynamic_ok e n w : owned w ->
  let (w', r) := m_update_dynamic e n w in
  kept w w' /\ scene_in w' = scene_in w /\ (exists d, wst_in w' = with_dyn d (wst_in w)) /\
  match world_update_dynamic e (scene_in w) (mw_heap w) (joints_of (wst_in w)) n (store_in w) with
  | Ok (st, d) => r = Ok tt /\ store_in w' = st /\ wst_in w' = with_dyn d (wst_in w) | Err x => r = Err x end.
Proof.
  intros O. unfold m_update_dynamic, world_update_dynamic. assert (NK := new_kin_ok (Kin eye4 (fun _ => zero6) (fun _ => zero6) zero6) w O).
  destruct (new_kin _ w) as (k & w1). destruct NK as (X1 & O1 & K1 & V1 & S1).
  assert (I := m_dynamic_ok e n (ground e) k w1 O1 K1). rewrite (ext_scene _ _ O X1), (ext_wst _ _ O X1), S1, V1 in I.
  destruct (rest_inv _ _ (proj2 X1)) as (_ & _ & _ & _ & _ & _ & _ & _ & Eh & _). rewrite Eh in I.
  destruct (m_dynamic e n (ground e) k w1) as (w2 & r2). destruct I as (X2 & O2 & R2). cbn [fst snd] in *.
  assert (X := ext_trans _ _ _ X1 X2). assert (Sc := ext_scene _ _ O X). assert (Sw := ext_wst _ _ O X). assert (K2 := kept_ext _ _ X O2).
  destruct (rest_inv _ _ (proj2 X)) as (_ & _ & _ & _ & _ & _ & _ & _ & Eh2 & _).
  destruct (update_dynamic e (scene_in w) (mw_heap w) (joints_of (wst_in w)) n (ground e) _ (store_in w)) as [st | x]; cbn [rbind].
  2: { subst r2. split; [exact K2 | ]. split; [exact Sc | ]. split; [exists (wdyn_in w); rewrite Sw; symmetry; apply with_dyn_same | reflexivity]. }
  destruct R2 as (-> & <-). destruct (put3_ok wdyn0 w2 O2) as (K3 & T1 & T2 & T3 & T4). change (wst_in (put3 wdyn0 w2) = with_dyn wdyn0 (wst_in w2)) in T3.
  rewrite T4, Eh2. destruct (iter_descendant_bodies e n (mw_heap w) (ground e)) as [bs | x]; cbn [rbind].
  2: { split; [eapply kept_trans; eassumption | ]. split; [congruence | ]. split; [exists wdyn0; rewrite T3, Sw; reflexivity | reflexivity]. }
  assert (A := m_accumulate_ok bs (put3 wdyn0 w2) (proj1 K3)). destruct (m_accumulate bs (put3 wdyn0 w2)) as (w' & r). destruct A as (K4 & (U1 & U2 & U3) & (d & U4) & U5).
  unfold wdyn_in in U5. rewrite T1, T2, T3, Sc in U5. cbn [with_dyn s_dyn] in U5.
  split; [eapply kept_trans; [eapply kept_trans; eassumption | assumption] | ]. split; [congruence | ]. split; [exists d; rewrite U4, T3, Sw; reflexivity | ].
  destruct (accumulate (scene_in w) (store_in w2) bs wdyn0) as [d' | x]; cbn [rbind]; [ | exact U5].
  destruct U5 as (-> & U5). split; [reflexivity | ]. split; [congruence | ]. rewrite U5, Sw. reflexivity.
Qed.
