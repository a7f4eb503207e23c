(** Proofs about the arrays of a world. *)
From Coq Require Import Lra Lia FunctionalExtensionality.
From Verif Require Import Spec_Mem.
Open Scope R_scope.

Lemma addr_eqb_spec a b : addr_eqb a b = true <-> a = b.
Proof. destruct a, b; cbn; rewrite ?Nat.eqb_eq; split; congruence. Qed.
Lemma addr_eqb_refl a : addr_eqb a a = true.
Proof. now apply addr_eqb_spec. Qed.
Lemma addr_neqb a b : a <> b -> addr_eqb a b = false.
Proof. intros N. destruct (addr_eqb a b) eqn:E; [ | reflexivity]. apply addr_eqb_spec in E. contradiction. Qed.
Lemma put_same {A} a (x : A) m : m_at (put a x m) a = x.
Proof. cbn. now rewrite addr_eqb_refl. Qed.
Lemma put_other {A} a b (x : A) m : b <> a -> m_at (put a x m) b = m_at m b.
Proof. intros N. cbn. now rewrite addr_neqb. Qed.
Lemma alloc_new {A} (x : A) m : m_at (alloc x m) (fresh_addr m) = x.
Proof. cbn. now rewrite Nat.eqb_refl. Qed.
Lemma old_not_fresh {A} (m : mem A) a : exists_in m a -> a <> fresh_addr m.
Proof. intros E ->. cbn in E. lia. Qed.
Lemma alloc_old {A} (x : A) m a : exists_in m a -> m_at (alloc x m) a = m_at m a.
Proof. intros E. cbn [m_at alloc]. rewrite addr_neqb by now apply old_not_fresh. reflexivity. Qed.
Lemma alloc_exists {A} (x : A) m a : exists_in m a -> exists_in (alloc x m) a.
Proof. destruct a; cbn; lia. Qed.
Lemma fresh_exists {A} (x : A) m : exists_in (alloc x m) (fresh_addr m).
Proof. cbn. lia. Qed.

(** a memory where arrays were only added *)
Definition mext {A} (m m' : mem A) : Prop := (m_next m <= m_next m')%nat /\ forall a, exists_in m a -> m_at m' a = m_at m a.
Lemma mext_refl {A} (m : mem A) : mext m m. Proof. split; auto. Qed.
Lemma mext_exists {A} (m m' : mem A) a : mext m m' -> exists_in m a -> exists_in m' a.
Proof. intros (L & _). destruct a; cbn; lia. Qed.
Lemma mext_trans {A} (m m' m'' : mem A) : mext m m' -> mext m' m'' -> mext m m''.
Proof. intros E F. split; [destruct E, F; lia | ]. intros a I. rewrite (proj2 F a (mext_exists _ _ _ E I)). apply E, I. Qed.
Lemma mext_alloc {A} (x : A) m : mext m (alloc x m).
Proof. split; [cbn; lia | ]. intros a I. apply alloc_old, I. Qed.
Definition rext (r r' : ram) : Prop := mext (r4 r) (r4 r') /\ mext (r6 r) (r6 r') /\ mext (rj r) (rj r') /\ mext (rm r) (rm r') /\ mext (rn r) (rn r') /\ mext (rv r) (rv r').
Lemma rext_refl r : rext r r. Proof. repeat split; auto. Qed.
Lemma rext_trans r r' r'' : rext r r' -> rext r' r'' -> rext r r''.
Proof. intros (A & B & C & D & E & F) (A' & B' & C' & D' & E' & F'). repeat split; eapply mext_trans; eassumption. Qed.
(** the fields other than the memory and the attributes of the bodies *)
Definition rest (w : mworld) := (mw_bmass w, mw_bvisc w, mw_sub w, mw_mov w, (mw_mass w, mw_visc w, mw_nle w, mw_gforce w, mw_imp w, mw_adm w), (mw_ty w, mw_qH w, mw_q w, mw_heap w, mw_time w)).
Definition ext (w w' : mworld) : Prop := rext (mw_ram w) (mw_ram w') /\ rest w' = rest w.
Lemma ext_refl w : ext w w. Proof. split; [apply rext_refl | reflexivity]. Qed.
Lemma ext_trans w w' w'' : ext w w' -> ext w' w'' -> ext w w''.
Proof. intros (A & B) (C & D). split; [eapply rext_trans; eassumption | congruence]. Qed.
Lemma rest_inv w w' : rest w' = rest w -> mw_bmass w' = mw_bmass w /\ mw_bvisc w' = mw_bvisc w /\ mw_sub w' = mw_sub w /\ mw_mov w' = mw_mov w /\
  (mw_mass w' = mw_mass w /\ mw_visc w' = mw_visc w /\ mw_nle w' = mw_nle w /\ mw_gforce w' = mw_gforce w /\ mw_imp w' = mw_imp w /\ mw_adm w' = mw_adm w) /\
  mw_ty w' = mw_ty w /\ mw_qH w' = mw_qH w /\ mw_q w' = mw_q w /\ mw_heap w' = mw_heap w /\ mw_time w' = mw_time w.
Proof. unfold rest. intros E. injection E. intros. repeat split; assumption. Qed.
Lemma ext_scene w w' : owned w -> ext w w' -> scene_in w' = scene_in w.
Proof.
  intros O ((X4 & X6 & Xj & Xm & Xn & Xv) & Er). destruct (rest_inv _ _ Er) as (E1 & E2 & E3 & E4 & _). unfold scene_in. rewrite E1, E2, E3, E4.
  f_equal; apply functional_extensionality; intros b; [apply Xm | apply Xm | apply X4 | apply X4]; apply (ow_mass _ O) || apply (ow_bpose _ O).
Qed.
Lemma ext_wst w w' : owned w -> ext w w' -> wst_in w' = wst_in w.
Proof.
  intros O ((X4 & X6 & Xj & Xm & Xn & Xv) & Er). destruct (rest_inv _ _ Er) as (_ & _ & _ & _ & (E1 & E2 & E3 & E4 & E5 & E6) & E7 & E8 & E9 & E10 & E11).
  unfold wst_in. rewrite E1, E2, E3, E4, E5, E6, E7, E8, E9, E10, E11.
  assert (P := ow_world _ O). f_equal.
  - apply functional_extensionality. intros j. apply X4, (ow_gpos _ O).
  - apply functional_extensionality. intros j. apply Xv, (ow_gpos _ O).
  - f_equal; apply Xn, P; cbn; auto.
  - apply Xv, (ow_gforce _ O).
  - apply Xn, P; cbn; auto.
  - apply Xn, P; cbn; auto 6.
Qed.
(** the attributes of a body that refer to existing arrays *)
Definition fine (w : mworld) (v : bvars) : Prop :=
  all_exist (r4 (mw_ram w)) (v_pose v) /\ (forall m, v_pose v <> Some (mw_mov w m)) /\ all_exist (rj (mw_ram w)) (v_jac v) /\ all_exist (rj (mw_ram w)) (v_djac v) /\
  all_exist (r6 (mw_ram w)) (v_twist v) /\ all_exist (rm (mw_ram w)) (v_nle v).
Lemma owned_fine w : owned w -> forall b, fine w (mw_body w b).
Proof. intros O b. destruct (ow_pose _ O b), (ow_jac _ O b), (ow_twist _ O b). repeat split; assumption. Qed.
Lemma all_ext {A} (m m' : mem A) o : mext m m' -> all_exist m o -> all_exist m' o.
Proof. destruct o; cbn; [apply mext_exists | auto]. Qed.
Lemma fine_ext w w' v : ext w w' -> fine w v -> fine w' v.
Proof.
  intros ((X4 & X6 & Xj & Xm & Xn & Xv) & Er) (A & B & C & D & E & F). destruct (rest_inv _ _ Er) as (_ & _ & _ & E4 & _).
  repeat split; try (eapply all_ext; eassumption). rewrite E4. exact B.
Qed.
Lemma owned_ext w w' : owned w -> ext w w' -> (forall b, fine w' (mw_body w' b)) -> owned w'.
Proof.
  intros O ((X4 & X6 & Xj & Xm & Xn & Xv) & Er) Fi. destruct (rest_inv _ _ Er) as (E1 & E2 & E3 & E4 & (E5 & E6 & E7 & E8 & E9 & E10) & E11 & E12 & E13 & E14 & E15).
  constructor.
  - intros b. destruct (Fi b) as (A & B & _). split; assumption.
  - intros b. destruct (Fi b) as (_ & _ & A & B & _). split; assumption.
  - intros b. destruct (Fi b) as (_ & _ & _ & _ & A & B). split; assumption.
  - intros b. rewrite E1, E2. destruct (ow_mass _ O b). split; eapply mext_exists; eassumption.
  - intros s. rewrite E3, E4. destruct (ow_bpose _ O s). split; eapply mext_exists; eassumption.
  - rewrite E5, E6, E7, E9, E10. intros a Ia. eapply mext_exists; [eassumption | ]. apply (ow_world _ O), Ia.
  - rewrite E5, E6, E7, E9, E10. apply (ow_apart _ O).
  - rewrite E8, E13. destruct (ow_gforce _ O). split; [eapply mext_exists; eassumption | assumption].
  - intros j. rewrite E12, E13, E4. destruct (ow_gpos _ O j) as (A & B & C). repeat split; [eapply mext_exists; eassumption | eapply mext_exists; eassumption | assumption].
  - rewrite E13. apply (ow_gpos_inj _ O).
Qed.
Lemma ext_ram w r : rext (mw_ram w) r -> ext w (set_ram r w).
Proof. intros X. split; [exact X | reflexivity]. Qed.
Lemma owned_ram w r : owned w -> rext (mw_ram w) r -> owned (set_ram r w).
Proof. intros O X. apply (owned_ext w); [assumption | now apply ext_ram | ]. intros b. apply (fine_ext w); [now apply ext_ram | exact (owned_fine w O b)]. Qed.
Definition attr_in (r : ram) (v : bvars) : bodyattr :=
  BA (option_map (m_at (r4 r)) (v_pose v)) (option_map (m_at (rj r)) (v_jac v)) (option_map (m_at (rj r)) (v_djac v)) (option_map (m_at (r6 r)) (v_twist v)) (option_map (m_at (rm r)) (v_nle v)).
Lemma attr_ext w w' v : ext w w' -> fine w v -> attr_in (mw_ram w') v = attr_in (mw_ram w) v.
Proof.
  intros ((X4 & X6 & Xj & Xm & Xn & Xv) & _) (A & _ & C & D & E & F). unfold attr_in.
  assert (G : forall (T : Type) (m m' : mem T) o, mext m m' -> all_exist m o -> option_map (m_at m') o = option_map (m_at m) o).
  { intros T m m' [a | ] (_ & Y) Z; cbn; [now rewrite Y | reflexivity]. }
  f_equal; apply G; assumption.
Qed.
Lemma store_ram w r : owned w -> rext (mw_ram w) r -> store_in (set_ram r w) = store_in w.
Proof. intros O X. apply functional_extensionality. intros b. exact (attr_ext w (set_ram r w) _ (ext_ram w r X) (owned_fine w O b)). Qed.
Lemma ext_body w b v : ext w (set_body b v w).
Proof. split; [apply rext_refl | reflexivity]. Qed.
Lemma owned_body w b v : owned w -> fine w v -> owned (set_body b v w).
Proof.
  intros O Fi. apply (owned_ext w); [assumption | apply ext_body | ]. intros c. cbn [set_body mw_body]. unfold upd.
  destruct (Nat.eqb c b); [apply (fine_ext w); [apply ext_body | exact Fi] | apply (fine_ext w); [apply ext_body | exact (owned_fine w O c)]].
Qed.
Lemma store_body w b v : store_in (set_body b v w) = upd (store_in w) b (attr_in (mw_ram w) v).
Proof. apply functional_extensionality. intros c. unfold store_in, upd. cbn [set_body mw_body mw_ram]. unfold upd. destruct (Nat.eqb c b); reflexivity. Qed.
Lemma rext_on4 r x : rext r (on4 (alloc x) r).
Proof. split; [apply mext_alloc | ]. repeat split; auto. Qed.
Lemma rext_onm r x : rext r (onm (alloc x) r).
Proof. split; [apply mext_refl | ]. split; [apply mext_refl | ]. split; [apply mext_refl | ]. split; [apply mext_alloc | ]. repeat split; auto. Qed.

(** [Body.update_geometric] on arrays and on values *)
Definition loop_geo (e : env) (n : nat) (p : addr) := fix loop (js : list nat) (w : mworld) : mworld * res unit :=
  match js with
  | [] => (w, Ok tt)
  | j :: js' =>
      match jframes (mw_heap w) j with
      | None => (w, Err AttributeError)
      | Some (f0, f1) =>
          match child_pose (scene_in w) (joints_of (wst_in w) j) f0 f1 (m_at (r4 (mw_ram w)) p) with
          | Err x => (w, Err x)
          | Ok H =>
              match m_geometric e n (frame_body e f1) (fresh_addr (r4 (mw_ram w))) (set_ram (on4 (alloc H) (mw_ram w)) w) with
              | (w2, Err x) => (w2, Err x)
              | (w2, Ok _) => loop js' w2
              end
          end
      end
  end.
Definition vloop_geo (e : env) (sc : scene) (h : @heap R) (J : nat -> jstate) (n : nat) (pose : m4) := fix loop (js : list nat) (st : store) : res store :=
  match js with
  | [] => Ok st
  | j :: js' =>
      match jframes h j with
      | None => Err AttributeError
      | Some (f0, f1) =>
          let* p' := child_pose sc (J j) f0 f1 pose in
          let* st1 := update_geometric e sc h J n (frame_body e f1) p' st in
          loop js' st1
      end
  end.
(** the outcome [r] of the memory agrees with the outcome [v] of the values *)
Definition agrees (w : mworld) (r : mworld * res unit) (v : res store) : Prop :=
  ext w (fst r) /\ owned (fst r) /\ match v with Ok st => snd r = Ok tt /\ store_in (fst r) = st | Err x => snd r = Err x end.
Lemma pose_unmoved w m : owned w -> mw_mov w m <> fresh_addr (r4 (mw_ram w)).
Proof. intros O. apply old_not_fresh, (ow_bpose _ O). Qed.
Lemma m_geometric_ok e : forall n b p w, owned w -> exists_in (r4 (mw_ram w)) p -> (forall m, mw_mov w m <> p) ->
  agrees w (m_geometric e n b p w) (update_geometric e (scene_in w) (mw_heap w) (joints_of (wst_in w)) n b (m_at (r4 (mw_ram w)) p) (store_in w)).
Proof.
  induction n as [ | n IH]; intros b p w O Ep Np.
  - cbn. split; [apply ext_refl | ]. split; [assumption | reflexivity].
  - cbn [m_geometric update_geometric]. fold (loop_geo e n p). fold (vloop_geo e (scene_in w) (mw_heap w) (joints_of (wst_in w)) n (m_at (r4 (mw_ram w)) p)).
    set (v0 := BV _ _ _ _ _). set (w0 := set_body b v0 w).
    assert (O0 : owned w0).
    { apply owned_body; [assumption | ]. destruct (owned_fine w O b) as (A & B & C & D & E & F). repeat split; try assumption. intros m. cbn. specialize (Np m). congruence. }
    assert (X0 : ext w w0) by apply ext_body.
    assert (S0 : store_in w0 = upd (store_in w) b (BA (Some (m_at (r4 (mw_ram w)) p)) (a_jac (store_in w b)) (a_djac (store_in w b)) (a_twist (store_in w b)) (a_nle (store_in w b)))) by apply store_body.
    rewrite <- S0. clearbody w0. clear v0 S0.
    assert (L : forall js w1, ext w w1 -> owned w1 -> agrees w1 (loop_geo e n p js w1) (vloop_geo e (scene_in w) (mw_heap w) (joints_of (wst_in w)) n (m_at (r4 (mw_ram w)) p) js (store_in w1))).
    { induction js as [ | j js IHj]; intros w1 X1 O1.
      - split; [apply ext_refl | ]. split; [assumption | ]. split; reflexivity.
      - cbn [loop_geo vloop_geo]. destruct (rest_inv _ _ (proj2 X1)) as (_ & _ & _ & _ & _ & _ & _ & _ & Eh & _).
        rewrite (ext_scene _ _ O X1), (ext_wst _ _ O X1), Eh, (proj2 (proj1 (proj1 X1)) p Ep).
        destruct (jframes (mw_heap w) j) as [[f0 f1] | ]; [ | split; [apply ext_refl | ]; split; [assumption | reflexivity]].
        destruct (child_pose _ _ f0 f1 _) as [H | x]; cbn [rbind]; [ | split; [apply ext_refl | ]; split; [assumption | reflexivity]].
        set (w2 := set_ram (on4 (alloc H) (mw_ram w1)) w1).
        assert (X2 : ext w1 w2) by apply ext_ram, rext_on4. assert (O2 : owned w2) by (apply owned_ram; [assumption | apply rext_on4]).
        assert (S2 : store_in w2 = store_in w1) by (apply store_ram; [assumption | apply rext_on4]).
        assert (I := IH (frame_body e f1) (fresh_addr (r4 (mw_ram w1))) w2 O2 (fresh_exists _ _) (fun m => pose_unmoved w1 m O1)).
        assert (X12 := ext_trans _ _ _ X1 X2).
        rewrite (ext_scene _ _ O X12), (ext_wst _ _ O X12), S2 in I. change (mw_heap w2) with (mw_heap w1) in I. rewrite Eh in I.
        change (m_at (r4 (mw_ram w2)) (fresh_addr (r4 (mw_ram w1)))) with (m_at (alloc H (r4 (mw_ram w1))) (fresh_addr (r4 (mw_ram w1)))) in I. rewrite alloc_new in I.
        destruct (m_geometric e n _ _ w2) as (w3 & r3). destruct I as (X3 & O3 & R3). cbn [fst snd] in *.
        destruct (update_geometric e (scene_in w) (mw_heap w) (joints_of (wst_in w)) n (frame_body e f1) H (store_in w1)) as [st | x]; cbn [rbind].
        + destruct R3 as (-> & <-). destruct (IHj w3 (ext_trans _ _ _ X12 X3) O3) as (X4 & O4 & R4). split; [ | split; [exact O4 | exact R4]].
          eapply ext_trans; [exact X2 | ]. eapply ext_trans; [exact X3 | exact X4].
        + subst r3. split; [ | split; [exact O3 | reflexivity]]. eapply ext_trans; eassumption. }
    destruct (L (childrenjoints (mw_heap w) b) w0 X0 O0) as (X1 & O1 & R1). split; [eapply ext_trans; eassumption | ]. split; [exact O1 | exact R1].
Qed.

(** [Body.update_dynamic] on arrays and on values *)
Definition loop_dyn (e : env) (n : nat) (k : kaddr) := fix loop (js : list nat) (w : mworld) : mworld * res unit :=
  match js with
  | [] => (w, Ok tt)
  | j :: js' =>
      match jframes (mw_heap w) j with
      | None => (w, Err AttributeError)
      | Some (f0, f1) =>
          match child_kin (scene_in w) (mw_heap w) j (joints_of (wst_in w) j) f0 f1 (kin_in w k) with
          | Err x => (w, Err x)
          | Ok k' =>
              let (ka, w1) := new_kin k' w in
              match m_dynamic e n (frame_body e f1) ka w1 with
              | (w2, Err x) => (w2, Err x)
              | (w2, Ok _) => loop js' w2
              end
          end
      end
  end.
Definition vloop_dyn (e : env) (sc : scene) (h : @heap R) (J : nat -> jstate) (n : nat) (k : kin) := fix loop (js : list nat) (st : store) : res store :=
  match js with
  | [] => Ok st
  | j :: js' =>
      match jframes h j with
      | None => Err AttributeError
      | Some (f0, f1) =>
          let* k' := child_kin sc h j (J j) f0 f1 k in
          let* st1 := update_dynamic e sc h J n (frame_body e f1) k' st in
          loop js' st1
      end
  end.
Definition ka_ok (w : mworld) (k : kaddr) : Prop :=
  exists_in (r4 (mw_ram w)) (ka_pose k) /\ (forall m, mw_mov w m <> ka_pose k) /\ exists_in (rj (mw_ram w)) (ka_jac k) /\ exists_in (rj (mw_ram w)) (ka_djac k) /\ exists_in (r6 (mw_ram w)) (ka_twist k).
Lemma kin_ext w w' k : ext w w' -> ka_ok w k -> kin_in w' k = kin_in w k.
Proof. intros ((X4 & X6 & Xj & _) & _) (A & _ & B & C & D). unfold kin_in. rewrite (proj2 X4), (proj2 Xj), (proj2 Xj), (proj2 X6) by assumption. reflexivity. Qed.
Lemma new_kin_ok k w : owned w -> let (ka, w') := new_kin k w in ext w w' /\ owned w' /\ ka_ok w' ka /\ kin_in w' ka = k /\ store_in w' = store_in w.
Proof.
  intros O. unfold new_kin. set (r' := Ram _ _ _ _ _ _).
  assert (X : rext (mw_ram w) r').
  { subst r'. repeat split; cbn [r4 r6 rj rm rn rv]; try apply mext_alloc; auto; try lia; try (eapply mext_trans; apply mext_alloc). }
  split; [now apply ext_ram | ]. split; [now apply owned_ram | ]. split; [ | split; [ | now apply store_ram]].
  - split; [apply fresh_exists | ]. split; [intros m; exact (pose_unmoved w m O) | ]. split; [ | split; apply fresh_exists]. apply alloc_exists, fresh_exists.
  - unfold kin_in. cbn [set_ram mw_ram ka_pose ka_jac ka_djac ka_twist r4 r6 rj r' r']. subst r'. cbn [r4 r6 rj].
    rewrite !alloc_new. rewrite alloc_old by apply fresh_exists. rewrite alloc_new. destruct k; reflexivity.
Qed.
Lemma m_dynamic_ok e : forall n b k w, owned w -> ka_ok w k ->
  agrees w (m_dynamic e n b k w) (update_dynamic e (scene_in w) (mw_heap w) (joints_of (wst_in w)) n b (kin_in w k) (store_in w)).
Proof.
  induction n as [ | n IH]; intros b k w O K.
  - cbn. split; [apply ext_refl | ]. split; [assumption | reflexivity].
  - cbn [m_dynamic update_dynamic]. fold (loop_dyn e n k). fold (vloop_dyn e (scene_in w) (mw_heap w) (joints_of (wst_in w)) n (kin_in w k)).
    set (N := body_nle _ (m_at (r6 _) _)). set (v0 := BV _ _ _ _ _). set (wa := set_ram _ w). set (w0 := set_body b v0 wa).
    assert (Oa : owned wa) by (apply owned_ram; [assumption | apply rext_onm]).
    assert (Xa : ext w wa) by apply ext_ram, rext_onm.
    assert (Sa : store_in wa = store_in w) by (apply store_ram; [assumption | apply rext_onm]).
    assert (O0 : owned w0).
    { apply owned_body; [assumption | ]. destruct K as (A & B & C & D & E). repeat split; try assumption; [intros m Em; injection Em as Em; exact (B m (eq_sym Em)) | apply fresh_exists]. }
    assert (X0 : ext w w0) by (eapply ext_trans; [exact Xa | apply ext_body]).
    assert (S0 : store_in w0 = upd (store_in w) b (BA (Some (k_pose (kin_in w k))) (Some (k_jac (kin_in w k))) (Some (k_djac (kin_in w k))) (Some (k_twist (kin_in w k))) (Some (body_nle (b_mass (scene_in w) b) (k_twist (kin_in w k)))))).
    { subst w0. rewrite store_body, Sa. f_equal. unfold attr_in, v0. cbn [option_map v_pose v_jac v_djac v_twist v_nle]. subst wa. cbn [set_ram mw_ram onm r4 r6 rj rm]. rewrite alloc_new. reflexivity. }
    rewrite <- S0. clearbody w0. clear v0 S0 wa Oa Xa Sa N.
    assert (L : forall js w1, ext w w1 -> owned w1 -> agrees w1 (loop_dyn e n k js w1) (vloop_dyn e (scene_in w) (mw_heap w) (joints_of (wst_in w)) n (kin_in w k) js (store_in w1))).
    { induction js as [ | j js IHj]; intros w1 X1 O1.
      - split; [apply ext_refl | ]. split; [assumption | ]. split; reflexivity.
      - cbn [loop_dyn vloop_dyn]. destruct (rest_inv _ _ (proj2 X1)) as (_ & _ & _ & _ & _ & _ & _ & _ & Eh & _).
        rewrite (ext_scene _ _ O X1), (ext_wst _ _ O X1), Eh, (kin_ext _ _ _ X1 K).
        destruct (jframes (mw_heap w) j) as [[f0 f1] | ]; [ | split; [apply ext_refl | ]; split; [assumption | reflexivity]].
        destruct (child_kin _ _ j _ f0 f1 _) as [k' | x]; cbn [rbind]; [ | split; [apply ext_refl | ]; split; [assumption | reflexivity]].
        assert (NK := new_kin_ok k' w1 O1). destruct (new_kin k' w1) as (ka & w2). destruct NK as (X2 & O2 & K2 & V2 & S2).
        assert (I := IH (frame_body e f1) ka w2 O2 K2). assert (X12 := ext_trans _ _ _ X1 X2).
        rewrite (ext_scene _ _ O X12), (ext_wst _ _ O X12), S2, V2 in I. destruct (rest_inv _ _ (proj2 X12)) as (_ & _ & _ & _ & _ & _ & _ & _ & Eh2 & _). rewrite Eh2 in I.
        destruct (m_dynamic e n _ _ w2) as (w3 & r3). destruct I as (X3 & O3 & R3). cbn [fst snd] in *.
        destruct (update_dynamic e (scene_in w) (mw_heap w) (joints_of (wst_in w)) n (frame_body e f1) k' (store_in w1)) as [st | x]; cbn [rbind].
        + destruct R3 as (-> & <-). destruct (IHj w3 (ext_trans _ _ _ X12 X3) O3) as (X4 & O4 & R4). split; [ | split; [exact O4 | exact R4]].
          eapply ext_trans; [exact X2 | ]. eapply ext_trans; [exact X3 | exact X4].
        + subst r3. split; [ | split; [exact O3 | reflexivity]]. eapply ext_trans; eassumption. }
    destruct (L (childrenjoints (mw_heap w) b) w0 X0 O0) as (X1 & O1 & R1). split; [eapply ext_trans; eassumption | ]. split; [exact O1 | exact R1].
Qed.
