(** Calls and readings. *)
From Coq Require Import Lra Lia FunctionalExtensionality.
From Verif Require Import Spec_Mem Proof_Mem Proof_Mem2 Proof_Mem3 Proof_Mem4.
Open Scope R_scope.
Lemma kept_all w w' : kept w w' -> forall x, safe w x -> safe w' x /\ content w' x = content w x.
Proof. intros K. apply K. Qed.
Lemma m_new_sub_ok s a w : owned w -> exists_in (r4 (mw_ram w)) a -> let (w', r) := m_new_sub s a w in kept w w' /\ store_in w' = store_in w /\ wst_in w' = wst_in w.
Proof.
  intros O Ea. unfold m_new_sub. destruct (ishomogeneousmatrix _); [ | split; [now apply kept_refl | split; reflexivity]].
  split; [ | split; reflexivity]. split.
  - assert (Pb := ow_bpose _ O). destruct O; constructor; try assumption. intros k. cbn [mw_ram mw_sub mw_mov]. unfold upd. destruct (Nat.eqb k s); [split; [exact Ea | apply Pb] | apply Pb].
  - intros x S. split; [destruct x; exact S | reflexivity].
Qed.
Lemma m_new_mov_ok m a w : owned w -> legal (CNewMov m a) w -> let (w', r) := m_new_mov m a w in
  owned w' /\ store_in w' = store_in w /\ wst_in w' = wst_in w /\ forall x, safe w x -> x <> H4 a -> safe w' x /\ content w' x = content w x.
Proof.
  intros O (Ea & Np & Nq). unfold m_new_mov. destruct (ishomogeneousmatrix _); [ | split; [assumption | split; [reflexivity | split; [reflexivity | intros x Sx _; split; [exact Sx | reflexivity]]]]].
  split; [ | split; [reflexivity | split; [reflexivity | ]]].
  - assert (Pb := ow_bpose _ O). assert (Pp := ow_pose _ O). assert (Pq := ow_gpos _ O). destruct O; constructor; try assumption.
    + intros b. cbn [mw_ram mw_body mw_mov]. destruct (Pp b) as (A & B). split; [exact A | ]. intros k. unfold upd. destruct (Nat.eqb k m); [apply Np | apply B].
    + intros k. cbn [mw_ram mw_sub mw_mov]. unfold upd. destruct (Nat.eqb k m); [split; [apply Pb | exact Ea] | apply Pb].
    + intros j. cbn [mw_ram mw_q mw_qH mw_mov]. destruct (Pq j) as (A & B & C). split; [exact A | ]. split; [exact B | ]. intros k. unfold upd. destruct (Nat.eqb k m); [intros E; exact (Nq j (eq_sym E)) | apply C].
  - intros x Sx Nx. split; [ | reflexivity]. destruct x as [b | | | | | | ]; try exact Sx. cbn [safe mw_ram mw_mov] in *. destruct Sx as (A & B). split; [exact A | ]. intros k. unfold upd. destruct (Nat.eqb k m); [congruence | apply B].
Qed.
(** every call keeps the arrays that are not written in place *)
Lemma mcall_ok e n c w : owned w -> legal c w ->
  let w' := fst (mcall_run e n c w) in owned w' /\ forall x, safe w x -> (forall m a, c = CNewMov m a -> x <> H4 a) -> safe w' x /\ content w' x = content w x.
Proof.
  intros O L. cbv zeta. destruct c as [ | | linv ctl dt | bps fs | dt | o | m H | s a | m a | j q]; cbn [mcall_run].
  - assert (A := m_update_geometric_ok e n w O). destruct (m_update_geometric e n w). destruct A as (K & _). split; [apply K | intros x S _; now apply K].
  - assert (A := m_update_dynamic_ok e n w O). destruct (m_update_dynamic e n w). destruct A as (K & _). split; [apply K | intros x S _; now apply K].
  - assert (A := m_update_controllers_ok linv ctl dt w O). destruct (m_update_controllers linv ctl dt w). destruct A as (K & _). split; [apply K | intros x S _; now apply K].
  - assert (A := m_update_constraints_ok bps fs w O). destruct (m_update_constraints bps fs w). destruct A as (K & _). split; [apply K | intros x S _; now apply K].
  - assert (A := m_integrate_ok e n dt w O). destruct (m_integrate e n dt w). destruct A as (K & _). split; [apply K | intros x S _; now apply K].
  - assert (A := m_graph_ok e n o w O). destruct (m_graph e n o w). destruct A as (K & _). split; [apply K | intros x S _; now apply K].
  - assert (A := m_set_bpose_ok m H w O). destruct (m_set_bpose m H w). destruct A as (K & _). split; [apply K | intros x S _; now apply K].
  - assert (A := m_new_sub_ok s a w O L). destruct (m_new_sub s a w). destruct A as (K & _). split; [apply K | intros x S _; now apply K].
  - assert (A := m_new_mov_ok m a w O L). destruct (m_new_mov m a w). destruct A as (K & _ & _ & B). split; [apply K | intros x S N; apply B; [exact S | exact (N m a eq_refl)]].
  - assert (A := m_set_gpos_ok j q w O). destruct (m_set_gpos j q w). destruct A as (K & _). split; [apply K | intros x S _; now apply K].
Qed.
Lemma mcalls_ok e n : forall cs w, owned w -> legal_calls e n cs w ->
  owned (mcalls_run e n cs w) /\ forall x, safe w x -> not_moved x cs -> safe (mcalls_run e n cs w) x /\ content (mcalls_run e n cs w) x = content w x.
Proof.
  induction cs as [ | c cs IH]; intros w O L; cbn [mcalls_run]; [split; [assumption | intros x S _; split; [exact S | reflexivity]] | ].
  destruct L as (L & Ls). destruct (mcall_ok e n c w O L) as (O1 & B). destruct (IH _ O1 Ls) as (O2 & B2). split; [exact O2 | ].
  intros x S N. destruct (B x S) as (S1 & E1). { intros m a E. apply (N m a). now left. }
  destruct (B2 x S1) as (S2 & E2). { intros m a I. apply (N m a). now right. }
  split; [exact S2 | congruence].
Qed.
(** reading *)
Lemma rext_6 r x : rext r (Ram (r4 r) (alloc x (r6 r)) (rj r) (rm r) (rn r) (rv r)).
Proof. split; [apply mext_refl | ]. split; [apply mext_alloc | ]. do 3 (split; [apply mext_refl | ]). apply mext_refl. Qed.
Lemma rext_j r x : rext r (Ram (r4 r) (r6 r) (alloc x (rj r)) (rm r) (rn r) (rv r)).
Proof. do 2 (split; [apply mext_refl | ]). split; [apply mext_alloc | ]. do 2 (split; [apply mext_refl | ]). apply mext_refl. Qed.
Lemma rext_v r x : rext r (onv (alloc x) r).
Proof. do 5 (split; [apply mext_refl | ]). apply mext_alloc. Qed.
Lemma attr_ok {A} (k : addr -> handle) (o : option addr) (w : mworld) (f : A -> value) (m : mem A) : (forall a, content w (k a) = f (m_at m a)) ->
  rmap (content w) (attr_handle k o) = rmap f (get (option_map (m_at m) o)).
Proof. intros H. destruct o; cbn; [now rewrite H | reflexivity]. Qed.
Definition reads_ok (e : env) (w : mworld) (q : query) (r : mworld * res handle) : Prop :=
  ext w (fst r) /\ mw_body (fst r) = mw_body w /\ rmap (content (fst r)) (snd r) = shows e w q /\ (snapshot w q -> match snd r with Ok x => safe (fst r) x | Err _ => True end).
Lemma fetch_ok e q w : owned w -> reads_ok e w q (fetch e q w).
Proof.
  intros O.
  assert (R4 : forall H v, v = Ok (Val4 H) -> ext w (fst (ret4 H w)) /\ mw_body (fst (ret4 H w)) = mw_body w /\ rmap (content (fst (ret4 H w))) (snd (ret4 H w)) = v /\ (snapshot w q -> match snd (ret4 H w) with Ok x => safe (fst (ret4 H w)) x | Err _ => True end)).
  { intros H v ->. unfold ret4. cbn [fst snd rmap]. split; [apply ext_ram, rext_on4 | ]. split; [reflexivity | ]. split; [unfold content; cbn [set_ram mw_ram on4 r4]; now rewrite alloc_new | ].
    intros _. cbn [safe set_ram mw_ram on4 r4 mw_mov]. split; [apply fresh_exists | intros m; now apply pose_unmoved]. }
  assert (Rj : forall A v, v = Ok (ValJ A) -> ext w (fst (retj A w)) /\ mw_body (fst (retj A w)) = mw_body w /\ rmap (content (fst (retj A w))) (snd (retj A w)) = v /\ (snapshot w q -> match snd (retj A w) with Ok x => safe (fst (retj A w)) x | Err _ => True end)).
  { intros A v ->. unfold retj. cbn [fst snd rmap]. split; [apply ext_ram, rext_j | ]. split; [reflexivity | ]. split; [unfold content; cbn [set_ram mw_ram rj]; now rewrite alloc_new | ].
    intros _. cbn [safe set_ram mw_ram rj]. apply fresh_exists. }
  assert (R6 : forall A v, v = Ok (Val6 A) -> ext w (fst (ret6 A w)) /\ mw_body (fst (ret6 A w)) = mw_body w /\ rmap (content (fst (ret6 A w))) (snd (ret6 A w)) = v /\ (snapshot w q -> match snd (ret6 A w) with Ok x => safe (fst (ret6 A w)) x | Err _ => True end)).
  { intros A v ->. unfold ret6. cbn [fst snd rmap]. split; [apply ext_ram, rext_6 | ]. split; [reflexivity | ]. split; [unfold content; cbn [set_ram mw_ram r6]; now rewrite alloc_new | ].
    intros _. cbn [safe set_ram mw_ram r6]. apply fresh_exists. }
  assert (Rv : forall A v, v = Ok (ValV A) -> ext w (fst (retv A w)) /\ mw_body (fst (retv A w)) = mw_body w /\ rmap (content (fst (retv A w))) (snd (retv A w)) = v /\ (snapshot w q -> match snd (retv A w) with Ok x => safe (fst (retv A w)) x | Err _ => True end)).
  { intros A v ->. unfold retv. cbn [fst snd rmap]. split; [apply ext_ram, rext_v | ]. split; [reflexivity | ]. split; [unfold content; cbn [set_ram mw_ram onv rv]; now rewrite alloc_new | ].
    intros _. cbn [safe set_ram mw_ram onv rv mw_gforce mw_q]. split; [apply fresh_exists | ]. split; [apply not_eq_sym, old_not_fresh, (ow_gforce _ O) | intros j; apply old_not_fresh, (ow_gpos _ O)]. }
  assert (Rn : forall A v, v = Ok (ValN A) -> ext w (fst (retn A w)) /\ mw_body (fst (retn A w)) = mw_body w /\ rmap (content (fst (retn A w))) (snd (retn A w)) = v /\ (snapshot w q -> match snd (retn A w) with Ok x => safe (fst (retn A w)) x | Err _ => True end)).
  { intros A v ->. unfold retn. cbn [fst snd rmap]. split; [apply ext_ram, rext_onn | ]. split; [reflexivity | ]. split; [unfold content; cbn [set_ram mw_ram onn rn]; now rewrite alloc_new | ].
    intros _. cbn [safe set_ram mw_ram onn rn mw_mass mw_visc mw_nle mw_imp]. split; [apply fresh_exists | ]. intros I. refine (old_not_fresh _ _ (ow_world _ O _ _) eq_refl). cbn [In] in *. tauto. }
  assert (Same : forall x, rmap (content w) x = shows e w q -> (snapshot w q -> match x with Ok y => safe w y | Err _ => True end) -> reads_ok e w q (w, x)).
  { intros x E S. split; [apply ext_refl | ]. split; [reflexivity | ]. split; [exact E | exact S]. }
  assert (Er : forall x, shows e w q = Err x -> reads_ok e w q (w, Err x)).
  { intros x E. apply Same; [now rewrite E | trivial]. }
  destruct q as [f | f | f | f | b | f | | | | | | | j | j]; cbn [fetch].
  - destruct f as [b | s | s].
    + apply Same; [ | intros _; destruct (ow_pose _ O b) as (A & B); destruct (v_pose (mw_body w b)) as [a | ]; [split; [exact A | intros m E; apply (B m); now rewrite E] | exact Logic.I]].
      unfold shows, frame_pose. cbn [frame_body store_in a_pose]. destruct (v_pose (mw_body w b)); reflexivity.
    + destruct (frame_pose e (scene_in w) (store_in w) (FSub s)) as [H | x] eqn:E; [apply R4 | apply Er]; unfold shows; rewrite E; reflexivity.
    + destruct (frame_pose e (scene_in w) (store_in w) (FMov s)) as [H | x] eqn:E; [apply R4 | apply Er]; unfold shows; rewrite E; reflexivity.
  - destruct f as [b | s | s].
    + apply Same; [ | intros _; destruct (ow_twist _ O b) as (A & B); destruct (v_twist (mw_body w b)) as [a | ]; [exact A | exact Logic.I]].
      unfold shows, frame_twist. cbn [store_in a_twist]. destruct (v_twist (mw_body w b)); reflexivity.
    + destruct (frame_twist e (scene_in w) (store_in w) (FSub s)) as [H | x] eqn:E; [apply R6 | apply Er]; unfold shows; rewrite E; reflexivity.
    + destruct (frame_twist e (scene_in w) (store_in w) (FMov s)) as [H | x] eqn:E; [apply R6 | apply Er]; unfold shows; rewrite E; reflexivity.
  - destruct f as [b | s | s].
    + apply Same; [ | intros _; destruct (ow_jac _ O b) as (A & B); destruct (v_jac (mw_body w b)) as [a | ]; [exact A | exact Logic.I]].
      unfold shows, frame_jac. cbn [store_in a_jac]. destruct (v_jac (mw_body w b)); reflexivity.
    + destruct (frame_jac e (scene_in w) (store_in w) (FSub s)) as [H | x] eqn:E; [apply Rj | apply Er]; unfold shows; rewrite E; reflexivity.
    + destruct (frame_jac e (scene_in w) (store_in w) (FMov s)) as [H | x] eqn:E; [apply Rj | apply Er]; unfold shows; rewrite E; reflexivity.
  - destruct f as [b | s | s].
    + apply Same; [ | intros _; destruct (ow_jac _ O b) as (A & B); destruct (v_djac (mw_body w b)) as [a | ]; [exact B | exact Logic.I]].
      unfold shows, frame_djac. cbn [store_in a_djac]. destruct (v_djac (mw_body w b)); reflexivity.
    + destruct (frame_djac e (scene_in w) (store_in w) (FSub s)) as [H | x] eqn:E; [apply Rj | apply Er]; unfold shows; rewrite E; reflexivity.
    + destruct (frame_djac e (scene_in w) (store_in w) (FMov s)) as [H | x] eqn:E; [apply Rj | apply Er]; unfold shows; rewrite E; reflexivity.
  - apply Same; [ | intros _; destruct (ow_twist _ O b) as (A & B); destruct (v_nle (mw_body w b)) as [a | ]; [exact B | exact Logic.I]].
    unfold shows. cbn [store_in a_nle]. destruct (v_nle (mw_body w b)); reflexivity.
  - apply R4. reflexivity.
  - apply Same; [reflexivity | intros []].
  - apply Same; [reflexivity | intros []].
  - apply Same; [reflexivity | intros []].
  - apply Rv. reflexivity.
  - apply Rv. reflexivity.
  - apply Rn. reflexivity.
  - apply Same; [unfold shows; cbn [rmap wst_in s_ty]; destruct (mw_ty w j); reflexivity | ]. cbn [snapshot]. intros ->. cbn [safe]. destruct (ow_gpos _ O j) as (_ & B & C). split; assumption.
  - apply Same; [reflexivity | intros []].
Qed.
Lemma fetch_kept e q w : owned w -> kept w (fst (fetch e q w)) /\ scene_in (fst (fetch e q w)) = scene_in w /\ store_in (fst (fetch e q w)) = store_in w /\ wst_in (fst (fetch e q w)) = wst_in w.
Proof.
  intros O. destruct (fetch_ok e q w O) as (X & Eb & _). set (w' := fst (fetch e q w)) in *.
  assert (O' : owned w'). { apply (owned_ext w); [assumption | assumption | ]. intros b. rewrite Eb. apply (fine_ext w); [exact X | exact (owned_fine w O b)]. }
  split; [now apply kept_ext | ]. split; [now apply ext_scene | ]. split; [ | now apply ext_wst]. apply store_same; [exact Eb | apply X | exact O].
Qed.
Lemma load_ok sc s : owned (load sc s) /\ unshared (load sc s) /\ scene_in (load sc s) = sc /\ wst_in (load sc s) = s /\ store_in (load sc s) = (fun _ => no_attr).
Proof.
  assert (M3 : forall k r, (r < 3)%nat -> (Nat.modulo (3 * k + r) 3 = r /\ (3 * k + r) / 3 = k)%nat).
  { intros k r L. rewrite (Nat.mul_comm 3 k), (Nat.add_comm (k * 3) r). split; [rewrite Nat.mod_add by lia; now apply Nat.mod_small | rewrite Nat.div_add by lia; rewrite Nat.div_small by exact L; lia]. }
  assert (M2 : forall k r, (r < 2)%nat -> (Nat.modulo (2 * k + r) 2 = r /\ (2 * k + r) / 2 = k)%nat).
  { intros k r L. rewrite (Nat.mul_comm 2 k), (Nat.add_comm (k * 2) r). split; [rewrite Nat.mod_add by lia; now apply Nat.mod_small | rewrite Nat.div_add by lia; rewrite Nat.div_small by exact L; lia]. }
  split; [ | split; [ | split; [ | split]]].
  - constructor; cbn [load mw_ram mw_body mw_bmass mw_bvisc mw_sub mw_mov mw_mass mw_visc mw_nle mw_imp mw_adm mw_gforce mw_q mw_qH v_pose v_jac v_djac v_twist v_nle all_exist exists_in].
    + intros b. split; [exact Logic.I | intros m; discriminate].
    + intros b. split; exact Logic.I.
    + intros b. split; exact Logic.I.
    + intros b. split; exact Logic.I.
    + intros b. split; exact Logic.I.
    + intros a [<- | [<- | [<- | [<- | [<- | []]]]]]; exact Logic.I.
    + repeat constructor; cbn [In]; intuition discriminate.
    + split; [exact Logic.I | intros j; discriminate].
    + intros j. split; [exact Logic.I | split; [exact Logic.I | intros m E; injection E; lia]].
    + intros i j E. injection E. auto.
  - split; cbn [load mw_mov mw_sub]; [intros m m' E; injection E; lia | intros m k E; injection E; lia].
  - unfold scene_in. cbn [load mw_ram r4 rm m_at mw_bmass mw_bvisc mw_sub mw_mov]. destruct sc as [bm bv sb mv]. cbn [b_mass b_visc sub_bpose mov_bpose]. f_equal; apply functional_extensionality; intros k.
    + destruct (M2 k 0%nat) as (A & B); [lia | ]. rewrite Nat.add_0_r in A, B. now rewrite A, B.
    + destruct (M2 k 1%nat) as (A & B); [lia | ]. now rewrite A, B.
    + destruct (M3 k 0%nat) as (A & B); [lia | ]. rewrite Nat.add_0_r in A, B. now rewrite A, B.
    + destruct (M3 k 1%nat) as (A & B); [lia | ]. now rewrite A, B.
  - unfold wst_in. cbn [load mw_ram r4 rv rn m_at mw_mass mw_visc mw_nle mw_imp mw_adm mw_heap mw_ty mw_qH mw_q mw_gforce mw_time]. destruct s as [h ty qH q [dm dv dn] gf im ad ti]. cbn [s_heap s_ty s_qH s_q s_dyn s_gforce s_imp s_adm s_time d_mass d_visc d_nle].
    f_equal. apply functional_extensionality. intros k. destruct (M3 k 2%nat) as (A & B); [lia | ]. now rewrite A, B.
  - reflexivity.
Qed.
