(** Arrays that the user keeps: C88 (the arrays of the kinematics are never changed afterwards), C89 (the matrices of the world are), C90 (moving frames). *)
From Coq Require Import Lra Lia FunctionalExtensionality.
From Verif Require Import Spec_Mem Proof_Mem Proof_Mem2 Proof_Mem3 Proof_Mem4 Proof_Mem5.
From Verif Require Import Spec_Dyn Proof_Linalg Proof_SE3 Proof_Dyn Proof_Dyn2 Props_Dyn Props_DynEx.
Open Scope R_scope.

(** A reading gives an array whose content is the value of the property, and changes no value. *)
Theorem C88_reading : forall e q w, owned w ->
  let (w', x) := fetch e q w in
  rmap (content w') x = shows e w q /\ owned w' /\ scene_in w' = scene_in w /\ store_in w' = store_in w /\ wst_in w' = wst_in w.
Proof.
  intros e q w O. assert (F := fetch_ok e q w O). assert (K := fetch_kept e q w O). destruct (fetch e q w) as (w' & x). cbn [fst snd] in *.
  destruct F as (_ & _ & F & _). destruct K as ((O' & _) & K). split; [exact F | split; [exact O' | exact K]].
Qed.
(** The array obtained keeps its content whatever the user calls afterwards, failing calls included. *)
Theorem C88_snapshot : forall e fuel q w w' x cs, owned w -> snapshot w q -> fetch e q w = (w', Ok x) -> legal_calls e fuel cs w' -> not_moved x cs ->
  content (mcalls_run e fuel cs w') x = content w' x.
Proof.
  intros e n q w w' x cs O Sn F L N. assert (Fo := fetch_ok e q w O). assert (K := fetch_kept e q w O). rewrite F in Fo, K. destruct Fo as (_ & _ & _ & Sf). cbn [fst snd] in *.
  destruct (mcalls_ok e n cs w' (proj1 (proj1 K)) L) as (_ & B). now apply B; [apply Sf | ].
Qed.
Lemma snapshot_same w w' q : wst_in w' = wst_in w -> snapshot w q -> snapshot w' q.
Proof. intros E. apply (f_equal s_ty) in E. cbn in E. destruct q; cbn; auto. now rewrite E. Qed.
(** which arrays the attributes refer to *)
Definition places (w : mworld) := (mw_mass w, mw_visc w, mw_nle w, mw_q w, mw_ty w).
Lemma ext_places w w' : ext w w' -> places w' = places w.
Proof. intros (_ & E). destruct (rest_inv _ _ E) as (_ & _ & _ & _ & (E1 & E2 & E3 & _) & E4 & _ & E5 & _). unfold places. congruence. Qed.
Lemma accumulate_places : forall bs w, places (fst (m_accumulate bs w)) = places w.
Proof. induction bs as [ | b bs IH]; intros w; [reflexivity | ]. cbn [m_accumulate]. destruct (accumulate _ _ _ _); [ | reflexivity]. rewrite IH. reflexivity. Qed.
Lemma controllers_places ctl dt : forall l w, places (fst (m_add_controllers ctl dt l w)) = places w.
Proof. induction l as [ | a l IH]; intros w; [reflexivity | ]. cbn [m_add_controllers]. destruct (ctl a dt) as [(f & Z) | ]; [ | reflexivity]. rewrite IH. reflexivity. Qed.
Lemma bposes_places : forall l w, places (fst (m_set_bposes l w)) = places w.
Proof. induction l as [ | (m & H) l IH]; intros w; [reflexivity | ]. cbn [m_set_bposes]. unfold m_set_bpose. destruct (ishomogeneousmatrix H); [ | reflexivity]. rewrite IH. reflexivity. Qed.
Lemma gforces_places : forall fs w, places (m_add_gforces fs w) = places w.
Proof. induction fs as [ | f fs IH]; intros w; [reflexivity | ]. cbn [m_add_gforces]. rewrite IH. reflexivity. Qed.
Lemma joint_places dt j w w' : m_integrate_joint dt j w = Ok w' -> places w' = places w.
Proof. unfold m_integrate_joint. destruct (jdof (mw_heap w) j) as [(a & b) | ]; [ | discriminate]. destruct (mw_ty w j); intros E; injection E as <-; reflexivity. Qed.
Lemma joints_places dt : forall js w, places (fst (m_integrate_joints dt js w)) = places w.
Proof. induction js as [ | j js IH]; intros w; [reflexivity | ]. cbn [m_integrate_joints]. destruct (m_integrate_joint dt j w) as [w1 | x] eqn:E; [ | reflexivity]. rewrite IH. now apply (joint_places dt j). Qed.
Lemma call_places e n c w : owned w -> c <> CGraph Init -> places (fst (mcall_run e n c w)) = places w.
Proof.
  intros O N. destruct c as [ | | linv ctl dt | bps fs | dt | o | m H | s a | m a | j q]; cbn [mcall_run].
  - unfold m_update_geometric. set (w1 := set_ram _ w).
    assert (O1 : owned w1) by (apply owned_ram; [assumption | apply rext_on4]).
    rewrite (ext_places w1); [reflexivity | ]. apply (m_geometric_ok e n (ground e) _ w1 O1 (fresh_exists _ _) (fun m => pose_unmoved w m O)).
  - unfold m_update_dynamic. assert (NK := new_kin_ok (Kin eye4 (fun _ => zero6) (fun _ => zero6) zero6) w O). destruct (new_kin _ w) as (k & w1). destruct NK as (X1 & O1 & K1 & _).
    assert (X2 := proj1 (m_dynamic_ok e n (ground e) k w1 O1 K1)). destruct (m_dynamic e n (ground e) k w1) as (w2 & [u | x]); cbn [fst] in *; [ | apply ext_places; eapply ext_trans; eassumption].
    assert (E : places (put3 wdyn0 w2) = places w) by (transitivity (places w2); [reflexivity | apply ext_places; eapply ext_trans; eassumption]).
    destruct (iter_descendant_bodies e n (mw_heap (put3 wdyn0 w2)) (ground e)); [rewrite accumulate_places | ]; exact E.
  - unfold m_update_controllers. destruct (Rlt_dec 0 dt); [ | reflexivity]. cbv zeta. match goal with |- context [m_add_controllers ctl dt ?l ?w1] => assert (E := controllers_places ctl dt l w1); destruct (m_add_controllers ctl dt l w1) as (w2 & [u | x]) end; cbn [fst] in *; [ | exact E].
    destruct (linv _ _); exact E.
  - unfold m_update_constraints. assert (E := bposes_places bps w). destruct (m_set_bposes bps w) as (w1 & [u | x]); cbn [fst] in *; [rewrite gforces_places | ]; exact E.
  - unfold m_integrate. destruct (Rlt_dec 0 dt); [ | reflexivity]. cbv zeta. match goal with |- context [iterjoints e n ?h] => destruct (iterjoints e n h) as [js | x] end; [ | reflexivity].
    match goal with |- context [m_integrate_joints dt js ?w1] => assert (E := joints_places dt js w1); destruct (m_integrate_joints dt js w1) as (w2 & [u | x]) end; exact E.
  - unfold m_graph. destruct (step 0 e n (mw_heap w) o) as (h & x). destruct o; try reflexivity. contradiction N; reflexivity.
  - unfold m_set_bpose. destruct (ishomogeneousmatrix H); reflexivity.
  - unfold m_new_sub. destruct (ishomogeneousmatrix _); reflexivity.
  - unfold m_new_mov. destruct (ishomogeneousmatrix _); reflexivity.
  - unfold m_set_gpos. destruct (mw_ty w j); reflexivity.
Qed.
Lemma graph_ty e n o w : mw_ty (fst (m_graph e n o w)) = mw_ty w.
Proof. unfold m_graph. destruct (step 0 e n (mw_heap w) o) as (h & x). destruct o; try reflexivity. destruct x; reflexivity. Qed.
Lemma init_dec (c : mcall) : {c = CGraph Init} + {c <> CGraph Init}.
Proof. destruct c as [ | | linv ctl dt | bps fs | dt | o | m H | s a | m a | j q]; try (right; discriminate). destruct o; try (right; discriminate). now left. Qed.
Lemma calls_ty e n : forall cs w, owned w -> legal_calls e n cs w -> mw_ty (mcalls_run e n cs w) = mw_ty w.
Proof.
  induction cs as [ | c cs IH]; intros w O L; [reflexivity | ]. destruct L as (L & Ls). cbn [mcalls_run]. rewrite IH; [ | apply (mcall_ok e n c w O L) | exact Ls].
  destruct (init_dec c) as [-> | N]; [apply graph_ty | ]. assert (E := call_places e n c w O N). unfold places in E. injection E. auto.
Qed.
Lemma calls_places e n : forall cs w, owned w -> legal_calls e n cs w -> no_init cs -> places (mcalls_run e n cs w) = places w.
Proof.
  induction cs as [ | c cs IH]; intros w O L N; [reflexivity | ]. destruct L as (L & Ls). cbn [mcalls_run].
  rewrite IH; [ | apply (mcall_ok e n c w O L) | exact Ls | intros I; apply N; now right]. apply call_places; [exact O | ]. intros ->. apply N. now left.
Qed.
(** *** C88: a recorder *)
Lemma watch_keeps e n q : forall css w, owned w -> legal_watch e n q css w ->
  let '(w', xs, vs) := watch e n q css w in owned w' /\ forall x, safe w x -> not_moved x (concat css) -> safe w' x /\ content w' x = content w x.
Proof.
  induction css as [ | cs css IH]; intros w O L; cbn [watch]; [split; [assumption | intros x S _; split; [exact S | reflexivity]] | ].
  destruct L as (L & Ls). destruct (mcalls_ok e n cs w O L) as (O1 & B1). set (w1 := mcalls_run e n cs w) in *.
  destruct (fetch_kept e q w1 O1) as ((O2 & B2) & _). destruct (fetch e q w1) as (w2 & x). cbn [fst] in *.
  assert (I := IH w2 O2 Ls). destruct (watch e n q css w2) as ((w3 & xs) & vs). destruct I as (O3 & B3). split; [exact O3 | ].
  intros y S N. destruct (B1 y S) as (S1 & E1). { intros m a J. apply (N m a). cbn [concat]. apply in_or_app. now left. }
  destruct (B2 y S1) as (S2 & E2). destruct (B3 y S2) as (S3 & E3). { intros m a J. apply (N m a). cbn [concat]. apply in_or_app. now right. }
  split; [exact S3 | congruence].
Qed.
(** Someone who keeps the arrays read after each group of calls, without copying them, has at the end exactly the values seen when they were read. *)
Theorem C88_record : forall e fuel q css w w' xs vs, owned w -> snapshot w q -> legal_watch e fuel q css w -> watch e fuel q css w = (w', xs, vs) ->
  (forall x, In (Ok x) xs -> not_moved x (concat css)) -> map (rmap (content w')) xs = vs.
Proof.
  intros e n q. induction css as [ | cs css IH]; intros w w' xs vs O Sn L W N; cbn [watch] in W.
  - injection W as _ <- <-. reflexivity.
  - destruct L as (L & Ls). destruct (mcalls_ok e n cs w O L) as (O1 & _). assert (Ty := calls_ty e n cs w O L). set (w1 := mcalls_run e n cs w) in *.
    destruct (fetch_kept e q w1 O1) as ((O2 & _) & _ & _ & Ew). destruct (fetch_ok e q w1 O1) as (_ & _ & _ & Sf).
    destruct (fetch e q w1) as (w2 & x). cbn [fst snd] in *.
    assert (Sn1 : snapshot w1 q) by (destruct q; cbn in *; auto; now rewrite Ty).
    assert (Sn2 : snapshot w2 q) by (apply (snapshot_same w1); assumption).
    assert (K := watch_keeps e n q css w2 O2 Ls). destruct (watch e n q css w2) as ((w3 & xs') & vs') eqn:E. injection W as <- <- <-. cbn [map]. f_equal.
    + destruct x as [x | y]; [ | reflexivity]. cbn [rmap]. f_equal. destruct K as (_ & K). apply K; [now apply Sf | ].
      intros m a J. apply (N x (or_introl eq_refl) m a). cbn [concat]. apply in_or_app. now right.
    + apply (IH w2 w3 xs' vs'); [assumption | assumption | assumption | exact E | ]. intros y Iy m a J. apply (N y (or_intror Iy) m a). cbn [concat]. apply in_or_app. now right.
Qed.

(** *** C88: the values after each call are those of Model_Dyn and Model_Step (which have no arrays) *)
Theorem C88_values : forall e fuel w, owned w ->
  (let (w', r) := mcall_run e fuel CGeometric w in scene_in w' = scene_in w /\ wst_in w' = wst_in w /\
     match world_update_geometric e (scene_in w) (mw_heap w) (joints_of (wst_in w)) fuel (store_in w) with Ok st => r = Ok tt /\ store_in w' = st | Err x => r = Err x end) /\
  (let (w', r) := mcall_run e fuel CDynamic w in scene_in w' = scene_in w /\
     match world_update_dynamic e (scene_in w) (mw_heap w) (joints_of (wst_in w)) fuel (store_in w) with
     | Ok (st, d) => r = Ok tt /\ store_in w' = st /\
         wst_in w' = WS (s_heap (wst_in w)) (s_ty (wst_in w)) (s_qH (wst_in w)) (s_q (wst_in w)) d (s_gforce (wst_in w)) (s_imp (wst_in w)) (s_adm (wst_in w)) (s_time (wst_in w))
     | Err x => r = Err x end) /\
  (forall linv ctl dt, let (w', r) := mcall_run e fuel (CControllers linv ctl dt) w in
     scene_in w' = scene_in w /\ store_in w' = store_in w /\ (wst_in w', r) = update_controllers linv ctl dt (wst_in w)) /\
  (forall dt, let (w', r) := mcall_run e fuel (CIntegrate dt) w in
     scene_in w' = scene_in w /\ store_in w' = store_in w /\ (wst_in w', r) = integrate e fuel dt (wst_in w)) /\
  (forall o, let (w', r) := mcall_run e fuel (CGraph o) w in
     scene_in w' = scene_in w /\ store_in w' = store_in w /\ (mw_heap w', r) = step 0 e fuel (mw_heap w) o).
Proof.
  intros e n w O. repeat split; cbn [mcall_run].
  - assert (A := m_update_geometric_ok e n w O). destruct (m_update_geometric e n w) as (w' & r). apply A.
  - assert (A := m_update_dynamic_ok e n w O). destruct (m_update_dynamic e n w) as (w' & r). destruct A as (_ & A & _ & B). split; [exact A | exact B].
  - intros linv ctl dt. assert (A := m_update_controllers_ok linv ctl dt w O). destruct (m_update_controllers linv ctl dt w) as (w' & r). apply A.
  - intros dt. assert (A := m_integrate_ok e n dt w O). destruct (m_integrate e n dt w) as (w' & r). destruct A as (_ & A & B & C). split; [exact A | split; [exact B | symmetry; exact C]].
  - intros o. assert (A := m_graph_ok e n o w O). destruct (m_graph e n o w) as (w' & r). destruct A as (_ & A & B & C & _). split; [exact A | split; [exact B | exact C]].
Qed.
(** ownership lasts *)
Theorem C88_owned : forall e fuel cs w, owned w -> legal_calls e fuel cs w -> owned (mcalls_run e fuel cs w).
Proof. intros e n cs w O L. apply (mcalls_ok e n cs w O L). Qed.

(** *** C89 *)
Theorem C89_live : forall e fuel q w w' x cs, owned w -> live_query w q -> fetch e q w = (w', x) -> legal_calls e fuel cs w' -> no_init cs ->
  rmap (content (mcalls_run e fuel cs w')) x = shows e (mcalls_run e fuel cs w') q.
Proof.
  intros e n q w w' x cs O Lq F L N. destruct q; try contradiction; cbn [fetch] in F; injection F as <- <-; assert (P := calls_places e n cs w O L N); unfold places in P; injection P as P1 P2 P3 P4 P5; cbn [rmap content shows wst_in s_dyn d_mass d_visc d_nle].
  - now rewrite P1.
  - now rewrite P2.
  - now rewrite P3.
  - change (s_ty (wst_in (mcalls_run e n cs w)) j) with (mw_ty (mcalls_run e n cs w) j). cbn [live_query] in Lq. rewrite P5. change (s_q (wst_in (mcalls_run e n cs w)) j) with (m_at (rv (mw_ram (mcalls_run e n cs w))) (mw_q (mcalls_run e n cs w) j)). destruct (mw_ty w j); try (cbn [content]; now rewrite P4). contradiction Lq; reflexivity.
Qed.
(** so that a history of these attributes holds as many times the last value *)
Theorem C89_history : forall e fuel q css w w' xs vs, owned w -> live_query w q -> legal_watch e fuel q css w -> no_init (concat (tl css)) -> watch e fuel q css w = (w', xs, vs) ->
  map (rmap (content w')) xs = repeat (shows e w' q) (length css).
Proof.
  intros e n q.
  assert (G : forall css w w' xs vs, owned w -> live_query w q -> legal_watch e n q css w -> no_init (concat css) -> watch e n q css w = (w', xs, vs) ->
    owned w' /\ places w' = places w /\ map (rmap (content w')) xs = repeat (shows e w' q) (length css)).
  { induction css as [ | cs css IH]; intros w w' xs vs O Lq L N W; cbn [watch] in W.
    - injection W as <- <- <-. split; [assumption | ]. split; reflexivity.
    - destruct L as (L & Ls). assert (N1 : no_init cs) by (intros I; apply N; cbn [concat]; apply in_or_app; now left). assert (N2 : no_init (concat css)) by (intros I; apply N; cbn [concat]; apply in_or_app; now right).
      destruct (mcalls_ok e n cs w O L) as (O1 & _). assert (P1 := calls_places e n cs w O L N1). set (w1 := mcalls_run e n cs w) in *.
      assert (Lq1 : live_query w1 q) by (unfold places in P1; injection P1 as _ _ _ _ P; destruct q; cbn in *; auto; now rewrite P).
      assert (Fx : fetch e q w1 = (w1, snd (fetch e q w1))) by (destruct q; try contradiction; reflexivity). rewrite Fx in W. rewrite Fx in Ls. cbn [fst] in Ls.
      destruct (watch e n q css w1) as ((w3 & xs') & vs') eqn:E. injection W as <- <- <-. destruct (IH w1 w3 xs' vs' O1 Lq1 Ls N2 E) as (O3 & P3 & M). split; [exact O3 | ]. split; [congruence | ].
      cbn [map length repeat]. f_equal; [ | exact M]. unfold places in P3; injection P3 as Q1 Q2 Q3 Q4 Q5.
      destruct q; try contradiction; cbn [fetch snd rmap content shows wst_in s_dyn d_mass d_visc d_nle]; [now rewrite Q1 | now rewrite Q2 | now rewrite Q3 | ].
      change (s_ty (wst_in w3) j) with (mw_ty w3 j). change (s_q (wst_in w3) j) with (m_at (rv (mw_ram w3)) (mw_q w3 j)). cbn [live_query] in Lq1. rewrite Q5. destruct (mw_ty w1 j); try (cbn [content]; now rewrite Q4). contradiction Lq1; reflexivity. }
  intros css w w' xs vs O Lq L N W. destruct css as [ | cs css]; [cbn [watch] in W; injection W as <- <- <-; reflexivity | ].
  cbn [watch] in W. destruct L as (L & Ls). destruct (mcalls_ok e n cs w O L) as (O1 & _). assert (Ty := calls_ty e n cs w O L). set (w1 := mcalls_run e n cs w) in *.
  assert (Lq1 : live_query w1 q) by (destruct q; cbn in *; auto; now rewrite Ty).
  assert (Fx : fetch e q w1 = (w1, snd (fetch e q w1))) by (destruct q; try contradiction; reflexivity). rewrite Fx in W. rewrite Fx in Ls. cbn [fst] in Ls.
  destruct (watch e n q css w1) as ((w3 & xs') & vs') eqn:E. injection W as <- <- <-. destruct (G css w1 w3 xs' vs' O1 Lq1 Ls N E) as (O3 & P3 & M).
  cbn [map length repeat]. f_equal; [ | exact M]. unfold places in P3; injection P3 as Q1 Q2 Q3 Q4 Q5.
  destruct q; try contradiction; cbn [fetch snd rmap content shows wst_in s_dyn d_mass d_visc d_nle]; [now rewrite Q1 | now rewrite Q2 | now rewrite Q3 | ].
  change (s_ty (wst_in w3) j) with (mw_ty w3 j). change (s_q (wst_in w3) j) with (m_at (rv (mw_ram w3)) (mw_q w3 j)). cbn [live_query] in Lq1. rewrite Q5. destruct (mw_ty w1 j); try (cbn [content]; now rewrite Q4). contradiction Lq1; reflexivity.
Qed.

(** *** C90 *)
(** Moving a frame made from an array of its own moves this frame only. *)
Theorem C90_apart : forall e fuel m H w, owned w -> unshared w -> ishomogeneousmatrix H = true ->
  let (w', r) := mcall_run e fuel (CMove m H) w in
  r = Ok tt /\ owned w' /\ unshared w' /\ bpose (scene_in w') (FMov m) = H /\
  (forall f, f <> FMov m -> bpose (scene_in w') f = bpose (scene_in w) f /\
     shows e w' (QPose f) = shows e w (QPose f) /\ shows e w' (QTwist f) = shows e w (QTwist f) /\ shows e w' (QJac f) = shows e w (QJac f)) /\
  store_in w' = store_in w /\ wst_in w' = wst_in w.
Proof.
  intros e n m H w O U G. cbn [mcall_run]. assert (A := m_set_bpose_ok m H w O). assert (B := m_set_bpose_unshared m H w O U G).
  destruct (m_set_bpose m H w) as (w' & r). cbn [fst] in B. rewrite G in A. destruct A as ((O' & _) & A2 & A3 & (A4 & A5) & (A6 & _)).
  assert (Ef : forall f, f <> FMov m -> bpose (scene_in w') f = bpose (scene_in w) f).
  { intros f N. rewrite B. destruct f as [b | s | s]; try reflexivity. cbn [bpose set_mov mov_bpose]. unfold upd. destruct (Nat.eqb_spec s m) as [-> | _]; [now contradiction N | reflexivity]. }
  split; [exact A6 | ]. split; [exact O' | ]. split; [unfold unshared; rewrite A4, A5; exact U | ]. split; [rewrite B; cbn [bpose set_mov mov_bpose]; unfold upd; now rewrite Nat.eqb_refl | ].
  split; [ | split; [exact A2 | exact A3]].
  intros f N. specialize (Ef f N). split; [exact Ef | ]. unfold shows. cbv zeta. unfold frame_pose, frame_twist, frame_jac. rewrite A2.
  destruct f as [b | s | s]; [repeat split; reflexivity | | ]; rewrite Ef; repeat split; reflexivity.
Qed.
(** Frames made from arrays that no other frame uses keep this. *)
Theorem C90_new_frames : forall e fuel w, unshared w ->
  (forall s a, (forall m, mw_mov w m <> a) -> unshared (fst (mcall_run e fuel (CNewSub s a) w))) /\
  (forall m a, (forall k, mw_mov w k <> a) -> (forall s, mw_sub w s <> a) -> unshared (fst (mcall_run e fuel (CNewMov m a) w))).
Proof.
  intros e n w (U1 & U2). split; cbn [mcall_run].
  - intros s a N. unfold m_new_sub. destruct (ishomogeneousmatrix _); [ | split; assumption]. split; cbn [fst mw_mov mw_sub]; [exact U1 | ]. intros m k. unfold upd. destruct (Nat.eqb k s); [apply N | apply U2].
  - intros m a N1 N2. unfold m_new_mov. destruct (ishomogeneousmatrix _); [ | split; assumption]. split; cbn [fst mw_mov mw_sub].
    + intros k l. unfold upd. destruct (Nat.eqb_spec k m) as [-> | Nk], (Nat.eqb_spec l m) as [-> | Nl]; auto; [intros E; exfalso; exact (N1 l (eq_sym E)) | intros E; exfalso; exact (N1 k E)].
    + intros k l. unfold upd. destruct (Nat.eqb_spec k m) as [-> | Nk]; [intros E; exact (N2 l (eq_sym E)) | apply U2].
Qed.
(** Every frame made from the same array moves together, rigid subframes included. *)
Theorem C90_shared : forall e fuel m H w, owned w -> ishomogeneousmatrix H = true ->
  let w' := fst (mcall_run e fuel (CMove m H) w) in
  (forall s, bpose (scene_in w') (FSub s) = if addr_eqb (mw_sub w s) (mw_mov w m) then H else bpose (scene_in w) (FSub s)) /\
  (forall k, bpose (scene_in w') (FMov k) = if addr_eqb (mw_mov w k) (mw_mov w m) then H else bpose (scene_in w) (FMov k)).
Proof.
  intros e n m H w O G. cbn [mcall_run]. assert (A := m_set_bpose_ok m H w O). destruct (m_set_bpose m H w) as (w' & r). cbn [fst]. rewrite G in A. destruct A as (_ & _ & _ & _ & (_ & _ & _ & A1 & A2)). split; [exact A1 | exact A2].
Qed.
(** H = eye(4); r = SubFrame(b, H); m = MovingSubFrame(b, H); m.bpose = transl(1,0,0): the rigid subframe [r] has moved. *)
Definition shift1 : m4 := transl 1 0 0.
Lemma shift1_hom : ishomogeneousmatrix shift1 = true.
Proof. apply ishom_SE3. apply transl_SE3. Qed.
Theorem C90_subframe_refuted : forall e fuel sc s, sub_bpose sc 0%nat = eye4 ->
  exists w cs w', owned w /\ unshared w /\ scene_in w = sc /\ wst_in w = s /\ legal_calls e fuel cs w /\ w' = mcalls_run e fuel cs w /\
    (* the calls succeed and none of them concerns the subframe 1 after its creation *)
    cs = [CNewSub 1%nat (AObj 0); CNewMov 1%nat (AObj 0); CMove 1%nat shift1] /\
    bpose (scene_in (mcalls_run e fuel [CNewSub 1%nat (AObj 0); CNewMov 1%nat (AObj 0)] w)) (FSub 1%nat) = eye4 /\ bpose (scene_in w') (FSub 1%nat) = shift1 /\ shift1 <> eye4.
Proof.
  intros e n sc s E0. destruct (load_ok sc s) as (O & U & Es & Ew & Est). set (w := load sc s) in *.
  assert (H0 : m_at (r4 (mw_ram w)) (AObj 0) = eye4) by exact E0.
  exists w, [CNewSub 1%nat (AObj 0); CNewMov 1%nat (AObj 0); CMove 1%nat shift1]. eexists. split; [exact O | ]. split; [exact U | ]. split; [exact Es | ]. split; [exact Ew | ].
  assert (He : ishomogeneousmatrix eye4 = true) by (apply ishom_SE3; apply SE3_eye).
  assert (W1 : m_new_sub 1 (AObj 0) w = (MW (mw_ram w) (mw_body w) (mw_bmass w) (mw_bvisc w) (upd (mw_sub w) 1 (AObj 0)) (mw_mov w) (mw_mass w) (mw_visc w) (mw_nle w) (mw_gforce w) (mw_imp w) (mw_adm w) (mw_ty w) (mw_qH w) (mw_q w) (mw_heap w) (mw_time w), Ok tt)) by (unfold m_new_sub; rewrite H0, He; reflexivity).
  set (w1 := fst (m_new_sub 1 (AObj 0) w)). assert (E1 : w1 = fst (m_new_sub 1 (AObj 0) w)) by reflexivity. rewrite W1 in E1. cbn [fst] in E1.
  assert (W2 : m_new_mov 1 (AObj 0) w1 = (MW (mw_ram w) (mw_body w) (mw_bmass w) (mw_bvisc w) (upd (mw_sub w) 1 (AObj 0)) (upd (mw_mov w) 1 (AObj 0)) (mw_mass w) (mw_visc w) (mw_nle w) (mw_gforce w) (mw_imp w) (mw_adm w) (mw_ty w) (mw_qH w) (mw_q w) (mw_heap w) (mw_time w), Ok tt)).
  { rewrite E1. unfold m_new_mov. cbn [mw_ram]. rewrite H0, He. reflexivity. }
  split; [ | split; [reflexivity | split; [reflexivity | ]]].
  - cbn [legal_calls mcall_run legal]. fold w1. split; [exact Logic.I | ]. split; [ | split; exact Logic.I]. rewrite E1. cbn [mw_ram mw_body mw_qH]. split; [exact Logic.I | ]. split; [intros b; discriminate | intros j E; injection E; lia].
  - cbn [mcalls_run mcall_run]. fold w1. rewrite W2. cbn [fst]. unfold m_set_bpose. rewrite shift1_hom. cbn [fst].
    split; [exact H0 | split; [reflexivity | ]]. intros E. apply (f_equal (fun M => vx (Model_Linalg.pos M))) in E. cbn in E. lra.
Qed.
