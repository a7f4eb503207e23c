(** C86: the files of the loggers. *)
From Coq Require Import Lra Lia.
From Verif Require Import Spec_File Spec_Step Spec_Dyn Proof_World Proof_Tree Proof_Sim Proof_Sim2 Proof_Sim3 Proof_Sim4 Proof_Sim5 Props_Sim Props_Sim2 Props_Sim4 Props_Sim6 Proof_Matrix Props_Dyn Props_DynEx Props_EnergyEx Proof_Anim2 Proof_File Props_Anim Props_Anim2.
Open Scope R_scope.

(** The transforms of an Hdf5Logger are read back: at the end of any simulation with such a logger that saves transforms only, given
    a new file, and in whatever order its dictionaries are listed, finish succeeds and closes the file, and the animation writer
    then reads the times of the steps and exactly the transforms recorded at each of them, under the same names *)
Theorem C86_roundtrip : forall U O t0 ts obs x y i o g ndof els, NoDup obs -> In i obs -> O i = OLog o ->
  lo_transforms o = true -> lo_state o = false -> lo_model o = false ->
  simulate U O (t0 :: ts) (IterList obs) x = (y, Ok tt) -> sm_obs y i = MLog g -> reordered els (log_root o ndof g) ->
  exists f tr, hdf5_logger_finish g els h5_empty = (f, Ok tt) /\ h5_open f = false /\
    read_h5 f = Ok (removelast (t0 :: ts), tr) /\ Permutation tr (map (fun x => (fst x, saved_rows (snd x))) (lg_tr g)).
Proof.
  intros U O t0 ts obs x y i o g ndof els N Hi Eo Tr St Md E Eg (d1 & P & F). unfold log_root in P. rewrite Tr, St, Md in P. cbn [app] in P. apply Permutation_sym in P. apply Permutation_length_1_inv in P. subst d1.
  remember [("transforms"%string, dic_map rows4_array (lg_tr g))] as r eqn:Er. destruct F as [ | (e, l) (e', l') els r' (Fe & Fl) F]; [discriminate | ]. injection Er as -> -> ->. cbn [fst snd] in *. subst e. inversion F; subst. clear F.
  assert (K := run_keys U O t0 ts obs x y i o N Hi Eo E g Eg).
  destruct (C20_logger_partial U O t0 ts obs x y i o N Hi Eo E) as (g' & Eg' & Tm & _ & _ & Q). rewrite Eg in Eg'. injection Eg' as <-. specialize (Q Tr). destruct Q as (_ & _ & Q).
  assert (Lt : length (lg_time g) = length ts). { rewrite Tm, map_length. clear. revert t0. induction ts as [ | u ts IH]; intros t0; [reflexivity | ]. change (removelast (t0 :: u :: ts)) with (t0 :: removelast (u :: ts)). cbn [length]. now rewrite IH. }
  assert (Ll : forall k M, In (k, M) (lg_tr g) -> length M = length ts). { intros k M J. destruct (Q k M (dic_get_in _ _ _ K J)) as (_ & _ & _ & _ & L & _). exact L. }
  assert (Es : saved_times (lg_time g) = removelast (t0 :: ts)) by (rewrite Tm; unfold saved_times; rewrite map_map; apply map_id).
  set (n := length (lg_time g)) in *.
  assert (Sh : forall k v, In (k, v) l -> exists M, v = rows4_array M /\ In (k, M) (lg_tr g) /\ length M = n).
  { intros k v J. apply (Permutation_in _ Fl) in J. unfold dic_map in J. apply in_map_iff in J. destruct J as ((k', M) & Q' & J). injection Q' as <- <-. exists M. split; [reflexivity | ]. split; [exact J | ]. rewrite (Ll k' M J). now symmetry. }
  assert (Nl : NoDup (map fst l)). { apply (Permutation_NoDup (l := map fst (dic_map rows4_array (lg_tr g)))); [apply Permutation_map; now apply Permutation_sym | ]. unfold dic_map. rewrite map_map. cbn [fst]. exact K. }
  exists (H5 false (Some (kept (time_array (lg_time g)))) [("transforms"%string, dic_map kept l)]), (map (fun x => (fst x, match read_poses (kept (snd x)) with Ok M => M | Err _ => [] end)) l).
  split; [ | split; [reflexivity | ]].
  - unfold hdf5_logger_finish, hdf5_finish. cbn [h5_open h5_time h5_empty negb h5_groups]. change [length (lg_time g)] with (nd_shape (time_array (lg_time g))). rewrite assign_same. cbn [write_groups dic_get].
    fold n. rewrite (write_group_new n l []); [reflexivity | exact Nl | ]. intros k v J. destruct (Sh k v J) as (M & -> & _ & LM). cbn [nd_shape rows4_array]. now rewrite LM.
  - split.
    + unfold read_h5. cbn [h5_time h5_groups rbind]. rewrite read_kept_times. cbn [rbind dic_get]. rewrite String.eqb_refl. cbn [rbind].
      assert (X : rmapM (fun x0 => let* M := read_poses (snd x0) in Ok (fst x0, M)) (dic_map kept l) = Ok (map (fun x => (fst x, match read_poses (kept (snd x)) with Ok M => M | Err _ => [] end)) l)).
      { clear - Sh. induction l as [ | (k, v) l IH]; [reflexivity | ]. cbn [dic_map map rmapM fst snd]. destruct (Sh k v (or_introl eq_refl)) as (M & -> & _ & LM). rewrite (read_kept M n LM). cbn [rbind]. unfold dic_map in IH. rewrite IH; [reflexivity | ]. intros k' v' J. apply Sh. now right. }
      rewrite X. cbn [rbind]. rewrite Es. reflexivity.
    + transitivity (map (fun x => (fst x, match read_poses (kept (snd x)) with Ok M => M | Err _ => [] end)) (dic_map rows4_array (lg_tr g))); [now apply Permutation_map | ].
      unfold dic_map. rewrite map_map. cbn [fst snd]. rewrite (map_ext_in _ (fun x => (fst x, saved_rows (snd x)))); [reflexivity | ]. intros (k, M) J. cbn [fst snd]. rewrite (read_kept M n); [reflexivity | ]. rewrite (Ll k M J). now symmetry.
Qed.

(** Whatever the file and the options, the only exception of finish on an open file is TypeError; when it succeeds the file is closed,
    and the same logger cannot finish again: ValueError, and the file is unchanged. *)
Lemma finish_open g els f : h5_open f = true ->
  (snd (hdf5_logger_finish g els f) = Ok tt /\ h5_open (fst (hdf5_logger_finish g els f)) = false /\ exists gs, write_groups (length (lg_time g)) els (h5_groups f) = (gs, Ok tt) /\ h5_groups (fst (hdf5_logger_finish g els f)) = gs) \/
  (snd (hdf5_logger_finish g els f) = Err TypeError /\ h5_open (fst (hdf5_logger_finish g els f)) = true).
Proof.
  intros Op. unfold hdf5_logger_finish, hdf5_finish. rewrite Op. cbn [negb]. destruct (match h5_time f with Some a => negb _ | None => false end); [right; split; [reflexivity | exact Op] | ].
  change [length (lg_time g)] with (nd_shape (time_array (lg_time g))). rewrite assign_same. destruct (write_groups _ _ _) as (gs, [[] | e]) eqn:Ew; [left | right]; cbn [fst snd h5_open h5_groups]; [split; [reflexivity | ]; split; [reflexivity | ]; exists gs; auto | ].
  split; [now rewrite (write_groups_err _ _ _ _ _ Ew) | reflexivity].
Qed.
Theorem C86_reuse_refuted : forall g els f f', hdf5_logger_finish g els f = (f', Ok tt) ->
  forall g' els', hdf5_logger_finish g' els' f' = (f', Err ValueError).
Proof.
  intros g els f f' E g' els'. destruct (h5_open f) eqn:Op; [ | unfold hdf5_logger_finish, hdf5_finish in E; rewrite Op in E; discriminate].
  destruct (finish_open g els f Op) as [(_ & Q & _) | (Q & _)]; rewrite E in Q; cbn [fst snd] in Q; [ | discriminate]. unfold hdf5_logger_finish, hdf5_finish. now rewrite Q.
Qed.
Lemma reordered_in {A} (d d' : dic (dic A)) e l k v : reordered d d' -> In (e, l) d' -> In (k, v) l -> exists l', In (e, l') d /\ In (k, v) l'.
Proof.
  intros (d1 & P & F) J Jl. apply Permutation_sym in P. apply (Permutation_in _ P) in J. clear P. induction F as [ | (e1, l1) (e2, l2) d d1 (Fe & Fl) F IH]; [destruct J | ]. cbn [fst snd] in *. subst e1. destruct J as [Q | J].
  - injection Q as -> ->. exists l1. split; [now left | ]. exact (Permutation_in _ (Permutation_sym Fl) Jl).
  - destruct (IH J) as (l' & A1 & A2). exists l'. split; [now right | exact A2].
Qed.
Lemma finish_fails g els f o ndof e l k v : h5_open f = true -> reordered els (log_root o ndof g) -> In (e, l) (log_root o ndof g) -> In (k, v) l ->
  broadcasts (rev (nd_shape v)) [4; 4; length (lg_time g)]%nat = false -> snd (hdf5_logger_finish g els f) = Err TypeError.
Proof.
  intros Op Re J Jl B. destruct (finish_open g els f Op) as [(_ & _ & gs & Ew & _) | (Q & _)]; [ | exact Q]. exfalso. destruct (reordered_in _ _ _ _ _ _ Re J Jl) as (l' & J1 & J2). rewrite (write_groups_ok _ _ _ _ Ew _ _ _ _ J1 J2) in B. discriminate.
Qed.
Lemma bc2 d n : broadcasts [d; n]%nat [4; 4; n]%nat = true -> (d = 1 \/ d = 4)%nat /\ (n = 1 \/ n = 4)%nat.
Proof.
  cbn [broadcasts]. intros E. apply andb_prop in E. destruct E as (E1 & E2). apply andb_prop in E2. destruct E2 as (E2 & _). apply orb_prop in E1. apply orb_prop in E2. rewrite !Nat.eqb_eq in *. lia.
Qed.

Lemma live_gvel e h t j : live e h t -> In j (joints t) -> length (joint_gvel h j) = jndof e j.
Proof.
  intros ((_ & _ & _ & Nd & Dj) & Lg & Vw) J. apply in_split in J. destruct J as (l1 & l2 & Ej). specialize (Dj l1 j l2 Ej).
  assert (J : In j (joints t)) by (rewrite Ej; apply in_app_iff; right; now left). unfold joint_gvel. rewrite (Vw j _ _ J Dj).
  unfold read. cbn [v_len v_start v_arr]. rewrite firstn_length, skipn_length. unfold world_gvel in Lg. rewrite Lg, Nd, Ej. unfold total_ndof. rewrite map_app, list_sum_app. cbn [map list_sum fold_right]. lia.
Qed.
Lemma times_length U O t0 ts obs x y i o g : NoDup obs -> In i obs -> O i = OLog o -> simulate U O (t0 :: ts) (IterList obs) x = (y, Ok tt) -> sm_obs y i = MLog g -> length (lg_time g) = length ts.
Proof.
  intros N Hi Eo E Eg. destruct (C20_logger_partial U O t0 ts obs x y i o N Hi Eo E) as (g' & Eg' & Tm & _). rewrite Eg in Eg'. injection Eg' as <-. rewrite Tm, map_length. clear. revert t0. induction ts as [ | u ts IH]; intros t0; [reflexivity | ]. change (removelast (t0 :: u :: ts)) with (t0 :: removelast (u :: ts)). cbn [length]. now rewrite IH.
Qed.
(** Finding: every dataset is required with the shape (n, 4, 4).  So a simulation of a world built with the API, of at least one
    step, with an Hdf5Logger that saves the state, ends with TypeError as soon as a joint has several degrees of freedom, or as the
    world has a joint and the number of steps is neither 1 nor 4: whatever the file and the order of the dictionaries *)
Theorem C86_state_refuted : forall U O t0 ts obs x y g0 t i o g ndof els f j, let h := s_heap (w_s (sm_w x)) in
  reachable 0 (su_e U) g0 h -> rep (su_e U) h t -> root t = ground (su_e U) -> (height t < su_fuel U)%nat ->
  (forall j, In j (joints t) -> jndof (su_e U) j = ndof_of (s_ty (w_s (sm_w x)) j)) ->
  NoDup obs -> In i obs -> O i = OLog o -> lo_state o = true -> ts <> [] ->
  simulate U O (t0 :: ts) (IterList obs) x = (y, Ok tt) -> sm_obs y i = MLog g -> reordered els (log_root o ndof g) -> h5_open f = true ->
  In j (joints t) -> ~ (jndof (su_e U) j = 1%nat /\ (length ts = 1%nat \/ length ts = 4%nat)) ->
  snd (hdf5_logger_finish g els f) = Err TypeError.
Proof.
  intros U O t0 ts obs x y g0 t i o g ndof els f j h Rc Rt Er F Hty N Hi Eo St Ne E Eg Re Op J Bad.
  assert (Lt := times_length U O t0 ts obs x y i o g N Hi Eo E Eg).
  destruct (C20_logger_partial U O t0 ts obs x y i o N Hi Eo E) as (g' & Eg' & _ & _ & Q & _). rewrite Eg in Eg'. injection Eg' as <-. specialize (Q St). destruct Q as (js & Ej & _ & Q).
  destruct (Proof_World4.world_iterators (su_e U) h (Proof_World3.reachable_forest 0 _ _ _ Rc)) as (t2 & R2 & E2 & _ & _ & It). assert (t2 = t) by (apply (rep_unique (su_e U) h t2 t R2 Rt); congruence). subst t2. destruct (It (su_fuel U)) as (It1 & _). destruct (It1 F) as (_ & Ij0). fold h in Ej. rewrite Ij0 in Ej. injection Ej as <-.
  destruct (Q j J) as (P & V & EP & EV & LP & LV & Qk). assert (L0 : (0 < length ts)%nat) by (destruct ts; [congruence | cbn; lia]).
  destruct (steps_exist U O t0 ts obs x y 0%nat E L0) as (v & Av). destruct (Qk 0%nat v Av) as (P0 & V0). destruct (step_current U O t0 ts obs x 0%nat v g0 t Rc Rt Er F Hty Av) as (_ & Lv & Ty & _).
  set (nm := name_of (sm_names y) (id_joint j)) in *.
  assert (In1 : In (nm, rows_array P) (dic_map rows_array (lg_pos g))) by (unfold dic_map; apply in_map_iff; exists (nm, P); split; [reflexivity | now apply dic_get_ok_in]).
  assert (In2 : In (nm, rows_array V) (dic_map rows_array (lg_vel g))) by (unfold dic_map; apply in_map_iff; exists (nm, V); split; [reflexivity | now apply dic_get_ok_in]).
  assert (G2 : In ("gvelocities"%string, dic_map rows_array (lg_vel g)) (log_root o ndof g)) by (unfold log_root; rewrite St; right; left; reflexivity).
  destruct V as [ | v0 V]; [discriminate | ]. cbn in V0. injection V0 as ->.
  apply (finish_fails g els f o ndof _ _ nm _ Op Re G2 In2). unfold rows_array. rewrite LV, Lt. unfold gvel_value. cbn [nd_shape pv_shape rev app]. assert (LG1 := live_gvel (su_e U) (heap_of v) t j Lv J). change (heap_of v) with (s_heap (w_s (sm_w v))) in LG1. rewrite LG1.
  destruct (broadcasts _ _) eqn:Eb; [ | reflexivity]. exfalso. apply bc2 in Eb. destruct Eb as (D & Nn). apply Bad. split; [ | exact Nn]. destruct D as [D | D]; [exact D | ]. exfalso. rewrite (Hty j J) in D. destruct (s_ty (w_s (sm_w x)) j); discriminate.
Qed.
(** The same with the option save_model: TypeError unless the world has 1 or 4 degrees of freedom and there are 1 or 4 steps. *)
Theorem C86_model_refuted : forall U O t0 ts obs x y i o g ndof els f, NoDup obs -> In i obs -> O i = OLog o -> lo_model o = true ->
  simulate U O (t0 :: ts) (IterList obs) x = (y, Ok tt) -> sm_obs y i = MLog g -> reordered els (log_root o ndof g) -> h5_open f = true ->
  ~ ((ndof = 1%nat \/ ndof = 4%nat) /\ (length ts = 1%nat \/ length ts = 4%nat)) ->
  snd (hdf5_logger_finish g els f) = Err TypeError.
Proof.
  intros U O t0 ts obs x y i o g ndof els f N Hi Eo Md E Eg Re Op Bad. assert (Lt := times_length U O t0 ts obs x y i o g N Hi Eo E Eg).
  destruct (C20_logger_partial U O t0 ts obs x y i o N Hi Eo E) as (g' & Eg' & _ & Q & _). rewrite Eg in Eg'. injection Eg' as <-. specialize (Q Md). destruct Q as (Lm & _).
  assert (G : In ("model"%string, model_arrays ndof (lg_model g)) (log_root o ndof g)). { unfold log_root. rewrite Md. apply in_app_iff. right. apply in_app_iff. right. now left. }
  apply (finish_fails g els f o ndof _ _ _ _ Op Re G (or_introl eq_refl)). unfold vec_array. cbn [nd_shape rev app]. rewrite Lm, Lt. destruct (broadcasts _ _) eqn:Eb; [ | reflexivity]. exfalso. apply bc2 in Eb. exact (Bad Eb).
Qed.
(** Finding: the datasets never have the documented shape ("gvel" (nsteps, ndof), "mass" (nsteps, ndof, ndof)...): when finish succeeds,
    every array that was saved has the shape (nsteps, 4, 4) in the file *)
Theorem C86_shape_refuted : forall g els f f' o ndof, reordered els (log_root o ndof g) -> hdf5_logger_finish g els f = (f', Ok tt) ->
  forall e l k v, In (e, l) (log_root o ndof g) -> In (k, v) l -> exists a, stored f' e k a /\ nd_shape a = [length (lg_time g); 4; 4]%nat.
Proof.
  intros g els f f' o ndof Re E e l k v J Jl. destruct (h5_open f) eqn:Op; [ | unfold hdf5_logger_finish, hdf5_finish in E; rewrite Op in E; discriminate].
  destruct (finish_open g els f Op) as [(_ & _ & gs & Ew & Q) | (Q & _)]; rewrite E in Q; cbn [fst snd] in Q; [ | discriminate]. destruct (reordered_in _ _ _ _ _ _ Re J Jl) as (l' & J1 & J2).
  assert (Nd : NoDup (map fst els)).
  { destruct Re as (d1 & P & F). assert (Em : map fst els = map fst d1) by (clear -F; induction F as [ | a b l1 l2 (H1 & _) F IH]; [reflexivity | destruct a, b; cbn [map fst] in *; subst; f_equal; exact IH]). rewrite Em. apply (Permutation_NoDup (l := map fst (log_root o ndof g))); [apply Permutation_map; now apply Permutation_sym | ].
    unfold log_root. clear. destruct (lo_state o), (lo_transforms o), (lo_model o); cbn [app map fst]; repeat constructor; cbn; intuition discriminate. }
  destruct (proj2 (write_groups_stored _ els Nd _ _ Ew) _ _ _ _ J1 J2) as (d & a & A & B & C). exists a. split; [ | exact C]. exists d. rewrite Q. auto.
Qed.
Print Assumptions C86_roundtrip. Print Assumptions C86_state_refuted.

(** the simulation of C85_witness with a logger of the transforms, and with a logger of the state *)
Example C86_witness : exists x y g, simulate sy_U an_O [0; 1 / 2; 1] (IterList [0%nat]) x = (y, Ok tt) /\ sm_obs y 0%nat = MLog g /\ length (lg_tr g) = 1%nat /\
  exists f tr, hdf5_logger_finish g (log_root (LO true false false false) 1 g) h5_empty = (f, Ok tt) /\ read_h5 f = Ok ([0; 1 / 2], tr).
Proof.
  destruct C85_witness as (S1 & D & x & y & g & A & Ew & _ & _ & Ec & _ & E & Eg & _). exists x, y, g. split; [exact E | ]. split; [exact Eg | ].
  assert (No : NoDup [0%nat]) by (repeat constructor; intros []).
  assert (K := run_keys _ _ _ _ _ _ _ 0%nat _ No (or_introl eq_refl) eq_refl E g Eg).
  destruct (C20_logger_partial sy_U an_O 0 [1 / 2; 1] [0%nat] x y 0%nat _ No ltac:(cbn; auto) eq_refl E) as (g' & Eg' & _ & _ & _ & Q). rewrite Eg in Eg'. injection Eg' as <-. specialize (Q eq_refl). destruct Q as (Q1 & _ & Q2). cbn [lo_flat] in *.
  assert (Hh : s_heap (w_s (sm_w x)) = sy_h) by (rewrite Ew; reflexivity). rewrite Hh in *.
  assert (Lg : forall f tg, logged sy_U sy_h false f tg -> f = FBody 1 /\ tg = TJoint 1).
  { intros f tg L. inversion L as [b bs Fl | j js f0 f1 Fl Ej Hj Ef | k Ik]; subst; [discriminate | | destruct Ik]. assert (Ij : iterjoints (ch_e ky) 10 sy_h = Ok [1%nat]) by reflexivity. change (iterjoints (ch_e ky) 10 sy_h = Ok js) in Ej. rewrite Ij in Ej. injection Ej as <-. destruct Hj as [<- | []]. change (Some (FBody 0, FBody 1) = Some (f0, f)) in Ef. injection Ef as _ <-. auto. }
  assert (L1 : logged sy_U sy_h false (FBody 1) (TJoint 1)) by (eapply logged_joint; [reflexivity | reflexivity | left; reflexivity | reflexivity]).
  split.
  - destruct (Q1 _ _ L1) as (M & EM & _); [intros f' t' L _; destruct (Lg _ _ L) as (_ & ->); reflexivity | ]. apply dic_get_ok_in in EM.
    set (k1 := name_of (sm_names y) (id_frame (FBody 1))) in *. assert (All : forall k, In k (map fst (lg_tr g)) -> k = k1). { intros k J. apply in_map_iff in J. destruct J as ((k', M') & <- & J). destruct (Q2 k' M' (dic_get_in _ _ _ K J)) as (f & tg & L & <- & _). destruct (Lg _ _ L) as (-> & _). reflexivity. }
    rewrite <- (map_length fst). assert (Ik : In k1 (map fst (lg_tr g))) by (apply in_map_iff; exists (k1, M); auto). clear -K All Ik. destruct (map fst (lg_tr g)) as [ | a [ | b l]]; [destruct Ik | reflexivity | ]. exfalso. inversion K as [ | ? ? Na _]; subst. apply Na. rewrite (All a (or_introl eq_refl)), (All b (or_intror (or_introl eq_refl))). now left.
  - destruct (C86_roundtrip sy_U an_O 0 [1 / 2; 1] [0%nat] x y 0%nat (LO true false false false) g 1 (log_root (LO true false false false) 1 g) No (or_introl eq_refl) eq_refl eq_refl eq_refl eq_refl E Eg) as (f & tr & A1 & _ & A2 & _).
    { exists (log_root (LO true false false false) 1 g). split; [reflexivity | ]. apply Forall2_cons; [split; reflexivity | apply Forall2_nil]. }
    exists f, tr. auto.
Qed.
Definition st_O (i : nat) : okind := OLog (LO true true false false).
Example C86_state_witness : exists x y g, simulate sy_U st_O [0; 1 / 2; 1] (IterList [0%nat]) x = (y, Ok tt) /\ sm_obs y 0%nat = MLog g /\
  forall els f, reordered els (log_root (LO true true false false) 1 g) -> h5_open f = true -> snd (hdf5_logger_finish g els f) = Err TypeError.
Proof.
  assert (No : NoDup [0%nat]) by (repeat constructor; intros []).
  destruct (sy_progress sy_U st_O an_x eq_refl eq_refl eq_refl gauss_inv_spec eq_refl eq_refl eq_refl eq_refl 0 [1 / 2; 1] []) as (y0 & E0); [constructor | intros i [] | | ].
  { intros k Hk. cbn in Hk. destruct k as [ | [ | k]]; cbn; lra || lia. }
  assert (Hty : forall j, In j (joints (ch_t 0 1)) -> jndof (su_e sy_U) j = ndof_of (s_ty (w_s (sm_w an_x)) j)) by (intros j Ij; cbn in Ij; destruct Ij as [<- | []]; reflexivity).
  destruct (C20_loggers_harmless sy_U st_O 0 [1 / 2; 1] [0%nat] an_x y0 (fun _ _ => 1) (ch_t 0 1) sy_reachable sy_rep eq_refl ltac:(cbn; lia) Hty No) as (y & r & E & _ & Nm); [intros i _; eexists; reflexivity | intros m J; destruct J | exact E0 | ].
  assert (r = Ok tt) as ->.
  { apply Nm.
    - cbn [joints ch_t map id_joint Nat.mul Nat.add app]. split; [intros a [<- | []]; discriminate | ]. repeat constructor. intros [].
    - intros fs Ef. change (frames1 sy_h [1%nat] = Ok fs) in Ef. assert (fs = [FBody 1]) as -> by (vm_compute in Ef; congruence). split; [intros a [<- | []]; discriminate | ]. repeat constructor. intros []. }
  destruct (C20_logger_partial sy_U st_O 0 [1 / 2; 1] [0%nat] an_x y 0%nat _ No ltac:(cbn; auto) eq_refl E) as (g & Eg & _). exists an_x, y, g. split; [exact E | ]. split; [exact Eg | ]. intros els f Re Op.
  apply (C86_state_refuted sy_U st_O 0 [1 / 2; 1] [0%nat] an_x y (fun _ _ => 1) (ch_t 0 1) 0%nat (LO true true false false) g 1 els f 1%nat sy_reachable sy_rep eq_refl ltac:(cbn; lia) Hty No (or_introl eq_refl) eq_refl eq_refl); auto; [discriminate | cbn; auto | cbn [length]; lia].
Qed.
