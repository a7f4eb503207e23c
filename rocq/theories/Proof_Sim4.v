(** Lemmas for C20: the shape of a run, and the invariant of the loggers. *)
From Verif Require Export Proof_Sim3.
From Verif Require Import Props_Named Props_Sim.
From Coq Require Import Lra.

Lemma perf_now U O tl x l y : performed (interp U O tl) x l y -> (forall c t dt, In (c, t) l -> c <> Int dt) -> now y = now x.
Proof.
  induction 1 as [x | x c x1 l y E P IH]; intros H; [reflexivity | ]. rewrite IH by (intros; eapply H; right; eassumption).
  apply interp_time in E. rewrite E. destruct c; try lra. exfalso. eapply H; [left; reflexivity | reflexivity].
Qed.
Lemma no_int_at t (f : nat -> call) l : (forall i dt, f i <> Int dt) -> forall c s dt, In (c, s) (at_ t (map f l)) -> c <> Int dt.
Proof. intros F c s dt H. apply in_map_iff in H. destruct H as (c' & H & H'). injection H as -> _. apply in_map_iff in H'. destruct H' as (j & <- & _). apply F. Qed.
Lemma perf_at0 I t c x x1 l y : now x = t -> I c x = (x1, Ok tt) -> performed I x1 l y -> performed I x ((c, t) :: l) y.
Proof. intros <-. apply perf_cons. Qed.

Lemma run_decomp U O t0 ts obs x y : let I := interp U O (t0 :: ts) in
  simulate U O (t0 :: ts) (IterList obs) x = (y, Ok tt) ->
  exists x1 x2 vs x3, I WInit (set_w x (set_time (sm_w x) t0)) = (x1, Ok tt) /\ performed I x1 (at_ t0 (map OInit obs)) x2 /\
    performed I (set_w x (set_time (sm_w x) t0)) (at_ t0 (WInit :: map OInit obs)) x2 /\
    sees I obs x2 t0 ts vs x3 /\ performed I x3 (at_ (last ts t0) (map OFin obs)) y.
Proof.
  intros I E. destruct (C18_schedule U O t0 ts obs x y) as (A & _ & _). apply A in E. fold I in E. clear A. unfold schedule in E.
  apply perf_inv_app in E. destruct E as (x2 & P1 & E). apply perf_inv_app in E. destruct E as (x3 & P2 & P3).
  assert (P1' := P1). cbn [at_ map] in P1. inversion P1 as [ | ? ? x1 ? ? E1 P1'']; subst.
  assert (N2 : now x2 = t0).
  { rewrite (perf_now _ _ _ _ _ _ P1'); [reflexivity | ]. intros c t dt [H | H]; [injection H as <- _; discriminate | ]. eapply (no_int_at t0 OInit); [discriminate | exact H]. }
  rewrite <- N2 in P2. destruct (sees_of_steps I (interp_time U O (t0 :: ts)) obs ts x2 x3 P2) as (vs & Sx). rewrite N2 in Sx.
  exists x1, x2, vs, x3. auto.
Qed.

Lemma sees_length I obs x t ts vs y : sees I obs x t ts vs y -> length vs = length ts.
Proof. induction 1; cbn; congruence. Qed.
Lemma sees_nth U O tl obs x t ts vs y : let I := interp U O tl in sees I obs x t ts vs y -> forall k v, nth_error vs k = Some v ->
  exists s s', nth_error (t :: ts) k = Some s /\ nth_error ts k = Some s' /\ now v = s /\
    performed I x (steps obs t (firstn k ts) ++ at_ s [Dyn; Ctl (s' - s); Cons (s' - s)]) v.
Proof.
  intros I. induction 1 as [x t | x t t' ts v u x1 vs y P1 P2 E Nv Sx IH]; intros k w H; [destruct k; discriminate | ].
  destruct k as [ | k]; cbn in H.
  - injection H as <-. exists t, t'. cbn. repeat split; auto.
  - destruct (IH k w H) as (s & s' & A & B & C & D). exists s, s'. split; [exact A | ]. split; [exact B | ]. split; [exact C | ].
    cbn [firstn steps]. rewrite <- app_assoc. eapply perf_app; [ | exact D]. unfold step_calls. rewrite !at_app.
    eapply perf_app; [exact P1 | ]. eapply perf_app; [exact P2 | ]. cbn.
    assert (Nu : now u = t) by (rewrite (perf_now _ _ _ _ _ _ P2); [exact Nv | ]; apply no_int_at; discriminate).
    eapply perf_at0; [exact Nu | exact E | constructor].
Qed.
Lemma sees_at_step U O t0 ts obs x x2 vs y : let I := interp U O (t0 :: ts) in
  performed I (set_w x (set_time (sm_w x) t0)) (at_ t0 (WInit :: map OInit obs)) x2 -> sees I obs x2 t0 ts vs y ->
  (forall k v, nth_error vs k = Some v -> at_step U O t0 ts obs x k v) /\
  (forall k v, at_step U O t0 ts obs x k v -> nth_error vs k = Some v).
Proof.
  intros I P Sx. assert (A : forall k v, nth_error vs k = Some v -> at_step U O t0 ts obs x k v).
  { intros k v H. destruct (sees_nth U O _ obs _ _ _ _ _ Sx k v H) as (s & s' & A & B & C & D). exists s, s'. split; [exact A | ]. split; [exact B | ]. split; [exact C | ].
    eapply perf_app; [exact P | exact D]. }
  split; [exact A | ]. intros k v (s & s' & E1 & E2 & _ & P'). assert (L : (k < length vs)%nat) by (rewrite (sees_length _ _ _ _ _ _ _ Sx); apply nth_error_Some; congruence).
  destruct (nth_error vs k) as [w | ] eqn:Ew; [ | apply nth_error_None in Ew; lia]. destruct (A k w Ew) as (r & r' & F1 & F2 & _ & P'').
  rewrite E1 in F1. injection F1 as <-. rewrite E2 in F2. injection F2 as <-. rewrite (perf_fun _ _ _ _ P' _ P''). reflexivity.
Qed.

(** the observer's last round *)
Lemma fin_same U O tl obs i t x y : (match O i with OUser _ _ _ => False | _ => True end) -> NoDup obs -> In i obs ->
  performed (interp U O tl) x (at_ t (map OFin obs)) y -> sm_obs y i = sm_obs x i /\ sm_names y = sm_names x.
Proof.
  intros Hk N Hi P. destruct (round_one U O tl OFin obs i t x y) as (z & z' & E & _ & _ & O1 & O2 & _ & _ & Nn); auto; [cbn; auto | ].
  split; [ | apply Nn; discriminate]. rewrite O2, <- O1. cbn in E. unfold obs_finish in E. destruct (O i); try contradiction; destruct (sm_obs z i) eqn:Q; injection E as <-; exact Q.
Qed.
Lemma init_one U O tl obs i t x y : NoDup obs -> In i obs -> performed (interp U O tl) x (at_ t (map OInit obs)) y ->
  exists z z', obs_init U O i tl z = (z', Ok tt) /\ sm_w z = sm_w x /\ sm_w y = sm_w x /\ sm_obs y i = sm_obs z' i /\ keeps (sm_names x) (sm_names z) /\ keeps (sm_names z') (sm_names y).
Proof.
  intros N Hi P. destruct (round_one U O tl OInit obs i t x y) as (z & z' & E & W1 & W2 & O1 & O2 & K1 & K2 & _); auto; [cbn; auto | ]. exists z, z'. auto 10.
Qed.

(** *** the invariant of a logger *)
Definition pose_or (U : setup) (flat : bool) (t : target) (v : wview) : m4 := match target_pose U v flat t with Ok H => H | Err _ => eye4 end.
Definition log_inv (U : setup) (o : logopts) (n : nat) (key : nat -> string) (js : list nat) (what : dic target) (seen : list wview) (g : logger) : Prop :=
  lg_n g = n /\ lg_k g = length seen /\ lg_what g = what /\ filled n (map (fun v => s_time (v_s v)) seen) (lg_time g) /\
  (lo_model o = true -> filled n (map (fun v => model_row (v_s v)) seen) (lg_model g)) /\
  (lo_state o = true -> forall j, In j js -> rows n (lg_pos g) (key j) (map (fun v => gpos_value (v_s v) j) seen) /\
                                              rows n (lg_vel g) (key j) (map (fun v => gvel_value (v_s v) j) seen)) /\
  (lo_transforms o = true -> forall k t, In (k, t) what -> (forall v, In v seen -> exists H, target_pose U v (lo_flat o) t = Ok H) /\
                                              rows n (lg_tr g) k (map (pose_or U (lo_flat o) t) seen)).

Lemma log_step U v o nm g g' n key js what seen :
  NoDup (map key js) -> NoDup (map fst what) -> (forall j, In j js -> name_of nm (id_joint j) = key j) ->
  (lo_state o = true -> iterjoints (su_e U) (su_fuel U) (s_heap (v_s v)) = Ok js) ->
  log_inv U o n key js what seen g -> log_update U v o nm g = Ok g' -> (length seen < n)%nat /\ log_inv U o n key js what (seen ++ [v]) g'.
Proof.
  intros Nj Nw Hk Hj (I1 & I2 & I3 & I4 & I5 & I6 & I7) E. unfold log_update in E. destruct (Nat.leb _ _); [ | discriminate]. cbn zeta in E. rewrite I2, I3 in E.
  destruct (set_item (lg_time g) (length seen) (Some (s_time (v_s v)))) as [tl' | ] eqn:Et; [ | discriminate]. cbn [rbind] in E.
  assert (Et' := Et). rewrite <- (map_length (fun v => s_time (v_s v)) seen) in Et'. apply (proj2 (set_filled n _ _ _ I4)) in Et'. destruct Et' as [Lt Ft]. rewrite map_length in Lt.
  match type of E with (let* (_, _) := ?b in _) = _ => destruct b as [[dp dv] | ] eqn:Es; [ | discriminate] end. cbn [rbind] in E.
  match type of E with (let* _ := ?b in _) = _ => destruct b as [tr | ] eqn:Ep; [ | discriminate] end. cbn [rbind] in E.
  match type of E with (let* _ := ?b in _) = _ => destruct b as [md | ] eqn:Em; [ | discriminate] end. cbn [rbind] in E.
  injection E as <-. split; [exact Lt | ]. unfold log_inv. cbn [lg_n lg_k lg_what lg_time lg_model lg_pos lg_vel lg_tr]. rewrite app_length, Nat.add_1_r.
  split; [exact I1 | ]. split; [reflexivity | ]. split; [reflexivity | ]. split; [rewrite map_app; exact Ft | ].
  split; [ | split].
  - intros Hm. rewrite Hm in Em. specialize (I5 Hm). rewrite <- (map_length (fun v => model_row (v_s v)) seen) in Em. apply (proj2 (set_filled n _ _ _ I5)) in Em. rewrite map_app. apply Em.
  - intros Hs j Hin. rewrite Hs in Es. rewrite (Hj Hs) in Es. cbn [rbind] in Es.
    assert (Hk' : map (fun j => name_of nm (id_joint j)) js = map key js) by (apply map_ext_in; exact Hk).
    destruct (log_states_ok (v_s v) nm n js (lg_pos g) (lg_vel g) dp dv (fun j => map (fun v => gpos_value (v_s v) j) seen) (fun j => map (fun v => gvel_value (v_s v) j) seen) (length seen)) as [A _].
    + rewrite Hk'. exact Nj.
    + intros j' Hj'. destruct (I6 Hs j' Hj') as [A B]. rewrite (Hk j' Hj'), !map_length. auto.
    + exact Es.
    + destruct (A j Hin) as [A1 A2]. rewrite (Hk j Hin) in A1, A2. rewrite !map_app. auto.
  - intros Ht k t Hin. rewrite Ht in Ep.
    set (P := fun k => match dic_get what k with Ok t => map (pose_or U (lo_flat o) t) seen | Err _ => [] end).
    assert (Pk : forall k t, In (k, t) what -> P k = map (pose_or U (lo_flat o) t) seen) by (intros k' t' H'; unfold P; rewrite (dic_get_in _ _ _ Nw H'); reflexivity).
    destruct (log_poses_ok U v (lo_flat o) n what (lg_tr g) tr P (length seen)) as [A _].
    + exact Nw.
    + intros k' Hk'. apply in_map_iff in Hk'. destruct Hk' as ([k'' t'] & Hf & Hin'). cbn in Hf. subst k''. rewrite (Pk _ _ Hin'), map_length. split; [apply (I7 Ht _ _ Hin') | reflexivity].
    + exact Ep.
    + destruct (A k t Hin) as (H & EH & RH). rewrite (Pk _ _ Hin) in RH. split.
      * intros w Hw. apply in_app_iff in Hw. destruct Hw as [Hw | [<- | []]]; [apply (I7 Ht _ _ Hin); exact Hw | exists H; exact EH].
      * rewrite map_app. cbn [map]. unfold pose_or at 2. rewrite EH. exact RH.
Qed.

Lemma log_along U O tl obs i o n key js what nm h0 x t ts vs y : let I := interp U O tl in NoDup obs -> In i obs -> O i = OLog o ->
  NoDup (map key js) -> NoDup (map fst what) -> (forall j, In j js -> name_of nm (id_joint j) = key j) ->
  (lo_state o = true -> iterjoints (su_e U) (su_fuel U) h0 = Ok js) ->
  sees I obs x t ts vs y -> forall seen g, sm_names x = nm -> same_objects h0 (heap_of x) -> sm_obs x i = MLog g -> log_inv U o n key js what seen g ->
  exists g', sm_obs y i = MLog g' /\ sm_names y = nm /\ log_inv U o n key js what (seen ++ map (fun v => w_v (sm_w v)) vs) g'.
Proof.
  intros I N Hi Ei Nj Nw Hk Hj Sx. induction Sx as [x t | x t t' ts v u x1 vs y P1 P2 E Nv Sx IH]; intros seen g En Gr Eg F.
  - exists g. cbn. rewrite app_nil_r. auto.
  - destruct (step_one U O tl obs i x t t' v u x1 N Hi P1 P2 E) as (z & z' & Ez & Wz & Nz & Nx & Oz & Ox).
    cbn [I interp] in Ez. unfold obs_update in Ez. rewrite Ei, Oz, Eg in Ez. cbn zeta in Ez. rewrite Wz, Nz, En in Ez.
    destruct (log_update U (w_v (sm_w v)) o nm g) as [g1 | ] eqn:Eu; [ | discriminate]. cbn [rmap] in Ez. injection Ez as <-.
    assert (Gv : same_objects h0 (heap_of v)) by (eapply same_objects_trans; [exact Gr | eapply perf_graph; exact P1]).
    assert (G1 : same_objects h0 (heap_of x1)).
    { eapply same_objects_trans; [exact Gv | ]. eapply same_objects_trans; [eapply perf_graph; exact P2 | eapply interp_graph; exact E]. }
    destruct (log_step U (w_v (sm_w v)) o nm g g1 n key js what seen Nj Nw Hk) as [_ F1]; [ | exact F | exact Eu | ].
    { intros Hs. change (s_heap (v_s (w_v (sm_w v)))) with (heap_of v). rewrite (iter_same _ _ _ _ Gv). apply Hj, Hs. }
    assert (Ox' : sm_obs x1 i = MLog g1) by (rewrite Ox; cbn; unfold upd; rewrite Nat.eqb_refl; reflexivity).
    destruct (IH (seen ++ [w_v (sm_w v)]) g1) as (g' & A & B & C); [congruence | exact G1 | exact Ox' | exact F1 | ].
    exists g'. split; [exact A | ]. split; [exact B | ]. cbn [map]. rewrite <- app_assoc in C. exact C.
Qed.
