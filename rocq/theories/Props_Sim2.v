(** C20: recorders and loggers. *)
From Verif Require Import Spec_Sim Proof_Sim6.
From Coq Require Import Lra.

Lemma sees_perf U O tl obs x t ts vs y : sees (interp U O tl) obs x t ts vs y -> performed (interp U O tl) x (steps obs t ts) y.
Proof.
  induction 1 as [x t | x t t' ts v u x1 vs y P1 P2 E Nv Sx IH]; [constructor | ]. cbn [steps]. eapply perf_app; [ | exact IH]. unfold step_calls. rewrite !at_app.
  eapply perf_app; [exact P1 | ]. eapply perf_app; [exact P2 | ]. assert (Nu : now u = t) by (rewrite (perf_now _ _ _ _ _ _ P2); [exact Nv | ]; apply no_int_at; discriminate).
  eapply perf_at0; [exact Nu | exact E | constructor].
Qed.
Lemma sees_times I obs x t ts vs y : sees I obs x t ts vs y -> map (fun v => s_time (v_s (w_v (sm_w v)))) vs = removelast (t :: ts).
Proof.
  induction 1 as [ | x t t' ts v u x1 vs y P1 P2 E Nv Sx IH]; [reflexivity | ]. cbn [map]. rewrite IH. change (s_time (v_s (w_v (sm_w v)))) with (now v). rewrite Nv. reflexivity.
Qed.
Lemma sees_keys U O tl obs i o x t ts vs y : NoDup obs -> In i obs -> O i = OLog o -> sees (interp U O tl) obs x t ts vs y ->
  forall g g', sm_obs x i = MLog g -> sm_obs y i = MLog g' -> map fst (lg_tr g) = map fst (lg_what g) -> map fst (lg_tr g') = map fst (lg_what g).
Proof.
  intros N Hi Ei Sx. induction Sx as [x t | x t t' ts v u x1 vs y P1 P2 E Nv Sx IH]; intros g g' O2 O3 J6; [congruence | ].
        destruct (step_one U O _ obs i x t t' v u x1 N Hi P1 P2 E) as (z & z' & Ez & Wz & Nz & Nx & Oz & Ox). cbn [interp] in Ez. unfold obs_update in Ez. rewrite Ei, Oz, O2 in Ez. cbn zeta in Ez.
        destruct (log_update _ _ _ _ _) as [g1 | ] eqn:Eu; [ | discriminate]. cbn [rmap] in Ez. injection Ez as <-.
        assert (Ox' : sm_obs x1 i = MLog g1) by (rewrite Ox; cbn; unfold upd; rewrite Nat.eqb_refl; reflexivity).
        assert (Kw : lg_what g1 = lg_what g /\ map fst (lg_tr g1) = map fst (lg_tr g)).
        { unfold log_update in Eu. destruct (Nat.leb _ _); [ | discriminate]. cbn zeta in Eu. destruct (set_item (lg_time g) _ _); [ | discriminate]. cbn [rbind] in Eu.
          match type of Eu with (let* (_, _) := ?b in _) = _ => destruct b as [[dp dv] | ]; [ | discriminate] end. cbn [rbind] in Eu.
          match type of Eu with (let* _ := ?b in _) = _ => destruct b as [tr | ] eqn:Ep; [ | discriminate] end. cbn [rbind] in Eu.
          match type of Eu with (let* _ := ?b in _) = _ => destruct b as [md | ] eqn:Em; [ | discriminate] end. cbn [rbind] in Eu. injection Eu as <-. cbn [lg_what lg_tr]. split; [reflexivity | ].
          destruct (lo_transforms o); [ | injection Ep as <-; reflexivity].
          assert (Q : forall what d d', (forall k t, In (k, t) what -> In k (map fst d)) -> log_poses U (w_v (sm_w z)) (lo_flat o) (lg_k g) what d = Ok d' -> map fst d' = map fst d).
          { clear. induction what as [ | [k t] what IH]; cbn [log_poses]; intros d d' Hd E; [injection E as <-; reflexivity | ]. destruct (target_pose _ _ _ _); [ | discriminate]. cbn [rbind] in E.
            destruct (dic_write d k (lg_k g) a) as [d1 | ] eqn:E1; [ | discriminate]. cbn [rbind] in E. unfold dic_write in E1. destruct (dic_get d k); [ | discriminate]. cbn [rbind] in E1. destruct (set_item _ _ _) as [l0 | ]; [ | discriminate]. cbn in E1. injection E1 as <-.
            assert (Q : forall v, map fst (dic_set d k v) = map fst d).
            { intros v. assert (Hk := Hd k t (or_introl eq_refl)). clear - Hk. induction d as [ | [a b] d IH]; cbn in *; [contradiction | ]. destruct (String.eqb_spec a k) as [-> | Ne]; cbn; [reflexivity | ]. rewrite IH; [reflexivity | ]. destruct Hk; [contradiction | assumption]. }
            rewrite <- (Q l0). eapply IH; [ | exact E]. intros k' t' Hin. rewrite Q. apply (Hd k' t'). now right. }
          eapply Q; [ | exact Ep]. intros k_ t_ Hin. rewrite J6. apply (in_map fst) in Hin. exact Hin. }
        destruct Kw as [Kw1 Kw2]. rewrite (IH g1 g' Ox' O3); congruence.
Qed.

(** what is logged does not change during a simulation *)
Lemma logged_same U h h1 flat : same_objects h h1 -> forall f t, logged U h flat f t <-> logged U h1 flat f t.
Proof.
  intros G1. assert (IB : iterbodies (su_e U) (su_fuel U) h1 = iterbodies (su_e U) (su_fuel U) h).
    { destruct G1 as (A & B & _). unfold iterbodies. f_equal. clear - A B. generalize (ground (su_e U)). induction (su_fuel U) as [ | n IH]; intros b; [reflexivity | ]. cbn. rewrite A.
      assert (Q : rmapM (child_body (su_e U) h1) (childrenjoints h b) = rmapM (child_body (su_e U) h) (childrenjoints h b)).
      { generalize (childrenjoints h b). intros l. induction l as [ | j l IHl]; [reflexivity | ]. cbn. unfold child_body at 1 3. rewrite B, IHl. reflexivity. }
      rewrite Q. clear Q. destruct (rmapM (child_body (su_e U) h) (childrenjoints h b)) as [bs | ]; [ | reflexivity]. cbn [rbind]. apply rconcat_ext. intros c. rewrite IH. reflexivity. }
    assert (IJ := iter_same (su_e U) (su_fuel U) _ _ G1). destruct G1 as (_ & B & C & _).
    intros f t. split; intros Q; destruct Q as [b bs Q1 Q2 Q3 | j js' f0 f1 Q1 Q2 Q3 Q4 | m Q].
    - apply (logged_body U h1 _ b bs); [exact Q1 | rewrite IB; exact Q2 | exact Q3].
    - apply (logged_joint U h1 _ j js' f0 f1); [exact Q1 | rewrite IJ; exact Q2 | exact Q3 | rewrite B; exact Q4].
    - apply logged_mov. rewrite C. exact Q.
    - apply (logged_body U h _ b bs); [exact Q1 | rewrite <- IB; exact Q2 | exact Q3].
    - apply (logged_joint U h _ j js' f0 f1); [exact Q1 | rewrite <- IJ; exact Q2 | exact Q3 | rewrite <- B; exact Q4].
    - apply logged_mov. rewrite <- C. exact Q.
Qed.

(** A recorder after a simulation over n + 1 times: whatever it held before, n entries, the k-th being the observed quantity in
    the state reached at t_k once the forces of step k are computed, before the integration. *)
Theorem C20_recorders : forall U O t0 ts obs x y i fi f, NoDup obs -> In i obs -> O i = ORec fi f ->
  simulate U O (t0 :: ts) (IterList obs) x = (y, Ok tt) ->
  exists r x1, sm_obs y i = MRec r /\ length (rc_record r) = length ts /\
    interp U O (t0 :: ts) WInit (set_w x (set_time (sm_w x) t0)) = (x1, Ok tt) /\ fi (w_v (sm_w x1)) = Ok (rc_com r) /\
    forall k, (k < length ts)%nat -> exists v d, at_step U O t0 ts obs x k v /\ now v = nth k (t0 :: ts) 0 /\
      f (rc_com r) (w_v (sm_w v)) = Ok d /\ nth_error (rc_record r) k = Some (Some d).
Proof.
  intros U O t0 ts obs x y i fi f N Hi Ei E. destruct (run_decomp _ _ _ _ _ _ _ E) as (x1 & x2 & vs & x3 & E1 & P & P' & Sx & Pf).
  destruct (init_one _ _ _ _ i _ _ _ N Hi P) as (z & z' & Ez & Wz & W2 & Oz & _). unfold obs_init in Ez. rewrite Ei, Wz in Ez. destruct (fi _) as [c | ] eqn:Ec; [ | discriminate]. injection Ez as <-.
  assert (O2 : sm_obs x2 i = MRec (rec_init (t0 :: ts) c)) by (rewrite Oz; cbn; unfold upd; rewrite Nat.eqb_refl; reflexivity).
  assert (LN : (length (t0 :: ts) - 1 = length ts)%nat) by (cbn; lia).
  assert (F0 : filled (length ts) [] (rc_record (rec_init (t0 :: ts) c))) by (cbn [rc_record rec_init]; rewrite LN; apply filled_0).
  destruct (rec_along U O (t0 :: ts) obs i fi f (length ts) x2 t0 ts vs x3 N Hi Ei Sx c [] _ O2 eq_refl eq_refl F0) as (ds & r & O3 & _ & F & Fv).
  assert (Oy : sm_obs y i = MRec r) by (rewrite (proj1 (fin_same U O _ obs i _ _ _ (ltac:(rewrite Ei; exact Logic.I)) N Hi Pf)); exact O3).
  assert (Cr : rc_com r = c).
  { destruct (rec_perf U O (t0 :: ts) i fi f (length ts) x2 (steps obs t0 ts) x3) with (r := rec_init (t0 :: ts) c) as (r' & A & B & _); auto.
    - eapply sees_perf. exact Sx.
    - intros t H. assert (Q : forall c t t0 us, In (c, t) (steps obs t0 us) -> c <> OInit i).
      { clear. intros c t t0 us. revert t0. induction us as [ | u us IH]; cbn [steps]; intros t0 H; [contradiction | ]. apply in_app_iff in H. destruct H as [H | H]; [ | eapply IH; exact H].
        apply in_map_iff in H. destruct H as (c' & H & H'). injection H as -> _. unfold step_calls in H'. apply in_app_iff in H'. destruct H' as [H' | H'].
        - cbn in H'. destruct H' as [<- | [<- | [<- | []]]]; discriminate.
        - apply in_app_iff in H'. destruct H' as [H' | H']; [ | destruct H' as [<- | []]; discriminate]. apply in_map_iff in H'. destruct H' as (k & <- & Hk). discriminate. }
      exact (Q _ _ _ _ H eq_refl).
    - exists []. split; [reflexivity | exact F0].
    - rewrite O3 in A. injection A as <-. exact B. }
  cbn [app] in F. assert (LV := sees_length _ _ _ _ _ _ _ Sx). assert (LD : length ds = length ts) by (rewrite <- LV; clear - Fv; induction Fv; cbn; congruence).
  apply filled_all in F; [ | exact LD].
  exists r, x1. split; [exact Oy | ]. split; [rewrite F, map_length; exact LD | ]. split; [exact E1 | ]. split; [rewrite Cr; exact Ec | ].
  intros k Hk. destruct (nth_error vs k) as [v | ] eqn:Ev; [ | apply nth_error_None in Ev; lia]. destruct (nth_error ds k) as [d | ] eqn:Ed; [ | apply nth_error_None in Ed; lia].
  exists v, d. assert (AS := proj1 (sees_at_step U O t0 ts obs x x2 vs x3 P' Sx) k v Ev). split; [exact AS | ].
  split; [ | split].
  - destruct AS as (t & t' & A & _ & B & _). rewrite B. symmetry. apply nth_error_nth. exact A.
  - rewrite Cr. clear - Fv Ev Ed. revert ds Fv k Ev Ed. induction vs as [ | w vs IH]; intros ds Fv k Ev Ed; [destruct k; discriminate | ]. inversion Fv as [ | ? d0 ? ds0 H0 F0]; subst.
    destruct k; cbn in *; [congruence | eapply IH; eassumption].
  - rewrite F, nth_error_map, Ed. reflexivity.
Qed.

(** No write is out of bounds: when the update of a recorder or of a logger raises during a simulation (complete or not), it is
    because the observed quantity (for a logger, the pose of one of the logged objects) could not be computed. *)
Theorem C20_in_bounds : forall U O t0 ts obs x y e i dt l1 l2 x1, let I := interp U O (t0 :: ts) in
  NoDup obs -> schedule obs t0 ts = l1 ++ (OUpd i dt, now x1) :: l2 ->
  performed I (set_w x (set_time (sm_w x) t0)) l1 x1 -> I (OUpd i dt) x1 = (y, Err e) ->
  match O i with
  | ORec fi f => exists c, f c (w_v (sm_w x1)) = Err e
  | OLog o => exists f t, logged U (s_heap (w_s (sm_w x))) (lo_flat o) f t /\ target_pose U (w_v (sm_w x1)) (lo_flat o) t = Err e
  | _ => True
  end.
Proof.
  intros U O t0 ts obs x y e i dt l1 l2 x1 I N Es P E. destruct (upd_prefix _ _ _ _ _ _ _ _ N Es) as (Hi & (m & -> & Ni) & Lt). apply perf_inv_app in P. destruct P as (x2 & P1 & P2).
  assert (LN : (length (t0 :: ts) - 1 = length ts)%nat) by (cbn; lia).
  cbn [at_ map] in P1. inversion P1 as [ | ? ? x0 ? ? E0 P0]; subst. change (performed I x0 (at_ t0 (map OInit obs)) x2) in P0. rewrite times_app in Lt.
  destruct (init_one _ _ _ _ i _ _ _ N Hi P0) as (z & z' & Ez & Wz & W2 & Oz & K1 & K2). unfold obs_init in Ez. cbn [I interp] in E. unfold obs_update in E. destruct (O i) as [fi f | o | | ] eqn:Ei; auto.
  - rewrite Wz in Ez. destruct (fi _) as [c | ] eqn:Ec; [ | discriminate]. injection Ez as <-.
    assert (O2 : sm_obs x2 i = MRec (rec_init (t0 :: ts) c)) by (rewrite Oz; cbn; unfold upd; rewrite Nat.eqb_refl; reflexivity).
    destruct (rec_perf U O _ i fi f (length ts) x2 m x1 P2 Ei (Ni i) _ O2) as (r & Er & _ & Ek & ds & Ed & F).
    { exists []. split; [reflexivity | ]. cbn [rc_record rec_init]. rewrite LN. apply filled_0. }
    rewrite Er in E. cbn zeta in E. destruct (f (rc_com r) _) as [d | e'] eqn:Ef; [exfalso | cbn in E; injection E as _ <-; exists (rc_com r); exact Ef].
    cbn [rbind] in E. unfold save_data in E. cbn in Ek. rewrite Ed in E. destruct (proj1 (set_filled _ _ _ d F)) as (l' & El & _); [lia | ]. rewrite El in E. discriminate.
  - destruct (log_init _ _ _ _ _) as [nm [g | ]] eqn:El; [ | discriminate]. injection Ez as <-. cbn [sm_names sm_obs] in *.
    assert (O2 : sm_obs x2 i = MLog g) by (rewrite Oz; cbn; unfold upd; rewrite Nat.eqb_refl; reflexivity).
    destruct (log_init_ok _ _ _ _ _ _ _ El) as (js & J1 & J2 & J3 & J4 & _ & J5 & J7). rewrite LN in J5.
    assert (Gr : same_objects (s_heap (v_s (w_v (sm_w z)))) (heap_of x2)) by (unfold heap_of, w_s; rewrite W2, Wz; apply same_objects_refl).
    assert (Hn : forall j, In j js -> sm_names x2 (id_joint j) = Some (name_of nm (id_joint j))).
    { intros j Hj. destruct (J2 j Hj) as (s & Q). unfold name_of. rewrite Q. apply K2, Q. }
    destruct (log_perf U O _ i o (length ts) _ js _ _ x2 m x1 P2 Ei (Ni i) J3 J4 J1 Gr Hn g [] O2 J5) as (Gr1 & Hn1 & g1 & seen & Eg & F & Ls).
    rewrite Eg in E. cbn zeta in E.
    destruct (log_total U (w_v (sm_w x1)) o (sm_names x1) g1 (length ts) _ js _ seen J3 J4) as [(g' & Q) | (k & t & e' & Q0 & Q1 & Q2)]; [ | | exact F | | | ].
    + intros j Hj. unfold name_of at 1. rewrite (Hn1 j Hj). reflexivity.
    + intros Hs. change (s_heap (v_s (w_v (sm_w x1)))) with (heap_of x1). rewrite (iter_same _ _ _ _ Gr1). apply J1, Hs.
    + cbn in Ls. lia.
    + rewrite Q in E. discriminate.
    + rewrite Q2 in E. cbn in E. injection E as _ <-.
      destruct (lo_transforms o) eqn:Ht.
      * destruct (proj1 (proj2 (proj2 (J7 eq_refl))) k t Q0) as (f & L & _). exists f, t. split; [ | exact Q1]. refine (proj2 (logged_same U _ _ _ _ f t) L). rewrite Wz. apply interp_graph in E0. exact E0.
      * exfalso. unfold log_init in El. cbv zeta in El. destruct (log_state_init _ _ _ _ _) as [nm1 [dp | ]]; [ | discriminate]. unfold log_what_init in El. rewrite Ht in El. injection El as _ <-. exact Q0.
Qed.

(** A SaveLogger after a simulation over n + 1 times: the timeline is t_0 .. t_(n-1); if asked, the model, the generalised
    positions and velocities of every joint (in arrays with different names), and the poses of every logged object whose name is
    not also the one of another logged object, as they are at t_k before the integration of step k; nothing else.  Missing:
    logged objects that share their name (see C20_flat_duplicates_refuted). *)
Theorem C20_logger_partial : forall U O t0 ts obs x y i o, NoDup obs -> In i obs -> O i = OLog o ->
  simulate U O (t0 :: ts) (IterList obs) x = (y, Ok tt) ->
  let h := s_heap (w_s (sm_w x)) in let jname := fun j => name_of (sm_names y) (id_joint j) in let fname := fun f => name_of (sm_names y) (id_frame f) in
  exists g, sm_obs y i = MLog g /\
    lg_time g = map Some (removelast (t0 :: ts)) /\
    (lo_model o = true -> length (lg_model g) = length ts /\
       forall k v, at_step U O t0 ts obs x k v -> nth_error (lg_model g) k = Some (Some (model_row (w_s (sm_w v))))) /\
    (lo_state o = true -> exists js, iterjoints (su_e U) (su_fuel U) h = Ok js /\ NoDup (map jname js) /\
       forall j, In j js -> exists P V, dic_get (lg_pos g) (jname j) = Ok P /\ dic_get (lg_vel g) (jname j) = Ok V /\
         length P = length ts /\ length V = length ts /\
         forall k v, at_step U O t0 ts obs x k v -> nth_error P k = Some (Some (gpos_value (w_s (sm_w v)) j)) /\
                                                    nth_error V k = Some (Some (gvel_value (w_s (sm_w v)) j))) /\
    (lo_transforms o = true ->
       (forall f t, logged U h (lo_flat o) f t ->
          (forall f' t', logged U h (lo_flat o) f' t' -> fname f' = fname f -> t' = t) ->
          exists M, dic_get (lg_tr g) (fname f) = Ok M /\ length M = length ts /\
            forall k v, at_step U O t0 ts obs x k v -> exists H, target_pose U (w_v (sm_w v)) (lo_flat o) t = Ok H /\ nth_error M k = Some (Some H)) /\
       (forall f f' j j', logged U h (lo_flat o) f (TJoint j) -> logged U h (lo_flat o) f' (TJoint j') -> fname f = fname f' -> f = f') /\
       (forall key M, dic_get (lg_tr g) key = Ok M -> exists f t, logged U h (lo_flat o) f t /\ fname f = key /\ length M = length ts /\
            forall k v, at_step U O t0 ts obs x k v -> exists H, target_pose U (w_v (sm_w v)) (lo_flat o) t = Ok H /\ nth_error M k = Some (Some H))).
Proof.
  intros U O t0 ts obs x y i o N Hi Ei E h jname fname. destruct (run_decomp _ _ _ _ _ _ _ E) as (x1 & x2 & vs & x3 & E1 & P & P' & Sx & Pf).
  destruct (init_one _ _ _ _ i _ _ _ N Hi P) as (z & z' & Ez & Wz & W2 & Oz & _ & K2). unfold obs_init in Ez. rewrite Ei in Ez.
  destruct (log_init _ _ _ _ _) as [nm [g | ]] eqn:El; [ | discriminate]. injection Ez as <-. cbn [sm_names sm_obs] in *.
  assert (O2 : sm_obs x2 i = MLog g) by (rewrite Oz; cbn; unfold upd; rewrite Nat.eqb_refl; reflexivity).
  assert (LN : (length (t0 :: ts) - 1 = length ts)%nat) by (cbn; lia).
  destruct (log_init_ok _ _ _ _ _ _ _ El) as (js & J1 & J2 & J3 & J4 & J6 & J5 & J7). rewrite LN in J5. cbn zeta in *.
  set (h1 := s_heap (v_s (w_v (sm_w z)))) in *.
  assert (G1 : same_objects h h1) by (unfold h1; rewrite Wz; apply interp_graph in E1; exact E1).
  assert (Gr : same_objects h1 (heap_of x2)) by (unfold heap_of, w_s, h1; rewrite W2, Wz; apply same_objects_refl).
  set (key := fun j => name_of nm (id_joint j)) in *.
  assert (Hn : forall j, In j js -> name_of (sm_names x2) (id_joint j) = key j).
  { intros j Hj. destruct (J2 j Hj) as (s & Q). unfold key. destruct (name_of_keeps _ _ _ _ K2 Q). congruence. }
  destruct (log_along U O (t0 :: ts) obs i o (length ts) key js (lg_what g) (sm_names x2) h1 x2 t0 ts vs x3 N Hi Ei J3 J4 Hn J1 Sx [] g eq_refl Gr O2 J5) as (g' & O3 & N3 & F). cbn [app] in F.
  destruct (fin_same U O _ obs i _ _ _ (ltac:(rewrite Ei; exact Logic.I)) N Hi Pf) as [Oy Ny].
  assert (Nm : sm_names y = sm_names x2) by congruence.
  assert (LV := sees_length _ _ _ _ _ _ _ Sx). destruct (sees_at_step U O t0 ts obs x x2 vs x3 P' Sx) as [AS1 AS2].
  destruct F as (F1 & F2 & F3 & F4 & F5 & F6 & F7).
  assert (Fin : forall {A} (fn : wview -> A) l, filled (length ts) (map fn (map (fun v => w_v (sm_w v)) vs)) l -> l = map Some (map (fun v => fn (w_v (sm_w v))) vs)).
  { intros A fn l Q. apply filled_all in Q; [ | rewrite !map_length; exact LV]. rewrite Q, !map_map. reflexivity. }
  assert (Nth : forall {A} (fn : wview -> A) l, l = map Some (map (fun v => fn (w_v (sm_w v))) vs) -> length l = length ts /\
    forall k v, at_step U O t0 ts obs x k v -> nth_error l k = Some (Some (fn (w_v (sm_w v))))).
  { intros A fn l ->. split; [rewrite !map_length; exact LV | ]. intros k v Q. apply AS2 in Q. rewrite !nth_error_map, Q. reflexivity. }
  assert (Gf : forall f, (exists s, nm (id_frame f) = Some s) -> fname f = name_of nm (id_frame f)).
  { intros f (s & Q). unfold fname. rewrite Nm. destruct (name_of_keeps _ _ _ _ K2 Q). congruence. }
  assert (Lh : forall f t, logged U h (lo_flat o) f t <-> logged U h1 (lo_flat o) f t).
  { apply logged_same. exact G1. }
  assert (Tr : lo_transforms o = true -> forall k t, In (k, t) (lg_what g) -> exists M, dic_get (lg_tr g') k = Ok M /\ length M = length ts /\
     forall k v, at_step U O t0 ts obs x k v -> exists H, target_pose U (w_v (sm_w v)) (lo_flat o) t = Ok H /\ nth_error M k = Some (Some H)).
  { intros Ht k t Hin. destruct (F7 Ht k t Hin) as (Tp & M & Em & Fm). exists M. apply Fin in Fm. apply Nth in Fm. destruct Fm as [Lm Fm]. split; [exact Em | ]. split; [exact Lm | ].
    intros k' v Q. specialize (Fm k' v Q). destruct (Tp (w_v (sm_w v))) as (H & EH).
    { apply (in_map (fun v => w_v (sm_w v))). apply AS2 in Q. apply nth_error_In in Q. exact Q. }
    exists H. split; [exact EH | ]. unfold pose_or in Fm. rewrite EH in Fm. exact Fm. }
  exists g'. split; [congruence | ].
  split; [ | split; [ | split]].
  - apply Fin in F4. rewrite F4. f_equal. eapply sees_times. exact Sx.
  - intros Hm. specialize (F5 Hm). apply Fin in F5. apply (Nth _ (fun v => model_row (v_s v))) in F5. exact F5.
  - intros Hs. exists js. assert (IJ := iter_same (su_e U) (su_fuel U) _ _ G1). split; [rewrite <- IJ; apply J1, Hs | ].
    assert (Kj : forall j, In j js -> jname j = key j) by (intros j Hj; unfold jname; rewrite Nm; apply Hn, Hj).
    split; [rewrite (map_ext_in _ _ _ Kj); exact J3 | ]. intros j Hj. rewrite (Kj j Hj). destruct (F6 Hs j Hj) as [(Pl & EP & FP) (Vl & EV & FV)]. exists Pl, Vl.
    apply Fin in FP. apply Fin in FV. apply (Nth _ (fun v => gpos_value (v_s v) j)) in FP. apply (Nth _ (fun v => gvel_value (v_s v) j)) in FV.
    split; [exact EP | ]. split; [exact EV | ]. split; [apply FP | ]. split; [apply FV | ]. intros k v Q. split; [apply FP; exact Q | apply FV; exact Q].
  - intros Ht. destruct (J7 Ht) as (A & B & C & D).
    assert (Gl : forall f t, logged U h1 (lo_flat o) f t -> fname f = name_of nm (id_frame f)) by (intros f t Q; apply Gf; exact (A f t Q)).
    split; [ | split].
    + intros f t L Un. apply Lh in L. rewrite (Gl f t L). apply Tr; [exact Ht | ]. apply B; [exact L | ]. intros f' t' L' En. apply (Un f' t'); [apply Lh; exact L' | ]. rewrite (Gl f' t' L'), (Gl f t L). exact En.
    + intros f f' j j' L L' En. apply Lh in L. apply Lh in L'. eapply D; [exact L | exact L' | ]. rewrite <- (Gl _ _ L), <- (Gl _ _ L'). exact En.
    + intros k M Em. assert (Kd : In k (map fst (lg_what g))).
      { assert (Q : In k (map fst (lg_tr g'))) by (apply dic_get_ok_in in Em; apply (in_map fst) in Em; exact Em).
        assert (Q2 : map fst (lg_tr g') = map fst (lg_what g)); [ | rewrite Q2 in Q; exact Q].
        exact (sees_keys U O _ obs i o x2 t0 ts vs x3 N Hi Ei Sx g g' O2 O3 J6). }
      apply in_map_iff in Kd. destruct Kd as ([k' t] & Q & Hin). cbn in Q. subst k'. destruct (C k t Hin) as (f & L & En). exists f, t. split; [apply Lh; exact L | ]. split; [rewrite (Gl f t L); exact En | ].
      destruct (Tr Ht k t Hin) as (M' & Em' & Q). rewrite Em in Em'. injection Em' as <-. exact Q.
Qed.
