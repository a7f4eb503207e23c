(** C65: observers do not influence the simulation.  Witness of C20 for loggers. *)
From Verif Require Import Spec_Sim Spec_Step Proof_Sim Proof_Sim2 Proof_Sim3 Proof_Sim5 Proof_Sim6 Proof_Tree Proof_Linalg Proof_Matrix.
From Verif Require Import Props_DynEx Props_EnergyEx Props_Sim Props_Sim2 Props_Sim3 Props_Sim4.
From Coq Require Import Lra.

(** the calls of an observer *)
Definition of_observer (c : call) : option nat := match c with OInit i | OUpd i _ | OFin i => Some i | _ => None end.
Definition is_world (c : call) : bool := match of_observer c with None => true | _ => false end.
Definition world_calls (l : list (call * R)) := filter (fun x => is_world (fst x)) l.

Lemma world_call U O O' tl tl' c x x' : is_world c = true -> sm_w x = sm_w x' ->
  sm_w (fst (interp U O tl c x)) = sm_w (fst (interp U O' tl' c x')) /\ snd (interp U O tl c x) = snd (interp U O' tl' c x').
Proof.
  intros Hc Hx. destruct c; try discriminate; cbn [interp]; rewrite Hx;
  match goal with |- context [?f (sm_w x')] => destruct (f (sm_w x')) as [w r] end; auto.
Qed.
Lemma obs_call U O tl c x : is_world c = false -> sm_w (fst (interp U O tl c x)) = sm_w x.
Proof.
  intros Hc. destruct c; try discriminate; cbn [interp].
  - unfold obs_init. destruct (O i); [destruct (fi _); reflexivity | destruct (log_init _ _ _ _ _) as [? []]; reflexivity | destruct (em_init _ _ _ _ _ _); reflexivity | ].
    destruct (sm_obs x i); try reflexivity. destruct (fi _ _ _); reflexivity.
  - unfold obs_update. destruct (O i), (sm_obs x i); try reflexivity; cbn zeta;
    match goal with |- context [rmap ?f ?a] => destruct (rmap f a); reflexivity end.
  - unfold obs_finish. destruct (O i), (sm_obs x i); try reflexivity. destruct (ff _); reflexivity.
Qed.
Lemma perf_world U O O' tl tl' x l y : performed (interp U O tl) x l y -> forall x', sm_w x' = sm_w x ->
  exists y', performed (interp U O' tl') x' (world_calls l) y' /\ sm_w y' = sm_w y.
Proof.
  induction 1 as [x | x c x1 l y E P IH]; intros x' Hx; [exists x'; split; [constructor | exact Hx] | ].
  cbn [world_calls filter fst]. destruct (is_world c) eqn:Ec.
  - destruct (world_call U O' O tl' tl c x' x Ec Hx) as [A B]. rewrite E in A, B. cbn [fst snd] in A, B. destruct (interp U O' tl' c x') as [x1' r'] eqn:E'. cbn [fst snd] in A, B. subst r'.
    destruct (IH x1' A) as (y' & P' & W'). exists y'. split; [ | exact W']. replace (now x) with (now x') by (unfold now; rewrite Hx; reflexivity). econstructor; eassumption.
  - assert (A := obs_call U O tl c x Ec). rewrite E in A. cbn [fst] in A. apply IH. congruence.
Qed.
Lemma world_calls_app a b : world_calls (a ++ b) = world_calls a ++ world_calls b. Proof. apply filter_app. Qed.
Lemma world_calls_none t (f : nat -> call) l : (forall i, is_world (f i) = false) -> world_calls (at_ t (map f l)) = [].
Proof. intros H. induction l as [ | i l IH]; [reflexivity | ]. cbn. rewrite H. exact IH. Qed.
Lemma world_schedule obs t0 ts : world_calls (schedule obs t0 ts) = schedule [] t0 ts.
Proof.
  unfold schedule. rewrite !world_calls_app. cbn [at_ map]. change (map (fun c => (c, t0)) (map OInit obs)) with (at_ t0 (map OInit obs)).
  assert (A : world_calls ((WInit, t0) :: at_ t0 (map OInit obs)) = [(WInit, t0)]) by (cbn [world_calls filter]; unfold is_world at 1; cbn [of_observer fst]; f_equal; apply (world_calls_none t0 OInit); reflexivity).
  rewrite A. change (map (fun c => (c, last ts t0)) (map OFin obs)) with (at_ (last ts t0) (map OFin obs)). rewrite (world_calls_none _ OFin) by reflexivity. cbn [map app]. f_equal. f_equal. clear A.
  revert t0. induction ts as [ | u us IH]; intros t0; [reflexivity | ]. cbn [steps]. rewrite world_calls_app, IH. f_equal. unfold step_calls. rewrite !at_app, !world_calls_app.
  rewrite (world_calls_none t0 (fun i => OUpd i (u - t0))) by reflexivity. reflexivity.
Qed.

(** With or without observers (whatever their classes, provided they only read the world), the world goes through the same
    states: if the simulation returns, so does the one without observers, with the same final world; an exception is either
    raised by a call of an observer, or raised by the simulation without observers too, with the same world.  Two sets of
    observers that do not raise leave the same world. *)
Theorem C65_observers_passive : forall U O O' t0 ts obs x x' y r, sm_w x' = sm_w x ->
  simulate U O (t0 :: ts) (IterList obs) x = (y, r) ->
  exists y' r', simulate U O' (t0 :: ts) (IterList []) x' = (y', r') /\
    ((r' = r /\ sm_w y' = sm_w y) \/
     exists e i c l1 l2 x1, r = Err e /\ In i obs /\ of_observer c = Some i /\ schedule obs t0 ts = l1 ++ (c, now x1) :: l2 /\
       performed (interp U O (t0 :: ts)) (set_w x (set_time (sm_w x) t0)) l1 x1 /\ interp U O (t0 :: ts) c x1 = (y, Err e)).
Proof.
  intros U O O' t0 ts obs x x' y r Hx E.
  destruct (C18_schedule U O t0 ts obs x y) as (A & _ & B). rewrite E in A, B.
  assert (W0 : sm_w (set_w x' (set_time (sm_w x') t0)) = sm_w (set_w x (set_time (sm_w x) t0))) by (cbn; rewrite Hx; reflexivity).
  destruct r as [[] | e].
  - destruct (perf_world U O O' (t0 :: ts) (t0 :: ts) _ _ _ (proj1 A eq_refl) _ W0) as (y' & P' & W'). rewrite world_schedule in P'.
    exists y', (Ok tt). split; [exact (proj2 (proj1 (C18_schedule U O' t0 ts [] x' y')) P') | ]. left. split; [reflexivity | exact W'].
  - destruct (proj1 (B e) eq_refl) as (l1 & c & l2 & x1 & Es & P & Ec).
    destruct (perf_world U O O' (t0 :: ts) (t0 :: ts) _ _ _ P _ W0) as (x1' & P' & W').
    destruct (is_world c) eqn:Wc.
    + destruct (world_call U O' O (t0 :: ts) (t0 :: ts) c x1' x1 Wc W') as [C1 C2]. rewrite Ec in C1, C2. cbn [fst snd] in C1, C2.
      destruct (interp U O' (t0 :: ts) c x1') as [y' r'] eqn:Ec'. cbn [fst snd] in C1, C2. subst r'.
      exists y', (Err e). split; [ | left; auto].
      apply (proj2 (proj2 (proj2 (C18_schedule U O' t0 ts [] x' y')) e)). exists (world_calls l1), c, (world_calls l2), x1'. split; [ | split; [exact P' | exact Ec']].
      rewrite <- (world_schedule obs), Es, world_calls_app. cbn [world_calls filter fst]. rewrite Wc. replace (now x1') with (now x1) by (unfold now; rewrite W'; reflexivity). reflexivity.
    + destruct (simulate U O' (t0 :: ts) (IterList []) x') as [y' r'] eqn:E'. exists y', r'. split; [reflexivity | ]. right.
      unfold is_world in Wc. destruct (of_observer c) as [i | ] eqn:Ei; [ | discriminate]. exists e, i, c, l1, l2, x1. split; [reflexivity | ]. split; [ | auto].
      assert (Hin : In (c, now x1) (schedule obs t0 ts)) by (rewrite Es; apply in_elt).
      assert (Q : forall t (f : nat -> call) s, (forall k, of_observer (f k) = Some k) -> In (c, s) (at_ t (map f obs)) -> In i obs).
      { intros t f s Hf H. apply in_map_iff in H. destruct H as (c' & H & H'). injection H as -> _. apply in_map_iff in H'. destruct H' as (k & <- & Hk). rewrite Hf in Ei. congruence. }
      unfold schedule in Hin. apply in_app_iff in Hin. destruct Hin as [Hin | Hin].
      * cbn [at_ map] in Hin. destruct Hin as [H | H]; [injection H as <- _; discriminate | ]. apply (Q t0 OInit (now x1)); [reflexivity | exact H].
      * apply in_app_iff in Hin. destruct Hin as [Hin | Hin]; [ | apply (Q _ OFin _ (fun _ => eq_refl) Hin)].
        clear - Ei Q Hin. revert t0 Hin. induction ts as [ | u us IH]; intros t0 Hin; [contradiction | ]. cbn [steps] in Hin. apply in_app_iff in Hin. destruct Hin as [Hin | Hin]; [ | apply (IH u Hin)].
        unfold step_calls in Hin. rewrite !at_app in Hin. apply in_app_iff in Hin. destruct Hin as [Hin | Hin].
        { cbn in Hin. destruct Hin as [H | [H | [H | []]]]; injection H as <- _; discriminate. }
        apply in_app_iff in Hin. destruct Hin as [Hin | Hin]; [apply (Q _ (fun i => OUpd i (u - t0)) _ (fun _ => eq_refl) Hin) | ]. cbn in Hin. destruct Hin as [H | []]. injection H as <- _. discriminate.
Qed.

(** ** Loggers: witnesses *)
Definition sy_log : logopts := LO true true true false.
Definition sy_OL (i : nat) : okind := OLog sy_log.
Lemma sy_log_init v tl : same_objects sy_h (s_heap (v_s v)) -> exists nm g, log_init sy_U v sy_log tl (fun _ => None) = (nm, Ok g).
Proof.
  intros So. assert (IJ : iterjoints (ch_e ky) 10 (s_heap (v_s v)) = Ok [1%nat]) by (rewrite (iter_same _ _ _ _ So); reflexivity).
  destruct So as (_ & Fj & Sf & _). unfold log_init, log_state_init, log_what_init. cbn [sy_log lo_state lo_transforms lo_flat sy_U su_e su_fuel su_str_id]. rewrite IJ.
  assert (F1 : frames1 (s_heap (v_s v)) [1%nat] = Ok [FBody 1]) by (unfold frames1; cbn [rmapM]; rewrite Fj; reflexivity).
  rewrite F1. unfold itermovingsubframes. rewrite Sf. cbn. eexists. eexists. reflexivity.
Qed.

(** a complete simulation with a non flat SaveLogger *)
Example C20_logger_witness : exists y g, simulate sy_U sy_OL [0; 1 / 2; 1] (IterList [0%nat]) sy_x = (y, Ok tt) /\ sm_obs y 0%nat = MLog g /\
  lg_time g = [Some 0; Some (1 / 2)] /\ length (lg_model g) = 2%nat.
Proof.
  assert (No : NoDup [0%nat]) by (repeat constructor; intros []).
  destruct (simulate sy_U sy_OL [0; 1 / 2; 1] (IterList [0%nat]) sy_x) as [y r] eqn:E.
  assert (R : r = Ok tt).
  { destruct (C65_observers_passive sy_U sy_OL sy_O 0 [1 / 2; 1] [0%nat] sy_x sy_x y r eq_refl E) as (y' & r' & E' & D).
    destruct (sy_progress sy_U sy_O sy_x eq_refl eq_refl eq_refl gauss_inv_spec eq_refl eq_refl eq_refl eq_refl 0 [1 / 2; 1] []) as (y2 & E2); [constructor | intros i [] | | ].
    { intros k Hk. cbn in Hk. destruct k as [ | [ | k]]; cbn; lra || lia. }
    rewrite E2 in E'. injection E' as <- <-. destruct D as [[D _] | (e & i & c & l1 & l2 & x1 & -> & Ii & Oc & Es & P & Ec)]; [auto | exfalso].
    destruct Ii as [<- | []]. destruct c as [ | i | | | | i dt | | i]; try discriminate; cbn in Oc; injection Oc as ->.
    - (* init *) cbn [interp] in Ec. unfold obs_init, sy_OL in Ec.
      cbn [schedule] in Es. assert (L : l1 = [(WInit, 0)]).
      { unfold schedule in Es. cbn [at_ map app steps step_calls last] in Es. destruct l1 as [ | ? l1]; [discriminate | ]. injection Es as <- Es. destruct l1 as [ | ? l1]; [reflexivity | ]. exfalso. injection Es as _ Es.
        assert (Hin : In (OInit 0, now x1) (l1 ++ (OInit 0, now x1) :: l2)) by apply in_elt. rewrite <- Es in Hin. cbn in Hin. intuition discriminate. }
      subst l1. inversion P as [ | ? ? x0 ? ? E0 P0]; subst. inversion P0; subst. cbn [interp] in E0.
      assert (Gr := interp_graph sy_U sy_OL [0; 1 / 2; 1] WInit (set_w sy_x (set_time (sm_w sy_x) 0)) x1 E0).
      assert (Nm : sm_names x1 = fun _ => None).
      { cbn [interp] in E0. destruct (world_init sy_U (sm_w (set_w sy_x (set_time (sm_w sy_x) 0)))) as [w0 r0]. injection E0 as <- ->. reflexivity. }
      destruct (sy_log_init (w_v (sm_w x1)) [0; 1 / 2; 1] Gr) as (nm & g & El). rewrite Nm, El in Ec. discriminate.
    - destruct (C20_in_bounds sy_U sy_OL 0 [1 / 2; 1] [0%nat] sy_x y e 0%nat dt l1 l2 x1 No Es P Ec) as (f & t & L & T). inversion L; subst; try discriminate.
    }
  subst r. destruct (C20_logger_partial sy_U sy_OL 0 [1 / 2; 1] [0%nat] sy_x y 0%nat sy_log No ltac:(cbn; auto) eq_refl E) as (g & E1 & E2 & E3 & _).
  exists y, g. split; [reflexivity | ]. split; [exact E1 | ]. split; [exact E2 | apply E3; reflexivity].
Qed.

(** two bodies called "arm" in a flat log *)
Example C20_flat_duplicates_witness : let U := SU (ch_e k12) (ch_sc ky_m) 10 gauss_inv (fun _ _ => mzero) (fun _ => []) (fun _ _ _ => None) ky_eigvals ky_eig (fun _ => EmptyString) in
  let v := WV (WS (ch_h k12) (fun _ => RzJoint) (fun _ => eye4) (fun _ _ => 0) wdyn0 vzero mzero mzero 0) (fun _ => no_attr) [] in
  exists nm' g, log_init U v (LO true false false true) [0; 1; 2] (fun i => if Nat.eqb i 1 then None else Some "arm"%string) = (nm', Ok g) /\
    iterbodies (ch_e k12) 10 (ch_h k12) = Ok [0; 1; 2]%nat /\ map snd (lg_what g) = [TBody 0; TBody 2].
Proof.
  cbn zeta. assert (IB : iterbodies (ch_e k12) 10 (ch_h k12) = Ok [0; 1; 2]%nat) by reflexivity.
  unfold log_init, log_state_init, log_what_init. cbn [lo_state lo_transforms lo_flat su_e su_fuel su_str_id v_s s_heap]. rewrite IB. 
  assert (Sf : w_subframes (ch_h k12) = []) by reflexivity. unfold itermovingsubframes. rewrite Sf.
  unfold name_all_elements, name_pass, what_of, dic_set, name_of, id_frame, check_names. cbn.
  do 2 eexists. split; [reflexivity | ]. split; reflexivity.
Qed.

(** a timeline that goes back in time: one step is made, then AssertionError *)
Example C19_witness : exists y, simulate sy_U sy_O [0; 1; 1 / 2] (IterList []) sy_x = (y, Err AssertionError) /\ now y = 1.
Proof.
  destruct (sy_progress sy_U sy_O sy_x eq_refl eq_refl eq_refl gauss_inv_spec eq_refl eq_refl eq_refl eq_refl 0 [1; 2] []) as (z & Ez); [constructor | intros i [] | | ].
  { intros k Hk. cbn in Hk. destruct k as [ | [ | k]]; cbn; lra || lia. }
  apply (proj1 (C18_schedule sy_U sy_O 0 [1; 2] [] sy_x z)) in Ez.
  set (made := at_ 0 [WInit] ++ steps [] 0 [1] ++ at_ 1 [Dyn]).
  change (schedule [] 0 [1; 2]) with (made ++ at_ 1 [Ctl (2 - 1); Cons (2 - 1); Int (2 - 1)]) in Ez. apply perf_inv_app in Ez. destruct Ez as (y1 & P & _).
  destruct (perf_world sy_U sy_O sy_O [0; 1; 2] [0; 1; 1 / 2] _ _ _ P _ eq_refl) as (y2 & P2 & _).
  destruct (simulate sy_U sy_O [0; 1; 1 / 2] (IterList []) sy_x) as [y r] eqn:E.
  destruct (C19_non_increasing sy_U sy_O 0 [1] (1 / 2) [] [] sy_x y r) as [[-> Py] | (e & -> & Rs)]; [cbn; lra | exact E | | ].
  - exists y. split; [reflexivity | ]. change (performed (interp sy_U sy_O [0; 1; 1 / 2]) (set_w sy_x (set_time (sm_w sy_x) 0)) made y) in Py.
    assert (Q : forall x l y, performed (interp sy_U sy_O [0; 1; 1 / 2]) x l y -> now y = now x + sumlist (fun c => match fst c with Int dt => dt | _ => 0 end) l).
    { clear. induction 1 as [x | x c x1 l y E P IH]; [cbn; ring | ]. apply interp_time in E. rewrite IH, E. cbn. ring. }
    apply Q in Py. rewrite Py. cbn. lra.
  - exfalso. exact (perf_not_raises _ _ _ _ _ _ P2 Rs).
Qed.
