(** Lemmas for C20: recorders and loggers never write out of bounds, in any prefix of a run. *)
From Verif Require Export Proof_Sim5 Props_Sim.
From Coq Require Import Lra.

Definition is_upd (i : nat) (c : call) : bool := match c with OUpd j _ => Nat.eqb i j | _ => false end.
Lemma times_cons p c t l : times p ((c, t) :: l) = ((if p c then 1 else 0) + times p l)%nat.
Proof. unfold times. cbn. destruct (p c); reflexivity. Qed.

Lemma rec_perf U O tl i fi f n x l y : performed (interp U O tl) x l y -> O i = ORec fi f -> (forall t, ~ In (OInit i, t) l) ->
  forall r, sm_obs x i = MRec r -> (exists ds, rc_index r = length ds /\ filled n ds (rc_record r)) ->
  exists r', sm_obs y i = MRec r' /\ rc_com r' = rc_com r /\ rc_index r' = (rc_index r + times (is_upd i) l)%nat /\ (exists ds, rc_index r' = length ds /\ filled n ds (rc_record r')).
Proof.
  induction 1 as [x | x c x1 l y E P IH]; intros Ei Ni r Er F; [exists r; unfold times; cbn; rewrite Nat.add_0_r; auto | ].
  assert (Ni' : forall t, ~ In (OInit i, t) l) by (intros t H; apply (Ni t); now right).
  assert (Nc : c <> OInit i) by (intros ->; eapply Ni; left; reflexivity).
  rewrite times_cons. destruct (interp_frame _ _ _ _ _ _ _ E) as (_ & _ & _ & Fr).
  assert (S : (is_upd i c = false /\ sm_obs x1 i = MRec r) \/ (is_upd i c = true /\ exists r1, sm_obs x1 i = MRec r1 /\ rc_com r1 = rc_com r /\ rc_index r1 = S (rc_index r) /\ exists ds, rc_index r1 = length ds /\ filled n ds (rc_record r1))).
  { destruct c as [ | j | | | | j dt | | j]; try (left; split; [reflexivity | rewrite Fr by (cbn; auto); exact Er]).
    - cbn. destruct (Nat.eqb_spec i j) as [<- | Nj]; [right; split; [reflexivity | ] | left; split; [reflexivity | rewrite Fr by (cbn; exact Nj); exact Er]].
      cbn [interp] in E. unfold obs_update in E. rewrite Ei, Er in E. cbn zeta in E. destruct (f _ _) as [d | ]; [ | discriminate]. cbn [rbind] in E. unfold save_data in E.
      destruct F as (ds & Fi & F). rewrite Fi in E. destruct (set_item _ _ _) as [l1 | ] eqn:El; [ | discriminate]. cbn in E. injection E as <-. apply (proj2 (set_filled n ds _ d F)) in El.
      exists (Rec l1 (S (length ds)) (rc_com r)). cbn. unfold upd. rewrite Nat.eqb_refl. split; [reflexivity | ]. split; [reflexivity | ]. split; [congruence | ].
      exists (ds ++ [d]). split; [rewrite app_length; cbn; lia | apply El].
    - left. split; [reflexivity | ]. destruct (Nat.eq_dec i j) as [<- | Nj]; [ | rewrite Fr by (cbn; exact Nj); exact Er].
      cbn [interp] in E. unfold obs_finish in E. rewrite Ei in E. destruct (sm_obs x i) eqn:Q; injection E as <-; congruence. }
  destruct S as [[-> S] | [-> (r1 & S & Sc & Si & Sf)]].
  - destruct (IH Ei Ni' r S F) as (r' & A & B & C & D). exists r'. auto.
  - destruct (IH Ei Ni' r1 S Sf) as (r' & A & B & C & D). exists r'. repeat split; auto; [congruence | rewrite C; lia].
Qed.

Lemma log_perf U O tl i o n key js what h0 x l y : performed (interp U O tl) x l y -> O i = OLog o -> (forall t, ~ In (OInit i, t) l) ->
  NoDup (map key js) -> NoDup (map fst what) -> (lo_state o = true -> iterjoints (su_e U) (su_fuel U) h0 = Ok js) ->
  same_objects h0 (heap_of x) -> (forall j, In j js -> sm_names x (id_joint j) = Some (key j)) ->
  forall g seen, sm_obs x i = MLog g -> log_inv U o n key js what seen g ->
  same_objects h0 (heap_of y) /\ (forall j, In j js -> sm_names y (id_joint j) = Some (key j)) /\
  exists g' seen', sm_obs y i = MLog g' /\ log_inv U o n key js what seen' g' /\ length seen' = (length seen + times (is_upd i) l)%nat.
Proof.
  induction 1 as [x | x c x1 l y E P IH]; intros Ei Ni Nj Nw Hj Gr Hn g seen Eg F; [split; [exact Gr | split; [exact Hn | ]]; exists g, seen; unfold times; cbn; rewrite Nat.add_0_r; auto | ].
  assert (Ni' : forall t, ~ In (OInit i, t) l) by (intros t H; apply (Ni t); now right).
  assert (Nc : c <> OInit i) by (intros ->; eapply Ni; left; reflexivity).
  rewrite times_cons. destruct (interp_frame _ _ _ _ _ _ _ E) as (K & _ & _ & Fr).
  assert (Gr1 : same_objects h0 (heap_of x1)) by (eapply same_objects_trans; [exact Gr | eapply interp_graph; exact E]).
  assert (Hn1 : forall j, In j js -> sm_names x1 (id_joint j) = Some (key j)) by (intros j Hin; apply K, Hn, Hin).
  assert (S : (is_upd i c = false /\ sm_obs x1 i = MLog g) \/ (is_upd i c = true /\ exists g1 v, sm_obs x1 i = MLog g1 /\ log_inv U o n key js what (seen ++ [v]) g1)).
  { destruct c as [ | j | | | | j dt | | j]; try (left; split; [reflexivity | rewrite Fr by (cbn; auto); exact Eg]).
    - cbn. destruct (Nat.eqb_spec i j) as [<- | Nj']; [right; split; [reflexivity | ] | left; split; [reflexivity | rewrite Fr by (cbn; exact Nj'); exact Eg]].
      cbn [interp] in E. unfold obs_update in E. rewrite Ei, Eg in E. cbn zeta in E. destruct (log_update _ _ _ _ _) as [g1 | ] eqn:El; [ | discriminate]. cbn in E. injection E as <-.
      exists g1, (w_v (sm_w x)). cbn. unfold upd. rewrite Nat.eqb_refl. split; [reflexivity | ].
      eapply (log_step U (w_v (sm_w x)) o (sm_names x) g g1 n key js what seen Nj Nw); [ | | exact F | exact El].
      + intros j Hin. unfold name_of. rewrite (Hn j Hin). reflexivity.
      + intros Hs. change (s_heap (v_s (w_v (sm_w x)))) with (heap_of x). rewrite (iter_same _ _ _ _ Gr). apply Hj, Hs.
    - left. split; [reflexivity | ]. destruct (Nat.eq_dec i j) as [<- | Nj']; [ | rewrite Fr by (cbn; exact Nj'); exact Eg].
      cbn [interp] in E. unfold obs_finish in E. rewrite Ei in E. destruct (sm_obs x i) eqn:Q; injection E as <-; congruence. }
  destruct S as [[-> S] | [-> (g1 & v & S & Sf)]].
  - exact (IH Ei Ni' Nj Nw Hj Gr1 Hn1 g seen S F).
  - destruct (IH Ei Ni' Nj Nw Hj Gr1 Hn1 g1 _ S Sf) as (A & B & g' & seen' & C & D & L). split; [exact A | ]. split; [exact B | ]. exists g', seen'. split; [exact C | ]. split; [exact D | ]. rewrite L, app_length. cbn. lia.
Qed.

(** totality of the writes *)
Lemma dic_write_total {A} n (d : dic (list (option A))) key (ds : list A) v : rows n d key ds -> (length ds < n)%nat -> exists d', dic_write d key (length ds) v = Ok d'.
Proof. intros (l & G & F) L. unfold dic_write. rewrite G. cbn [rbind]. destruct (proj1 (set_filled n ds l v F) L) as (l' & -> & _). cbn. eexists; reflexivity. Qed.
Lemma rows_other {A} n (d d' : dic (list (option A))) key (k : nat) (v : A) key' ds : dic_write d key k v = Ok d' -> key' <> key -> rows n d key' ds -> rows n d' key' ds.
Proof. intros E Ne (l & G & F). apply dic_write_ok in E. destruct E as (a & b & _ & _ & Q). exists l. rewrite Q. destruct (String.eqb_spec key key'); [congruence | auto]. Qed.
Lemma log_states_total s nm n k js : (k < n)%nat -> NoDup (map (fun j => name_of nm (id_joint j)) js) -> forall dp dv (P V : nat -> list pyval),
  (forall j, In j js -> rows n dp (name_of nm (id_joint j)) (P j) /\ rows n dv (name_of nm (id_joint j)) (V j) /\ length (P j) = k /\ length (V j) = k) ->
  exists r, log_states s nm k js dp dv = Ok r.
Proof.
  intros L. induction js as [ | j js IH]; intros N dp dv P V H; [eexists; reflexivity | ]. cbn [log_states map] in *. inversion N as [ | ? ? Nj Nd]; subst.
  destruct (H j (or_introl eq_refl)) as (A & B & C & D).
  destruct (dic_write_total n dp _ (P j) (gpos_value s j) A) as (dp1 & E1); [lia | ]. rewrite C in E1. rewrite E1. cbn [rbind].
  destruct (dic_write_total n dv _ (V j) (gvel_value s j) B) as (dv1 & E2); [lia | ]. rewrite D in E2. rewrite E2. cbn [rbind].
  apply (IH Nd dp1 dv1 P V). intros j' Hj'. destruct (H j' (or_intror Hj')) as (A' & B' & C' & D').
  assert (Ne : name_of nm (id_joint j') <> name_of nm (id_joint j)) by (intros Q; apply Nj; rewrite <- Q; apply (in_map (fun j => name_of nm (id_joint j))); exact Hj').
  split; [eapply rows_other; eassumption | ]. split; [eapply rows_other; eassumption | auto].
Qed.
Lemma log_poses_total U v flat n k what : (k < n)%nat -> NoDup (map fst what) -> forall d (P : string -> list m4),
  (forall key, In key (map fst what) -> rows n d key (P key) /\ length (P key) = k) ->
  (exists d', log_poses U v flat k what d = Ok d') \/ (exists key t e, In (key, t) what /\ target_pose U v flat t = Err e /\ log_poses U v flat k what d = Err e).
Proof.
  intros L. induction what as [ | [key t] what IH]; intros N d P H; [left; eexists; reflexivity | ]. cbn [log_poses map fst] in *. inversion N as [ | ? ? Nj Nd]; subst.
  destruct (target_pose U v flat t) as [T | e] eqn:Et; [ | right; exists key, t, e; split; [now left | split; [exact Et | reflexivity]]]. cbn [rbind].
  destruct (H key (or_introl eq_refl)) as (A & C). destruct (dic_write_total n d key (P key) T A) as (d1 & E1); [lia | ]. rewrite C in E1. rewrite E1. cbn [rbind].
  destruct (IH Nd d1 P) as [Q | (key' & t' & e & Hin & Q)]; [ | left; exact Q | right; exists key', t', e; split; [now right | exact Q]].
  intros key' Hk. destruct (H key' (or_intror Hk)) as (A' & C'). split; [ | exact C']. eapply rows_other; [exact E1 | | exact A']. intros ->. contradiction.
Qed.
Lemma log_total U v o nm g n key js what seen :
  NoDup (map key js) -> NoDup (map fst what) -> (forall j, In j js -> name_of nm (id_joint j) = key j) ->
  (lo_state o = true -> iterjoints (su_e U) (su_fuel U) (s_heap (v_s v)) = Ok js) ->
  log_inv U o n key js what seen g -> (length seen < n)%nat ->
  (exists g', log_update U v o nm g = Ok g') \/ (exists k t e, In (k, t) what /\ target_pose U v (lo_flat o) t = Err e /\ log_update U v o nm g = Err e).
Proof.
  intros Nj Nw Hk Hj (I1 & I2 & I3 & I4 & I5 & I6 & I7) L. unfold log_update. cbn zeta. rewrite I1, I2, I3.
  replace (Nat.leb (length seen) n) with true by (symmetry; apply Nat.leb_le; lia).
  destruct (proj1 (set_filled n _ _ (s_time (v_s v)) I4)) as (tl' & Et & _); [rewrite map_length; exact L | ]. rewrite map_length in Et. rewrite Et. cbn [rbind].
  assert (Hk' : map (fun j => name_of nm (id_joint j)) js = map key js) by (apply map_ext_in; exact Hk).
  assert (St : exists r, (if lo_state o then let* js := iterjoints (su_e U) (su_fuel U) (s_heap (v_s v)) in log_states (v_s v) nm (length seen) js (lg_pos g) (lg_vel g) else Ok (lg_pos g, lg_vel g)) = Ok r).
  { destruct (lo_state o) eqn:Hs; [ | eexists; reflexivity]. rewrite (Hj eq_refl). cbn [rbind].
    eapply (log_states_total (v_s v) nm n (length seen) js L) with (P := fun j => map (fun v => gpos_value (v_s v) j) seen) (V := fun j => map (fun v => gvel_value (v_s v) j) seen); [rewrite Hk'; exact Nj | ].
    intros j Hin. rewrite (Hk j Hin), !map_length. destruct (I6 eq_refl j Hin). auto. }
  destruct St as ([dp dv] & ->). cbn [rbind].
  assert (Md : exists r, (if lo_model o then set_item (lg_model g) (length seen) (Some (world_gvel (s_heap (v_s v)), d_mass (s_dyn (v_s v)), s_adm (v_s v), d_nle (s_dyn (v_s v)), s_gforce (v_s v))) else Ok (lg_model g)) = Ok r).
  { destruct (lo_model o); [ | eexists; reflexivity]. destruct (proj1 (set_filled n _ _ (model_row (v_s v)) (I5 eq_refl))) as (l' & E & _); [rewrite map_length; exact L | ]. rewrite map_length in E. exists l'. exact E. }
  destruct Md as (md & Md).
  destruct (lo_transforms o) eqn:Ht; [ | left; cbn [rbind]; rewrite Md; eexists; reflexivity].
  set (P := fun k => match dic_get what k with Ok t => map (pose_or U (lo_flat o) t) seen | Err _ => [] end).
  destruct (log_poses_total U v (lo_flat o) n (length seen) what L Nw (lg_tr g) P) as [(d' & ->) | (k & t & e & Hin & Q & ->)].
  - intros k Hin. apply in_map_iff in Hin. destruct Hin as ([k' t] & Q & Hin). cbn in Q. subst k'. unfold P. rewrite (dic_get_in _ _ _ Nw Hin), map_length. split; [apply (I7 eq_refl _ _ Hin) | reflexivity].
  - left. cbn [rbind]. rewrite Md. eexists; reflexivity.
  - right. exists k, t, e. auto.
Qed.

Lemma app_split {A} (a b l1 l2 : list A) c : a ++ b = l1 ++ c :: l2 -> (exists a2, a = l1 ++ c :: a2) \/ (exists b1, l1 = a ++ b1 /\ b = b1 ++ c :: l2).
Proof.
  revert l1. induction a as [ | x a IH]; cbn; intros l1 E; [right; exists l1; auto | ].
  destruct l1 as [ | y l1]; cbn in E; injection E as -> E; [left; exists a; reflexivity | ]. destruct (IH l1 E) as [(a2 & ->) | (b1 & -> & Q)]; [left; exists a2; reflexivity | right; exists b1; auto].
Qed.
(** where a recorder's update can be in a schedule *)
Lemma upd_prefix obs t0 ts l1 i dt s l2 : NoDup obs -> schedule obs t0 ts = l1 ++ (OUpd i dt, s) :: l2 ->
  In i obs /\ (exists m, l1 = at_ t0 (WInit :: map OInit obs) ++ m /\ forall j t, ~ In (OInit j, t) m) /\ (times (is_upd i) l1 < length ts)%nat.
Proof.
  intros N E. assert (Hd : forall c t, In (c, t) (at_ t0 (WInit :: map OInit obs)) -> forall j d, c <> OUpd j d).
  { intros c t H j d. apply in_map_iff in H. destruct H as (c' & H & [<- | H']); injection H as <- _; [discriminate | ]. apply in_map_iff in H'. destruct H' as (k & <- & _). discriminate. }
  assert (St : forall c t us, In (c, t) (steps obs t0 us) -> match c with OInit _ | WInit | OFin _ => False | OUpd j _ => In j obs | _ => True end).
  { intros c t us. revert t0 E Hd. clear. intros t0 _ _. revert t0. induction us as [ | u us IH]; cbn [steps]; intros t0 H; [contradiction | ]. apply in_app_iff in H. destruct H as [H | H]; [ | eapply IH; exact H].
    apply in_map_iff in H. destruct H as (c' & H & H'). injection H as -> _. unfold step_calls in H'. apply in_app_iff in H'. destruct H' as [H' | H'].
    - cbn in H'. destruct H' as [<- | [<- | [<- | []]]]; exact Logic.I.
    - apply in_app_iff in H'. destruct H' as [H' | H']; [ | destruct H' as [<- | []]; exact Logic.I]. apply in_map_iff in H'. destruct H' as (k & <- & Hk). exact Hk. }
  assert (Ot : forall (us : list R) c t, In (c, t) (steps obs t0 ts ++ at_ (last ts t0) (map OFin obs)) -> match c with OInit _ | WInit => False | OUpd j _ => In j obs | _ => True end).
  { intros us c t H. apply in_app_iff in H. destruct H as [H | H]; [apply St in H; destruct c; auto | ]. apply in_map_iff in H. destruct H as (c' & H & H'). injection H as -> _. apply in_map_iff in H'. destruct H' as (k & <- & _). exact Logic.I. }
  assert (E' := E). unfold schedule in E. apply app_split in E. destruct E as [(a2 & Q) | (b1 & -> & Q)].
  { exfalso. eapply (Hd (OUpd i dt) s); [rewrite Q; apply in_app_iff; right; now left | reflexivity]. }
  assert (Hi : In i obs) by (apply (Ot ts (OUpd i dt) s); rewrite Q; apply in_app_iff; right; now left).
  split; [exact Hi | ]. split.
  - exists b1. split; [reflexivity | ]. intros j t H. apply (Ot ts (OInit j) t). rewrite Q. apply in_app_iff. now left.
  - destruct (C18_counts obs t0 ts) as (_ & _ & _ & _ & _ & _ & C). destruct (C i N Hi) as (_ & C2 & _). change (times (is_upd i) (schedule obs t0 ts) = length ts) in C2.
    rewrite E', times_app, times_cons in C2. cbn [is_upd] in C2. rewrite Nat.eqb_refl in C2. lia.
Qed.
