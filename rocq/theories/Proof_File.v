(** The files of the loggers: lemmas. *)
From Coq Require Import Lra Lia.
From Verif Require Import Spec_File Proof_Sim Proof_Sim2 Proof_Sim3 Proof_Sim4 Proof_Sim5 Props_Sim Props_Sim2.
Open Scope R_scope.

Lemma shape_eqb_true s t : shape_eqb s t = true <-> s = t.
Proof. unfold shape_eqb. destruct (list_eq_dec Nat.eq_dec s t); split; congruence. Qed.
Lemma shape_refl s : shape_eqb s s = true. Proof. now apply shape_eqb_true. Qed.
Lemma broadcasts_refl s : broadcasts s s = true.
Proof. induction s as [ | a s IH]; cbn; [reflexivity | ]. now rewrite Nat.eqb_refl, IH. Qed.
(** a value of the shape of the dataset is kept *)
Definition kept (v : ndarray) : ndarray := ND (nd_shape v) (fun idx => nd_at v (bc_index (nd_shape v) idx)).
Lemma assign_same v : nd_assign (nd_shape v) v = Ok (kept v).
Proof. unfold nd_assign. now rewrite broadcasts_refl. Qed.
Lemma bc_same s : forall idx, Forall2 (fun i n => (i < n)%nat) idx s -> bc_index s idx = idx.
Proof.
  intros idx F. assert (L : length idx = length s) by (clear -F; induction F; cbn; congruence). unfold bc_index. rewrite L, Nat.sub_diag. cbn [skipn]. clear L.
  induction F as [ | i n idx s Hi F IH]; [reflexivity | ]. cbn [combine map fst snd]. rewrite IH. f_equal. destruct (Nat.eqb_spec n 1); lia.
Qed.
Lemma kept_at v idx : Forall2 (fun i n => (i < n)%nat) idx (nd_shape v) -> nd_at (kept v) idx = nd_at v idx.
Proof. intros F. cbn. now rewrite bc_same. Qed.
Lemma assign_err shape v x : nd_assign shape v = Err x -> x = TypeError.
Proof. unfold nd_assign. destruct (broadcasts _ _); congruence. Qed.
Lemma require_err d k shape x : require_dataset d k shape = Err x -> x = TypeError.
Proof. unfold require_dataset. destruct (dic_get d k); [ | discriminate]. destruct (shape_eqb _ _); congruence. Qed.
Lemma write_group_err n l : forall d d' x, write_group n l d = (d', Err x) -> x = TypeError.
Proof.
  induction l as [ | (k, v) l IH]; intros d d' x E; [discriminate | ]. cbn [write_group] in E. destruct (require_dataset d k _) as [d1 | y] eqn:E1; [ | injection E as _ <-; exact (require_err _ _ _ _ E1)].
  destruct (nd_assign _ v) as [a | y] eqn:E2; [exact (IH _ _ _ E) | injection E as _ <-; exact (assign_err _ _ _ E2)].
Qed.
Lemma write_groups_err n els : forall gs gs' x, write_groups n els gs = (gs', Err x) -> x = TypeError.
Proof.
  induction els as [ | (e, l) els IH]; intros gs gs' x E; [discriminate | ]. cbn [write_groups] in E. destruct (write_group n l _) as (d1, [[] | y]) eqn:E1; [exact (IH _ _ _ E) | injection E as _ <-; exact (write_group_err _ _ _ _ _ E1)].
Qed.
(** a success stores every array, as an array of shape (n, 4, 4) *)
Lemma write_group_ok n l : forall d d', write_group n l d = (d', Ok tt) ->
  (forall k v, In (k, v) l -> broadcasts (rev (nd_shape v)) [4; 4; n]%nat = true) /\
  (forall k a, dic_get d' k = Ok a -> dic_get d k = Ok a \/ nd_shape a = [n; 4; 4]%nat) /\
  (forall k v, In (k, v) l -> exists a, dic_get d' k = Ok a /\ nd_shape a = [n; 4; 4]%nat).
Proof.
  induction l as [ | (k, v) l IH]; intros d d' E; [injection E as <-; split; [intros k v [] | ]; split; [auto | intros k v []] | ].
  cbn [write_group] in E. destruct (require_dataset d k _) as [d1 | y] eqn:E1; [ | discriminate]. destruct (nd_assign _ v) as [a | y] eqn:E2; [ | discriminate].
  unfold nd_assign in E2. destruct (broadcasts _ _) eqn:Eb; [ | discriminate]. injection E2 as <-. change (rev [n; 4; 4]%nat) with [4; 4; n]%nat in Eb.
  destruct (IH _ _ E) as (B & C & D).
  assert (K : forall k' b, dic_get d1 k' = Ok b -> dic_get d k' = Ok b \/ nd_shape b = [n; 4; 4]%nat).
  { intros k' b Eb'. unfold require_dataset in E1. destruct (dic_get d k) as [a0 | ] eqn:Ed; [destruct (shape_eqb _ _); [injection E1 as <-; auto | discriminate] | ]. injection E1 as <-. rewrite dic_get_set in Eb'. destruct (String.eqb k k'); [injection Eb' as <-; right; reflexivity | auto]. }
  split; [intros k' v' [Q | J]; [injection Q as <- <-; exact Eb | eauto] | ]. split.
  - intros k' b Eb'. destruct (C k' b Eb') as [Q | Q]; [ | auto]. rewrite dic_get_set in Q. destruct (String.eqb k k'); [injection Q as <-; right; reflexivity | auto].
  - intros k' v' [Q | J]; [ | eauto]. injection Q as <- <-. destruct (in_dec string_dec k (map fst l)) as [J | J].
    + apply in_map_iff in J. destruct J as ((k2, v2) & Q & J). cbn in Q. subst k2. eauto.
    + assert (Q : dic_get d' k = Ok (ND [n; 4; 4]%nat (fun idx => nd_at v (bc_index (nd_shape v) idx)))); [ | eexists; split; [exact Q | reflexivity]].
      assert (X : forall l d d' k b, write_group n l d = (d', Ok tt) -> ~ In k (map fst l) -> dic_get d k = Ok b -> dic_get d' k = Ok b).
      { clear. induction l as [ | (k, v) l IH]; intros d d' k' b E N Q; [injection E as <-; exact Q | ]. cbn [write_group] in E. destruct (require_dataset d k _) as [d1 | y] eqn:E1; [ | discriminate]. destruct (nd_assign _ v) as [a | y] eqn:E2; [ | discriminate].
        apply (IH _ _ _ _ E); [intros J; apply N; now right | ]. assert (Nk : k <> k') by (intros ->; apply N; now left). rewrite dic_get_set. apply String.eqb_neq in Nk. rewrite Nk. unfold require_dataset in E1. destruct (dic_get d k) as [a0 | ]; [destruct (shape_eqb _ _); [injection E1 as <-; auto | discriminate] | ]. injection E1 as <-. rewrite dic_get_set, Nk. exact Q. }
      apply (X _ _ _ _ _ E J). rewrite dic_get_set, String.eqb_refl. reflexivity.
Qed.
Lemma write_groups_ok n els : forall gs gs', write_groups n els gs = (gs', Ok tt) -> forall e l k v, In (e, l) els -> In (k, v) l ->
  broadcasts (rev (nd_shape v)) [4; 4; n]%nat = true.
Proof.
  induction els as [ | (e, l) els IH]; intros gs gs' E e' l' k v J Jl; [destruct J | ]. cbn [write_groups] in E. destruct (write_group n l _) as (d1, [[] | y]) eqn:E1; [ | discriminate].
  destruct J as [Q | J]; [injection Q as <- <-; exact (proj1 (write_group_ok _ _ _ _ E1) _ _ Jl) | exact (IH _ _ E _ _ _ _ J Jl)].
Qed.
Lemma write_groups_stored n els : NoDup (map fst els) -> forall gs gs', write_groups n els gs = (gs', Ok tt) ->
  (forall e, ~ In e (map fst els) -> dic_get gs' e = dic_get gs e) /\
  forall e l k v, In (e, l) els -> In (k, v) l -> exists d a, dic_get gs' e = Ok d /\ dic_get d k = Ok a /\ nd_shape a = [n; 4; 4]%nat.
Proof.
  induction els as [ | (e, l) els IH]; intros N gs gs' E; [injection E as <-; split; [reflexivity | intros e l k v []] | ]. cbn [write_groups] in E. destruct (write_group n l _) as (d1, [[] | y]) eqn:E1; [ | discriminate].
  cbn [map] in N. inversion N as [ | ? ? Ne Nd]; subst. destruct (IH Nd _ _ E) as (A & B). split.
  - intros e' J. cbn [map fst] in J. rewrite A by (intros Q; apply J; now right). rewrite dic_get_set. destruct (String.eqb_spec e e') as [-> | ]; [exfalso; apply J; now left | reflexivity].
  - intros e' l' k v [Q | J] Jl; [ | eauto]. injection Q as <- <-. destruct (proj2 (proj2 (write_group_ok _ _ _ _ E1)) k v Jl) as (a & Ea & Es). exists d1, a. split; [ | auto]. rewrite A by exact Ne. now rewrite dic_get_set, String.eqb_refl.
Qed.
(** arrays of shape (n, 4, 4) are written in a new group as they are *)
Lemma write_group_new n l : forall d, NoDup (map fst (d ++ l)) -> (forall k v, In (k, v) l -> nd_shape v = [n; 4; 4]%nat) ->
  write_group n l d = (d ++ dic_map kept l, Ok tt).
Proof.
  induction l as [ | (k, v) l IH]; intros d N Hs; [cbn; now rewrite app_nil_r | ]. cbn [write_group].
  assert (Nk : ~ In k (map fst d)). { rewrite map_app in N. apply NoDup_remove_2 in N. intros J. apply N. apply in_app_iff. now left. }
  assert (X : forall (d : dic ndarray) w, ~ In k (map fst d) -> dic_set d k w = d ++ [(k, w)]).
  { clear. induction d as [ | (k', v') d IH]; intros w N; [reflexivity | ]. cbn [dic_set]. destruct (String.eqb_spec k' k) as [-> | _]; [exfalso; apply N; now left | ]. cbn [app]. f_equal. apply IH. intros J. apply N. now right. }
  assert (Y : forall (d : dic ndarray), ~ In k (map fst d) -> dic_get d k = Err KeyError).
  { clear. induction d as [ | (k', v') d IH]; intros N; [reflexivity | ]. cbn [dic_get]. destruct (String.eqb_spec k' k) as [-> | _]; [exfalso; apply N; now left | ]. apply IH. intros J. apply N. now right. }
  unfold require_dataset. rewrite (Y d Nk), (X d _ Nk). assert (Sv := Hs k v (or_introl eq_refl)). assert (As := assign_same v). rewrite Sv in As. cbn [rbind]. rewrite As.
  assert (Z : dic_set (d ++ [(k, nd_zeros [n; 4; 4]%nat)]) k (kept v) = d ++ [(k, kept v)]).
  { clear -Nk. induction d as [ | (k', v') d IH]; [cbn; now rewrite String.eqb_refl | ]. cbn [app dic_set]. destruct (String.eqb_spec k' k) as [-> | _]; [exfalso; apply Nk; now left | ]. f_equal. apply IH. intros J. apply Nk. now right. }
  rewrite Z, IH.
  - rewrite <- app_assoc. reflexivity.
  - rewrite <- app_assoc. rewrite !map_app in *. exact N.
  - intros k' v' J. apply Hs with k'. now right.
Qed.

(** *** reading *)
Lemma m4_of_at H : m4_of (fun idx => match idx with [i; j] => m4_at H i j | _ => 0 end) = H.
Proof. destruct H as [[] [] [] h]. reflexivity. Qed.
Lemma nth_saved {A B} (f : option A -> B) (z : B) (l : list (option A)) : map (fun k => match nth_error l k with Some o => f o | None => z end) (seq 0 (length l)) = map f l.
Proof.
  apply nth_ext with (d := z) (d' := z); [now rewrite !map_length, seq_length | ]. intros k Hk. rewrite map_length, seq_length in Hk.
  assert (E : forall g : nat -> B, nth k (map g (seq 0 (length l))) z = g k). { intros g. rewrite nth_indep with (d' := g 0%nat) by (rewrite map_length, seq_length; lia). rewrite map_nth, seq_nth; auto. }
  rewrite E. destruct (nth_error l k) as [o | ] eqn:Eo; [ | apply nth_error_None in Eo; lia]. symmetry. apply nth_error_nth. apply map_nth_error. exact Eo.
Qed.
Lemma read_kept l n : length l = n -> read_poses (kept (rows4_array l)) = Ok (saved_rows l).
Proof.
  intros <-. unfold read_poses. cbn [nd_shape kept rows4_array]. f_equal. unfold saved_rows.
  rewrite <- (nth_saved (fun o => match o with Some H => H | None => zero4 end) zero4 l). apply map_ext_in. intros k Hk. apply in_seq in Hk.
  assert (Q : forall i j, (i < 4)%nat -> (j < 4)%nat -> nd_at (kept (rows4_array l)) [k; i; j] = match nth_error l k with Some (Some H) => m4_at H i j | _ => 0 end).
  { intros i j Hi Hj. rewrite kept_at; [reflexivity | ]. cbn [nd_shape rows4_array]. repeat (apply Forall2_cons; [lia | ]). apply Forall2_nil. }
  unfold m4_of. rewrite !Q by lia. destruct (nth_error l k) as [[H | ] | ]; [ | reflexivity..]. exact (m4_of_at H).
Qed.
Lemma read_kept_times l : read_times (kept (time_array l)) = Ok (saved_times l).
Proof.
  unfold read_times. cbn [nd_shape kept time_array]. f_equal. unfold saved_times. rewrite <- (nth_saved (fun o => match o with Some x => x | None => 0 end) 0 l). apply map_ext_in. intros k Hk. apply in_seq in Hk.
  rewrite kept_at by (cbn [nd_shape time_array]; repeat (apply Forall2_cons; [lia | ]); apply Forall2_nil). cbn. destruct (nth_error l k) as [[x | ] | ]; reflexivity.
Qed.

(** *** the dictionary of the transforms has no key twice *)
Definition keys_once (x : sim) (i : nat) : Prop := forall g, sm_obs x i = MLog g -> NoDup (map fst (lg_tr g)).
Lemma dic_write_keys {A} (d : dic (list (option A))) key k v d' : dic_write d key k v = Ok d' -> NoDup (map fst d) -> NoDup (map fst d').
Proof. unfold dic_write. destruct (dic_get d key); [ | discriminate]. cbn [rbind]. destruct (set_item _ _ _); [ | discriminate]. cbn [rbind]. intros E N. injection E as <-. now apply dic_set_keys. Qed.
Lemma log_poses_keys U v fl k what : forall d d', log_poses U v fl k what d = Ok d' -> NoDup (map fst d) -> NoDup (map fst d').
Proof.
  induction what as [ | (key, t) what IH]; intros d d' E N; [injection E as <-; exact N | ]. cbn [log_poses] in E. destruct (target_pose _ _ _ _); [ | discriminate]. cbn [rbind] in E. destruct (dic_write _ _ _ _) as [d1 | ] eqn:E1; [ | discriminate]. cbn [rbind] in E. exact (IH _ _ E (dic_write_keys _ _ _ _ _ E1 N)).
Qed.
Lemma log_update_keys U v o nm g g' : log_update U v o nm g = Ok g' -> NoDup (map fst (lg_tr g)) -> NoDup (map fst (lg_tr g')).
Proof.
  unfold log_update. destruct (Nat.leb _ _); [ | discriminate]. destruct (set_item (lg_time g) _ _); [ | discriminate]. cbn [rbind]. 
  match goal with |- rbind ?a _ = _ -> _ => destruct a as [(dp, dv) | ]; [ | discriminate] end. cbn [rbind].
  intros E N. match type of E with rbind ?a _ = _ => destruct a as [tr | ] eqn:Et; [ | discriminate] end. cbn [rbind] in E. match type of E with rbind ?a _ = _ => destruct a as [md | ]; [ | discriminate] end. cbn [rbind] in E. injection E as <-. cbn [lg_tr].
  destruct (lo_transforms o); [exact (log_poses_keys _ _ _ _ _ _ _ Et N) | now injection Et as <-].
Qed.
Lemma what_of_keys nm l : forall d, NoDup (map fst d) -> NoDup (map fst (what_of nm l d)).
Proof. induction l as [ | x l IH]; intros d N; [exact N | ]. rewrite what_of_cons. apply IH. now apply dic_set_keys. Qed.
Lemma log_init_keys U v o tl nm nm' g : log_init U v o tl nm = (nm', Ok g) -> NoDup (map fst (lg_tr g)).
Proof.
  unfold log_init. destruct (log_state_init _ _ _ _ _) as (nm1, [dp | ]); [ | discriminate]. destruct (log_what_init _ _ _ _) as (nm2, [dw | ]) eqn:E; [ | discriminate]. intros Q. injection Q as <- <-. cbn [lg_tr]. rewrite map_map. cbn [fst].
  unfold log_what_init in E. destruct (lo_transforms o); [ | injection E as <- <-; constructor].
  match type of E with (let '(_, _) := ?a in _) = _ => assert (Hd : forall a0 d0, a = (a0, Ok d0) -> NoDup (map fst d0)); [ | destruct a as (nm3, [d1 | ]); [ | discriminate]] end.
  { intros a0 d0 Q. destruct (lo_flat o).
    - destruct (iterbodies _ _ _); [ | discriminate]. destruct (name_all_elements _ _ _ _) as (?, [ | ]); [ | discriminate]. injection Q as <- <-. apply what_of_keys. constructor.
    - destruct (iterjoints _ _ _); [ | discriminate]. destruct (frames1 _ _); [ | discriminate]. destruct (name_all_elements _ _ _ _) as (?, [ | ]); [ | discriminate]. injection Q as <- <-. apply what_of_keys. constructor. }
  destruct (name_all_elements _ _ _ _) as (?, [ | ]); [ | discriminate]. injection E as <- <-. apply what_of_keys. eapply Hd. reflexivity.
Qed.
Lemma interp_keys U O tl c x y i o : O i = OLog o -> interp U O tl c x = (y, Ok tt) -> keys_once x i -> keys_once y i.
Proof.
  intros Eo E K.
  assert (W : forall f : world -> world * res unit, (let (w, r) := f (sm_w x) in (set_w x w, r)) = (y, Ok tt) -> keys_once y i).
  { intros f Q. destruct (f (sm_w x)) as (w, r). injection Q as <- _. exact K. }
  destruct c as [ | i' | | | | i' dt | | i']; cbn [interp] in E; try exact (W _ E).
  - destruct (Nat.eq_dec i' i) as [-> | Ni].
    + unfold obs_init in E. rewrite Eo in E. destruct (log_init _ _ _ _ _) as (nm, [g | ]) eqn:El; [ | discriminate]. injection E as <-. intros g'. cbn [sm_obs]. unfold upd. rewrite Nat.eqb_refl. intros Q. injection Q as <-. exact (log_init_keys _ _ _ _ _ _ _ El).
    + assert (Q : sm_obs y i = sm_obs x i); [ | intros g; rewrite Q; apply K]. unfold obs_init in E.
      destruct (O i') as [fi f | o' | | fi fu ff]; [destruct (fi _); [ | discriminate] | destruct (log_init _ _ _ _ _) as (nm, [g | ]); [ | discriminate] | destruct (em_init _ _ _ _ _ _); [ | discriminate] | destruct (sm_obs x i'); try discriminate; destruct (fi _ _ _); [ | discriminate]];
        injection E as <-; cbn [sm_obs set_o]; unfold upd; destruct (Nat.eqb_spec i i'); congruence.
  - destruct (Nat.eq_dec i' i) as [-> | Ni].
    + unfold obs_update in E. rewrite Eo in E. destruct (sm_obs x i) as [ | g | | ] eqn:Ex; try discriminate. destruct (log_update _ _ _ _ _) as [g1 | ] eqn:El; [ | discriminate]. cbn [rmap rbind] in E. injection E as <-. intros g'. cbn [sm_obs set_o]. unfold upd. rewrite Nat.eqb_refl. intros Q. injection Q as <-. exact (log_update_keys _ _ _ _ _ _ El (K g Ex)).
    + assert (Q : sm_obs y i = sm_obs x i); [ | intros g; rewrite Q; apply K]. unfold obs_update in E. cbv zeta in E.
      destruct (O i'); destruct (sm_obs x i'); try discriminate; match type of E with match ?a with _ => _ end = _ => destruct a; [ | discriminate] end; injection E as <-; cbn [sm_obs set_o]; unfold upd; destruct (Nat.eqb_spec i i'); congruence.
  - assert (Q : sm_obs y i = sm_obs x i); [ | intros g; rewrite Q; apply K]. unfold obs_finish in E. destruct (O i') eqn:Ei; destruct (sm_obs x i') eqn:Ex; try (injection E as <-; reflexivity). destruct (ff _); [ | discriminate]. injection E as <-. cbn [sm_obs set_o]. unfold upd. destruct (Nat.eqb_spec i i'); congruence.
Qed.
Lemma run_keys U O t0 ts obs x y i o : NoDup obs -> In i obs -> O i = OLog o -> simulate U O (t0 :: ts) (IterList obs) x = (y, Ok tt) -> keys_once y i.
Proof.
  intros N Hi Eo E. apply (proj1 (C18_schedule U O t0 ts obs x y)) in E. unfold schedule in E. apply perf_inv_app in E. destruct E as (x2 & P1 & P2).
  assert (X : forall x l y, performed (interp U O (t0 :: ts)) x l y -> keys_once x i -> keys_once y i). { clear -Eo. induction 1 as [z | z c z1 l y E _ IH]; [auto | ]. intros K. apply IH. exact (interp_keys _ _ _ _ _ _ _ _ Eo E K). }
  apply (X _ _ _ P2). clear P2. cbn [at_ map] in P1. inversion P1 as [ | ? ? x1 ? ? E1 P1']; subst. destruct (init_one _ _ _ _ i _ _ _ N Hi P1') as (z & z' & Ez & _ & _ & Oz & _). unfold obs_init in Ez. rewrite Eo in Ez. destruct (log_init _ _ _ _ _) as (nm, [g | ]) eqn:El; [ | discriminate]. injection Ez as <-.
  intros g'. rewrite Oz. cbn [sm_obs]. unfold upd. rewrite Nat.eqb_refl. intros Q. injection Q as <-. exact (log_init_keys _ _ _ _ _ _ _ El).
Qed.
