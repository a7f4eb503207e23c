(** Lemmas for C20: recorders and loggers along the seen states. *)
From Verif Require Export Proof_Sim2.
From Verif Require Import Props_Named.
From Coq Require Import Lra.

Lemma on_upd dt : (forall j, on_obs j (OUpd j dt)) /\ (forall j k, on_obs j (OUpd k dt) -> j = k) /\ (forall j k, OUpd j dt <> OInit k).
Proof. cbn. repeat split; auto; discriminate. Qed.

(** one step, seen from observer [i] *)
Lemma step_one U O tl obs i x t t' v u x1 : let I := interp U O tl in NoDup obs -> In i obs ->
  performed I x (at_ t [Dyn; Ctl (t' - t); Cons (t' - t)]) v ->
  performed I v (at_ t (map (fun i => OUpd i (t' - t)) obs)) u ->
  I (Int (t' - t)) u = (x1, Ok tt) ->
  exists z z', I (OUpd i (t' - t)) z = (z', Ok tt) /\ sm_w z = sm_w v /\ sm_names z = sm_names x /\ sm_names x1 = sm_names x /\
    sm_obs z i = sm_obs x i /\ sm_obs x1 i = sm_obs z' i.
Proof.
  intros I N Hi P1 P2 E. destruct (on_upd (t' - t)) as (A & B & C).
  destruct (round_one U O tl (fun i => OUpd i (t' - t)) obs i t v u A B P2 N Hi) as (z & z' & Ez & W1 & W2 & O1 & O2 & _ & _ & Nn). destruct (Nn C) as [Nz Nu].
  destruct (perf_frame _ _ _ _ _ _ P1) as (_ & _ & Nv & Ov). destruct (interp_frame _ _ _ _ _ _ _ E) as (_ & Ni & _ & Oi). cbn in Ni.
  assert (NV : sm_names v = sm_names x) by (apply Nv; cbn; intros c s j H; destruct H as [H | [H | [H | []]]]; injection H as <- _; discriminate).
  assert (OV : sm_obs v i = sm_obs x i) by (apply Ov; cbn; intros c s H; destruct H as [H | [H | [H | []]]]; injection H as <- _; auto).
  exists z, z'. split; [exact Ez | ]. split; [exact W1 | ]. split; [congruence | ]. split; [congruence | ]. split; [congruence | ].
  rewrite Oi by (cbn; auto). exact O2.
Qed.

(** recorders *)
Lemma rec_along U O tl obs i fi f n x t ts vs y : let I := interp U O tl in NoDup obs -> In i obs -> O i = ORec fi f ->
  sees I obs x t ts vs y -> forall c ds r, sm_obs x i = MRec r -> rc_com r = c -> rc_index r = length ds -> filled n ds (rc_record r) ->
  exists ds' r', sm_obs y i = MRec r' /\ rc_index r' = (length ds + length ds')%nat /\ filled n (ds ++ ds') (rc_record r') /\
    Forall2 (fun v d => f c (w_v (sm_w v)) = Ok d) vs ds'.
Proof.
  intros I N Hi Ei Sx. induction Sx as [x t | x t t' ts v u x1 vs y P1 P2 E Nv Sx IH]; intros c ds r Er Ec Ek F.
  - exists [], r. rewrite app_nil_r, Nat.add_0_r. repeat split; auto; apply F.
  - destruct (step_one U O tl obs i x t t' v u x1 N Hi P1 P2 E) as (z & z' & Ez & Wz & _ & _ & Oz & Ox).
    cbn [I interp] in Ez. unfold obs_update in Ez. rewrite Ei, Oz, Er in Ez. cbn zeta in Ez. rewrite Wz in Ez. rewrite Ec in Ez.
    destruct (f c (w_v (sm_w v))) as [d | ] eqn:Ef; [ | discriminate]. cbn [rbind] in Ez. unfold save_data in Ez. rewrite Ek in Ez.
    destruct (set_item (rc_record r) (length ds) (Some d)) as [l | ] eqn:El; [ | discriminate]. cbn [rbind rmap] in Ez. injection Ez as <-.
    apply (proj2 (set_filled n ds _ d F)) in El. destruct El as [Ln F'].
    assert (Ox' : sm_obs x1 i = MRec (Rec l (S (length ds)) (rc_com r))) by (rewrite Ox; cbn; unfold upd; rewrite Nat.eqb_refl; reflexivity).
    destruct (IH c (ds ++ [d]) _ Ox' Ec) as (ds' & r' & A & B & C & D); [cbn; rewrite app_length; cbn; lia | exact F' | ].
    exists (d :: ds'), r'. split; [exact A | ]. split; [rewrite B, app_length; cbn; lia | ]. split; [rewrite <- app_assoc in C; exact C | ]. constructor; assumption.
Qed.

(** *** dictionaries *)
Lemma dic_get_set {A} (d : dic A) k v k' : dic_get (dic_set d k v) k' = if String.eqb k k' then Ok v else dic_get d k'.
Proof.
  induction d as [ | [a b] d IH]; cbn; [reflexivity | ]. destruct (String.eqb_spec a k) as [-> | N]; cbn.
  - destruct (String.eqb_spec k k'); reflexivity.
  - destruct (String.eqb_spec a k') as [-> | N']; [destruct (String.eqb_spec k k'); congruence | exact IH].
Qed.
Lemma dic_get_in {A} (d : dic A) k v : NoDup (map fst d) -> In (k, v) d -> dic_get d k = Ok v.
Proof.
  induction d as [ | [a b] d IH]; cbn; intros N H; [contradiction | ]. inversion N as [ | ? ? Ni Nd]; subst. destruct H as [E | H].
  - injection E as -> ->. rewrite String.eqb_refl. reflexivity.
  - destruct (String.eqb_spec a k) as [-> | ]; [exfalso; apply Ni; apply (in_map fst) in H; exact H | auto].
Qed.
Lemma dic_get_ok_in {A} (d : dic A) k v : dic_get d k = Ok v -> In (k, v) d.
Proof. induction d as [ | [a b] d IH]; cbn; [discriminate | ]. destruct (String.eqb_spec a k) as [-> | ]; [intros E; injection E as ->; now left | auto]. Qed.
Lemma dic_set_keys {A} (d : dic A) k v : NoDup (map fst d) -> NoDup (map fst (dic_set d k v)) /\ forall x, In x (map fst (dic_set d k v)) <-> x = k \/ In x (map fst d).
Proof.
  induction d as [ | [a b] d IH]; intros N.
  - cbn. split; [repeat constructor; auto | intros x; split; intuition].
  - cbn in N. inversion N as [ | ? ? Ni Nd]; subst. destruct (IH Nd) as [A1 A2]. cbn [dic_set]. destruct (String.eqb_spec a k) as [-> | Nk].
    + split; [exact N | cbn; intros x; intuition].
    + cbn [map fst]. split; [constructor; [rewrite A2; intuition congruence | exact A1] | ]. intros x. cbn [In]. rewrite A2. intuition.
Qed.
Lemma dic_write_ok {A} (d : dic (list (option A))) key k v d' : dic_write d key k v = Ok d' ->
  exists l l1, dic_get d key = Ok l /\ set_item l k (Some v) = Ok l1 /\ forall key', dic_get d' key' = if String.eqb key key' then Ok l1 else dic_get d key'.
Proof.
  unfold dic_write. destruct (dic_get d key) as [l | ] eqn:E; [ | discriminate]. cbn [rbind]. destruct (set_item l k (Some v)) as [l1 | ] eqn:E1; [ | discriminate]. cbn [rbind].
  intros H. injection H as <-. exists l, l1. split; [reflexivity || exact E | ]. split; [reflexivity || exact E1 | ]. intros k'. apply dic_get_set.
Qed.

(** [rows n d key ds]: the array of [key] has [n] rows of which the first ones are [ds] *)
Definition rows {A} (n : nat) (d : dic (list (option A))) (key : string) (ds : list A) : Prop := exists l, dic_get d key = Ok l /\ filled n ds l.

Lemma log_states_ok s nm n js : forall dp dv dp' dv' (P V : nat -> list pyval) k, NoDup (map (fun j => name_of nm (id_joint j)) js) ->
  (forall j, In j js -> rows n dp (name_of nm (id_joint j)) (P j) /\ rows n dv (name_of nm (id_joint j)) (V j) /\ length (P j) = k /\ length (V j) = k) ->
  log_states s nm k js dp dv = Ok (dp', dv') ->
  (forall j, In j js -> rows n dp' (name_of nm (id_joint j)) (P j ++ [gpos_value s j]) /\ rows n dv' (name_of nm (id_joint j)) (V j ++ [gvel_value s j])) /\
  (forall key, ~ In key (map (fun j => name_of nm (id_joint j)) js) -> dic_get dp' key = dic_get dp key /\ dic_get dv' key = dic_get dv key).
Proof.
  induction js as [ | j js IH]; intros dp dv dp' dv' P V k N H E.
  - injection E as <- <-. split; [intros ? [] | auto].
  - cbn [log_states map] in *. inversion N as [ | ? ? Ni Nd]; subst. set (key := fun j => name_of nm (id_joint j)) in *. fold (key j) in *.
    destruct (dic_write dp (key j) k (gpos_value s j)) as [dp1 | ] eqn:E1; [ | discriminate]. cbn [rbind] in E.
    destruct (dic_write dv (key j) k (gvel_value s j)) as [dv1 | ] eqn:E2; [ | discriminate]. cbn [rbind] in E.
    apply dic_write_ok in E1. destruct E1 as (l & l1 & G & Sl & Q). apply dic_write_ok in E2. destruct E2 as (m & m1 & G' & Sm & Q').
    destruct (H j (or_introl eq_refl)) as ((a & Ga & Fa) & (b & Gb & Fb) & Lp & Lv). fold (key j) in Ga, Gb. rewrite G in Ga. injection Ga as <-. rewrite G' in Gb. injection Gb as <-.
    rewrite <- Lp in Sl. rewrite <- Lv in Sm. apply (proj2 (set_filled n _ _ _ Fa)) in Sl. apply (proj2 (set_filled n _ _ _ Fb)) in Sm. destruct Sl as [_ Sl]. destruct Sm as [_ Sm].
    destruct (IH dp1 dv1 dp' dv' P V k Nd) as [A B]; [ | exact E | ].
    + intros j' Hj'. destruct (H j' (or_intror Hj')) as ((a & Ga & Fa') & (b & Gb & Fb') & Lp' & Lv'). fold (key j') in *.
      assert (Nk : String.eqb (key j) (key j') = false) by (apply String.eqb_neq; intros Z; apply Ni; rewrite Z; apply (in_map key); exact Hj').
      split; [exists a; rewrite Q, Nk; auto | ]. split; [exists b; rewrite Q', Nk; auto | auto].
    + split.
      * intros j' [<- | Hj']; [ | apply A; exact Hj']. destruct (B (key j) Ni) as [B1 B2]. change (name_of nm (id_joint j)) with (key j). split; [exists l1; rewrite B1, Q | exists m1; rewrite B2, Q']; rewrite String.eqb_refl; auto.
      * intros k' Nk'. destruct (B k') as [B1 B2]; [intros Z; apply Nk'; now right | ]. rewrite B1, B2, Q, Q'.
        assert (Z : String.eqb (key j) k' = false) by (apply String.eqb_neq; intros Z; apply Nk'; now left). rewrite Z. auto.
Qed.
Lemma log_poses_ok U v flat n what : forall d d' (P : string -> list m4) k, NoDup (map fst what) ->
  (forall key, In key (map fst what) -> rows n d key (P key) /\ length (P key) = k) ->
  log_poses U v flat k what d = Ok d' ->
  (forall key t, In (key, t) what -> exists H, target_pose U v flat t = Ok H /\ rows n d' key (P key ++ [H])) /\
  (forall key, ~ In key (map fst what) -> dic_get d' key = dic_get d key).
Proof.
  induction what as [ | [key t] what IH]; intros d d' P k N H E.
  - injection E as <-. split; [intros ? ? [] | auto].
  - cbn [log_poses map fst] in *. inversion N as [ | ? ? Ni Nd]; subst.
    destruct (target_pose U v flat t) as [T | ] eqn:Et; [ | discriminate]. cbn [rbind] in E. destruct (dic_write d key k T) as [d1 | ] eqn:E1; [ | discriminate]. cbn [rbind] in E.
    apply dic_write_ok in E1. destruct E1 as (l & l1 & G & Sl & Q). destruct (H key (or_introl eq_refl)) as ((a & Ga & Fa) & Lp). rewrite G in Ga. injection Ga as <-.
    rewrite <- Lp in Sl. apply (proj2 (set_filled n _ _ _ Fa)) in Sl. destruct Sl as [_ Sl].
    destruct (IH d1 d' P k Nd) as [A B]; [ | exact E | ].
    + intros key' Hk. destruct (H key' (or_intror Hk)) as ((a & Ga & Fa') & Lp'). split; [ | exact Lp']. exists a. rewrite Q.
      assert (Z : String.eqb key key' = false) by (apply String.eqb_neq; intros ->; contradiction). rewrite Z. auto.
    + split.
      * intros key' t' [Z | Hk]; [injection Z as <- <- | apply A; exact Hk]. exists T. split; [exact Et | ]. exists l1. rewrite (B key Ni), Q, String.eqb_refl. auto.
      * intros key' Nk. rewrite (B key') by (intros Z; apply Nk; now right). rewrite Q.
        assert (Z : String.eqb key key' = false) by (apply String.eqb_neq; intros ->; apply Nk; now left). rewrite Z. reflexivity.
Qed.

(** *** the object graph does not change during the steps *)
Definition same_objects (h h' : @heap R) : Prop := childrenjoints h' = childrenjoints h /\ jframes h' = jframes h /\ w_subframes h' = w_subframes h /\ w_controllers h' = w_controllers h.
Lemma same_objects_refl h : same_objects h h. Proof. repeat split. Qed.
Lemma same_objects_trans a b c : same_objects a b -> same_objects b c -> same_objects a c.
Proof. intros (A & B & C & D) (A' & B' & C' & D'). repeat split; congruence. Qed.
Lemma rconcat_ext {A B} (f g : A -> res (list B)) l : (forall x, f x = g x) -> rconcat f l = rconcat g l.
Proof. intros H. induction l as [ | x l IH]; cbn; [reflexivity | ]. rewrite H, IH. reflexivity. Qed.
Lemma iter_same e fuel h h' : same_objects h h' -> iterjoints e fuel h' = iterjoints e fuel h.
Proof.
  intros (A & B & _). unfold iterjoints. generalize (ground e). induction fuel as [ | n IH]; intros b; [reflexivity | ]. cbn. rewrite A. apply rconcat_ext. intros j.
  unfold child_body. rewrite B. destruct (jframes h j) as [[f0 f1] | ]; [ | reflexivity]. cbn. rewrite IH. reflexivity.
Qed.
Definition heap_of (x : sim) : @heap R := s_heap (w_s (sm_w x)).
Lemma add_controllers_heap ctl dt l s s' r : add_controllers ctl dt l s = (s', r) -> s_heap s' = s_heap s.
Proof.
  revert s. induction l as [ | a l IH]; cbn; intros s E; [injection E as <- _; reflexivity | ].
  destruct (ctl a dt) as [[f Z] | x]; [apply IH in E; exact E | injection E as <- _; reflexivity].
Qed.
Lemma interp_graph U O tl c x x1 : interp U O tl c x = (x1, Ok tt) -> same_objects (heap_of x) (heap_of x1).
Proof.
  intros E. assert (F := interp_frame _ _ _ _ _ _ _ E). destruct F as (_ & _ & F & _). unfold heap_of, w_s in *. destruct c; try (rewrite F by reflexivity; apply same_objects_refl); clear F; cbn [interp] in E.
  - unfold world_init in E. destruct (Model_World.init _ _ _ _) as [h [[] | y]] eqn:A; [ | discriminate].
    destruct (rmapM _ _); [ | discriminate]. destruct (ctl_inits _ _ _ _); [ | discriminate]. injection E as <-. cbn [sm_w set_w w_v v_s s_heap].
    unfold Model_World.init in A. destruct (iterjoints _ _ _); [ | discriminate]. destruct (assign_dofs _ _ _ _). destruct (copy_gvels _ _ _ _ _) as [[a_ g] | ]; [ | discriminate]. injection A as <-. repeat split.
  - unfold world_dynamic in E. destruct (world_update_dynamic _ _ _ _ _ _) as [[st d] | ]; [ | discriminate]. injection E as <-. repeat split.
  - unfold world_controllers in E. destruct (update_controllers _ _ _ _) as [s r] eqn:A. injection E as <- ->. cbn [sm_w set_w w_v set_s v_s]. unfold update_controllers in A.
    destruct (Rlt_dec 0 dt); [ | discriminate]. destruct (add_controllers _ _ _ _) as [s1 [[] | y]] eqn:B; [ | discriminate]. apply add_controllers_heap in B.
    destruct (su_linv _ _ _); [ | discriminate]. injection A as <-. cbn [s_heap set_forces]. rewrite B. apply same_objects_refl.
  - unfold world_constraints in E. destruct (update_constraints _ _ _ _ _ _) as [[[s l] v] | ] eqn:A; [ | discriminate]. injection E as <-. cbn [sm_w set_w w_v v_s].
    unfold update_constraints in A. destruct (Rlt_dec 0 dt); [ | discriminate]. destruct (activate _ _ _ _) as [[a m] | ]; [ | discriminate]. cbn [rbind] in A.
    destruct (stack _ _ _); [ | discriminate]. cbn [rbind] in A. destruct (add_gforces _ _ _); [ | discriminate]. cbn [rbind] in A.
    destruct (relax _ _ _ _ _ _ _ _ _ _) as [[l1 v1] | ]; [ | discriminate]. cbn [rbind] in A. destruct (add_gforces _ l1 _); [ | discriminate]. cbn [rbind] in A.
    injection A as <- _ _. repeat split.
  - unfold world_integrate in E. destruct (integrate _ _ _ _) as [s r] eqn:A. injection E as <- ->. cbn [sm_w set_w w_v set_s v_s]. unfold integrate in A.
    destruct (Rlt_dec 0 dt); [ | discriminate]. destruct (iterjoints _ _ _) as [js | ]; [ | discriminate]. destruct (integrate_joints _ _ _) as [s2 [[] | y]] eqn:B; [ | discriminate]. injection A as <-. cbn [s_heap].
    assert (G : forall js s s' r, integrate_joints dt js s = (s', r) -> same_objects (s_heap s) (s_heap s')).
    { clear. induction js as [ | j js IH]; cbn; intros s s' r E; [injection E as <- _; apply same_objects_refl | ].
      unfold integrate_joint in E. destruct (jdof (s_heap s) j) as [[a b] | ]; [ | injection E as <- _; apply same_objects_refl]. apply IH in E. eapply same_objects_trans; [ | exact E]. repeat split. }
    apply G in B. eapply same_objects_trans; [ | exact B]. repeat split.
Qed.
Lemma perf_graph U O tl x l y : performed (interp U O tl) x l y -> same_objects (heap_of x) (heap_of y).
Proof. induction 1 as [x | x c x1 l y E P IH]; [apply same_objects_refl | ]. eapply same_objects_trans; [eapply interp_graph; eassumption | exact IH]. Qed.
