(** Lemmas for C20: what observers and calls leave unchanged. *)
From Verif Require Export Spec_Sim Proof_Sim.
From Coq Require Import Lra.

(** names are never changed once given *)
Definition keeps (nm nm' : names) : Prop := forall x s, nm x = Some s -> nm' x = Some s.
Lemma keeps_refl nm : keeps nm nm. Proof. intros x s H; exact H. Qed.
Lemma keeps_trans a b c : keeps a b -> keeps b c -> keeps a c. Proof. intros H K x s E. apply K, H, E. Qed.
Lemma name_pass_keeps sid l nm : keeps nm (name_pass sid nm l).
Proof.
  revert nm. induction l as [ | x l IH]; intros nm; [apply keeps_refl | ]. cbn. eapply keeps_trans; [ | apply IH].
  destruct (nm x) eqn:E; [apply keeps_refl | ]. intros y s H. unfold upd. destruct (Nat.eqb_spec y x); [congruence | exact H].
Qed.
Lemma name_pass_named sid l nm x : In x l -> exists s, name_pass sid nm l x = Some s.
Proof.
  revert nm. induction l as [ | y l IH]; intros nm H; [contradiction | ]. cbn. destruct H as [-> | H]; [ | apply IH, H].
  destruct (nm x) as [s | ] eqn:E; [exists s | exists (sid x)]; apply name_pass_keeps; [exact E | ]. unfold upd. rewrite Nat.eqb_refl. reflexivity.
Qed.
Lemma name_all_pass sid nm it b nm' r : name_all_elements sid nm it b = (nm', r) -> nm' = name_pass sid nm (fst (consume it)).
Proof. unfold name_all_elements. destruct (consume it) as [l it1]. destruct b; [destruct (consume it1) | ]; intros E; injection E as <- _; reflexivity. Qed.
Lemma name_all_keeps sid nm it b nm' r : name_all_elements sid nm it b = (nm', r) -> keeps nm nm'.
Proof. intros E. rewrite (name_all_pass _ _ _ _ _ _ E). apply name_pass_keeps. Qed.
Lemma name_of_keeps nm nm' x s : keeps nm nm' -> nm x = Some s -> name_of nm' x = s /\ name_of nm x = s.
Proof. intros K E. unfold name_of. rewrite (K _ _ E), E. auto. Qed.

Lemma log_state_keeps U h o n nm nm' r : log_state_init U h o n nm = (nm', r) -> keeps nm nm'.
Proof.
  unfold log_state_init. destruct (lo_state o); [ | intros E; injection E as <- _; apply keeps_refl].
  destruct (iterjoints _ _ _); [ | intros E; injection E as <- _; apply keeps_refl].
  destruct (name_all_elements _ _ _ _) as [nm1 [[] | x]] eqn:E; apply name_all_keeps in E; intros E'; injection E' as <- _; exact E.
Qed.
Lemma log_what_keeps U h o nm nm' r : log_what_init U h o nm = (nm', r) -> keeps nm nm'.
Proof.
  unfold log_what_init. destruct (lo_transforms o); [ | intros E; injection E as <- _; apply keeps_refl].
  match goal with |- (let '(_, _) := ?b in _) = _ -> _ => destruct b as [nm1 r1] eqn:B end.
  assert (K : keeps nm nm1).
  { destruct (lo_flat o).
    - destruct (iterbodies _ _ _); [ | injection B as <- _; apply keeps_refl].
      destruct (name_all_elements _ _ _ _) as [m [[] | x]] eqn:E; apply name_all_keeps in E; injection B as <- _; exact E.
    - destruct (iterjoints _ _ _); [ | injection B as <- _; apply keeps_refl].
      destruct (frames1 _ _); [ | injection B as <- _; apply keeps_refl].
      destruct (name_all_elements _ _ _ _) as [m [[] | x]] eqn:E; apply name_all_keeps in E; injection B as <- _; exact E. }
  destruct r1; [ | intros E; injection E as <- _; exact K].
  destruct (name_all_elements _ _ _ _) as [m [[] | x]] eqn:E; apply name_all_keeps in E; intros E'; injection E' as <- _; eapply keeps_trans; eassumption.
Qed.
Lemma log_init_keeps U v o tl nm nm' r : log_init U v o tl nm = (nm', r) -> keeps nm nm'.
Proof.
  unfold log_init. destruct (log_state_init _ _ _ _ _) as [nm1 [d1 | x]] eqn:E1; apply log_state_keeps in E1; [ | intros E; injection E as <- _; exact E1].
  destruct (log_what_init _ _ _ _) as [nm2 [d2 | x]] eqn:E2; apply log_what_keeps in E2; intros E; injection E as <- _; eapply keeps_trans; eassumption.
Qed.

(** the calls on observers leave the world alone, and each other's data *)
Definition obs_call (c : call) : bool := match c with OInit _ | OUpd _ _ | OFin _ => true | _ => false end.
Definition on_obs (i : nat) (c : call) : Prop := match c with OInit j | OUpd j _ | OFin j => i = j | _ => False end.

Lemma interp_frame U O tl c x x1 r : interp U O tl c x = (x1, r) ->
  keeps (sm_names x) (sm_names x1) /\
  (match c with OInit _ => True | _ => sm_names x1 = sm_names x end) /\
  (obs_call c = true -> sm_w x1 = sm_w x) /\
  (forall i, ~ on_obs i c -> sm_obs x1 i = sm_obs x i).
Proof.
  assert (P : forall (w : world) (rr : res unit), (set_w x w, rr) = (x1, r) -> keeps (sm_names x) (sm_names x1) /\ sm_names x1 = sm_names x /\ (forall i, sm_obs x1 i = sm_obs x i)).
  { intros w rr E. injection E as <- _. cbn. split; [apply keeps_refl | auto]. }
  assert (Q : forall i m, keeps (sm_names x) (sm_names (set_o x i m)) /\ sm_names (set_o x i m) = sm_names x /\ sm_w (set_o x i m) = sm_w x /\ forall k, k <> i -> sm_obs (set_o x i m) k = sm_obs x k).
  { intros i m. split; [apply keeps_refl | ]. split; [reflexivity | ]. split; [reflexivity | ]. intros k N. cbn. unfold upd. destruct (Nat.eqb_spec k i); [contradiction | reflexivity]. }
  assert (Z : keeps (sm_names x) (sm_names x)) by apply keeps_refl.
  unfold interp. destruct c; cbn [obs_call on_obs].
  - destruct (world_init _ _) as [w rr]. intros E. destruct (P _ _ E) as (A & B & C). repeat split; auto; discriminate.
  - unfold obs_init. destruct (O i).
    + destruct (fi _); intros E; injection E as <- _; [destruct (Q i (MRec (rec_init tl a))) as (A & B & C & D)| ]; repeat split; auto.
    + destruct (log_init _ _ _ _ _) as [nm [g | y]] eqn:L; apply log_init_keeps in L; intros E; injection E as <- _; repeat split; auto.
      intros k N. cbn. unfold upd. destruct (Nat.eqb_spec k i); [contradiction | reflexivity].
    + destruct (em_init _ _ _ _ _ _); intros E; injection E as <- _; [destruct (Q i (MEnergy a)) as (A & B & C & D)| ]; repeat split; auto.
    + destruct (sm_obs x i); try (intros E; injection E as <- _; repeat split; auto; fail).
      destruct (fi _ _ _); intros E; injection E as <- _; [destruct (Q i (MUser a)) as (A & B & C & D)| ]; repeat split; auto.
  - destruct (world_dynamic _ _) as [w rr]. intros E. destruct (P _ _ E) as (A & B & C). repeat split; auto; discriminate.
  - destruct (world_controllers _ _ _) as [w rr]. intros E. destruct (P _ _ E) as (A & B & C). repeat split; auto; discriminate.
  - destruct (world_constraints _ _ _) as [w rr]. intros E. destruct (P _ _ E) as (A & B & C). repeat split; auto; discriminate.
  - unfold obs_update. cbn zeta. destruct (O i), (sm_obs x i); try (intros E; injection E as <- _; repeat split; auto; fail);
      match goal with |- match ?b with _ => _ end = _ -> _ => destruct b as [m_ | ] end; intros E; injection E as <- _;
      try (repeat split; auto; fail); destruct (Q i m_) as (A & B & C & D); repeat split; auto.
  - destruct (world_integrate _ _ _) as [w rr]. intros E. destruct (P _ _ E) as (A & B & C). repeat split; auto; discriminate.
  - unfold obs_finish. destruct (O i), (sm_obs x i); try (intros E; injection E as <- _; repeat split; auto; fail).
    destruct (ff _); intros E; injection E as <- _; [destruct (Q i (MUser a)) as (A & B & C & D)| ]; repeat split; auto.
Qed.

(** sequences of calls *)
Lemma perf_frame U O tl x l y : performed (interp U O tl) x l y ->
  keeps (sm_names x) (sm_names y) /\
  ((forall c t, In (c, t) l -> obs_call c = true) -> sm_w y = sm_w x) /\
  ((forall c t j, In (c, t) l -> c <> OInit j) -> sm_names y = sm_names x) /\
  (forall i, (forall c t, In (c, t) l -> ~ on_obs i c) -> sm_obs y i = sm_obs x i).
Proof.
  induction 1 as [x | x c x1 l y E P IH]; [repeat split; auto; apply keeps_refl | ].
  destruct (interp_frame _ _ _ _ _ _ _ E) as (A & N & B & C). destruct IH as (A' & B' & N' & C'). split; [eapply keeps_trans; eassumption | split; [ | split]].
  - intros H. rewrite B'; [ | intros; eapply H; right; eassumption]. apply B. eapply H. left. reflexivity.
  - intros H. rewrite N'; [ | intros; eapply H; right; eassumption]. destruct c; auto. exfalso. eapply (H (OInit i)); [left; reflexivity | reflexivity].
  - intros i H. rewrite C'; [ | intros; eapply H; right; eassumption]. apply C. eapply H. left. reflexivity.
Qed.

(** one round over the observers: the call on observer [i] happens once, in the same world *)
Lemma round_one U O tl f obs i t x y : (forall j, on_obs j (f j)) -> (forall j k, on_obs j (f k) -> j = k) ->
  performed (interp U O tl) x (at_ t (map f obs)) y -> NoDup obs -> In i obs ->
  exists z z', interp U O tl (f i) z = (z', Ok tt) /\ sm_w z = sm_w x /\ sm_w y = sm_w x /\ sm_obs z i = sm_obs x i /\ sm_obs y i = sm_obs z' i /\
    keeps (sm_names x) (sm_names z) /\ keeps (sm_names z') (sm_names y) /\
    ((forall j k, f j <> OInit k) -> sm_names z = sm_names x /\ sm_names y = sm_names x).
Proof.
  intros F1 F2 P N Hi. assert (OC : forall j, obs_call (f j) = true) by (intros j; specialize (F1 j); destruct (f j); cbn in *; auto; contradiction).
  assert (M : forall t l, (forall c s, In (c, s) (at_ t (map f l)) -> obs_call c = true)).
  { intros t_ l c s H. apply in_map_iff in H. destruct H as (c' & H & H'). injection H as -> _. apply in_map_iff in H'. destruct H' as (j & <- & _). apply OC. }
  assert (M2 : forall t l, ~ In i l -> (forall c s, In (c, s) (at_ t (map f l)) -> ~ on_obs i c)).
  { intros t_ l Ni c s H. apply in_map_iff in H. destruct H as (c' & H & H'). injection H as -> _. apply in_map_iff in H'. destruct H' as (j & <- & Hj). intros D. apply F2 in D. congruence. }
  assert (M3 : forall t l, (forall j k, f j <> OInit k) -> forall c s j, In (c, s) (at_ t (map f l)) -> c <> OInit j).
  { intros t_ l H c s j H1. apply in_map_iff in H1. destruct H1 as (c' & H1 & H'). injection H1 as -> _. apply in_map_iff in H'. destruct H' as (j' & <- & _). apply H. }
  apply in_split in Hi. destruct Hi as (l1 & l2 & ->). rewrite map_app, at_app in P. apply perf_inv_app in P. destruct P as (z & P1 & P2).
  cbn [map at_] in P2. inversion P2 as [ | ? ? z' ? ? E P3]; subst. exists z, z'.
  apply NoDup_remove_2 in N. rewrite in_app_iff in N.
  destruct (perf_frame _ _ _ _ _ _ P1) as (K1 & W1 & N1 & O1). destruct (perf_frame _ _ _ _ _ _ P3) as (K3 & W3 & N3 & O3). destruct (interp_frame _ _ _ _ _ _ _ E) as (K2 & N2 & W2 & _).
  split; [exact E | ]. split; [apply W1, M | ]. split; [rewrite W3 by apply M; rewrite W2 by apply OC; apply W1, M | ].
  split; [apply O1, M2; tauto | ]. split; [apply O3, M2; tauto | ]. split; [exact K1 | ]. split; [exact K3 | ].
  intros H. assert (NZ := N1 (M3 _ l1 H)). split; [exact NZ | ]. rewrite (N3 (M3 _ l2 H)). specialize (H i). destruct (f i); congruence.
Qed.

(** from the schedule to the seen states *)
Lemma sees_of_steps I (T : forall c x x1, I c x = (x1, Ok tt) -> now x1 = now x + match c with Int dt => dt | _ => 0 end) obs ts x y :
  performed I x (steps obs (now x) ts) y -> exists vs, sees I obs x (now x) ts vs y.
Proof.
  revert x. induction ts as [ | t ts IH]; cbn [steps]; intros x P; [inversion P; subst; exists []; constructor | ].
  unfold step_calls in P. rewrite !at_app, <- ?app_assoc in P. apply perf_inv_app in P. destruct P as (v & P1 & P). apply perf_inv_app in P. destruct P as (u & P2 & P).
  cbn [at_ map app] in P. inversion P as [ | ? ? x1 ? ? E P3]; subst.
  assert (Nv : now v = now x).
  { clear P P2 P3. cbn in P1. inversion P1 as [ | ? ? a ? ? E1 P2]; subst. inversion P2 as [ | ? ? b ? ? E2 P3]; subst. inversion P3 as [ | ? ? c ? ? E3 P4]; subst. inversion P4; subst.
    apply T in E1. apply T in E2. apply T in E3. lra. }
  assert (Nx : now x1 = t) by (rewrite (T _ _ _ E); lra).
  destruct (IH x1) as (vs & S); [rewrite Nx; exact P3 | ]. exists (v :: vs). rewrite Nx in S. match goal with Q : now u = now x |- _ => rewrite <- Q in * end. econstructor; eassumption.
Qed.

(** *** arrays being filled *)
Definition filled {A} (n : nat) (ds : list A) (l : list (option A)) : Prop := (length ds <= n)%nat /\ l = map Some ds ++ repeat None (n - length ds).
Lemma filled_0 {A} n : @filled A n [] (repeat None n). Proof. split; [cbn; lia | cbn; rewrite Nat.sub_0_r; reflexivity]. Qed.
Lemma set_item_app {A} (a : list A) k v b : set_item (a ++ b) (length a + k) v = rmap (fun l => a ++ l) (set_item b k v).
Proof. induction a as [ | x a IH]; cbn; [destruct (set_item b k v); reflexivity | ]. rewrite IH. destruct (set_item b k v); reflexivity. Qed.
Lemma set_filled {A} n (ds : list A) l d : filled n ds l ->
  (length ds < n -> exists l', set_item l (length ds) (Some d) = Ok l' /\ filled n (ds ++ [d]) l')%nat /\
  (forall l', set_item l (length ds) (Some d) = Ok l' -> (length ds < n)%nat /\ filled n (ds ++ [d]) l').
Proof.
  intros [L ->]. assert (E : set_item (map Some ds ++ repeat None (n - length ds)) (length ds) (Some d) =
    rmap (fun l => map Some ds ++ l) (set_item (repeat None (n - length ds)) 0 (Some d))).
  { assert (Q := set_item_app (map Some ds) 0 (Some d) (repeat None (n - length ds))). rewrite map_length, Nat.add_0_r in Q. exact Q. }
  rewrite E. assert (F : forall m, (n - length ds = S m)%nat -> filled n (ds ++ [d]) (map Some ds ++ Some d :: repeat None m)).
  { intros m Hm. split; [rewrite app_length; cbn; lia | ]. rewrite map_app, <- app_assoc, app_length. cbn. repeat f_equal. lia. }
  destruct (n - length ds)%nat as [ | m] eqn:Hm; cbn.
  - split; [lia | discriminate].
  - split; [intros _; eexists; split; [reflexivity | apply F; reflexivity] | ]. intros l' El. injection El as <-. split; [lia | apply F; reflexivity].
Qed.
Lemma filled_all {A} n (ds : list A) l : filled n ds l -> length ds = n -> l = map Some ds.
Proof. intros [_ ->] <-. rewrite Nat.sub_diag. cbn. apply app_nil_r. Qed.
