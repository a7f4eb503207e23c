(** C68: the humanoid robot. *)
From Coq Require Import Lra Lia.
From Verif Require Import Spec_Human36.
From Verif Require Import Proof_Linalg Proof_SE3 Proof_Tree Proof_World Proof_World4 Proof_World3 Props_Dyn Proof_Dyn2 Props_Mass Proof_Robots2 Props_Robots2 Proof_Build Proof_Build2 Proof_Human36.
Open Scope R_scope.

Lemma script_used e I p height mass o : human_script e I p height mass o = human_script e I p height mass (Some (lengths_used height o)).
Proof. destruct o; reflexivity. Qed.
Lemma height_ok L : leg L "R" = leg L "L" -> height_from_anat_lengths L = Ok (tallness L).
Proof. intros E. unfold height_from_anat_lengths. unfold leg in E. cbn in E. destruct (Req_EM_T _ _) as [ | N]; [ | destruct N; congruence]. reflexivity. Qed.

Section S.
  Variables (e : env) (I : bids) (p : string) (L : lengths) (mass h : R).
  Notation cs := (hcmds e I p L mass h).
  (** the links of the script *)
  Definition hlink (x : nat * (option string * v3 * jtype * string * string)) : link := let '(k, (_, _, _, _, b1)) := x in (FSub (xs I k), xj I k, FBody (xb I (bid b1))).
  Lemma links_eq : links_in cs = map hlink (number 0 (human_links L)).
  Proof. reflexivity. Qed.
  Lemma to_eq : map (l_to e) (links_in cs) = map (xb I) (seq 0 17).
  Proof. reflexivity. Qed.
  Lemma joints_eq : map l_joint (links_in cs) = map (xj I) (seq 0 17).
  Proof. reflexivity. Qed.

  Lemma in_number {A} (x : A) : forall l k i, In (i, x) (number k l) <-> (k <= i)%nat /\ nth_error l (i - k) = Some x.
  Proof.
    induction l as [ | y l IH]; intros k i; cbn [number In].
    - split; [tauto | ]. intros (_ & H). destruct (i - k)%nat; discriminate.
    - rewrite IH. split.
      + intros [Q | (A1 & A2)]; [injection Q as <- <-; rewrite Nat.sub_diag; split; [lia | reflexivity] | ]. split; [lia | ]. replace (i - k)%nat with (S (i - S k)) by lia. exact A2.
      + intros (A1 & A2). destruct (Nat.eq_dec i k) as [-> | Ne]; [left; rewrite Nat.sub_diag in A2; injection A2 as <-; reflexivity | right]. split; [lia | ]. replace (i - k)%nat with (S (i - S k)) in A2 by lia. exact A2.
  Qed.
  Lemma in_cs c : In c cs <-> (exists x, In x (number 0 (human_bodies L mass)) /\ In c (bcmd I p x)) \/ (exists x, In x (number 0 (human_links L)) /\ In c (lcmd e I p x)) \/
     (exists x, In x (number 17 (human_tags L h)) /\ In c (tcmd I p x)) \/ (exists x, In x (number 0 human_points) /\ In c (pcmd I p x)).
  Proof. unfold hcmds. rewrite !in_app_iff, !in_flat_map. reflexivity. Qed.
  Lemma masses_nonneg : 0 <= mass -> Forall (fun x : string * (R * v3 * v3) => 0 <= fst (fst (snd x))) (human_bodies L mass).
  Proof. intros Hm. unfold human_bodies. repeat (apply Forall_cons; [cbn [fst snd]; lra | ]). apply Forall_nil. Qed.
  Lemma cs_pass eigvals : eigs_ok eigvals -> 0 <= mass -> Forall (passes eigvals) cs.
  Proof.
    intros Ev Hm. apply Forall_forall. intros c Hc. apply in_cs in Hc. destruct Hc as [(x & Hx & Hc) | [(x & Hx & Hc) | [(x & Hx & Hc) | (x & Hx & Hc)]]].
    - destruct x as (k, (n, ((m, cm), r))). destruct Hc as [<- | []]. cbn [passes]. apply human_mass_ok; [exact Ev | ]. apply in_number in Hx. destruct Hx as (_ & Hx). apply nth_error_In in Hx. assert (X := masses_nonneg Hm). rewrite Forall_forall in X. exact (X _ Hx).
    - destruct x as (k, ((((b0, t), ty), n), b1)). destruct Hc as [<- | [<- | [<- | []]]]; cbn [passes]; auto. apply transl_SE3.
    - destruct x as (k, ((n, b), t)). destruct Hc as [<- | [<- | []]]; cbn [passes]; auto. apply transl_SE3.
    - destruct x as (k, n). destruct Hc as [<- | [<- | []]]; cbn [passes]; auto.
  Qed.
  Definition parent_of (b0 : option string) : nat := match b0 with None => ground e | Some b => xb I (bid b) end.
  Lemma sub_of h0 k b0 t ty n b1 : (forall c, In c cs -> made e h0 c) -> In (k, (b0, t, ty, n, b1)) (number 0 (human_links L)) -> sub_body e (xs I k) = parent_of b0.
  Proof. intros Mk Hin. apply (Mk (MkSub (xs I k) (parent_of b0) None (transl (vx t) (vy t) (vz t)))). apply in_cs. right. left. exists (k, (b0, t, ty, n, b1)). split; [exact Hin | right; now left]. Qed.
  Lemma links_idx : Forall (fun x : nat * (option string * v3 * jtype * string * string) => let '(k, (b0, _, _, _, b1)) := x in (k < 17)%nat /\ bid b1 = k /\ match b0 with None => True | Some b => (bid b < k)%nat end) (number 0 (human_links L)).
  Proof. unfold human_links. cbn [number]. repeat (apply Forall_cons; [cbv beta iota; split; [lia | split; [reflexivity | first [exact Logic.I | cbn; lia]]] | ]). apply Forall_nil. Qed.
  Lemma cs_fits h0 : new_ids I h0 e -> (forall c, In c cs -> made e h0 c) -> fits e h0 (map (xb I) (seq 0 17)) (rank_of I 17) (links_in cs) /\
     (forall l, In l (links_in cs) -> In (l_from e l) (map (xb I) (seq 0 17)) \/ l_from e l = ground e).
  Proof.
    intros Ni Mk. assert (X : forall l, In l (links_in cs) -> exists k, (k < 17)%nat /\ l_to e l = xb I k /\ (exists j, l_joint l = xj I j) /\ (l_from e l = ground e \/ exists i, (i < k)%nat /\ l_from e l = xb I i)).
    { intros l Hl. rewrite links_eq in Hl. apply in_map_iff in Hl. destruct Hl as ((k, ((((b0, t), ty), n), b1)) & <- & Hin). assert (Y := links_idx). rewrite Forall_forall in Y. specialize (Y _ Hin). cbn beta iota in Y. destruct Y as (Y1 & Y2 & Y3).
      assert (Z := sub_of h0 k b0 t ty n b1 Mk Hin). exists k. split; [exact Y1 | ]. unfold l_to, l_from, l_joint. cbn [hlink fst snd frame_body]. split; [now rewrite Y2 | ]. split; [eauto | ]. rewrite Z. unfold parent_of. destruct b0; [right; eauto | now left]. }
    split.
    - apply idx_fits; [exact Ni | exact X | rewrite to_eq; apply bs_nodup with (e := e) (h0 := h0); exact Ni | rewrite joints_eq; apply NoDup_map_inj; [apply Ni | apply seq_NoDup]].
    - intros l Hl. destruct (X l Hl) as (k & Hk & _ & _ & [Q | (i & Hi & Q)]); [now right | left]. rewrite Q. apply in_map. apply in_seq. lia.
  Qed.
  Lemma build_human g0 h0 eigvals t fuel : reachable 0 e g0 h0 -> eigs_ok eigvals -> new_ids I h0 e -> 0 <= mass -> (forall c, In c cs -> made e h0 c) -> rep e h0 t -> root t = ground e -> (length (bodies t) + 17 < fuel)%nat ->
    exists h' t', exec_all e eigvals fuel (cs ++ [WInit]) h0 = (h', Ok tt) /\ reachable 0 e g0 h' /\ ready e h' t' /\ (height t' < fuel)%nat /\
      (forall b, In b (bodies t') <-> In b (bodies t) \/ In b (map (xb I) (seq 0 17))) /\ Permutation (joints t') (joints t ++ map (xj I) (seq 0 17)) /\
      w_ndof h' = (total_ndof e (joints t) + total_ndof e (map (xj I) (seq 0 17)))%nat /\
      (forall l, In l (links_in cs) -> jframes h' (l_joint l) = Some (fst (fst l), snd l)) /\
      (forall j, ~ In j (map (xj I) (seq 0 17)) -> jframes h' j = jframes h0 j) /\
      (forall j, joint_gvel h' j = joint_gvel h0 j) /\
      reg_le h0 h' /\ (forall x, In (Reg x) cs -> registered h' x).
  Proof.
    intros R Ev Ni Hm Mk Rt Er Fu. destruct (cs_fits h0 Ni Mk) as (F & Fr). rewrite <- (joints_eq).
    apply (build_ok e g0 eigvals h0 (map (xb I) (seq 0 17)) (rank_of I 17) (bs_new e h0 I 17 Ni) cs t R Rt Er (bs_nodup e h0 I 17 Ni) (cs_pass eigvals Ev Hm) F Fr); [ | rewrite map_length, seq_length; exact Fu].
    intros b Hb. now rewrite to_eq.
  Qed.
End S.
Arguments hlink I x : clear implicits.

(** ** What a user finds in the world *)
(** the humanoid: 17 new bodies and 42 degrees of freedom *)
Lemma script_inv e I p height mass o cs : human_script e I p height mass o = Ok cs -> leg (lengths_used height o) "R" = leg (lengths_used height o) "L" /\ cs = hcmds e I p (lengths_used height o) mass (tallness (lengths_used height o)) ++ [WInit].
Proof.
  rewrite script_used. set (L := lengths_used height o). intros H. assert (E : leg L "R" = leg L "L").
  { unfold human_script, height_from_anat_lengths in H. unfold leg. cbn. destruct (Req_EM_T _ _) as [E | ]; [now symmetry | discriminate]. }
  split; [exact E | ]. rewrite (script_ok e I p L mass _ (height_ok L E)) in H. apply Props_Draw.Ok_inj in H. now symmetry.
Qed.
Lemma in_snoc c cs : In c (cs ++ [WInit]) -> c <> WInit -> In c cs.
Proof. intros H N. apply in_app_iff in H. destruct H as [H | [H | []]]; [exact H | congruence]. Qed.
Lemma hbody e I p L mass h k n x : nth_error (human_bodies L mass) k = Some (n, x) -> In (MkBody (xb I k) (Some (p ++ n)%string) (human_mass (fst (fst x)) (snd (fst x)) (snd x))) (hcmds e I p L mass h).
Proof. intros H. apply in_cs. left. exists (k, (n, x)). split; [apply in_number; split; [lia | now rewrite Nat.sub_0_r] | ]. destruct x as ((m, c), r). now left. Qed.
Lemma hbody_called e I p L mass h k n : nth_error bnames k = Some n -> body_called (hcmds e I p L mass h ++ [WInit]) p n (xb I k).
Proof.
  intros H. rewrite <- (bodies_names L mass) in H. rewrite nth_error_map in H. destruct (nth_error (human_bodies L mass) k) as [(n', x) | ] eqn:Q; [ | discriminate]. cbn in H. injection H as <-.
  eexists. apply in_or_app. left. eapply hbody. exact Q.
Qed.
Lemma hlink_in e I p L mass h k b0 t ty n b1 : nth_error (human_links L) k = Some (b0, t, ty, n, b1) -> forall c, In c (lcmd e I p (k, (b0, t, ty, n, b1))) -> In c (hcmds e I p L mass h).
Proof. intros H c Hc. apply in_cs. right. left. exists (k, (b0, t, ty, n, b1)). split; [apply in_number; split; [lia | now rewrite Nat.sub_0_r] | exact Hc]. Qed.

Theorem C68_human : forall e g0 h eigvals I p ht mass o t,
  reachable 0 e g0 h -> eigs_ok eigvals -> new_ids I h e -> 0 <= mass -> rep e h t -> root t = ground e ->
  leg (lengths_used ht o) "R" = leg (lengths_used ht o) "L" ->
  exists cs, human_script e I p ht mass o = Ok cs /\
    ((forall c, In c cs -> made e h c) -> forall fuel, (length (bodies t) + 17 < fuel)%nat ->
     exists h' t', add_human36 e eigvals fuel I p ht mass o h = (h', Ok tt) /\ reachable 0 e g0 h' /\ ready e h' t' /\ (height t' < fuel)%nat /\
       w_ndof h' = (total_ndof e (joints t) + 42)%nat /\ length (bodies t') = (length (bodies t) + 17)%nat /\
       (forall b, In b (bodies t') <-> In b (bodies t) \/ exists n, In n (map snd skeleton) /\ body_called cs p n b) /\
       (forall jn d from to, In (jn, d, from, to) skeleton -> exists j f0 b, joint_called cs p jn j /\ In j (joints t') /\ jndof e j = d /\
          jframes h' j = Some (f0, FBody b) /\ body_called cs p to b /\ match from with None => frame_body e f0 = ground e | Some n => body_called cs p n (frame_body e f0) end) /\
       length (joints t') = (length (joints t) + length skeleton)%nat /\
       (forall j, In j (joints t) -> In j (joints t') /\ jframes h' j = jframes h j) /\ (forall j, joint_gvel h' j = joint_gvel h j) /\ reg_le h h' /\
       (forall s b n H, In (MkSub s b (Some n) H) cs -> registered h' (OFrame (FSub s))) /\ (forall s n f g, In (MkShape s n f g) cs -> registered h' (OShape s))).
Proof.
  intros e g0 h eigvals I p ht mass o t R Ev Ni Hm Rt Er EL. set (L := lengths_used ht o) in *.
  set (C := hcmds e I p L mass (tallness L)).
  assert (Es : human_script e I p ht mass o = Ok (C ++ [WInit])) by (rewrite script_used; apply (script_ok e I p L mass _ (height_ok L EL))).
  exists (C ++ [WInit]). split; [exact Es | ]. intros Mk fuel Fu.
  destruct (build_human e I p L mass (tallness L) g0 h eigvals t fuel R Ev Ni Hm) as (h' & t' & E & R' & Rd & Hf & Bd & Pm & Nd & Jf & Jo & Gv & Rl & Rg); [intros c Hc; apply Mk, in_or_app; now left | exact Rt | exact Er | exact Fu | ].
  assert (Oldb : forall k, ~ In (xb I k) (bodies t)).
  { intros k Hin. rewrite bodies_tail in Hin. destruct Ni as (_ & _ & N). destruct (N k) as (N1 & N2 & _). destruct Hin as [Q | Hin]; [congruence | ].
    destruct (rep_edge_body e h t (xb I k) Rt Hin) as (q & j & (_ & P) & _). congruence. }
  exists h', t'. split; [unfold add_human36; now rewrite Es | ]. split; [exact R' | ]. split; [exact Rd | ]. split; [exact Hf | ].
  assert (Jd : forall k b0 x ty n b1, nth_error (human_links L) k = Some (b0, x, ty, n, b1) -> jndof e (xj I k) = ndof_of ty).
  { intros k b0 x ty n b1 H. apply (Mk (MkJoint (xj I k) (Some (pfx p n)) ty)). apply in_or_app. left. eapply hlink_in; [exact H | now left]. }
  split.
  { rewrite Nd. f_equal. unfold total_ndof. cbn [seq map list_sum fold_right]. rewrite (Jd 0%nat _ _ _ _ _ eq_refl), (Jd 1%nat _ _ _ _ _ eq_refl), (Jd 2%nat _ _ _ _ _ eq_refl), (Jd 3%nat _ _ _ _ _ eq_refl), (Jd 4%nat _ _ _ _ _ eq_refl), (Jd 5%nat _ _ _ _ _ eq_refl), (Jd 6%nat _ _ _ _ _ eq_refl), (Jd 7%nat _ _ _ _ _ eq_refl), (Jd 8%nat _ _ _ _ _ eq_refl), (Jd 9%nat _ _ _ _ _ eq_refl), (Jd 10%nat _ _ _ _ _ eq_refl), (Jd 11%nat _ _ _ _ _ eq_refl), (Jd 12%nat _ _ _ _ _ eq_refl), (Jd 13%nat _ _ _ _ _ eq_refl), (Jd 14%nat _ _ _ _ _ eq_refl), (Jd 15%nat _ _ _ _ _ eq_refl), (Jd 16%nat _ _ _ _ _ eq_refl). reflexivity. }
  split.
  { assert (Pb : Permutation (bodies t') (bodies t ++ map (xb I) (seq 0 17))).
    { apply NoDup_Permutation; [apply Rd | | intros b; rewrite in_app_iff; apply Bd]. apply NoDup_app_iff. split; [ | split; [eapply bs_nodup; exact Ni | ]].
      - destruct (world_iterators e h (reachable_forest 0 e g0 h R)) as (t1 & Rt1 & Er1 & ND & _). now rewrite (rep_unique e h _ _ Rt Rt1 ltac:(congruence)).
      - intros x H1 H2. apply in_map_iff in H2. destruct H2 as (k & <- & _). exact (Oldb k H1). }
    rewrite (Permutation_length Pb), app_length, map_length, seq_length. reflexivity. }
  assert (Eb : map snd skeleton = bnames) by reflexivity.
  split.
  { intros b. rewrite Bd, Eb. apply or_iff_compat_l. split.
    - intros H. apply in_map_iff in H. destruct H as (k & <- & Hk). apply in_seq in Hk. destruct (nth_error bnames k) as [n | ] eqn:Q; [ | apply nth_error_None in Q; change (length bnames) with 17%nat in Q; lia]. exists n. split; [eapply nth_error_In; eauto | now apply hbody_called].
    - intros (n & _ & M & H). apply in_snoc in H; [ | discriminate]. apply in_cs in H. destruct H as [(x & Hx & H) | [(x & _ & H) | [(x & _ & H) | (x & _ & H)]]].
      + destruct x as (k, (n', ((m, c), r))). destruct H as [H | []]. injection H as <- _ _. apply in_number in Hx. destruct Hx as (_ & Hx). assert (Z : (k - 0 < length (human_bodies L mass))%nat) by (apply nth_error_Some; congruence). change (length (human_bodies L mass)) with 17%nat in Z. apply in_map, in_seq. lia.
      + destruct x as (k, ((((b0, tt'), ty), n'), b1)). destruct H as [H | [H | [H | []]]]; discriminate.
      + destruct x as (k, ((n', b'), tt')). destruct H as [H | [H | []]]; discriminate.
      + destruct x as (k, n'). destruct H as [H | [H | []]]; discriminate. }
  split.
  { assert (X : forall k b0 x ty n b1, nth_error (human_links L) k = Some (b0, x, ty, n, b1) -> nth_error bnames k = Some b1 -> match b0 with None => True | Some b => nth_error bnames (bid b) = Some b end -> exists j f0 b, joint_called (C ++ [WInit]) p n j /\ In j (joints t') /\ jndof e j = ndof_of ty /\
          jframes h' j = Some (f0, FBody b) /\ body_called (C ++ [WInit]) p b1 b /\ match b0 with None => frame_body e f0 = ground e | Some n => body_called (C ++ [WInit]) p n (frame_body e f0) end).
    { intros k b0 x ty n b1 H Hn Hp. assert (Hk : (k < 17)%nat) by (change 17%nat with (length (human_links L)); apply nth_error_Some; congruence). exists (xj I k), (FSub (xs I k)), (xb I k).
      split; [eexists; apply in_or_app; left; eapply hlink_in; [exact H | now left] | ]. split; [eapply Permutation_in; [symmetry; exact Pm | ]; apply in_or_app; right; apply in_map, in_seq; lia | ]. split; [eapply Jd; exact H | ].
      assert (Y := links_idx L). rewrite Forall_forall in Y. assert (Hin : In (k, (b0, x, ty, n, b1)) (number 0 (human_links L))) by (apply in_number; split; [lia | now rewrite Nat.sub_0_r]). specialize (Y _ Hin). cbn beta iota in Y. destruct Y as (_ & Y2 & _).
      split; [assert (Z : jframes h' (xj I k) = Some (FSub (xs I k), FBody (xb I (bid b1)))) by (apply (Jf (hlink I (k, (b0, x, ty, n, b1)))); rewrite links_eq; now apply in_map); rewrite Y2 in Z; exact Z | ].
      split; [now apply hbody_called | ]. cbn [frame_body]. rewrite (sub_of e I p L mass (tallness L) h k b0 x ty n b1); [ | intros c Hc; apply Mk, in_or_app; now left | exact Hin]. unfold parent_of. destruct b0 as [b0 | ]; [ | reflexivity]. now apply hbody_called. }
    intros jn d from to H. unfold skeleton in H. cbn [In] in H.
    repeat (destruct H as [H | H]; [injection H as <- <- <- <-;
      first [exact (X 0%nat _ _ _ _ _ eq_refl eq_refl Logic.I) | exact (X 1%nat _ _ _ _ _ eq_refl eq_refl eq_refl) | exact (X 2%nat _ _ _ _ _ eq_refl eq_refl eq_refl) | exact (X 3%nat _ _ _ _ _ eq_refl eq_refl eq_refl) | exact (X 4%nat _ _ _ _ _ eq_refl eq_refl eq_refl) | exact (X 5%nat _ _ _ _ _ eq_refl eq_refl eq_refl) | exact (X 6%nat _ _ _ _ _ eq_refl eq_refl eq_refl) | exact (X 7%nat _ _ _ _ _ eq_refl eq_refl eq_refl) | exact (X 8%nat _ _ _ _ _ eq_refl eq_refl eq_refl) | exact (X 9%nat _ _ _ _ _ eq_refl eq_refl eq_refl) | exact (X 10%nat _ _ _ _ _ eq_refl eq_refl eq_refl) | exact (X 11%nat _ _ _ _ _ eq_refl eq_refl eq_refl) | exact (X 12%nat _ _ _ _ _ eq_refl eq_refl eq_refl) | exact (X 13%nat _ _ _ _ _ eq_refl eq_refl eq_refl) | exact (X 14%nat _ _ _ _ _ eq_refl eq_refl eq_refl) | exact (X 15%nat _ _ _ _ _ eq_refl eq_refl eq_refl) | exact (X 16%nat _ _ _ _ _ eq_refl eq_refl eq_refl)] | ]).
    destruct H. }
  split; [rewrite (Permutation_length Pm), app_length, map_length, seq_length; reflexivity | ].
  split.
  { intros j Hj. split; [eapply Permutation_in; [symmetry; exact Pm | ]; apply in_or_app; now left | ]. apply Jo. intros H. apply in_map_iff in H. destruct H as (k & <- & _). destruct (rep_joint_edge e h t _ Rt Hj) as (q & c & ((f0 & f1 & Ef & _) & _) & _). destruct Ni as (_ & _ & N). destruct (N k) as (_ & _ & _ & N4). congruence. }
  split; [exact Gv | ]. split; [exact Rl | ]. split.
  - intros s b n H Hin. apply Rg. apply in_snoc in Hin; [ | discriminate]. apply in_cs in Hin. apply in_cs. right. right. left. destruct Hin as [(x & _ & Hx) | [(x & _ & Hx) | [(x & Hn & Hx) | (x & _ & Hx)]]].
    + destruct x as (k, (n', ((m, c), r))). destruct Hx as [Hx | []]. discriminate.
    + destruct x as (k, ((((b0, tt'), ty), n'), b1)). destruct Hx as [Hx | [Hx | [Hx | []]]]; discriminate.
    + exists x. split; [exact Hn | ]. destruct x as (k, ((n', b'), tt')). destruct Hx as [Hx | [Hx | []]]; [ | discriminate]. injection Hx as <- _ _ _. right. now left.
    + destruct x as (k, n'). destruct Hx as [Hx | [Hx | []]]; discriminate.
  - intros s n f g Hin. apply Rg. apply in_snoc in Hin; [ | discriminate]. apply in_cs in Hin. apply in_cs. right. right. right. destruct Hin as [(x & _ & Hx) | [(x & _ & Hx) | [(x & Hn & Hx) | (x & Hn & Hx)]]].
    + destruct x as (k, (n', ((m, c), r))). destruct Hx as [Hx | []]. discriminate.
    + destruct x as (k, ((((b0, tt'), ty), n'), b1)). destruct Hx as [Hx | [Hx | [Hx | []]]]; discriminate.
    + destruct x as (k, ((n', b'), tt')). destruct Hx as [Hx | [Hx | []]]; discriminate.
    + exists x. split; [exact Hn | ]. destruct x as (k, n'). destruct Hx as [Hx | [Hx | []]]; [ | discriminate]. injection Hx as <- _ _ _. right. now left.
Qed.
Print Assumptions C68_human.
