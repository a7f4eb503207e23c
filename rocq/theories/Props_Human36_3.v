(** C68: the mass of the humanoid, its names, what it refuses, and an asymmetry. *)
From Coq Require Import Lra Lia.
From Verif Require Import Spec_Human36.
From Verif Require Import Proof_Linalg Proof_SE3 Proof_Tree Proof_World Proof_World4 Proof_World3 Props_Dyn Proof_Dyn2 Props_Mass Proof_Robots2 Props_Robots2 Proof_Build Proof_Build2 Proof_Build3 Proof_Human36 Props_Human36 Props_Human36_2.
Open Scope R_scope.

Lemma hbody_inv e I p L mass h b n M : In (MkBody b (Some (p ++ n)%string) M) (hcmds e I p L mass h) -> exists k x, b = xb I k /\ nth_error (human_bodies L mass) k = Some (n, x) /\ M = human_mass (fst (fst x)) (snd (fst x)) (snd x).
Proof.
  intros H. apply in_cs in H. destruct H as [(x & Hx & H) | [(x & _ & H) | [(x & _ & H) | (x & _ & H)]]].
  - destruct x as (k, (n', ((m, c), r))). destruct H as [H | []]. assert (Q : String.eqb (pfx p n') (pfx p n) = true) by (apply String.eqb_eq; unfold pfx in *; congruence). rewrite pfx_eqb in Q. apply String.eqb_eq in Q. subst n'.
    apply in_number in Hx. destruct Hx as (_ & Hx). rewrite Nat.sub_0_r in Hx. exists k, (m, c, r). split; [congruence | ]. split; [exact Hx | ]. cbn [fst snd]. congruence.
  - destruct x as (k, ((((b0, tt'), ty), n'), b1)). destruct H as [H | [H | [H | []]]]; discriminate.
  - destruct x as (k, ((n', b'), tt')). destruct H as [H | [H | []]]; discriminate.
  - destruct x as (k, n'). destruct H as [H | [H | []]]; discriminate.
Qed.
Lemma hset_none e I p L mass h b M : ~ In (SetMass b M) (hcmds e I p L mass h).
Proof.
  intros H. apply in_cs in H. destruct H as [(x & _ & H) | [(x & _ & H) | [(x & _ & H) | (x & _ & H)]]].
  - destruct x as (k, (n', ((m, c), r))). destruct H as [H | []]; discriminate.
  - destruct x as (k, ((((b0, tt'), ty), n'), b1)). destruct H as [H | [H | [H | []]]]; discriminate.
  - destruct x as (k, ((n', b'), tt')). destruct H as [H | [H | []]]; discriminate.
  - destruct x as (k, n'). destruct H as [H | [H | []]]; discriminate.
Qed.
Lemma hmass e I p L mass h k n x : (forall i j, xb I i = xb I j -> i = j) -> nth_error (human_bodies L mass) k = Some (n, x) -> mass_in (xb I k) (hcmds e I p L mass h) = Some (human_mass (fst (fst x)) (snd (fst x)) (snd x)).
Proof.
  intros Inj H. eapply mass_once; [apply hbody; exact H | | intros M; apply hset_none].
  intros n' M' Hin. apply in_cs in Hin. destruct Hin as [(y & Hy & Hin) | [(y & _ & Hin) | [(y & _ & Hin) | (y & _ & Hin)]]].
  - destruct y as (k', (n2, ((m, c), r))). destruct Hin as [Q | []]. assert (k' = k) by (apply Inj; congruence). subst k'. apply in_number in Hy. destruct Hy as (_ & Hy). rewrite Nat.sub_0_r, H in Hy. injection Hy as -> ->. cbn [fst snd]. congruence.
  - destruct y as (k', ((((b0, tt'), ty), n2), b1)). destruct Hin as [Hin | [Hin | [Hin | []]]]; discriminate.
  - destruct y as (k', ((n2, b'), tt')). destruct Hin as [Hin | [Hin | []]]; discriminate.
  - destruct y as (k', n2). destruct Hin as [Hin | [Hin | []]]; discriminate.
Qed.

(** The 17 bodies are rigid, and weigh together the mass that was asked for. *)
Theorem C68_mass : forall e h I p ht mass o cs sc J, new_ids I h e -> human_script e I p ht mass o = Ok cs -> scene_of sc J cs ->
  exists ms, Forall2 (fun n m => exists b c In3, body_called cs p n b /\ b_mass sc b = rigid_mass m c In3) (map snd skeleton) ms /\ fold_right Rplus 0 ms = mass /\ (0 <= mass -> Forall (Rle 0) ms).
Proof.
  intros e h I p ht mass o cs sc J Ni E So. destruct (script_inv _ _ _ _ _ _ _ E) as (EL & ->). set (L := lengths_used ht o) in *. apply scene_snoc in So. destruct So as (S1 & _).
  assert (X : forall k n x, nth_error (human_bodies L mass) k = Some (n, x) -> exists b c In3, body_called (hcmds e I p L mass (tallness L) ++ [WInit]) p n b /\ b_mass sc b = rigid_mass (fst (fst x)) c In3).
  { intros k n x H. exists (xb I k). do 2 eexists. split; [eexists; apply in_or_app; left; apply hbody; exact H | ]. rewrite (S1 _ _ (hmass e I p L mass (tallness L) k n x (proj1 Ni) H)). reflexivity. }
  exists (map (fun x => fst (fst (snd x))) (human_bodies L mass)). split; [ | split].
  - change (map snd skeleton) with (map fst (human_bodies L mass)). assert (Y : forall x, In x (human_bodies L mass) -> exists b c In3, body_called (hcmds e I p L mass (tallness L) ++ [WInit]) p (fst x) b /\ b_mass sc b = rigid_mass (fst (fst (snd x))) c In3).
    { intros x Hx. apply In_nth_error in Hx. destruct Hx as (k & Hk). destruct x as (n, x). exact (X k n x Hk). }
    clear X. induction (human_bodies L mass) as [ | x l IH]; cbn [map]; constructor; [apply Y; now left | apply IH; intros z Hz; apply Y; now right].
  - unfold human_bodies. cbn [map fst snd fold_right]. lra.
  - intros Hm. apply Forall_forall. intros m Hin. apply in_map_iff in Hin. destruct Hin as (x & <- & Hx). assert (Z := masses_nonneg L mass Hm). rewrite Forall_forall in Z. exact (Z x Hx).
Qed.
Print Assumptions C68_mass.

Lemma snoc_eqb n m a b : String.eqb (n ++ String a EmptyString) (m ++ String b EmptyString) = String.eqb n m && Ascii.eqb a b.
Proof.
  revert m. induction n as [ | c n IH]; intros [ | d m]; cbn.
  - destruct (Ascii.eqb a b); reflexivity.
  - destruct m; cbn; destruct (Ascii.eqb a d); reflexivity.
  - destruct n; cbn; destruct (Ascii.eqb c b); reflexivity.
  - rewrite IH. destruct (Ascii.eqb c d); reflexivity.
Qed.
(** all but the last character, and the last one *)
Fixpoint unsnoc (s : string) : string * Ascii.ascii :=
  match s with
  | EmptyString => (EmptyString, Ascii.zero)
  | String a EmptyString => (EmptyString, a)
  | String a s' => let (t, b) := unsnoc s' in (String a t, b)
  end.
Lemma unsnoc_ok s : s <> EmptyString -> s = (fst (unsnoc s) ++ String (snd (unsnoc s)) EmptyString)%string.
Proof. induction s as [ | a s IH]; intros N; [congruence | ]. destruct s as [ | b s]; [reflexivity | ]. change (unsnoc (String a (String b s))) with (let (t, c) := unsnoc (String b s) in (String a t, c)). destruct (unsnoc (String b s)) as (t, c). cbn [fst snd append] in *. now rewrite <- IH. Qed.
Lemma key_eqb n a k : k <> EmptyString -> String.eqb (n ++ String a EmptyString) k = String.eqb n (fst (unsnoc k)) && Ascii.eqb a (snd (unsnoc k)).
Proof. intros N. rewrite (unsnoc_ok k N) at 1. apply snoc_eqb. Qed.

(** The lengths made from a height give the height back, are the same on both sides, and are never refused. *)
Theorem C68_height : forall ht, leg (anat_lengths_from_height ht) "R" = leg (anat_lengths_from_height ht) "L" /\ same_sides (anat_lengths_from_height ht) /\
  height_from_anat_lengths (anat_lengths_from_height ht) = Ok ht /\ tallness (anat_lengths_from_height ht) = ht.
Proof.
  intros ht. assert (T : tallness (anat_lengths_from_height ht) = ht) by (unfold tallness, leg, anat_lengths_from_height; cbn; lra).
  assert (Lg : leg (anat_lengths_from_height ht) "R" = leg (anat_lengths_from_height ht) "L"). { unfold leg, anat_lengths_from_height. cbn [append]. cbv zeta. cbn [fold_left fst snd]. cbv [set_len String.eqb Ascii.eqb Bool.eqb]. reflexivity. }

  split; [exact Lg | ]. split; [ | split; [rewrite (height_ok _ Lg); now rewrite T | exact T]].
  intros n. unfold anat_lengths_from_height. cbv zeta. cbn [fold_left fst snd]. cbv beta delta [set_len].

  repeat rewrite key_eqb by discriminate. cbn [unsnoc fst snd Ascii.eqb Bool.eqb]. rewrite ?andb_false_r, ?andb_true_r.

  repeat match goal with |- context [String.eqb n ?k] => destruct (String.eqb n k); [reflexivity | ] end. reflexivity.
Qed.
Print Assumptions C68_height.

(** ** What it refuses *)
Theorem C68_refuses : forall e eigvals fuel I p ht mass o h,
  (leg (lengths_used ht o) "R" <> leg (lengths_used ht o) "L" -> add_human36 e eigvals fuel I p ht mass o h = (h, Err ValueError)) /\
  (leg (lengths_used ht o) "R" = leg (lengths_used ht o) "L" -> eigs_ok eigvals -> mass < 0 -> add_human36 e eigvals fuel I p ht mass o h = (h, Err AssertionError)).
Proof.
  intros e eigvals fuel I p ht mass o h. unfold add_human36. rewrite script_used. set (L := lengths_used ht o). split.
  - intros N. unfold human_script, height_from_anat_lengths. unfold leg in N. cbn [append] in N. destruct (Req_EM_T _ _) as [Q | _]; [destruct N; now symmetry | reflexivity].
  - intros EL Ev Hm. rewrite (script_ok e I p L mass _ (height_ok L EL)).
    assert (Q := human_mass_neg eigvals (0.275 * mass) (0.5108 * L "yvT10"%string) (gyr 0.2722 0.2628 0.226 (L "yvT10"%string)) Ev ltac:(lra)).
    unfold hcmds, human_bodies. cbn [number flat_map bcmd app exec_all exec]. now rewrite Q.
Qed.
Print Assumptions C68_refuses.

(** ** Names *)
(** [b] is the end of [a] *)
Fixpoint ends (b a : string) : bool := match a with EmptyString => false | String _ a' => String.eqb a' b || ends b a' end.
Lemma ends_app r b : r <> EmptyString -> ends b (r ++ b) = true.
Proof. induction r as [ | c r IH]; intros N; [congruence | ]. cbn. destruct r; [cbn; now rewrite String.eqb_refl | ]. rewrite IH by discriminate. apply orb_true_r. Qed.
Lemma app_cases : forall p q a b, (p ++ a = q ++ b)%string -> (p = q /\ a = b) \/ (exists r, r <> EmptyString /\ a = (r ++ b)%string) \/ (exists r, r <> EmptyString /\ b = (r ++ a)%string).
Proof.
  induction p as [ | c p IH]; intros [ | d q] a b H; cbn in H.
  - now left.
  - right. left. exists (String d q). split; [discriminate | exact H].
  - right. right. exists (String c p). split; [discriminate | now symmetry].
  - injection H as -> H. destruct (IH q a b H) as [(-> & ->) | X]; [now left | now right].
Qed.
Definition clear_of (l : list string) : bool := forallb (fun a => forallb (fun b => negb (ends b a)) l) l.
Lemma clear_prefix l p q a b : clear_of l = true -> In a l -> In b l -> (p ++ a = q ++ b)%string -> p = q /\ a = b.
Proof.
  intros C Ha Hb H. unfold clear_of in C. rewrite forallb_forall in C. assert (X : forall x y, In x l -> In y l -> ends y x = false).
  { intros x y Hx Hy. assert (Z := C x Hx). rewrite forallb_forall in Z. specialize (Z y Hy). destruct (ends y x); [discriminate | reflexivity]. }
  destruct (app_cases p q a b H) as [Y | [(r & N & ->) | (r & N & ->)]]; [exact Y | | ].
  - assert (Z := X _ b Ha Hb). rewrite ends_app in Z by exact N. discriminate.
  - assert (Z := X _ a Hb Ha). rewrite ends_app in Z by exact N. discriminate.
Qed.
Fixpoint nodupb (l : list string) : bool := match l with [] => true | x :: l' => negb (existsb (String.eqb x) l') && nodupb l' end.
Lemma nodupb_ok l : nodupb l = true -> NoDup l.
Proof.
  induction l as [ | x l IH]; intros H; [constructor | ]. cbn in H. apply andb_prop in H. destruct H as (A & B). constructor; [ | auto]. intros Hin. apply negb_true_iff in A.
  assert (existsb (String.eqb x) l = true) by (apply existsb_exists; exists x; split; [exact Hin | apply String.eqb_refl]). congruence.
Qed.
Lemma app_inj p a b : (p ++ a = p ++ b)%string -> a = b.
Proof. induction p; cbn; intros H; [exact H | injection H; auto]. Qed.
Definition jnames : list string := map (fun x => fst (fst (fst x))) skeleton.
Lemma hnames e I p L mass h : frame_names (hcmds e I p L mass h ++ [WInit]) = map (append p) (bnames ++ tnames) /\ joint_names (hcmds e I p L mass h ++ [WInit]) = map (append p) jnames /\ shape_names (hcmds e I p L mass h ++ [WInit]) = map (append p) human_points.
Proof. split; [ | split]; reflexivity. Qed.

(** The frames, the joints, the shapes of a humanoid have distinct names, and two humanoids with different prefixes share no name. *)
Theorem C68_names : forall e I p ht mass o cs, human_script e I p ht mass o = Ok cs ->
  (NoDup (frame_names cs) /\ NoDup (joint_names cs) /\ NoDup (shape_names cs)) /\
  (length (frame_names cs) = 45 /\ length (joint_names cs) = 17 /\ length (shape_names cs) = 8)%nat /\
  forall e' I' p' ht' mass' o' cs', human_script e' I' p' ht' mass' o' = Ok cs' -> p' <> p ->
    forall n, ~ (In n (frame_names cs) /\ In n (frame_names cs')) /\ ~ (In n (joint_names cs) /\ In n (joint_names cs')) /\ ~ (In n (shape_names cs) /\ In n (shape_names cs')).
Proof.
  intros e I p ht mass o cs E. destruct (script_inv _ _ _ _ _ _ _ E) as (_ & ->). destruct (hnames e I p (lengths_used ht o) mass (tallness (lengths_used ht o))) as (-> & -> & ->).
  split; [ | split].
  - split; [ | split]; (apply NoDup_map_inj; [exact (app_inj p) | apply nodupb_ok; reflexivity]).
  - rewrite !map_length. split; [ | split]; reflexivity.
  - intros e' I' p' ht' mass' o' cs' E' N n. destruct (script_inv _ _ _ _ _ _ _ E') as (_ & ->). destruct (hnames e' I' p' (lengths_used ht' o') mass' (tallness (lengths_used ht' o'))) as (-> & -> & ->).
    assert (X : forall l, clear_of l = true -> ~ (In n (map (append p) l) /\ In n (map (append p') l))).
    { intros l C (A & B). apply in_map_iff in A, B. destruct A as (a & <- & A), B as (b & Q & B). destruct (clear_prefix l p' p b a C B A Q) as (Z & _). exact (N Z). }
    split; [ | split]; apply X; reflexivity.
Qed.
Print Assumptions C68_names.

(** ** The two hands *)
(** The two sides are built alike, except the hands: their inertias about the x and z axes are exchanged. *)
Definition limbs : list string := ["Thigh"; "Shank"; "Foot"; "Scapula"; "Arm"; "Forearm"]%string.
Lemma hand_differs m y l : 0 < m -> l <> 0 -> human_mass m (V3 0 y 0) (gyr 0.235 0.184 0.288 l) <> human_mass m (V3 0 y 0) (gyr 0.288 0.184 0.235 l).
Proof.
  intros Hm Hl Q. apply (f_equal (fun M => m00 (aa M))) in Q. unfold human_mass, rigid_mass, gyr, diag3 in Q. revert Q. clear - Hm Hl. cbn. intros Q.
  assert (0 < m * (l * l)) by (apply Rmult_lt_0_compat; [exact Hm | ]; destruct (Rtotal_order l 0) as [ | [ | ]]; nra). nra.
Qed.
Theorem C68_limbs : forall e I p ht mass o cs, same_sides (lengths_used ht o) -> human_script e I p ht mass o = Ok cs ->
  forall n M M', In n limbs -> mass_called cs p (n ++ "R") M -> mass_called cs p (n ++ "L") M' -> M = M'.
Proof.
  intros e I p ht mass o cs SS E. destruct (script_inv _ _ _ _ _ _ _ E) as (EL & ->). set (L := lengths_used ht o) in *.
  assert (Q1 := SS "yfoot"%string). assert (Q2 := SS "ytibia"%string). assert (Q3 := SS "yfemur"%string). assert (Q4 := SS "xfoot"%string). assert (Q5 := SS "xheel"%string).
  assert (Q12 := SS "yhumerus"%string). assert (Q13 := SS "yforearm"%string). assert (Q14 := SS "yhand"%string). cbn [append] in *.
  intros n M M' Hn (b & H1) (b' & H2). apply in_snoc in H1; [ | discriminate]. apply in_snoc in H2; [ | discriminate]. apply hbody_inv in H1, H2. destruct H1 as (k & x & -> & A1 & ->), H2 as (k' & x' & -> & A2 & ->).
    assert (Ub : forall k j m x y, nth_error (human_bodies L mass) k = Some (m, x) -> nth_error (human_bodies L mass) j = Some (m, y) -> x = y).
    { clear. intros k j m x y A B. assert (N : NoDup (map fst (human_bodies L mass))) by (rewrite bodies_names; apply nodupb_ok; reflexivity). assert (k = j); [ | congruence].
      apply (proj1 (NoDup_nth_error _) N); [apply nth_error_Some; rewrite nth_error_map, A; discriminate | now rewrite !nth_error_map, A, B]. }
    cbn [In limbs] in Hn. repeat (destruct Hn as [<- | Hn]; [ | ]); try destruct Hn; cbn [append] in A1, A2.
    + rewrite (Ub _ 1%nat _ _ _ A1 eq_refl), (Ub _ 4%nat _ _ _ A2 eq_refl). cbn [fst snd]. now rewrite Q3.
    + rewrite (Ub _ 2%nat _ _ _ A1 eq_refl), (Ub _ 5%nat _ _ _ A2 eq_refl). cbn [fst snd]. now rewrite Q2.
    + rewrite (Ub _ 3%nat _ _ _ A1 eq_refl), (Ub _ 6%nat _ _ _ A2 eq_refl). cbn [fst snd]. now rewrite Q1, Q4, Q5.
    + rewrite (Ub _ 8%nat _ _ _ A1 eq_refl), (Ub _ 12%nat _ _ _ A2 eq_refl). reflexivity.
    + rewrite (Ub _ 9%nat _ _ _ A1 eq_refl), (Ub _ 13%nat _ _ _ A2 eq_refl). cbn [fst snd]. now rewrite Q12.
    + rewrite (Ub _ 10%nat _ _ _ A1 eq_refl), (Ub _ 14%nat _ _ _ A2 eq_refl). cbn [fst snd]. now rewrite Q13.
Qed.
Print Assumptions C68_limbs.
Theorem C76_hands_refuted : forall e I p ht mass o cs, 0 < mass -> same_sides (lengths_used ht o) -> lengths_used ht o "yhandL"%string <> 0 -> human_script e I p ht mass o = Ok cs ->
  exists M M', mass_called cs p "HandR" M /\ mass_called cs p "HandL" M' /\ M <> M'.
Proof.
  intros e I p ht mass o cs Hm SS Hh E. destruct (script_inv _ _ _ _ _ _ _ E) as (EL & ->). set (L := lengths_used ht o) in *.
  assert (Q1 := SS "yfoot"%string). assert (Q2 := SS "ytibia"%string). assert (Q3 := SS "yfemur"%string). assert (Q4 := SS "xfoot"%string). assert (Q5 := SS "xheel"%string).
  assert (Q12 := SS "yhumerus"%string). assert (Q13 := SS "yforearm"%string). assert (Q14 := SS "yhand"%string). cbn [append] in *.
  assert (X : forall k n x, nth_error (human_bodies L mass) k = Some (n, x) -> mass_called (hcmds e I p L mass (tallness L) ++ [WInit]) p n (human_mass (fst (fst x)) (snd (fst x)) (snd x))) by (intros k n x H; eexists; apply in_or_app; left; apply hbody; exact H).
    do 2 eexists. split; [exact (X 11%nat _ _ eq_refl) | ]. split; [exact (X 15%nat _ _ eq_refl) | ]. cbn [fst snd]. rewrite Q14. apply hand_differs; [lra | exact Hh].
Qed.
Print Assumptions C76_hands_refuted.
