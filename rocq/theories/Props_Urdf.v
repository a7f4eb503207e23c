(** C62: loading a URDF robot. *)
From Coq Require Import Lra Lia Permutation.
From Verif Require Import Spec_Urdf Spec_Dyn.
From Verif Require Import Proof_Linalg Proof_SE3 Proof_Tree Proof_World Proof_World2 Proof_World3 Proof_Register Proof_Dofs Proof_World4 Props_Dyn Proof_Robots2 Proof_Urdf Proof_Urdf2 Proof_Urdf3.
Open Scope R_scope.

Lemma nth_names rb m n u : nth_error (r_links rb) m = Some (n, u) -> In n (map fst (r_links rb)).
Proof. intros E. apply nth_error_In in E. exact (in_map fst _ _ E). Qed.
Lemma names_nth rb n : In n (map fst (r_links rb)) -> exists m u, nth_error (r_links rb) m = Some (n, u).
Proof. intros H. apply in_map_iff in H. destruct H as ((n', u) & <- & H). apply In_nth_error in H. destruct H as (m & E). eauto. Qed.
Lemma names_unique rb m m' n u u' : NoDup (map fst (r_links rb)) -> nth_error (r_links rb) m = Some (n, u) -> nth_error (r_links rb) m' = Some (n, u') -> m = m'.
Proof.
  intros ND E E'. rewrite NoDup_nth_error in ND. apply ND; [rewrite map_length; apply nth_error_Some; congruence | ]. rewrite !nth_error_map, E, E'. reflexivity.
Qed.

Section L.
  Variables (e : env) (g0 : nat -> nat -> R) (eigvals : m6 -> list R) (argsort : v3 -> nat * nat * nat) (I : uids) (o : options) (rb : robot).
  Hypothesis Ev : eigs_ok eigvals.
  Hypothesis Ha : argsort_ok argsort.
  Hypothesis Ld : loadable rb.
  Notation heap := (@heap R).
  Notation reachable := (reachable 0 e g0).
  Notation dict := (dict_of I o 0 (r_links rb) []).

  Lemma in_links_cr x : forall l i, In x (links_cr I i l) <-> exists m n u, nth_error l m = Some (n, u) /\ In x (link_cr I (i + m) u).
  Proof.
    induction l as [ | (n, u) l IH]; intros i; cbn [links_cr]; [split; [intros [] | intros (m & n & u & E & _); destruct m; discriminate] | ]. rewrite in_app_iff, IH. split.
    - intros [H | (m & n' & u' & E & H)]; [exists 0%nat, n, u; rewrite Nat.add_0_r; auto | exists (S m), n', u'; rewrite <- plus_n_Sm; auto].
    - intros (m & n' & u' & E & H). destruct m as [ | m]; [injection E as <- <-; rewrite Nat.add_0_r in H; auto | ]. right. exists m, n', u'. rewrite <- plus_n_Sm in H. auto.
  Qed.
  Lemma in_described d x : forall k l Lk cr, described argsort I o d k l Lk cr -> (In x cr <-> exists m n j p c, nth_error l m = Some (n, j) /\ loadable_joint j /\ lookup (uj_parent j) d = Ok p /\ lookup (uj_child j) d = Ok c /\ In x (joint_cr argsort I o (k + m) p c j)).
  Proof.
    induction 1 as [k | k n j l p c f0 f1 ty c1 Lk cr Lj Ep Ec De D IH]; [split; [intros [] | intros (m & n & j & p & c & E & _); destruct m; discriminate] | ]. rewrite in_app_iff, IH. split.
    - intros [Hz | (m & n' & j' & p' & c' & E & Hz)]; [exists 0%nat, n, j, p, c; rewrite Nat.add_0_r; split; [reflexivity | auto] | exists (S m), n', j', p', c'; rewrite <- plus_n_Sm; auto].
    - intros (m & n' & j' & p' & c' & E & Hz). destruct m as [ | m].
      + injection E as <- <-. rewrite Nat.add_0_r in Hz. destruct Hz as (_ & A & B & Hz). rewrite Ep in A. rewrite Ec in B. injection A as <-. injection B as <-. auto.
      + right. exists m, n', j', p', c'. rewrite <- plus_n_Sm in Hz. auto.
  Qed.
  Lemma in_joint_cr k p c j x : loadable_joint j -> In x (joint_cr argsort I o k p c j) -> (exists s b H, x = USub s b H /\ ((s = upf I k /\ b = p) \/ (s = ukf I k /\ b = c))) \/ (exists ty, x = UJnt (uj I k) ty /\ ndof_of ty = udof j) \/ In x (lim_cr I o k j).
  Proof.
    intros Lj. destruct (to_joint_ok argsort j Ha Lj) as (ty & Z & E & SH & Nd & SZ & _). unfold joint_cr. rewrite E. unfold joint_frames. destruct Z as [Z | ].
    - assert (S1 := SZ Z eq_refl). rewrite (sub_ok Z S1), (sub_ok _ (SE3_mm4 _ _ SH S1)). cbn [rbind]. rewrite !in_app_iff. intros [[[<- | [<- | []]] | [<- | []]] | H]; eauto 10.
    - rewrite (sub_ok _ SH). cbn [rbind]. rewrite !in_app_iff. intros [[[<- | []] | [<- | []]] | H]; eauto 10.
  Qed.
  Lemma joint_cr_in k p c j : loadable_joint j -> exists ty, In (UJnt (uj I k) ty) (joint_cr argsort I o k p c j).
  Proof.
    intros Lj. destruct (frames_ok argsort I Ha k p c j Lj) as (f0 & f1 & ty & c1 & De). exists ty. rewrite (desc_cr argsort I o k p c j f0 f1 ty c1 De). apply in_or_app. left. apply in_or_app. right. now left.
  Qed.
  Lemma lim_in k p c j x : loadable_joint j -> In x (lim_cr I o k j) -> In x (joint_cr argsort I o k p c j).
  Proof. intros Lj H. destruct (frames_ok argsort I Ha k p c j Lj) as (f0 & f1 & ty & c1 & De). rewrite (desc_cr argsort I o k p c j f0 f1 ty c1 De). apply in_or_app. now right. Qed.
  Lemma lim_iff k j x : In x (lim_cr I o k j) <-> o_save_limits o = true /\ exists lo up, (uj_kind j = Revolute \/ uj_kind j = Prismatic) /\ uj_limits j = Some (Some lo, Some up) /\ x = ULimits (ulim I k) (uj I k) lo up.
  Proof.
    unfold lim_cr. split.
    - destruct (o_save_limits o); [ | intros []]. intros H. split; [reflexivity | ]. destruct (uj_kind j) eqn:K; try (destruct H; fail); (destruct (uj_limits j) as [([lo | ], [up | ]) | ]; try (destruct H; fail); exists lo, up; split; [auto | ]; split; [reflexivity | ]; destruct H as [<- | []]; reflexivity).
    - intros (-> & lo & up & [-> | ->] & -> & ->); now left.
  Qed.
  Lemma link_sub_inv i u x : In x (link_cr I i u) -> (x = UBody (ub I i) (urdf_mass u)) \/ exists g p, ul_collision u = Some (g, p) /\ solid g /\ (x = USub (ucf I i) (ub I i) (origin_of p) \/ x = UShape (ush I i) (FSub (ucf I i)) (match g with GBox d => GBox (vscal (1 / 2) d) | _ => g end)).
  Proof.
    unfold link_cr. intros [<- | H]; [now left | right]. destruct (ul_collision u) as [(g, p) | ]; [ | destruct H]. destruct g; try (destruct H; fail); eexists _, p; (split; [reflexivity | ]; split; [exact Logic.I | ]); destruct H as [<- | [<- | []]]; auto.
  Qed.
  Lemma link_shape_in i u g p : ul_collision u = Some (g, p) -> solid g -> In (USub (ucf I i) (ub I i) (origin_of p)) (link_cr I i u) /\ In (UShape (ush I i) (FSub (ucf I i)) (match g with GBox d => GBox (vscal (1 / 2) d) | _ => g end)) (link_cr I i u).
  Proof. intros E N. unfold link_cr. rewrite E. destruct g; try (destruct N; fail); (split; [right; now left | right; right; now left]). Qed.

  (** ** Names and bodies *)
  Lemma decorate_inj n m : decorate o n = decorate o m -> n = m.
  Proof.
    unfold decorate. assert (A : forall p a b, (p ++ a)%string = (p ++ b)%string -> a = b) by (induction p as [ | x p IH]; cbn; intros a b H; [exact H | injection H; auto]).
    assert (B : forall s a b, (a ++ s)%string = (b ++ s)%string -> a = b).
    { assert (Ln : forall a b, String.length (a ++ b)%string = (String.length a + String.length b)%nat) by (induction a; cbn; auto).
      intros s. induction a as [ | x a IH]; intros [ | y b] H; cbn in H; try reflexivity.
      - apply (f_equal String.length) in H. cbn in H. rewrite Ln in H. lia.
      - apply (f_equal String.length) in H. cbn in H. rewrite Ln in H. lia.
      - injection H as -> H. f_equal. now apply IH. }
    intros H. apply A in H. now apply B in H.
  Qed.
  Lemma dict_inv x b : lookup x dict = Ok b -> exists m n u, nth_error (r_links rb) m = Some (n, u) /\ x = decorate o n /\ b = ub I m.
  Proof. intros H. apply lookup_inv in H. destruct H as [H | H]; [exact H | discriminate]. Qed.
  Lemma dict_inj (Ii : forall k l, ub I k = ub I l -> k = l) x y b : lookup x dict = Ok b -> lookup y dict = Ok b -> x = y.
  Proof.
    intros Hx Hy. apply dict_inv in Hx, Hy. destruct Hx as (m & n & u & E & -> & ->), Hy as (m' & n' & u' & E' & -> & Q). apply Ii in Q. subst m'. rewrite E in E'. injection E' as -> ->. reflexivity.
  Qed.
End L.

Lemma load_full : forall e g0 h eigvals argsort I o rb,
  reachable 0 e g0 h -> eigs_ok eigvals -> argsort_ok argsort -> unew I h e -> loadable rb -> o_prefix o = ""%string -> o_suffix o = ""%string ->
  (forall H, o_H_init o = Some H -> SE3 H) ->
  exists t cr, rep e h t /\ root t = ground e /\ urdf_objects e I o rb cr /\ (forall fuel h' cr' u, load_in_world e eigvals argsort fuel I o (Some rb) h = (h', cr', Ok u) -> cr' = cr) /\
  ((forall c, In c cr -> uknown e h c) -> forall fuel, (length (bodies t) + length (r_links rb) < fuel)%nat ->
   exists h' t', load_in_world e eigvals argsort fuel I o (Some rb) h = (h', cr, Ok tt) /\ reachable 0 e g0 h' /\ ready e h' t' /\ (height t' < fuel)%nat /\
     (forall b, In b (bodies t') <-> In b (bodies t) \/ exists n, body_named rb I n b) /\
     w_ndof h' = (total_ndof e (joints t) + (if o_fixed_base o then 0 else 6) + list_sum (map (fun x => udof (snd x)) (r_joints rb)))%nat /\
     (forall k n j, nth_error (r_joints rb) k = Some (n, j) -> exists f0 f1, In (uj I k) (joints t') /\ jframes h' (uj I k) = Some (f0, f1) /\
        body_named rb I (uj_parent j) (frame_body e f0) /\ body_named rb I (uj_child j) (frame_body e f1) /\
        exists ty c1, joint_desc argsort I k (frame_body e f0) (frame_body e f1) j f0 f1 ty c1 /\ incl (c1 ++ [UJnt (uj I k) ty]) cr) /\
     (exists r b f, root_name rb r /\ body_named rb I r b /\ In (uroot I) (joints t') /\ jframes h' (uroot I) = Some (f, FBody b) /\ frame_body e f = ground e /\
        match o_H_init o with None => f = FBody (ground e) | Some H => f = FSub (uinit I) /\ In (USub (uinit I) (ground e) H) cr end) /\
     (forall j, (forall k, j <> uj I k) -> j <> uroot I -> jframes h' j = jframes h j) /\
     (forall j, joint_gvel h' j = joint_gvel h j) /\
     (forall c, In c cr -> uregistered h' c)).
Proof.
  intros e g0 h eigvals argsort I o rb R Ev Ha (Ib & Iu & Iur & Fb & Fj & Fr) Ld Pr Su HI. assert (Ld' := Ld). destruct Ld as (T & Ll & Lj).
  destruct (world_iterators e h (reachable_forest 0 e g0 h R)) as (t & Rt & Er & ND & NDj & _).
  set (d := dict_of I o 0 (r_links rb) []).
  assert (Dn : forall n, decorate o n = n). { intros n. unfold decorate. rewrite Pr, Su. cbn. clear. induction n; cbn; congruence. }
  assert (Lo : forall n m u, nth_error (r_links rb) m = Some (n, u) -> lookup n d = Ok (ub I m)).
  { intros n m u E. apply (lookup_some I o n (r_links rb) 0 [] m n u); [ | exact E | now rewrite Dn]. rewrite (map_ext _ fst); [apply T | intros x; apply Dn]. }
  assert (Li : forall n b, lookup n d = Ok b -> exists m u, nth_error (r_links rb) m = Some (n, u) /\ b = ub I m).
  { intros n b H. apply dict_inv in H. destruct H as (m & n' & u & E & Q & ->). rewrite Dn in Q. subst n'. eauto. }
  assert (Ln : forall n, In n (map fst (r_links rb)) -> exists b, lookup n d = Ok b) by (intros n H; apply names_nth in H; destruct H as (m & u & E); eauto).
  destruct (described_ex argsort I o Ha d (r_joints rb) 0) as (Lk & cj & D).
  { intros n j Hj. split; [eauto | ]. split; apply Ln; [eapply tr_parent | eapply tr_child]; eauto. }
  destruct (tr_root rb T) as (r & Rn). change (root_name rb r) in Rn. assert (Gr := get_root_ok rb r T Rn). destruct (names_nth rb r (proj1 Rn)) as (mr & ur & Emr).
  set (f := match o_H_init o with None => FBody (ground e) | Some _ => FSub (uinit I) end).
  set (ci := match o_H_init o with None => [] | Some H => [USub (uinit I) (ground e) H] end).
  set (rty := if o_fixed_base o then FixedJoint else FreeJoint).
  set (cr := (links_cr I 0 (r_links rb) ++ cj) ++ ci ++ [UJnt (uroot I) rty]).
  exists t, cr. split; [exact Rt | ]. split; [exact Er | ].
  assert (Icr : forall x, In x cr <-> (exists m n u, nth_error (r_links rb) m = Some (n, u) /\ In x (link_cr I m u)) \/
     (exists m n j p c, nth_error (r_joints rb) m = Some (n, j) /\ loadable_joint j /\ lookup (uj_parent j) d = Ok p /\ lookup (uj_child j) d = Ok c /\ In x (joint_cr argsort I o m p c j)) \/ In x ci \/ x = UJnt (uroot I) rty).
  { intros x. unfold cr. rewrite !in_app_iff, in_links_cr, (in_described argsort I o d x 0 _ _ _ D). cbn [In Nat.add]. intuition. }
  assert (Ici : forall x, In x ci -> exists s b H, x = USub s b H /\ s = uinit I /\ b = ground e /\ o_H_init o = Some H) by (unfold ci; destruct (o_H_init o); intros x []; [subst; eauto 10 | contradiction]).
  split.
  { constructor.
    - intros b M. rewrite Icr. split.
      + intros [(m & n & u & E & H) | [(m & n & j & p & c & E & L & _ & _ & H) | [H | H]]].
        * apply link_sub_inv in H. destruct H as [H | (g & p & _ & _ & [H | H])]; try discriminate. injection H as -> ->. eauto 10.
        * apply (in_joint_cr argsort I o Ha) in H; [ | exact L]. destruct H as [(s & b' & H' & Q & _) | [(ty & Q & _) | H]]; try discriminate. apply lim_iff in H. destruct H as (_ & lo & up & _ & _ & Q). discriminate.
        * apply Ici in H. destruct H as (s & b' & H' & Q & _). discriminate.
        * discriminate.
      + intros (i & n & l & E & -> & ->). left. exists i, n, l. split; [exact E | now left].
    - intros s f' g. rewrite Icr. split.
      + intros [(m & n & u & E & H) | [(m & n & j & p & c & E & L & _ & _ & H) | [H | H]]].
        * assert (H0 := H). apply link_sub_inv in H. destruct H as [H | (g' & p & Eg & Ng & [H | H])]; try discriminate. injection H as -> -> ->. exists m, n, u, g', p. repeat (split; [assumption || reflexivity | ]). split; [ | reflexivity].
          apply Icr. left. exists m, n, u. split; [exact E | ]. now apply (link_shape_in I m u g' p).
        * apply (in_joint_cr argsort I o Ha) in H; [ | exact L]. destruct H as [(s' & b' & H' & Q & _) | [(ty & Q & _) | H]]; try discriminate. apply lim_iff in H. destruct H as (_ & lo & up & _ & _ & Q). discriminate.
        * apply Ici in H. destruct H as (s' & b' & H' & Q & _). discriminate.
        * discriminate.
      + intros (i & n & l & g' & p & E & Ec & Ng & -> & -> & _ & ->). left. exists i, n, l. split; [exact E | ]. now apply (link_shape_in I i l g' p).
    - intros u ty H. apply Icr in H. destruct H as [(m & n & l & E & H) | [(m & n & j & p & c & E & L & _ & _ & H) | [H | H]]].
      + apply link_sub_inv in H. destruct H as [H | (g & p & _ & _ & [H | H])]; discriminate.
      + apply (in_joint_cr argsort I o Ha) in H; [ | exact L]. destruct H as [(s' & b' & H' & Q & _) | [(ty' & Q & Nd) | H]]; try discriminate; [injection Q as -> ->; right; eauto 10 | ]. apply lim_iff in H. destruct H as (_ & lo & up & _ & _ & Q). discriminate.
      + apply Ici in H. destruct H as (s' & b' & H' & Q & _). discriminate.
      + injection H as -> ->. now left.
    - intros k n j E. assert (Hj := nth_error_In _ _ E). destruct (Ln _ (tr_parent rb T n j Hj)) as (p & Ep). destruct (Ln _ (tr_child rb T n j Hj)) as (c & Ec). destruct (joint_cr_in argsort I o Ha k p c j (Lj n j Hj)) as (ty & Hin).
      exists ty. apply Icr. right. left. exists k, n, j, p, c. repeat (split; [assumption || eauto | ]). exact Hin.
    - apply Icr. auto.
    - intros s b H Hx. apply Icr in Hx. destruct Hx as [(m & n & u & E & Hx) | [(m & n & j & p & c & E & L & Ep & Ec & Hx) | [Hx | Hx]]].
      + apply link_sub_inv in Hx. destruct Hx as [Hx | (g & p & Eg & _ & [Hx | Hx])]; try discriminate. injection Hx as -> -> ->. left. exists m, n, u, g, p. auto.
      + apply (in_joint_cr argsort I o Ha) in Hx; [ | exact L]. destruct Hx as [(s' & b' & H' & Q & W) | [(ty & Q & _) | Hx]]; try discriminate; [ | apply lim_iff in Hx; destruct Hx as (_ & lo & up & _ & _ & Q); discriminate].
        injection Q as -> -> ->. right. left. exists m, n, j. split; [exact E | ]. destruct W as [(-> & ->) | (-> & ->)]; [left | right]; (split; [reflexivity | ]); [apply Li in Ep; destruct Ep as (i & u & Q & ->) | apply Li in Ec; destruct Ec as (i & u & Q & ->)]; exists i, u; auto.
      + apply Ici in Hx. destruct Hx as (s' & b' & H' & Q & -> & -> & EH). injection Q as -> -> ->. right. right. auto.
      + discriminate.
    - intros c u lo up. rewrite Icr. split.
      + intros [(m & n & l & E & H) | [(m & n & j & p & c' & E & L & _ & _ & H) | [H | H]]].
        * apply link_sub_inv in H. destruct H as [H | (g & p & _ & _ & [H | H])]; discriminate.
        * apply (in_joint_cr argsort I o Ha) in H; [ | exact L]. destruct H as [(s' & b' & H' & Q & _) | [(ty' & Q & Nd) | H]]; try discriminate. apply lim_iff in H. destruct H as (Sv & lo' & up' & K & El & Q). injection Q as -> -> -> ->. split; [exact Sv | ]. exists m, n, j. auto.
        * apply Ici in H. destruct H as (s' & b' & H' & Q & _). discriminate.
        * discriminate.
      + intros (Sv & k & n & j & E & K & El & -> & ->). assert (Hj := nth_error_In _ _ E). destruct (Ln _ (tr_parent rb T n j Hj)) as (p & Ep). destruct (Ln _ (tr_child rb T n j Hj)) as (c & Ec). right. left. exists k, n, j, p, c.
        split; [exact E | ]. split; [eauto | ]. split; [exact Ep | ]. split; [exact Ec | ]. apply lim_in; [exact Ha | eauto | ]. apply lim_iff. split; [exact Sv | ]. eauto 10. }
  split.
  { intros fuel h' cr' u E. unfold load_in_world in E. destruct (link_loop_ok e g0 eigvals I o Ev (r_links rb) 0 [] h [] R Ll) as (h1 & E1 & _). cbn [app] in E1. fold d in E1. rewrite E1 in E.
    destruct (joint_loop e argsort I o d 0 (r_joints rb) h1 (links_cr I 0 (r_links rb))) as ((h2, c2), [v | ]) eqn:E2; [ | discriminate]. apply (described_only e g0 argsort I o d 0 _ _ _ D) in E2. subst c2.
    unfold root_step in E. rewrite Gr in E. cbn [rbind] in E. rewrite (Lo r mr ur Emr) in E. cbn [rbind] in E. unfold cr, ci. destruct (o_H_init o) as [H | ]; [rewrite (sub_ok H (HI H eq_refl)) in E | ]; cbn [rbind] in E;
      (destruct (add_link e _ h2) as (h3, [w | ]); [ | discriminate]); destruct (init 0 e fuel h3) as (h4, r4); injection E as _ <- _; reflexivity. }
  intros Kn fuel Fu.
  assert (Kj : forall x, In x cj -> uknown e h x) by (intros x Hx; apply Kn; unfold cr; apply in_or_app; left; apply in_or_app; now right).
  destruct (link_loop_ok e g0 eigvals I o Ev (r_links rb) 0 [] h [] R Ll) as (h1 & E1 & R1 & G1 & V1). cbn [app] in E1. fold d in E1.
  assert (LA0 := linked_all_nil e h h1 G1 V1).
  (* ranks *)
  destruct (tr_acyclic rb T) as (rank & Hrank). set (rk := fun b => match find (fun i => Nat.eqb (ub I i) b) (seq 0 (length (r_links rb))) with Some i => rank (fst (nth i (r_links rb) (EmptyString, ULink None None))) | None => 0%nat end).
  assert (Erk : forall m n u, nth_error (r_links rb) m = Some (n, u) -> rk (ub I m) = rank n).
  { intros m n u E. unfold rk. destruct (find _ _) as [i | ] eqn:Ef.
    - apply find_some in Ef. destruct Ef as (_ & Q). apply Nat.eqb_eq in Q. apply Ib in Q. subst i. rewrite (nth_error_nth _ _ _ E). reflexivity.
    - assert (Hm : In m (seq 0 (length (r_links rb)))) by (apply in_seq; assert (m < length (r_links rb))%nat by (apply nth_error_Some; congruence); lia). assert (X := find_none _ _ Ef m Hm). cbv beta in X. rewrite Nat.eqb_refl in X. discriminate X. }
  set (Nw := fun b => exists m n u, nth_error (r_links rb) m = Some (n, u) /\ b = ub I m).
  assert (Nwl : forall n b, lookup n d = Ok b -> Nw b) by (intros n b H; apply Li in H; destruct H as (m & u & E & ->); exists m, n, u; auto).
  assert (Rkl : forall n b, lookup n d = Ok b -> rk b = rank n) by (intros n b H; apply Li in H; destruct H as (m & u & E & ->); eapply Erk; eauto).
  assert (Nwn : forall b, Nw b -> childrenjoints h b = [] /\ parentjoint h b = None /\ b <> ground e) by (intros b (m & n & u & E & ->); destruct (Fb m) as (? & ? & ?); auto).
  assert (Dd : forall i x, nth_error Lk i = Some x -> exists n j ty c1, nth_error (r_joints rb) i = Some (n, j) /\ l_joint x = uj I i /\ lookup (uj_parent j) d = Ok (l_from e x) /\ lookup (uj_child j) d = Ok (l_to e x) /\
      joint_desc argsort I i (l_from e x) (l_to e x) j (fst (fst x)) (snd x) ty c1 /\ incl (joint_cr argsort I o i (l_from e x) (l_to e x) j) cj).
  { intros i ((f0, u), f1) E. destruct (described_nth e argsort I o d h 0 _ _ _ D Kj i f0 u f1 E) as (n & j & ty & c1 & Q). exists n, j, ty, c1. exact Q. }
  assert (N1 : NoDup (map (l_to e) Lk)).
  { apply NoDup_nth_error. intros i i' Hi Q. rewrite map_length in Hi. rewrite !nth_error_map in Q. destruct (nth_error Lk i) as [x | ] eqn:Ex; [ | apply nth_error_Some in Hi; congruence]. destruct (nth_error Lk i') as [x' | ] eqn:Ex'; [ | discriminate]. cbn [option_map] in Q. injection Q as Q.
    destruct (Dd i x Ex) as (n & j & _ & _ & Ej & _ & _ & C & _). destruct (Dd i' x' Ex') as (n' & j' & _ & _ & Ej' & _ & _ & C' & _). rewrite <- Q in C'. assert (Qc := dict_inj I o rb Ib _ _ _ C C').
    assert (Nc := tr_children rb T). rewrite NoDup_nth_error in Nc. apply Nc; [rewrite map_length; apply nth_error_Some; congruence | ]. rewrite !nth_error_map, Ej, Ej'. cbn. now rewrite Qc. }
  assert (Ljs : map l_joint Lk = map (uj I) (seq 0 (length (r_joints rb)))) by exact (described_joints argsort I o d _ _ _ _ D).
  assert (N2 : NoDup (map l_joint Lk)) by (rewrite Ljs; apply FinFun.Injective_map_NoDup; [exact Iu | apply seq_NoDup]).
  assert (Good : forall x, In x Lk -> Nw (l_to e x) /\ Nw (l_from e x) /\ (rk (l_from e x) < rk (l_to e x))%nat /\ jframes h (l_joint x) = None).
  { intros x Hx. apply In_nth_error in Hx. destruct Hx as (i & Ex). destruct (Dd i x Ex) as (n & j & _ & _ & Ej & -> & P & C & _). split; [eauto | ]. split; [eauto | ]. split; [ | apply Fj]. rewrite (Rkl _ _ P), (Rkl _ _ C). eapply Hrank. eapply nth_error_In; eauto. }
  destruct (joint_loop_ok e g0 argsort I o d h h Nw rk (fun b Hb => conj (proj1 (Nwn b Hb)) (proj1 (proj2 (Nwn b Hb)))) 0 _ _ _ D Kj [] (links_cr I 0 (r_links rb)) h1 LA0 R1 N1 N2) as (h2 & E2 & LA2 & R2).
  { intros x Hx. destruct (Good x Hx) as (A & B & C & F). auto. }
  { intros x Hx. apply (Good x Hx). }
  cbn [app] in LA2.
  (* the root *)
  assert (Nc : forall l', In l' Lk -> l_to e l' <> ub I mr).
  { intros x Hx Q. apply In_nth_error in Hx. destruct Hx as (i & Ex). destruct (Dd i x Ex) as (n & j & _ & _ & Ej & _ & _ & C & _). rewrite Q in C. apply (proj1 (proj2 Rn) n j (nth_error_In _ _ Ej)). apply (dict_inj I o rb Ib _ _ _ C). exact (Lo r mr ur Emr). }
  assert (Nj : forall l', In l' Lk -> l_joint l' <> uroot I) by (intros x Hx Q; apply In_nth_error in Hx; destruct Hx as (i & Ex); destruct (Dd i x Ex) as (n & j & _ & _ & _ & Q' & _); rewrite Q' in Q; exact (Iur i Q)).
  assert (Nwr : Nw (ub I mr)) by (exists mr, r, ur; auto).
  assert (Ff : frame_body e f = ground e).
  { unfold f. destruct (o_H_init o) as [H | ] eqn:EH; [ | reflexivity]. apply (Kn (USub (uinit I) (ground e) H)). apply Icr. right. right. left. unfold ci. rewrite ?EH. now left. }
  assert (Erf : root_step e fuel I o rb d h2 = match add_link e [OFrame f; OJoint (uroot I); OFrame (FBody (ub I mr))] h2 with (h3, Err x) => (h3, ci ++ [UJnt (uroot I) rty], Err x) | (h3, Ok _) => let (h4, r4) := init 0 e fuel h3 in (h4, ci ++ [UJnt (uroot I) rty], r4) end).
  { unfold root_step. rewrite Gr. cbn [rbind]. rewrite (Lo r mr ur Emr). cbn [rbind]. unfold f, ci. destruct (o_H_init o) as [H | ]; [rewrite (sub_ok H (HI H eq_refl)) | ]; cbn [rbind]; reflexivity. }
  assert (El : add_link e [OFrame f; OJoint (uroot I); OFrame (FBody (ub I mr))] h2 = (do_link e h2 (f, uroot I, FBody (ub I mr)), Ok tt)).
  { rewrite add_link_step, (la_f' _ _ _ _ LA2 _ Nj), Fr. cbn [length Nat.modulo frame_body]. rewrite (la_p' _ _ _ _ LA2 _ Nc), (proj1 (proj2 (Nwn _ Nwr))). reflexivity. }
  assert (Nb : ~ below e h2 (ub I mr) (ground e)).
  { intros B. destruct (below_new e h Lk h2 Nw rk LA2 (fun b Hb => proj1 (Nwn b Hb)) ltac:(intros x Hx; destruct (Good x Hx) as (? & ? & ? & ?); auto) _ _ B Nwr) as (A & _). exact (proj2 (proj2 (Nwn _ A)) eq_refl). }
  assert (R3 : reachable 0 e g0 (do_link e h2 (f, uroot I, FBody (ub I mr)))).
  { assert (X := reach_step 0 e g0 h2 0 (AddLink f (uroot I) (FBody (ub I mr))) R2). cbn [step admissible] in X. rewrite El in X. apply X. cbn [frame_body]. now rewrite Ff. }
  assert (Lk3 := do_link_linked e h2 (f, uroot I, FBody (ub I mr))). assert (St := do_link_store e h2 (f, uroot I, FBody (ub I mr))).
  set (h3 := do_link e h2 (f, uroot I, FBody (ub I mr))) in *. set (lr := (f, uroot I, FBody (ub I mr))) in *.
  assert (LA3 : linked_all e h (Lk ++ [lr]) h3).
  { apply (linked_all_step e h Lk h2 lr h3 LA2 Lk3); [ | exact Nc | exact Nj]. destruct St as (? & ? & ? & ?). intros i. unfold joint_gvel, read. congruence. }
  destruct (world_iterators e h3 (reachable_forest 0 e g0 h3 R3)) as (t' & Rt' & Er' & ND' & NDj' & _).
  destruct (tree_after e h h3 (Lk ++ [lr]) Nw t t' LA3 (fun b Hb => conj (proj1 (Nwn b Hb)) (proj2 (proj2 (Nwn b Hb))))) as (Bd & Jt); [ | | exact Rt | exact Er | exact Rt' | exact Er' | ].
  { intros x Hx. apply in_app_or in Hx. destruct Hx as [Hx | [<- | []]]; [destruct (Good x Hx) as (? & ? & ? & ?); auto | ]. split; [exact Nwr | ]. split; [right; exact Ff | exact Fr]. }
  { exists rk. intros b (m & n & u & E & ->). destruct (string_dec n r) as [-> | Dr].
    - assert (m = mr) as -> by (eapply names_unique; eauto; apply T). exists lr. split; [apply in_or_app; right; now left | ]. split; [reflexivity | left; exact Ff].
    - destruct (proj2 (proj2 Rn) n (nth_names rb m n u E) Dr) as (n' & j & Hj & Ec). apply In_nth_error in Hj. destruct Hj as (i & Ej).
      destruct (nth_error Lk i) as [x | ] eqn:Ex; [ | apply nth_error_None in Ex; rewrite (described_length argsort I o d _ _ _ _ D) in Ex; assert (i < length (r_joints rb))%nat by (apply nth_error_Some; congruence); lia].
      destruct (Dd i x Ex) as (n2 & j2 & _ & _ & Ej2 & _ & P & C & _). rewrite Ej in Ej2. injection Ej2 as <- <-. rewrite Ec, (Lo n m u E) in C. injection C as C. exists x. split; [apply in_or_app; left; eapply nth_error_In; eauto | ]. split; [auto | ].
      right. destruct (Good x (nth_error_In _ _ Ex)) as (_ & A & B & _). split; [exact A | ]. now rewrite C. }
  assert (Hf : (height t' < fuel)%nat).
  { assert (X := height_lt_bodies t'). assert (Y : (length (bodies t') <= length (bodies t ++ map (ub I) (seq 0 (length (r_links rb)))))%nat).
    { apply NoDup_incl_length; [exact ND' | ]. intros b Hb. apply Bd in Hb. apply in_or_app. destruct Hb as [Hb | (m & n & u & E & ->)]; [now left | right]. apply in_map. apply in_seq. assert (m < length (r_links rb))%nat by (apply nth_error_Some; congruence). lia. }
    rewrite app_length, map_length, seq_length in Y. lia. }
  destruct (init_spec 0 e h3 t' fuel (reachable_vinv 0 e g0 h3 R3) Rt' Er' ND' Hf) as (h' & Hi & Hn & Hs & Ho & Hg & Hw & Hnx & Hax).
  assert (G3 : same_graph h3 h') by (assert (X := init_graph 0 e fuel h3); rewrite Hi in X; exact X).
  assert (El3 : load_in_world e eigvals argsort fuel I o (Some rb) h = (h', cr, Ok tt)).
  { unfold load_in_world. rewrite E1. rewrite E2. rewrite Erf, El. rewrite Hi. reflexivity. }
  exists h', t'. split; [exact El3 | ].
  assert (R' : reachable 0 e g0 h') by (assert (X := reach_step 0 e g0 h3 fuel Init R3 Logic.I); cbn [step] in X; rewrite Hi in X; exact X). split; [exact R' | ].
  split; [split; [exact (same_graph_rep e h3 h' _ G3 Rt') | split; [exact Er' | split; [exact ND' | split; [exact Hn | intros l1 j l2 E; exact (proj1 (Hs l1 j l2 E))]]]] | ]. split; [exact Hf | ].
  destruct G3 as (_ & _ & F3).
  split.
  { intros b. rewrite Bd. split; (intros [H | H]; [now left | right]); [destruct H as (m & n & u & E & ->); exists n, m, u; auto | destruct H as (n & m & u & E & ->); exists m, n, u; auto]. }
  split.
  { rewrite Hn. assert (Pm : Permutation (joints t') (joints t ++ uroot I :: map (uj I) (seq 0 (length (r_joints rb))))).
    { assert (Old : forall j, In j (joints t) -> jframes h j <> None) by (intros j Hj; destruct (rep_joint_edge e h t j Rt Hj) as (p & c & ((f0 & f1 & Ef & _) & _) & _); congruence).
      apply NoDup_Permutation; [exact NDj' | | ].
      - apply NoDup_app_iff. split; [exact NDj | ]. split; [ | intros x H1 [<- | H2]; [exact (Old _ H1 Fr) | apply in_map_iff in H2; destruct H2 as (k & <- & _); exact (Old _ H1 (Fj k))]].
        constructor; [intros H; apply in_map_iff in H; destruct H as (k & Q & _); exact (Iur k Q) | rewrite <- Ljs; exact N2].
      - intros j. rewrite Jt, in_app_iff. cbn [In]. rewrite <- Ljs, in_map_iff. split; intros [H | H]; auto; right.
        + destruct H as (l & Hl & <-). apply in_app_or in Hl. destruct Hl as [Hl | [<- | []]]; [right; eauto | now left].
        + destruct H as [<- | (l & <- & Hl)]; [exists lr; split; [apply in_or_app; right; now left | reflexivity] | exists l; split; [apply in_or_app; now left | reflexivity]]. }
    assert (Pt : forall l l', Permutation l l' -> total_ndof e l = total_ndof e l') by (unfold total_ndof, list_sum; induction 1; cbn; lia).
    rewrite (Pt _ _ Pm), total_app. rewrite <- Nat.add_assoc. f_equal. unfold total_ndof, list_sum. cbn [map fold_right]. f_equal.
    - assert (X := Kn (UJnt (uroot I) rty) ltac:(apply Icr; auto)). destruct X as (-> & _). unfold rty. destruct (o_fixed_base o); reflexivity.
    - assert (Dk : forall k n j, nth_error (r_joints rb) k = Some (n, j) -> jndof e (uj I k) = udof j).
      { intros k n j E. destruct (nth_error Lk k) as [x | ] eqn:Ex; [ | apply nth_error_None in Ex; rewrite (described_length argsort I o d _ _ _ _ D) in Ex; assert (k < length (r_joints rb))%nat by (apply nth_error_Some; congruence); lia].
        destruct (Dd k x Ex) as (n2 & j2 & ty & c1 & Ej2 & _ & P & C & De & In_). rewrite E in Ej2. injection Ej2 as <- <-. assert (Lj' := Lj n j (nth_error_In _ _ E)).
        destruct De as (Z & Ez & Ez2) eqn:DeQ. clear DeQ. destruct (to_joint_ok argsort j Ha Lj') as (ty' & Z' & Ej' & _ & Nd & _). rewrite Ez in Ej'. apply Props_Draw.Ok_inj in Ej'. injection Ej' as <- <-.
        assert (X := Kn (UJnt (uj I k) ty)). rewrite <- Nd. apply X. unfold cr. apply in_or_app. left. apply in_or_app. right. apply In_. rewrite (desc_cr argsort I o _ _ _ _ _ _ ty c1 De). apply in_or_app. left. apply in_or_app. right. now left. }
      clear - Dk. revert Dk. generalize (r_joints rb). intros l. assert (X : forall l s, (forall k n j, nth_error l k = Some (n, j) -> jndof e (uj I (s + k)) = udof j) -> fold_right Nat.add 0%nat (map (jndof e) (map (uj I) (seq s (length l)))) = fold_right Nat.add 0%nat (map (fun x : string * ujoint => udof (snd x)) l)).
      { clear. induction l as [ | (n, j) l IH]; intros s H; cbn [length seq map fold_right]; [reflexivity | ]. f_equal; [rewrite <- (Nat.add_0_r s); exact (H 0%nat n j eq_refl) | ]. apply IH. intros k n' j' E. rewrite Nat.add_succ_comm. exact (H (S k) n' j' E). }
      intros Dk. exact (X l 0%nat Dk). }
  split.
  { intros k n j E. destruct (nth_error Lk k) as [x | ] eqn:Ex; [ | apply nth_error_None in Ex; rewrite (described_length argsort I o d _ _ _ _ D) in Ex; assert (k < length (r_joints rb))%nat by (apply nth_error_Some; congruence); lia].
    destruct (Dd k x Ex) as (n2 & j2 & ty & c1 & Ej2 & Lx & P & C & De & In_). rewrite E in Ej2. injection Ej2 as <- <-. assert (Hx : In x (Lk ++ [lr])) by (apply in_or_app; left; eapply nth_error_In; eauto). exists (fst (fst x)), (snd x).
    split; [apply Jt; right; exists x; auto | ]. split; [rewrite F3, <- Lx; exact (la_f _ _ _ _ LA3 x Hx) | ]. split; [apply Li in P; destruct P as (m & u & Em & Q); exists m, u; auto | ]. split; [apply Li in C; destruct C as (m & u & Em & Q); exists m, u; auto | ].
    exists ty, c1. split; [exact De | ]. intros y Hy. unfold cr. apply in_or_app. left. apply in_or_app. right. apply In_. rewrite (desc_cr argsort I o _ _ _ _ _ _ ty c1 De). apply in_or_app. now left. }
  split.
  { exists r, (ub I mr), f. split; [exact Rn | ]. split; [exists mr, ur; auto | ]. assert (Hx : In lr (Lk ++ [lr])) by (apply in_or_app; right; now left). split; [apply Jt; right; exists lr; auto | ]. split; [rewrite F3; exact (la_f _ _ _ _ LA3 lr Hx) | ]. split; [exact Ff | ].
    unfold f. destruct (o_H_init o) as [H | ] eqn:EH; [ | reflexivity]. split; [reflexivity | ]. apply Icr. right. right. left. unfold ci. rewrite ?EH. now left. }
  split.
  { intros j Hj Hr. rewrite F3. apply (la_f' _ _ _ _ LA3). intros l Hl <-. apply in_app_or in Hl. destruct Hl as [Hl | [<- | []]]; [ | now apply Hr]. apply In_nth_error in Hl. destruct Hl as (i & Ex). destruct (Dd i l Ex) as (n & j & _ & _ & _ & Q & _). exact (Hj i Q). }
  split; [intros j; rewrite (init_keeps_gvel 0 e h3 t' fuel h' (reachable_vinv 0 e g0 h3 R3) Rt' Er' ND' Hf Hi j); apply (la_v _ _ _ _ LA3) | ].
  apply (load_reg e eigvals argsort I o fuel rb h h' cr tt (reachable_reg 0 e g0 h R) El3).
Qed.

(** One call of load_in_world with no prefix and no suffix, for a robot the parser leaves complete: it succeeds; it creates exactly the
    expected objects; the bodies of the links join the tree of the ground, and nothing else changes; the degrees of freedom are those of
    the joints and of the base; each joint is attached to the bodies of its parent and child links, and the root link to the ground; the
    other joints and all the velocities are kept; shapes and limits are registered. *)
Theorem C62_load : forall e g0 h eigvals argsort I o rb,
  reachable 0 e g0 h -> eigs_ok eigvals -> argsort_ok argsort -> unew I h e -> loadable rb -> o_prefix o = ""%string -> o_suffix o = ""%string ->
  (forall H, o_H_init o = Some H -> SE3 H) ->
  exists t cr, rep e h t /\ root t = ground e /\ urdf_objects e I o rb cr /\
  ((forall c, In c cr -> uknown e h c) -> forall fuel, (length (bodies t) + length (r_links rb) < fuel)%nat ->
   exists h' t', load_in_world e eigvals argsort fuel I o (Some rb) h = (h', cr, Ok tt) /\ reachable 0 e g0 h' /\ ready e h' t' /\
     (forall b, In b (bodies t') <-> In b (bodies t) \/ exists n, body_named rb I n b) /\
     w_ndof h' = (total_ndof e (joints t) + (if o_fixed_base o then 0 else 6) + list_sum (map (fun x => udof (snd x)) (r_joints rb)))%nat /\
     (forall k n j, nth_error (r_joints rb) k = Some (n, j) -> exists f0 f1, jframes h' (uj I k) = Some (f0, f1) /\
        body_named rb I (uj_parent j) (frame_body e f0) /\ body_named rb I (uj_child j) (frame_body e f1)) /\
     (exists r b f, root_name rb r /\ body_named rb I r b /\ jframes h' (uroot I) = Some (f, FBody b) /\ frame_body e f = ground e) /\
     (forall j, (forall k, j <> uj I k) -> j <> uroot I -> jframes h' j = jframes h j) /\
     (forall j, joint_gvel h' j = joint_gvel h j) /\
     (forall c, In c cr -> uregistered h' c)).
Proof.
  intros e g0 h eigvals argsort I o rb R Ev Ha Un Ld Pr Su HI. destruct (load_full e g0 h eigvals argsort I o rb R Ev Ha Un Ld Pr Su HI) as (t & cr & Rt & Er & Ob & _ & X). exists t, cr. split; [exact Rt | ]. split; [exact Er | ]. split; [exact Ob | ].
  intros Kn fuel Fu. destruct (X Kn fuel Fu) as (h' & t' & E & R' & Rd & _ & Bd & Nd & Jn & (r & b & f & R1 & R2 & _ & R3 & R4 & _) & Fo & Gv & Rg). exists h', t'. repeat (split; [assumption | ]). split.
  { intros k n j En. destruct (Jn k n j En) as (f0 & f1 & _ & A & B & C & _). exists f0, f1. auto. }
  split; [exists r, b, f; auto | auto].
Qed.
Print Assumptions C62_load.

(** In every configuration, each link is where the file says: at the joint origin with respect to its parent link, moved by a rotation
    or a translation along the axis of the file; the root link is at H_init, moved by the free joint if the base is free. *)
Theorem C62_position : forall e g0 h eigvals argsort I o rb t fuel h' cr,
  reachable 0 e g0 h -> eigs_ok eigvals -> argsort_ok argsort -> unew I h e -> loadable rb -> o_prefix o = ""%string -> o_suffix o = ""%string ->
  (forall H, o_H_init o = Some H -> SE3 H) -> rep e h t -> root t = ground e -> (length (bodies t) + length (r_links rb) < fuel)%nat ->
  load_in_world e eigvals argsort fuel I o (Some rb) h = (h', cr, Ok tt) -> (forall c, In c cr -> uknown e h c) ->
  exists t', ready e h' t' /\ forall sc J st, rigid_scene e sc t' J -> (forall c, In c cr -> ubuilt sc J c) ->
  exists sg, world_update_geometric e sc h' J fuel st = Ok sg /\
    (forall k n j bp bc, nth_error (r_joints rb) k = Some (n, j) -> body_named rb I (uj_parent j) bp -> body_named rb I (uj_child j) bc ->
       exists P, a_pose (sg bp) = Some P /\ a_pose (sg bc) = Some (mm4 (mm4 P (origin_of (uj_origin j))) (urdf_motion j (J (uj I k))))) /\
    (forall r b, root_name rb r -> body_named rb I r b -> a_pose (sg b) = Some (mm4 (match o_H_init o with None => eye4 | Some H => H end) (if o_fixed_base o then eye4 else gposH (J (uroot I))))).
Proof.
  intros e g0 h eigvals argsort I o rb t fuel h' cr R Ev Ha Un Ld Pr Su HI Rt Er Fu E Kn.
  destruct (load_full e g0 h eigvals argsort I o rb R Ev Ha Un Ld Pr Su HI) as (t1 & cr1 & Rt1 & Er1 & Ob & Only & X). assert (Q := rep_unique e h _ _ Rt Rt1 ltac:(congruence)). subst t1.
  assert (Ecr := Only _ _ _ _ E). subst cr1.
  destruct (X Kn fuel Fu) as (h1 & t' & E1 & R' & Rd & Ht & Bd & Nd & Jn & (r & b & f & R1 & R2 & R2' & R3 & R4 & R5) & Fo & Gv & Rg). rewrite E in E1. injection E1 as <-. exists t'. split; [exact Rd | ]. intros sc J st Ri Bu.
  destruct (C39_poses e sc h' t' J fuel st Rd Ri Ht) as (sg & sd & dd & Eg & _ & P1 & P2 & P3 & _). exists sg. split; [exact Eg | ].
  assert (Nm : forall n b b', body_named rb I n b -> body_named rb I n b' -> b = b').
  { intros n b1 b2 (i & l & Ei & ->) (i' & l' & Ei' & ->). f_equal. eapply names_unique; eauto. apply Ld. }
  assert (Fp : forall fr F, frame_pose e sc sg fr = Ok F -> exists P, a_pose (sg (frame_body e fr)) = Some P /\ F = mm4 P (bpose sc fr)).
  { intros fr F H. unfold frame_pose in H. destruct (a_pose (sg (frame_body e fr))) as [P | ]; cbn [get rbind] in H; [ | discriminate]. exists P. split; [reflexivity | ]. destruct fr; cbn [bpose]; apply Props_Draw.Ok_inj in H; subst F; auto. symmetry. apply mm4_1_r. }
  split.
  - intros k n j bp bc En Np Nc. destruct (Jn k n j En) as (f0 & f1 & Ij & Jf & A & B & ty & c1 & De & Inc). rewrite <- (Nm _ _ _ A Np), <- (Nm _ _ _ B Nc). clear bp bc Np Nc.
    destruct (P3 _ f0 f1 Ij Jf) as (F0 & F1 & _ & _ & E0 & E1 & EF). apply Fp in E0, E1. destruct E0 as (P & Ep & ->), E1 as (C & Ec & ->). exists P. split; [exact Ep | ]. rewrite Ec. f_equal.
    assert (Lj : loadable_joint j) by (apply Ld with n; eapply nth_error_In; eauto). destruct De as (Z & Ez & Ef). destruct (to_joint_ok argsort j Ha Lj) as (ty' & Z' & Ez' & SH & _ & SZ & Mo & _). rewrite Ez in Ez'. apply Props_Draw.Ok_inj in Ez'. injection Ez' as <- <-.
    assert (Jt : jt (J (uj I k)) = ty) by (apply (Bu (UJnt (uj I k) ty)); apply Inc; apply in_or_app; right; now left). rewrite <- (Mo _ Jt).
    unfold joint_frames in Ef. destruct Z as [Z | ].
    + assert (S1 := SZ Z eq_refl). rewrite (sub_ok Z S1), (sub_ok _ (SE3_mm4 _ _ SH S1)) in Ef. cbn [rbind] in Ef. apply Props_Draw.Ok_inj in Ef. injection Ef as Q0 Q1 Qc.
      assert (B0 : bpose sc f0 = mm4 (origin_of (uj_origin j)) Z) by (rewrite <- Q0; apply (Bu (USub (upf I k) (frame_body e f0) (mm4 (origin_of (uj_origin j)) Z))); apply Inc; rewrite <- Qc; now left).
      assert (B1 : bpose sc f1 = Z) by (rewrite <- Q1; apply (Bu (USub (ukf I k) (frame_body e f1) Z)); apply Inc; rewrite <- Qc; right; now left).
      rewrite B0, B1 in EF. cbn [conj_of]. rewrite <- (mm4_1_r C), <- (inv_r Z S1), mm4_assoc, EF, !mm4_assoc. reflexivity.
    + rewrite (sub_ok _ SH) in Ef. cbn [rbind] in Ef. apply Props_Draw.Ok_inj in Ef. injection Ef as Q0 Q1 Qc.
      assert (B0 : bpose sc f0 = origin_of (uj_origin j)) by (rewrite <- Q0; apply (Bu (USub (upf I k) (frame_body e f0) (origin_of (uj_origin j)))); apply Inc; rewrite <- Qc; now left).
      rewrite B0 in EF. rewrite <- Q1 in EF. cbn [bpose] in EF. rewrite mm4_1_r in EF. exact EF.
  - intros r' b' Rn Nb. assert (r' = r).
    { destruct (string_dec r' r) as [ | D]; [assumption | ]. destruct (proj2 (proj2 R1) r' (proj1 Rn) D) as (n & j & Hj & Q). exfalso. exact (proj1 (proj2 Rn) n j Hj Q). }
    subst r'. rewrite <- (Nm _ _ _ R2 Nb). clear b' Nb. destruct (P3 _ f (FBody b) R2' R3) as (F0 & F1 & _ & _ & E0 & E1 & EF). apply Fp in E0, E1. destruct E0 as (P & Ep & ->), E1 as (C & Ec & ->). cbn [frame_body bpose] in *. rewrite Ec. f_equal. rewrite mm4_1_r in EF. rewrite EF.
    rewrite R4, P2 in Ep. injection Ep as <-. rewrite mm4_1_l.
    assert (Bf : bpose sc f = match o_H_init o with Some H => H | None => eye4 end) by (destruct (o_H_init o) as [H | ]; [destruct R5 as (-> & HIn); exact (Bu _ HIn) | subst f; reflexivity]). rewrite Bf. f_equal.
    assert (Jt := Bu _ (uo_root e I o rb cr Ob)). cbn [ubuilt] in Jt. unfold Model_Joints.pose. rewrite Jt. destruct (o_fixed_base o); reflexivity.
Qed.
Print Assumptions C62_position.
