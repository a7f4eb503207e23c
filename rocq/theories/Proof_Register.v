(** Registration lists and parse. *)
From Verif Require Import Model_Base Model_World Spec_World Proof_Tree Proof_World Proof_World2 Proof_World3.
From Coq Require Import Permutation.

Lemma subtree_joint t j : In j (joints t) ->
  exists b ks s, subtree (Node b ks) t /\ In (j, s) ks.
Proof.
  induction t as [b ks IH] using tree_rect_in. intros I. apply in_joints in I.
  destruct I as (i & s & I & [->|K]).
  - exists b, ks, s. split; [constructor|auto].
  - destruct (IH i s I K) as (b' & ks' & s' & Su & I'). exists b', ks', s'. split; [econstructor; eauto|auto].
Qed.

Lemma ok_inj {A} (a b : A) : Ok a = Ok b -> a = b.
Proof. congruence. Qed.

Section P.
  Context {V : Type} (zero : V) (e : env).
  Notation heap := (@heap V).
  Implicit Types h : heap.
  Notation reg_inv := (Spec_World.reg_inv e).
  Notation run := (Spec_World.run zero e).



  Lemma frame_eqb_spec a b : reflect (a = b) (frame_eqb a b).
  Proof.
    destruct a as [x|x|x], b as [y|y|y]; cbn; try (constructor; congruence);
      destruct (Nat.eqb_spec x y); constructor; congruence.
  Qed.

  Lemma existsb_frame f l : existsb (frame_eqb f) l = true <-> In f l.
  Proof.
    rewrite existsb_exists. split.
    - intros (x & I & E). destruct (frame_eqb_spec f x); [subst; auto|discriminate].
    - intros I. exists f. split; [auto|]. now destruct (frame_eqb_spec f f).
  Qed.
  Lemma existsb_nat n l : existsb (Nat.eqb n) l = true <-> In n l.
  Proof.
    rewrite existsb_exists. split.
    - intros (x & I & E). apply Nat.eqb_eq in E. subst; auto.
    - intros I. exists n. split; [auto|apply Nat.eqb_refl].
  Qed.

  Lemma NoDup_snoc {A} (x : A) l : NoDup l -> ~ In x l -> NoDup (l ++ [x]).
  Proof.
    intros D N. apply NoDup_app_iff. repeat split; auto.
    - constructor; [tauto|constructor].
    - intros y I [<-|[]]. contradiction.
  Qed.

  Lemma add_once_frame f l : NoDup l ->
    NoDup (add_once frame_eqb f l) /\ (forall x, In x (add_once frame_eqb f l) <-> In x l \/ x = f) /\
    exists l', add_once frame_eqb f l = l ++ l'.
  Proof.
    intros D. unfold add_once. destruct (existsb (frame_eqb f) l) eqn:E.
    - apply existsb_frame in E. split; [auto|]. split; [|exists []; now rewrite app_nil_r].
      intros x; split; [auto|intros [H| ->]; auto].
    - assert (N : ~ In f l) by (rewrite <- existsb_frame; congruence).
      split; [now apply NoDup_snoc|]. split; [|eauto].
      intros x. rewrite in_app_iff; cbn. intuition congruence.
  Qed.
  Lemma add_once_nat n l : NoDup l ->
    NoDup (add_once Nat.eqb n l) /\ (forall x, In x (add_once Nat.eqb n l) <-> In x l \/ x = n) /\
    exists l', add_once Nat.eqb n l = l ++ l'.
  Proof.
    intros D. unfold add_once. destruct (existsb (Nat.eqb n) l) eqn:E.
    - apply existsb_nat in E. split; [auto|]. split; [|exists []; now rewrite app_nil_r].
      intros x; split; [auto|intros [H| ->]; auto].
    - assert (N : ~ In n l) by (rewrite <- existsb_nat; congruence).
      split; [now apply NoDup_snoc|]. split; [|eauto].
      intros x. rewrite in_app_iff; cbn. intuition congruence.
  Qed.

  Lemma reg_le_refl h : reg_le h h.
  Proof. repeat split; exists []; now rewrite app_nil_r. Qed.
  Lemma reg_le_trans h1 h2 h3 : reg_le h1 h2 -> reg_le h2 h3 -> reg_le h1 h3.
  Proof.
    intros ((a & A) & (b & B) & (c & C) & (d & D)) ((a' & A') & (b' & B') & (c' & C') & (d' & D')).
    repeat split; eexists; rewrite ?A', ?B', ?C', ?D', ?A, ?B, ?C, ?D, <- app_assoc; reflexivity.
  Qed.
  Lemma reg_le_known h h' f : reg_le h h' -> known h f -> known h' f.
  Proof.
    intros ((l & E) & _) K. destruct f; auto; cbn in *; rewrite E; apply in_app_iff; auto.
  Qed.

  (** heaps with the same registration lists *)
  Definition same_reg h h' : Prop :=
    w_subframes h' = w_subframes h /\ w_shapes h' = w_shapes h /\
    w_constraints h' = w_constraints h /\ w_controllers h' = w_controllers h.
  Lemma same_reg_inv h h' : same_reg h h' -> reg_inv h -> reg_inv h'.
  Proof.
    intros (A & B & C & D) [I1 I2 I3 I4 I5 I6 I7]. constructor; rewrite ?A, ?B, ?C, ?D; auto.
    - intros s Is. specialize (I6 s Is). destruct (shape_frame e s); cbn in *; rewrite ?A; auto.
    - intros c f Ic If. specialize (I7 c f Ic If). destruct f; cbn in *; rewrite ?A; auto.
  Qed.
  Lemma same_reg_le h h' : same_reg h h' -> reg_le h h'.
  Proof.
    intros (A & B & C & D). repeat split; exists []; rewrite ?app_nil_r; auto.
  Qed.

  Lemma register_frame_le f h : reg_inv h -> reg_le h (register_frame f h).
  Proof.
    intros Hi. destruct f as [b|s|s]; cbn; [apply reg_le_refl| |];
    repeat split; cbn; try (exists []; now rewrite app_nil_r);
      apply (add_once_frame _ (w_subframes h) (ri_sub e h Hi)).
  Qed.
  Lemma register_frame_inv f h : reg_inv h -> reg_inv (register_frame f h) /\ known (register_frame f h) f.
  Proof.
    intros Hi. pose proof (register_frame_le f h Hi) as L.
    destruct f as [b|s|s]; [cbn; split; [auto|exact I]| |];
      destruct (add_once_frame (FSub s) (w_subframes h) (ri_sub e h Hi)) as (D & M & _);
      destruct (add_once_frame (FMov s) (w_subframes h) (ri_sub e h Hi)) as (D' & M' & _);
      (split; [|cbn; first [apply M; now right|apply M'; now right]]);
      (constructor; cbn; auto; try apply Hi;
       [ intros b Ib; first [apply M in Ib|apply M' in Ib]; destruct Ib as [Ib|Ib]; [now apply (ri_nobody e h Hi) in Ib|discriminate]
       | intros x Ix; eapply reg_le_known; [exact L|]; apply (ri_shape_frame e h Hi); auto
       | intros c f Ic If; eapply reg_le_known; [exact L|]; apply (ri_con_frames e h Hi c); auto ]).
  Qed.
  Lemma register_frame_lists f h :
    w_shapes (register_frame f h) = w_shapes h /\ w_constraints (register_frame f h) = w_constraints h /\
    w_controllers (register_frame f h) = w_controllers h.
  Proof. destruct f; repeat split. Qed.

  (** invariant except for frames that are about to be registered *)
  Definition pre_inv h (shp : nat -> Prop) (con : nat -> Prop) : Prop :=
    NoDup (w_subframes h) /\ NoDup (w_shapes h) /\ NoDup (w_constraints h) /\ NoDup (w_controllers h) /\
    (forall b, ~ In (FBody b) (w_subframes h)) /\
    (forall s, In s (w_shapes h) -> shp s \/ known h (shape_frame e s)) /\
    (forall c f, In c (w_constraints h) -> In f (con_children e c) -> con c \/ known h f).

  Lemma fold_register_known l : forall h, NoDup (w_subframes h) ->
    let h' := fold_left (fun acc f => register_frame f acc) l h in
    NoDup (w_subframes h') /\ (exists k, w_subframes h' = w_subframes h ++ k) /\
    (forall f, In f l -> known h' f) /\
    ((forall b, ~ In (FBody b) (w_subframes h)) -> forall b, ~ In (FBody b) (w_subframes h')) /\
    w_shapes h' = w_shapes h /\ w_constraints h' = w_constraints h /\ w_controllers h' = w_controllers h.
  Proof.
    induction l as [|f l IH]; intros h D; cbn.
    - repeat split; auto; [exists []; now rewrite app_nil_r|intros f []].
    - assert (S : NoDup (w_subframes (register_frame f h)) /\
        (exists k, w_subframes (register_frame f h) = w_subframes h ++ k) /\ known (register_frame f h) f /\
        ((forall b, ~ In (FBody b) (w_subframes h)) -> forall b, ~ In (FBody b) (w_subframes (register_frame f h)))).
      { destruct f as [b|s|s]; cbn.
        - repeat split; auto. exists []; now rewrite app_nil_r.
        - destruct (add_once_frame (FSub s) (w_subframes h) D) as (A & M & K). repeat split; auto.
          + apply M; auto.
          + intros N b Ib. apply M in Ib. destruct Ib; [eapply N; eauto|discriminate].
        - destruct (add_once_frame (FMov s) (w_subframes h) D) as (A & M & K). repeat split; auto.
          + apply M; auto.
          + intros N b Ib. apply M in Ib. destruct Ib; [eapply N; eauto|discriminate]. }
      destruct S as (D1 & (k1 & K1) & Kn & Nb1). destruct (register_frame_lists f h) as (L1 & L2 & L3).
      destruct (IH (register_frame f h) D1) as (D2 & (k2 & K2) & Kn2 & Nb2 & M1 & M2 & M3).
      repeat split; auto; try congruence.
      + exists (k1 ++ k2). rewrite K2, K1, app_assoc. reflexivity.
      + intros g [<-|Ig]; [|auto]. destruct f; auto; cbn in *; rewrite K2; apply in_app_iff; auto.
  Qed.

  Lemma register_inv o h : reg_inv h -> reg_inv (fst (register e o h)) /\ reg_le h (fst (register e o h)).
  Proof.
    intros Hi. destruct o as [f|j|s|c|a|]; cbn.
    - split; [apply register_frame_inv; auto|apply register_frame_le; auto].
    - split; [auto|apply reg_le_refl].
    - set (h1 := set_registered h _ _ _ _).
      destruct (fold_register_known [shape_frame e s] h1 (ri_sub e h Hi)) as (D & (k & K) & Kn & Nb & L1 & L2 & L3).
      cbn in D, K, Kn, Nb, L1, L2, L3.
      destruct (add_once_nat s (w_shapes h) (ri_shapes e h Hi)) as (Ds & Ms & Es).
      assert (Le : reg_le h (register_frame (shape_frame e s) h1)).
      { repeat split; rewrite ?L1, ?L2, ?L3; cbn; auto; try (exists []; now rewrite app_nil_r).
        exists k. exact K. }
      split; [|exact Le]. constructor; rewrite ?L1, ?L2, ?L3; auto; try apply Hi.
      + apply Nb, Hi.
      + intros x Ix. cbn in Ix. apply Ms in Ix. destruct Ix as [Ix| ->]; [|apply Kn; auto].
        eapply reg_le_known; [exact Le|]. now apply (ri_shape_frame e h Hi).
      + intros c f Ic If. eapply reg_le_known; [exact Le|]. now apply (ri_con_frames e h Hi c).
    - destruct (existsb (Nat.eqb c) (w_constraints h)) eqn:E; cbn; [split; [auto|apply reg_le_refl]|].
      assert (N : ~ In c (w_constraints h)) by (rewrite <- existsb_nat; congruence).
      set (h1 := set_registered h _ _ _ _).
      destruct (fold_register_known (con_children e c) h1 (ri_sub e h Hi)) as (D & (k & K) & Kn & Nb & L1 & L2 & L3).
      set (h' := fold_left _ _ _) in *. cbn in K, L1, L2, L3.
      assert (Le : reg_le h h').
      { repeat split; rewrite ?L1, ?L2, ?L3; cbn; auto; try (exists []; now rewrite app_nil_r); eauto. }
      split; [|exact Le]. constructor; rewrite ?L1, ?L2, ?L3; auto; try apply Hi.
      + apply NoDup_snoc; auto; apply Hi.
      + apply Nb, Hi.
      + intros x Ix. eapply reg_le_known; [exact Le|]. now apply (ri_shape_frame e h Hi).
      + intros x f Ic If. apply in_app_iff in Ic. destruct Ic as [Ic|[<-|[]]].
        * eapply reg_le_known; [exact Le|]. now apply (ri_con_frames e h Hi x).
        * now apply Kn.
    - destruct (add_once_nat a (w_controllers h) (ri_ctrl e h Hi)) as (Ds & Ms & Es).
      split.
      + constructor; cbn; auto; try apply Hi.
      + repeat split; cbn; auto; exists []; now rewrite app_nil_r.
    - split; [auto|apply reg_le_refl].
  Qed.

  Lemma register_idem o h : reg_inv h -> register e o (fst (register e o h)) = register e o h.
  Proof.
    intros Hi. destruct o as [f|j|s|c|a|]; cbn; try reflexivity.
    - f_equal. destruct f as [b|s|s]; cbn; [reflexivity| |].
      + unfold set_registered; cbn. f_equal. unfold add_once at 1.
        destruct (add_once_frame (FSub s) (w_subframes h) (ri_sub e h Hi)) as (_ & M & _).
        replace (existsb (frame_eqb (FSub s)) _) with true; [reflexivity|].
        symmetry. apply existsb_frame, M. auto.
      + unfold set_registered; cbn. f_equal. unfold add_once at 1.
        destruct (add_once_frame (FMov s) (w_subframes h) (ri_sub e h Hi)) as (_ & M & _).
        replace (existsb (frame_eqb (FMov s)) _) with true; [reflexivity|].
        symmetry. apply existsb_frame, M. auto.
    - destruct (register_frame_lists (shape_frame e s)
        (set_registered h (w_subframes h) (add_once Nat.eqb s (w_shapes h)) (w_constraints h) (w_controllers h))) as (L1 & L2 & L3).
      cbn in L1, L2, L3.
      set (h1 := set_registered h _ _ _ _) in *. f_equal.
      assert (Es : add_once Nat.eqb s (w_shapes (register_frame (shape_frame e s) h1)) = w_shapes h1).
      { rewrite L1. unfold add_once at 1.
        destruct (add_once_nat s (w_shapes h) (ri_shapes e h Hi)) as (_ & M & _).
        replace (existsb (Nat.eqb s) _) with true; [reflexivity|]. symmetry. apply existsb_nat, M; auto. }
      rewrite Es, L2, L3. destruct (shape_frame e s) as [b|x|x]; cbn; [reflexivity| |].
      + unfold set_registered; cbn. f_equal. unfold add_once at 1.
        destruct (add_once_frame (FSub x) (w_subframes h) (ri_sub e h Hi)) as (_ & M & _).
        replace (existsb (frame_eqb (FSub x)) _) with true; [reflexivity|]. symmetry. apply existsb_frame, M; auto.
      + unfold set_registered; cbn. f_equal. unfold add_once at 1.
        destruct (add_once_frame (FMov x) (w_subframes h) (ri_sub e h Hi)) as (_ & M & _).
        replace (existsb (frame_eqb (FMov x)) _) with true; [reflexivity|]. symmetry. apply existsb_frame, M; auto.
    - destruct (existsb (Nat.eqb c) (w_constraints h)) eqn:E; cbn; [now rewrite E|].
      set (h1 := set_registered h _ _ _ _).
      destruct (fold_register_known (con_children e c) h1 (ri_sub e h Hi)) as (_ & _ & _ & _ & _ & L2 & _).
      replace (existsb (Nat.eqb c) _) with true; [reflexivity|]. symmetry. apply existsb_nat.
      cbn in L2. cbn. rewrite L2. apply in_app_iff. right; now left.
    - unfold set_registered; cbn. f_equal. f_equal. unfold add_once at 1.
      destruct (add_once_nat a (w_controllers h) (ri_ctrl e h Hi)) as (_ & M & _).
      replace (existsb (Nat.eqb a) _) with true; [reflexivity|]. symmetry. apply existsb_nat, M; auto.
  Qed.

  Lemma do_link_reg h l : reg_inv h -> reg_inv (do_link e h l) /\ reg_le h (do_link e h l) /\
     known (do_link e h l) (fst (fst l)) /\ known (do_link e h l) (snd l).
  Proof.
    intros Hi. destruct l as [[f0 j] f1]. unfold do_link. set (h3 := set_children _ _ _).
    assert (S : same_reg h h3) by repeat split.
    pose proof (same_reg_inv _ _ S Hi) as H3.
    destruct (register_frame_inv f0 h3 H3) as [H4 K4]. pose proof (register_frame_le f0 h3 H3) as L4.
    destruct (register_frame_inv f1 _ H4) as [H5 K5]. pose proof (register_frame_le f1 _ H4) as L5.
    split; [exact H5|]. split; [|split; [|exact K5]].
    - eapply reg_le_trans; [|exact L5]. eapply reg_le_trans; [|exact L4]. apply same_reg_le; auto.
    - eapply reg_le_known; [exact L5|exact K4].
  Qed.

  Lemma add_link_reg n : forall args h, length args <= n -> reg_inv h ->
    reg_inv (fst (add_link e args h)) /\ reg_le h (fst (add_link e args h)).
  Proof.
    induction n as [|n IH]; intros args h L Hi.
    - destruct args; [cbn; split; [auto|apply reg_le_refl]|cbn in L; lia].
    - assert (Same : reg_inv h /\ reg_le h h) by (split; [auto|apply reg_le_refl]).
      destruct args as [|a0 [|aj [|a1 rest]]]; try exact Same.
      destruct a0 as [f0| | | | |]; try (destruct a1, aj; exact Same).
      destruct a1 as [f1| | | | |]; try (destruct aj; exact Same).
      destruct aj as [|j| | | |]; try exact Same.
      rewrite add_link_step. destruct (jframes h j) eqn:Ej; [exact Same|].
      destruct (Nat.eqb _ _); [|exact Same]. destruct (parentjoint h (frame_body e f1)).
      + cbn [fst]. assert (S : same_reg h (set_frames h j (Some (f0, f1)))) by repeat split.
        split; [eapply same_reg_inv; eauto|now apply same_reg_le].
      + destruct (do_link_reg h (f0, j, f1) Hi) as (H1 & L1 & _).
        destruct rest as [|r rest]; [split; auto|].
        destruct (IH (r :: rest) (do_link e h (f0, j, f1))) as [H2 L2]; [cbn in *; lia|auto|].
        split; [auto|]. eapply reg_le_trans; eauto.
  Qed.

  Lemma init_reg fuel h : same_reg h (fst (init zero e fuel h)).
  Proof.
    unfold init. destruct (iterjoints e fuel h); [|repeat split].
    destruct (assign_dofs _ _ _ _). destruct (copy_gvels _ _ _ _ _) as [[? ?]|]; repeat split.
  Qed.

  Lemma replace_reg fuel o args h : reg_inv h ->
    reg_inv (fst (replace_joint zero e fuel o args h)) /\ reg_le h (fst (replace_joint zero e fuel o args h)).
  Proof.
    intros Hi. assert (Same : reg_inv h /\ reg_le h h) by (split; [auto|apply reg_le_refl]).
    assert (K : forall old args, reg_inv (fst (replace_chain zero e fuel old args h)) /\
                                 reg_le h (fst (replace_chain zero e fuel old args h))).
    { clear args. intros old args. unfold replace_chain. destruct (jframes h old) as [[g0 g1]|]; [|exact Same].
      destruct (hd OOther args) as [f0| | | | |]; try exact Same.
      destruct (last args OOther) as [f1| | | | |]; try exact Same.
      destruct (_ && _); [|exact Same]. set (h2 := set_frames _ _ _).
      assert (S2 : same_reg h h2) by repeat split.
      destruct (add_link_reg (length args) args h2 (le_n _) (same_reg_inv _ _ S2 Hi)) as [H3 L3].
      pose proof (reg_le_trans _ _ _ (same_reg_le _ _ S2) L3) as L.
      destruct (add_link e args h2) as [h3 [u|x]]; cbn [fst] in *; [|auto].
      destruct (list_index old _); [|auto]. set (h4 := set_children _ _ _).
      assert (S4 : same_reg h3 h4) by repeat split. pose proof (init_reg fuel h4) as S5.
      split; [eapply same_reg_inv; [exact S5|eapply same_reg_inv; eauto]|].
      eapply reg_le_trans; [exact L|]. eapply reg_le_trans; [exact (same_reg_le _ _ S4)|exact (same_reg_le _ _ S5)]. }
    unfold replace_joint. destruct o as [f|old|s|c|a|]; try exact Same.
    destruct (jframes h old) as [[g0 g1]|]; [|exact Same]. destruct (_ && _); [|exact Same].
    destruct args as [|a [|b args]]; [exact Same|apply K|]. destruct (Nat.eqb _ _); [apply K|exact Same].
  Qed.

  Lemma step_reg fuel h o : reg_inv h ->
    reg_inv (fst (step zero e fuel h o)) /\ reg_le h (fst (step zero e fuel h o)).
  Proof.
    intros Hi. destruct o as [f0 j f1|old args|o| |j k v]; cbn [step].
    - eapply add_link_reg; [apply le_n|auto].
    - now apply replace_reg.
    - now apply register_inv.
    - pose proof (init_reg fuel h) as S. split; [eapply same_reg_inv; eauto|now apply same_reg_le].
    - assert (S : same_reg h (fst (write_gvel j k v h))) by (unfold write_gvel; destruct (Nat.ltb _ _); repeat split).
      split; [eapply same_reg_inv; eauto|now apply same_reg_le].
  Qed.

  (** any history at all, including refused calls *)

  Lemma run_reg fuel ops : forall h, reg_inv h -> reg_inv (run fuel ops h) /\ reg_le h (run fuel ops h).
  Proof.
    induction ops as [|o ops IH]; intros h Hi; cbn; [split; [auto|apply reg_le_refl]|].
    destruct (step_reg fuel h o Hi) as [H1 L1]. destruct (IH _ H1) as [H2 L2].
    split; [auto|eapply reg_le_trans; eauto].
  Qed.
  Lemma fresh_reg (g0 : nat -> nat -> V) : reg_inv (fresh e g0).
  Proof. constructor; cbn; try constructor; try tauto; intros ? []. Qed.
  Lemma reachable_reg g0 h : reachable zero e g0 h -> reg_inv h.
  Proof. induction 1; [apply fresh_reg|now apply step_reg]. Qed.

  (** frames of attached joints are known *)
  Definition frames_known h : Prop :=
    forall b j f0 f1, In j (childrenjoints h b) -> jframes h j = Some (f0, f1) -> known h f0 /\ known h f1.

  (** ** parse *)
  Definition shapes_at h (f : frame) : list nat := filter (fun s => frame_eqb f (shape_frame e s)) (w_shapes h).
  Definition subs_at h (b : nat) : list frame := filter (fun f => Nat.eqb b (frame_body e f)) (w_subframes h).
  (** what is reported for one body: the body, its subframes with their shapes, its shapes *)
  Definition body_report h (b : nat) : list event :=
    ERegFrame (FBody b) ::
    flat_map (fun f => ERegFrame f :: map ERegShape (shapes_at h f)) (subs_at h b) ++
    map ERegShape (shapes_at h (FBody b)).
  Fixpoint tree_report h (t : tree) : list event :=
    match t with
    | Node b ks =>
        (fix go (l : list (nat * tree)) : list event :=
           match l with
           | [] => []
           | (j, s) :: l' =>
               match jframes h j with Some (f0, f1) => [ELink f0 j f1] | None => [] end ++
               body_report h (root s) ++ tree_report h s ++ go l'
           end) ks
    end.
  Definition link_report h (j : nat) : list event :=
    match jframes h j with Some (f0, f1) => [ELink f0 j f1] | None => [] end.
  Lemma tree_report_eq h b ks :
    tree_report h (Node b ks) =
    flat_map (fun jt => link_report h (fst jt) ++ body_report h (root (snd jt)) ++ tree_report h (snd jt)) ks.
  Proof.
    cbn [tree_report]. induction ks as [|[j s] ks IH]; cbn [flat_map fst snd]; [reflexivity|].
    rewrite IH. unfold link_report. rewrite <- !app_assoc. reflexivity.
  Qed.

  Lemma mem_frame_spec f l : mem_frame f l = true <-> In f l.
  Proof. apply existsb_frame. Qed.

  Lemma reg_subframes_spec h b l : NoDup l -> (forall x, ~ In (FBody x) l) -> forall reg,
    (forall f, In f l -> frame_body e f = b -> ~ In f reg) ->
    exists reg', reg_subframes e h b l reg =
      (reg', flat_map (fun f => ERegFrame f :: map ERegShape (shapes_at h f))
                      (filter (fun f => Nat.eqb b (frame_body e f)) l)) /\
      (forall f, In f reg' <-> In f reg \/ (In f l /\ frame_body e f = b)).
  Proof.
    induction l as [|f l IH]; intros D Nb reg Hr; cbn.
    - exists reg. split; [reflexivity|]. intros f; split; [auto|intros [|[[] _]]; auto].
    - apply NoDup_cons_iff in D. destruct D as [Nf D].
      destruct (Nat.eqb_spec b (frame_body e f)) as [Eb|Nbf].
      + assert (Mf : mem_frame f reg = false).
        { destruct (mem_frame f reg) eqn:E; [|reflexivity]. apply mem_frame_spec in E.
          exfalso. apply (Hr f); auto. now left. }
        rewrite Mf. cbn [negb andb]. unfold reg_subframe. rewrite Mf.
        destruct (IH D) with (reg := f :: reg) as (reg' & E & M).
        * intros x Ix. apply (Nb x). now right.
        * intros g Ig Eg [<-|K]; [contradiction|]. apply (Hr g); auto. now right.
        * rewrite E. exists reg'. split; [cbn; reflexivity|]. intros g. rewrite M. cbn. split.
          -- intros [[<-|K]|[K1 K2]]; auto.
          -- intros [K|[[<-|K1] K2]]; auto.
      + rewrite andb_false_r. destruct (IH D) with (reg := reg) as (reg' & E & M).
        * intros x Ix. apply (Nb x). now right.
        * intros g Ig Eg. apply Hr; auto. now right.
        * exists reg'. split; [exact E|]. intros g. rewrite M. split.
          -- intros [K|[K1 K2]]; auto.
          -- intros [K|[[<-|K1] K2]]; auto. congruence.
  Qed.

  (** frames registered so far: those of the bodies in [done] *)
  Definition reg_of h (done : list nat) (reg : list frame) : Prop :=
    forall f, In f reg <-> In (frame_body e f) done /\ (match f with FBody _ => True | _ => In f (w_subframes h) end).

  Lemma reg_body_spec h b reg done : reg_inv h -> reg_of h done reg -> ~ In b done ->
    exists reg', reg_body e h b reg = (reg', body_report h b) /\ reg_of h (b :: done) reg'.
  Proof.
    intros Hi Hr Nb. unfold reg_body.
    assert (Mf : mem_frame (FBody b) reg = false).
    { destruct (mem_frame (FBody b) reg) eqn:E; [|reflexivity]. apply mem_frame_spec in E.
      apply Hr in E. cbn in E. tauto. }
    rewrite Mf.
    destruct (reg_subframes_spec h b (w_subframes h) (ri_sub e h Hi) (ri_nobody e h Hi) (FBody b :: reg)) as (reg' & E & M).
    - intros f If Ef [<-|K]; [now apply (ri_nobody e h Hi) in If|]. apply Hr in K. rewrite Ef in K. tauto.
    - rewrite E. exists reg'. split; [reflexivity|]. intros f. rewrite M. cbn.
      pose proof (Hr f) as Hf. split.
      + intros [[<-|K]|[K1 K2]]; [auto| |].
        * apply Hf in K. tauto.
        * split; [left; auto|]. destruct f; auto.
      + intros [[Eb|K1] K2]; [|left; right; apply Hf; auto]. destruct f as [x|x|x]; cbn in Eb; subst; auto.
  Qed.

  Lemma parse_joints_spec h : reg_inv h -> forall t, rep e h t -> forall fuel reg done,
    height t < fuel -> reg_of h done reg -> NoDup (tailb t) -> (forall x, In x (tailb t) -> ~ In x done) ->
    exists reg', parse_joints e fuel h (root t) reg = Ok (reg', tree_report h t) /\
      reg_of h (tailb t ++ done) reg'.
  Proof.
    intros Hi. induction t as [b ks IH] using tree_rect_in. intros R fuel reg done L Hr D Hd.
    apply rep_inv in R. destruct R as [C R]. destruct fuel as [|n]; [lia|].
    cbn [root parse_joints]. rewrite C, tree_report_eq. rewrite tailb_eq in *.
    assert (Hh : forall j s, In (j, s) ks -> height s < n).
    { intros j s I. apply (height_kid b) in I. lia. }
    clear C L. revert reg done Hr Hd.
    induction ks as [|[j s] ks IHk]; intros reg done Hr Hd.
    - exists reg. split; [reflexivity|exact Hr].
    - cbn [map fst flat_map snd]. destruct (R j s (or_introl eq_refl)) as [Ej Rs].
      destruct Ej as [(f0 & f1 & Ef & E0 & E1) Pj]. rewrite Ef.
      cbn [flat_map snd] in D. apply NoDup_app_iff in D. destruct D as (Ds & Dk & Dx).
      cbn [flat_map snd] in Hd.
      rewrite E1. destruct (reg_body_spec h (root s) reg done Hi Hr) as (r1 & Er1 & Hr1).
      { apply Hd, in_app_iff. left. apply root_in_bodies. }
      rewrite Er1. rewrite bodies_tail in Ds. apply NoDup_cons_iff in Ds. destruct Ds as [Nrs Ds].
      destruct (IH j s (or_introl eq_refl) Rs n r1 (root s :: done)) as (r2 & Er2 & Hr2); auto.
      { apply (Hh j s). now left. }
      { intros x Ix [<-|K]; [contradiction|]. apply (Hd x); auto. apply in_app_iff. left.
        rewrite bodies_tail. now right. }
      rewrite Er2. cbn [rbind].
      destruct (IHk) with (reg := r2) (done := tailb s ++ root s :: done) as (r3 & Er3 & Hr3); auto.
      { intros i u I. apply (IH i u). now right. }
      { intros i u I. apply R. now right. }
      { intros i u I. apply (Hh i u). now right. }
      { intros x Ix K. apply in_app_iff in K. apply (Dx x).
        - rewrite bodies_tail. destruct K as [K|[<-|K]]; [now right|now left|].
          exfalso. apply (Hd x); auto. apply in_app_iff. auto.
        - exact Ix. }
      rewrite Er3. cbn [rbind]. exists r3. split.
      + unfold link_report. rewrite Ef. cbn. rewrite <- !app_assoc. reflexivity.
      + intros f. rewrite (Hr3 f). rewrite (bodies_tail s).
        enough (In (frame_body e f) (flat_map (fun jt : nat * tree => bodies (snd jt)) ks ++ tailb s ++ root s :: done) <->
                In (frame_body e f) ((root s :: tailb s) ++ flat_map (fun jt : nat * tree => bodies (snd jt)) ks ++ done)) as ->.
        { rewrite <- app_assoc. reflexivity. }
        rewrite !in_app_iff. cbn. rewrite ?in_app_iff. tauto.
  Qed.

  Lemma parse_spec h t fuel : reg_inv h -> rep e h t -> root t = ground e -> NoDup (bodies t) -> height t < fuel ->
    parse e fuel h = Ok (EInit :: body_report h (ground e) ++ tree_report h t ++
      map ERegConstraint (w_constraints h) ++ map ERegController (w_controllers h)).
  Proof.
    intros Hi R Er D L. unfold parse.
    destruct (reg_body_spec h (ground e) [] [] Hi) as (r0 & E0 & H0).
    { intros f. cbn. tauto. } { tauto. }
    rewrite E0. rewrite bodies_tail, Er in D. apply NoDup_cons_iff in D. destruct D as [Ng D].
    destruct (parse_joints_spec h Hi t R fuel r0 [ground e] L H0 D) as (r1 & E1 & H1).
    { intros x Ix [<-|[]]. contradiction. }
    rewrite Er in E1. rewrite E1. reflexivity.
  Qed.

  (** ** consequences: exactly once, parents first *)
  Lemma NoDup_flat_map_key {A B C} (f : A -> list B) (g : A -> list C) (key : B -> C) l :
    NoDup (flat_map g l) -> (forall x, In x l -> NoDup (f x)) ->
    (forall x y, In x l -> In y (f x) -> In (key y) (g x)) -> NoDup (flat_map f l).
  Proof.
    induction l as [|x l IH]; cbn; intros D Hf Hk; [constructor|].
    apply NoDup_app_iff in D. destruct D as (D1 & D2 & D3). apply NoDup_app_iff. split; [|split].
    - apply Hf. now left.
    - apply IH; auto.
    - intros y Iy K. apply in_flat_map in K. destruct K as (x' & Ix' & Iy').
      apply (D3 (key y)); [apply (Hk x); auto|]. apply in_flat_map. exists x'. split; [auto|]. apply Hk; auto.
  Qed.

  Definition frame_of_event (ev : event) : frame :=
    match ev with ERegFrame f => f | ERegShape s => shape_frame e s | _ => FBody 0 end.
  Definition owner (ev : event) : nat :=
    match ev with ELink _ _ f1 => frame_body e f1 | _ => frame_body e (frame_of_event ev) end.

  Lemma shapes_at_in h f s : In s (shapes_at h f) <-> In s (w_shapes h) /\ shape_frame e s = f.
  Proof.
    unfold shapes_at. rewrite filter_In. destruct (frame_eqb_spec f (shape_frame e s)); intuition congruence.
  Qed.
  Lemma subs_at_in h b f : In f (subs_at h b) <-> In f (w_subframes h) /\ frame_body e f = b.
  Proof. unfold subs_at. rewrite filter_In, Nat.eqb_eq. intuition congruence. Qed.

  Lemma body_report_in h b ev : reg_inv h ->
    In ev (body_report h b) <->
    (exists f, ev = ERegFrame f /\ frame_body e f = b /\ known h f) \/
    (exists s, ev = ERegShape s /\ In s (w_shapes h) /\ frame_body e (shape_frame e s) = b).
  Proof.
    intros Hi. unfold body_report. cbn [In]. rewrite in_app_iff, in_flat_map, in_map_iff. split.
    - intros [<-|[(f & If & K)|(s & <- & Is)]].
      + left. exists (FBody b). cbn. auto.
      + apply subs_at_in in If. destruct K as [<-|K].
        * left. exists f. split; [auto|]. split; [apply If|]. destruct f; cbn; tauto.
        * apply in_map_iff in K. destruct K as (s & <- & Is). apply shapes_at_in in Is. right.
          exists s. split; [auto|]. split; [apply Is|]. destruct Is as [_ ->]. apply If.
      + apply shapes_at_in in Is. right. exists s. split; [auto|]. split; [apply Is|]. now destruct Is as [_ ->].
    - intros [(f & -> & Eb & K)|(s & -> & Is & Eb)].
      + destruct f as [x|x|x]; cbn in Eb, K.
        * left. now subst.
        * right. left. exists (FSub x). rewrite subs_at_in. cbn. auto.
        * right. left. exists (FMov x). rewrite subs_at_in. cbn. auto.
      + pose proof (ri_shape_frame e h Hi s Is) as K. destruct (shape_frame e s) as [x|x|x] eqn:Es; cbn in Eb, K.
        * right. right. exists s. rewrite shapes_at_in. subst. auto.
        * right. left. exists (FSub x). rewrite subs_at_in. split; [auto|]. right. apply in_map_iff.
          exists s. rewrite shapes_at_in. auto.
        * right. left. exists (FMov x). rewrite subs_at_in. split; [auto|]. right. apply in_map_iff.
          exists s. rewrite shapes_at_in. auto.
  Qed.

  Lemma body_report_nodup h b : reg_inv h -> NoDup (body_report h b).
  Proof.
    intros Hi.
    apply (Permutation_NoDup (l := flat_map (fun f => ERegFrame f :: map ERegShape (shapes_at h f)) (FBody b :: subs_at h b))).
    - unfold body_report. cbn. constructor. apply Permutation_app_comm.
    - apply (NoDup_flat_map_key _ (fun f => [f]) frame_of_event).
      + assert (E : forall l : list frame, flat_map (fun f => [f]) l = l) by (induction l; cbn; congruence).
        rewrite E. constructor; [rewrite subs_at_in; intros [K _]; now apply (ri_nobody e h Hi) in K|].
        apply NoDup_filter, Hi.
      + intros f _. constructor.
        * rewrite in_map_iff. intros (s & K & _). discriminate.
        * apply FinFun.Injective_map_NoDup; [intros x y K; congruence|]. apply NoDup_filter, Hi.
      + intros f ev _ [<-|K]; [now left|]. apply in_map_iff in K. destruct K as (s & <- & Is).
        apply shapes_at_in in Is. left. cbn. symmetry. apply Is.
  Qed.

  Lemma tree_report_in h t ev : reg_inv h -> rep e h t ->
    In ev (tree_report h t) <->
    (exists j f0 f1, ev = ELink f0 j f1 /\ In j (joints t) /\ jframes h j = Some (f0, f1)) \/
    (exists f, ev = ERegFrame f /\ In (frame_body e f) (tailb t) /\ known h f) \/
    (exists s, ev = ERegShape s /\ In s (w_shapes h) /\ In (frame_body e (shape_frame e s)) (tailb t)).
  Proof.
    intros Hi. induction t as [b ks IH] using tree_rect_in. intros R.
    apply rep_inv in R. destruct R as [C R]. rewrite tree_report_eq, in_flat_map. split.
    - intros ([j s] & I & K). cbn [fst snd] in K. destruct (R j s I) as [Ej Rs].
      assert (Hb : forall x, In x (bodies s) -> In x (tailb (Node b ks))).
      { intros x Ix. rewrite tailb_eq. apply in_flat_map. exists (j, s); auto. }
      rewrite !in_app_iff in K. destruct K as [K|[K|K]].
      + unfold link_report in K. destruct (jframes h j) as [[f0 f1]|] eqn:Ef; [|destruct K].
        destruct K as [<-|[]]. left. exists j, f0, f1. repeat split; auto. apply in_joints. exists j, s; auto.
      + apply body_report_in in K; auto. right. destruct K as [(f & -> & Eb & Kf)|(x & -> & Ix & Eb)].
        * left. exists f. repeat split; auto. rewrite Eb. apply Hb, root_in_bodies.
        * right. exists x. repeat split; auto. rewrite Eb. apply Hb, root_in_bodies.
      + apply (IH j s I Rs) in K.
        destruct K as [(i & f0 & f1 & -> & Ii & Fi)|[(f & -> & Eb & Kf)|(x & -> & Ix & Eb)]].
        * left. exists i, f0, f1. repeat split; auto. apply in_joints. exists j, s; auto.
        * right; left. exists f. repeat split; auto. apply Hb. rewrite bodies_tail. now right.
        * right; right. exists x. repeat split; auto. apply Hb. rewrite bodies_tail. now right.
    - intros K.
      assert (Kid : (exists j s, In (j, s) ks /\
         ((exists f0 f1, ev = ELink f0 j f1 /\ jframes h j = Some (f0, f1)) \/
          In ev (body_report h (root s)) \/ In ev (tree_report h s)))).
      { destruct K as [(i & f0 & f1 & -> & Ii & Fi)|[(f & -> & Eb & Kf)|(x & -> & Ix & Eb)]].
        - apply in_joints in Ii. destruct Ii as (j & s & I & [->|Ii]).
          + exists j, s. split; [auto|]. left. eauto.
          + exists j, s. split; [auto|]. right; right. apply (IH j s I); [exact (proj2 (R j s I))|]. left. eauto 6.
        - rewrite tailb_eq in Eb. apply in_flat_map in Eb. destruct Eb as ([j s] & I & Eb). cbn in Eb.
          exists j, s. split; [auto|]. right. rewrite bodies_tail in Eb. destruct Eb as [Eb|Eb].
          + left. apply body_report_in; auto. left. eauto.
          + right. apply (IH j s I); [exact (proj2 (R j s I))|]. right; left. eauto.
        - rewrite tailb_eq in Eb. apply in_flat_map in Eb. destruct Eb as ([j s] & I & Eb). cbn in Eb.
          exists j, s. split; [auto|]. right. rewrite bodies_tail in Eb. destruct Eb as [Eb|Eb].
          + left. apply body_report_in; auto. right. eauto.
          + right. apply (IH j s I); [exact (proj2 (R j s I))|]. right; right. eauto. }
      destruct Kid as (j & s & I & Kid). exists (j, s). split; [auto|]. cbn [fst snd]. rewrite !in_app_iff.
      destruct Kid as [(f0 & f1 & -> & Ef)|[Kb|Kt]]; auto. left. unfold link_report. rewrite Ef. now left.
  Qed.

  Lemma tree_report_nodup h t : reg_inv h -> rep e h t -> NoDup (bodies t) -> NoDup (tree_report h t).
  Proof.
    intros Hi. induction t as [b ks IH] using tree_rect_in. intros R D.
    assert (R' := R). apply rep_inv in R. destruct R as [C R]. rewrite tree_report_eq.
    assert (Hown : forall j s ev, In (j, s) ks ->
      In ev (link_report h j ++ body_report h (root s) ++ tree_report h s) ->
      match ev with ELink _ i _ => i = j /\ owner ev = root s \/ In i (joints s) /\ In (owner ev) (tailb s) | _ => True end /\
      In (owner ev) (bodies s)).
    { intros j s ev I K. destruct (R j s I) as [Ej Rs]. rewrite !in_app_iff in K. destruct K as [K|[K|K]].
      - unfold link_report in K. destruct Ej as [(f0 & f1 & Ef & _ & E1) _]. rewrite Ef in K.
        destruct K as [<-|[]]. cbn. rewrite E1. split; [auto|apply root_in_bodies].
      - apply body_report_in in K; auto. destruct K as [(f & -> & Eb & _)|(x & -> & _ & Eb)]; cbn; rewrite Eb;
          (split; [exact Logic.I|apply root_in_bodies]).
      - apply (tree_report_in h s ev Hi Rs) in K. rewrite bodies_tail.
        destruct K as [(i & f0 & f1 & -> & Ii & Fi)|[(f & -> & Eb & Kf)|(x & -> & Ix & Eb)]]; cbn.
        + destruct (rep_joint_edge e h s i Rs Ii) as (p & c & [(k0 & k1 & Ek & _ & Ec) _] & _ & Ic).
          rewrite Fi in Ek. injection Ek as <- <-. rewrite Ec. auto.
        + auto.
        + auto. }
    apply (NoDup_flat_map_key _ (fun jt => bodies (snd jt)) owner).
    - rewrite bodies_eq in D. now apply NoDup_cons_iff in D.
    - intros [j s] I. cbn [fst snd]. destruct (R j s I) as [Ej Rs].
      pose proof (NoDup_kid b ks j s D I) as Ds. pose proof Ds as Ds'.
      rewrite bodies_tail in Ds'. apply NoDup_cons_iff in Ds'. destruct Ds' as [Nr _].
      apply NoDup_app_iff. split; [|split].
      + unfold link_report. destruct (jframes h j) as [[f0 f1]|]; constructor; [tauto|constructor].
      + apply NoDup_app_iff. split; [now apply body_report_nodup|]. split; [apply (IH j s I); auto|].
        intros ev K1 K2. apply body_report_in in K1; auto. apply (tree_report_in h s ev Hi Rs) in K2.
        destruct K1 as [(f & -> & Eb & _)|(x & -> & _ & Eb)],
          K2 as [(i & f0 & f1 & E & _)|[(f' & E & Eb' & _)|(x' & E & _ & Eb')]]; try discriminate;
          injection E as <-; rewrite Eb in Eb'; contradiction.
      + intros ev K1 K2. unfold link_report in K1. destruct (jframes h j) as [[f0 f1]|] eqn:Ef; [|destruct K1].
        destruct K1 as [<-|[]]. apply in_app_iff in K2. destruct K2 as [K2|K2].
        * apply body_report_in in K2; auto. destruct K2 as [(f & E & _)|(x & E & _)]; discriminate.
        * apply (tree_report_in h s _ Hi Rs) in K2.
          destruct K2 as [(i & k0 & k1 & E & Ii & _)|[(f' & E & _)|(x' & E & _)]]; try discriminate.
          injection E as <- <- <-. destruct (rep_joint_edge e h s j Rs Ii) as (p & c & Ec & _ & Ic).
          destruct (edge_fun e h _ _ _ _ _ Ej Ec) as [_ <-]. contradiction.
    - intros [j s] ev I K. cbn [fst snd] in K. cbn [snd]. now apply (Hown j s ev I).
  Qed.

  Lemma parse_members h t fuel : reg_inv h -> rep e h t -> root t = ground e -> NoDup (bodies t) -> height t < fuel ->
    exists evs, parse e fuel h = Ok (EInit :: evs) /\ NoDup (EInit :: evs) /\
     forall ev, In ev evs <->
      match ev with
      | EInit => False
      | ELink f0 j f1 => In j (joints t) /\ jframes h j = Some (f0, f1)
      | ERegFrame f => In (frame_body e f) (bodies t) /\ known h f
      | ERegShape s => In s (w_shapes h) /\ In (frame_body e (shape_frame e s)) (bodies t)
      | ERegConstraint c => In c (w_constraints h)
      | ERegController a => In a (w_controllers h)
      end.
  Proof.
    intros Hi R Er D L. rewrite (parse_spec h t fuel Hi R Er D L). eexists. split; [reflexivity|].
    assert (M : forall ev, In ev (body_report h (ground e) ++ tree_report h t ++
      map ERegConstraint (w_constraints h) ++ map ERegController (w_controllers h)) <->
      match ev with
      | EInit => False
      | ELink f0 j f1 => In j (joints t) /\ jframes h j = Some (f0, f1)
      | ERegFrame f => In (frame_body e f) (bodies t) /\ known h f
      | ERegShape s => In s (w_shapes h) /\ In (frame_body e (shape_frame e s)) (bodies t)
      | ERegConstraint c => In c (w_constraints h)
      | ERegController a => In a (w_controllers h)
      end).
    { intros ev. rewrite !in_app_iff, (body_report_in h _ ev Hi), (tree_report_in h t ev Hi R), !in_map_iff.
      rewrite (bodies_tail t), Er. destruct ev as [|f0 j f1|f|s|c|a]; cbn [In].
      - split; [|tauto]. intros [[(?&K&_)|(?&K&_)]|[[(?&?&?&K&_)|[(?&K&_)|(?&K&_)]]|[(?&K&_)|(?&K&_)]]]; discriminate.
      - split.
        + intros [[(?&K&_)|(?&K&_)]|[[(?&?&?&K&A&B)|[(?&K&_)|(?&K&_)]]|[(?&K&_)|(?&K&_)]]]; try discriminate.
          injection K as <- <- <-. auto.
        + intros [A B]. right. left. left. eauto 6.
      - split.
        + intros [[(?&K&A&B)|(?&K&_)]|[[(?&?&?&K&_)|[(?&K&A&B)|(?&K&_)]]|[(?&K&_)|(?&K&_)]]]; try discriminate;
          injection K as <-; auto.
        + intros [[A|A] B]; [left; left; eauto|right; left; right; left; eauto].
      - split.
        + intros [[(?&K&A&B)|(?&K&A&B)]|[[(?&?&?&K&_)|[(?&K&A&B)|(?&K&A&B)]]|[(?&K&_)|(?&K&_)]]]; try discriminate;
          injection K as <-; auto.
        + intros [A [B|B]]; [left; right; eauto|right; left; right; right; eauto].
      - split.
        + intros [[(?&K&A&B)|(?&K&A&B)]|[[(?&?&?&K&_)|[(?&K&A&B)|(?&K&A&B)]]|[(?&K&A)|(?&K&_)]]]; try discriminate.
          injection K as <-; auto.
        + intros A. right; right; left. eauto.
      - split.
        + intros [[(?&K&A&B)|(?&K&A&B)]|[[(?&?&?&K&_)|[(?&K&A&B)|(?&K&A&B)]]|[(?&K&_)|(?&K&A)]]]; try discriminate.
          injection K as <-; auto.
        + intros A. right; right; right. eauto. }
    split; [|exact M]. constructor; [rewrite M; tauto|].
    assert (Dg : ~ In (ground e) (tailb t)) by (rewrite bodies_tail, Er in D; now apply NoDup_cons_iff in D).
    apply NoDup_app_iff. split; [now apply body_report_nodup|]. split.
    - apply NoDup_app_iff. split; [now apply tree_report_nodup|]. split.
      + apply NoDup_app_iff. split; [|split].
        * apply FinFun.Injective_map_NoDup; [intros x y K; congruence|apply Hi].
        * apply FinFun.Injective_map_NoDup; [intros x y K; congruence|apply Hi].
        * intros ev K1 K2. apply in_map_iff in K1, K2. destruct K1 as (? & <- & _), K2 as (? & K & _). discriminate.
      + intros ev K1 K2. apply (tree_report_in h t ev Hi R) in K1. rewrite in_app_iff, !in_map_iff in K2.
        destruct K1 as [(?&?&?&->&_)|[(?&->&_)|(?&->&_)]], K2 as [(?&K&_)|(?&K&_)]; discriminate.
    - intros ev K1 K2. apply body_report_in in K1; auto.
      rewrite !in_app_iff, (tree_report_in h t ev Hi R), !in_map_iff in K2.
      destruct K1 as [(f & -> & Eb & _)|(x & -> & _ & Eb)],
        K2 as [[(?&?&?&K&_)|[(?&K&A&B)|(?&K&A&B)]]|[(?&K&_)|(?&K&_)]]; try discriminate;
        injection K as <-; congruence.
  Qed.

  (** order of the links *)
  Lemma links_of_app a b : links_of (a ++ b) = links_of a ++ links_of b.
  Proof. apply flat_map_app. Qed.
  Lemma links_of_body h b : links_of (body_report h b) = [].
  Proof.
    assert (N : forall l : list nat, links_of (map ERegShape l) = []) by (induction l; cbn; auto).
    unfold body_report. cbn. rewrite links_of_app, N, app_nil_r.
    induction (subs_at h b) as [|f l IH]; cbn; [reflexivity|]. rewrite links_of_app. fold (links_of (map ERegShape (shapes_at h f))).
    now rewrite N, IH.
  Qed.
  Lemma links_of_tree h t : rep e h t -> links_of (tree_report h t) = joints t.
  Proof.
    induction t as [b ks IH] using tree_rect_in. intros R. apply rep_inv in R. destruct R as [_ R].
    rewrite tree_report_eq, joints_eq. induction ks as [|[j s] ks IHk]; [reflexivity|].
    cbn [flat_map fst snd]. rewrite !links_of_app, links_of_body. destruct (R j s (or_introl eq_refl)) as [[(f0 & f1 & Ef & _) _] Rs].
    unfold link_report. rewrite Ef. cbn. rewrite (IH j s (or_introl eq_refl) Rs). f_equal. f_equal.
    apply IHk; [intros i u Iu; apply (IH i u); now right|intros i u Iu; apply R; now right].
  Qed.
  Lemma parse_link_order h t fuel evs : reg_inv h -> rep e h t -> root t = ground e -> NoDup (bodies t) -> height t < fuel ->
    parse e fuel h = Ok evs -> links_of evs = joints t.
  Proof.
    intros Hi R Er D L. rewrite (parse_spec h t fuel Hi R Er D L). intros E. apply ok_inj in E. rewrite <- E. clear E.
    match goal with |- links_of (_ :: ?l) = _ => change (links_of l = joints t) end.
    rewrite !links_of_app, links_of_body, (links_of_tree h t R).
    assert (N1 : forall l : list nat, links_of (map ERegConstraint l) = []) by (induction l; cbn; auto).
    assert (N2 : forall l : list nat, links_of (map ERegController l) = []) by (induction l; cbn; auto).
    rewrite N1, N2. cbn. now rewrite app_nil_r.
  Qed.

  (** ** prerequisites are reported first *)
  Definition prereq (c : list event) (ev : event) : Prop :=
    match ev with
    | ELink f0 _ _ => In (ERegFrame f0) c
    | ERegShape s => In (ERegFrame (shape_frame e s)) c
    | ERegFrame (FBody b) => b = ground e \/ exists f0 j f1, In (ELink f0 j f1) c /\ frame_body e f1 = b
    | ERegFrame f => In (ERegFrame (FBody (frame_body e f))) c
    | _ => True
    end.
  Fixpoint ordered (ctx : list event) (l : list event) : Prop :=
    match l with
    | [] => True
    | ev :: l' => prereq ctx ev /\ ordered (ctx ++ [ev]) l'
    end.
  Lemma prereq_mono c c' ev : incl c c' -> prereq c ev -> prereq c' ev.
  Proof. intros I. destruct ev as [ | f0 j f1 | [b|b|b] | | | ]; cbn; auto. intros [K | (f0 & j & f1 & K & E)]; eauto 7. Qed.
  Lemma ordered_mono l : forall c c', incl c c' -> ordered c l -> ordered c' l.
  Proof.
    induction l as [|ev l IH]; intros c c' I; cbn; [auto|]. intros [A B]. split; [eapply prereq_mono; eauto|].
    eapply IH; [|exact B]. apply incl_app; [apply incl_appl; auto|apply incl_appr, incl_refl].
  Qed.
  Lemma ordered_app l1 : forall c l2, ordered c (l1 ++ l2) <-> ordered c l1 /\ ordered (c ++ l1) l2.
  Proof.
    induction l1 as [|ev l IH]; intros c l2; cbn; [rewrite app_nil_r; tauto|].
    rewrite IH, <- app_assoc. cbn. tauto.
  Qed.
  Lemma ordered_split c l : ordered c l -> forall a ev b, l = a ++ ev :: b -> prereq (c ++ a) ev.
  Proof.
    intros H a ev b ->. apply ordered_app in H. destruct H as [_ [H _]]. auto.
  Qed.
  Lemma ordered_shapes l f : forall c, In (ERegFrame f) c -> (forall s, In s l -> shape_frame e s = f) ->
    ordered c (map ERegShape l).
  Proof.
    induction l as [|s l IH]; intros c I H; cbn; [auto|]. split.
    - rewrite H; [auto|now left].
    - apply IH; [apply in_app_iff; auto|]. intros x Ix. apply H. now right.
  Qed.
  Lemma ordered_body h b c : reg_inv h -> prereq c (ERegFrame (FBody b)) -> ordered c (body_report h b).
  Proof.
    intros Hi Pb. unfold body_report. cbn [ordered]. split; [exact Pb|]. apply ordered_app. split.
    - assert (Hs : forall f, In f (subs_at h b) -> In f (w_subframes h) /\ frame_body e f = b) by (intros f K; apply subs_at_in in K; tauto). revert Hs.
      assert (Ic : In (ERegFrame (FBody b)) (c ++ [ERegFrame (FBody b)])) by (apply in_app_iff; right; now left). revert Ic.
      generalize (c ++ [ERegFrame (FBody b)]). induction (subs_at h b) as [|f l IH]; intros k Ik Hs; cbn [flat_map]; [exact I|].
      apply (ordered_app (ERegFrame f :: map ERegShape (shapes_at h f))). split; [|apply IH; [apply in_app_iff; auto|intros g Ig; apply Hs; now right]].
      cbn [ordered]. split.
      { destruct (Hs f (or_introl eq_refl)) as [K1 <-]. destruct f as [x|x|x]; [exfalso; exact (ri_nobody e h Hi x K1)|exact Ik|exact Ik]. }
      apply (ordered_shapes _ f); [apply in_app_iff; right; now left|].
      intros s Is. now apply shapes_at_in in Is.
    - apply (ordered_shapes _ (FBody b)); [apply in_app_iff; left; apply in_app_iff; right; now left|].
      intros s Is. now apply shapes_at_in in Is.
  Qed.
  Lemma ordered_tree h t : reg_inv h -> rep e h t -> (forall j f0 f1, In j (joints t) -> jframes h j = Some (f0, f1) -> known h f0) ->
    forall c, incl (body_report h (root t)) c -> ordered c (tree_report h t).
  Proof.
    intros Hi. induction t as [b ks IH] using tree_rect_in. intros R Kn c Ic. cbn [root] in Ic.
    apply rep_inv in R. destruct R as [_ R]. rewrite tree_report_eq.
    revert c Ic. induction ks as [|[j s] ks IHk]; intros c Ic; [exact I|]. cbn [flat_map fst snd].
    destruct (R j s (or_introl eq_refl)) as [[(f0 & f1 & Ef & E0 & E1) _] Rs].
    assert (Kj : known h f0) by (apply (Kn j f0 f1); [apply in_joints; exists j, s; split; [now left|auto]|auto]).
    apply ordered_app. split; [|apply IHk].
    - apply ordered_app. split.
      + unfold link_report. rewrite Ef. cbn. split; [|auto]. apply Ic.
        apply body_report_in; auto. left. exists f0. auto.
      + apply ordered_app. split.
        * apply ordered_body; [auto|]. cbn [prereq]. right. exists f0, j, f1. split; [|auto].
          apply in_app_iff. right. unfold link_report. rewrite Ef. now left.
        * apply (IH j s (or_introl eq_refl) Rs).
          -- intros i k0 k1 Ii. apply Kn. apply in_joints. exists j, s. split; [now left|auto].
          -- apply incl_appr, incl_refl.
    - intros i u I. apply (IH i u). now right.
    - intros i u I. apply R. now right.
    - intros i k0 k1 Ii. apply Kn. apply in_joints in Ii. destruct Ii as (i' & u & I & K).
      apply in_joints. exists i', u. split; [now right|auto].
    - apply incl_appl. exact Ic.
  Qed.
  Lemma parse_ordered h t fuel evs : reg_inv h -> frames_known h -> rep e h t -> root t = ground e -> NoDup (bodies t) ->
    height t < fuel -> parse e fuel h = Ok evs ->
    forall a ev b, evs = a ++ ev :: b -> prereq a ev.
  Proof.
    intros Hi Fk R Er D L. rewrite (parse_spec h t fuel Hi R Er D L). intros E a ev b Ea. apply ok_inj in E. rewrite <- E in Ea. clear E.
    assert (Kn : forall j f0 f1, In j (joints t) -> jframes h j = Some (f0, f1) -> known h f0).
    { intros j f0 f1 Ij Ef. destruct (subtree_joint t j Ij) as (b' & ks & s & Su & Is).
      pose proof (subtree_rep e h _ _ Su R) as Rk. apply rep_inv in Rk. destruct Rk as [C _].
      apply (Fk b' j f0 f1); auto. rewrite C. apply in_map_iff. exists (j, s); auto. }
    assert (O : ordered [] (EInit :: body_report h (ground e) ++ tree_report h t ++
      map ERegConstraint (w_constraints h) ++ map ERegController (w_controllers h))).
    { cbn [ordered]. split; [exact I|]. apply ordered_app. split; [apply ordered_body; cbn; auto|].
      apply ordered_app. split; [apply ordered_tree; auto; rewrite Er; apply incl_appr, incl_refl|].
      apply ordered_app. split.
      - generalize (([] ++ [EInit]) ++ body_report h (ground e)). intros c0. generalize (c0 ++ tree_report h t). clear.
        induction (w_constraints h); intros k; cbn; auto.
      - generalize ((([] ++ [EInit]) ++ body_report h (ground e)) ++ tree_report h t). intros c0.
        generalize (c0 ++ map ERegConstraint (w_constraints h)). clear.
        induction (w_controllers h); intros k; cbn; auto. }
    apply (ordered_split [] _ O _ _ _ Ea).
  Qed.

  (** attached joints have registered frames, in every reachable heap *)
  Lemma do_links_frames_known ls : forall h, reg_inv h ->
    reg_inv (do_links e h ls) /\ reg_le h (do_links e h ls) /\
    forall j f0 f1, jframes (do_links e h ls) j = Some (f0, f1) ->
      (known (do_links e h ls) f0 /\ known (do_links e h ls) f1) \/
      (jframes h j = Some (f0, f1) /\ ~ In j (map l_joint ls)).
  Proof.
    induction ls as [|l ls IH]; intros h Hi; cbn [do_links map].
    - split; [auto|]. split; [apply reg_le_refl|]. auto.
    - destruct (do_link_reg h l Hi) as (H1 & L1 & K0 & K1).
      destruct (IH _ H1) as (H2 & L2 & F2). split; [auto|]. split; [eapply reg_le_trans; eauto|].
      intros j f0 f1 Ej. destruct (F2 j f0 f1 Ej) as [K|[E N]]; [auto|].
      destruct (do_link_linked e h l) as (_ & _ & J). rewrite J in E.
      destruct (Nat.eqb_spec j (l_joint l)) as [->|Nj].
      + injection E as <- <-. left. split; eapply reg_le_known; eauto.
      + right. split; [auto|]. intros [K|K]; [congruence|auto].
  Qed.

  Lemma step_frames_known fuel h o : forest e h -> reg_inv h -> frames_known h -> admissible zero e fuel h o ->
    frames_known (fst (step zero e fuel h o)).
  Proof.
    intros F Hi Fk A. destruct o as [f0 j f1|old args|o| |j k v]; cbn [step] in *.
    - destruct (add_link1_cases e h f0 j f1) as [[C ->]|[[N ->]|[N [P ->]]]]; cbn [fst]; auto.
      + destruct (do_link_reg h (f0, j, f1) Hi) as (_ & Le & K0 & K1).
        destruct (do_link_linked e h (f0, j, f1)) as (Hc & _ & Hj).
        intros b i g0 g1 Ii Ei. rewrite Hj in Ei. cbn in Ei. unfold l_joint in Ei; cbn in Ei.
        destruct (Nat.eqb_spec i j) as [->|Ni].
        * injection Ei as <- <-. auto.
        * rewrite Hc in Ii. apply in_app_iff in Ii. destruct Ii as [Ii|Ii].
          -- destruct (Fk b i g0 g1 Ii Ei). split; eapply reg_le_known; eauto.
          -- destruct (Nat.eqb b _); [destruct Ii as [Ii|[]]|destruct Ii]. unfold l_joint in Ii; cbn in Ii. congruence.
      + intros b i g0 g1 Ii Ei. cbn in Ii, Ei. unfold upd in Ei. destruct (Nat.eqb_spec i j) as [->|].
        * destruct (forest_edge e h b j F Ii) as (c & (? & ? & Ek & _) & _). congruence.
        * exact (Fk b i g0 g1 Ii Ei).
    - destruct A as [[u Hu] Ac]. cbn [step] in Hu.
      destruct (replace_joint zero e fuel (OJoint old) args h) as [h' r] eqn:Er. cbn in *. subst r.
      apply replace_joint_checks in Er.
      destruct Er as (g0 & g1 & Ef & I & E & H). apply replace_chain_ok_inv in H.
      destruct H as (g0' & g1' & ls & Ef' & Nl & Ea & Eb0 & Eb1 & C & Hin).
      rewrite Ef in Ef'. injection Ef' as <- <-. set (b0 := frame_body e g0) in *. set (b1 := frame_body e g1) in *.
      pose proof (init_ok_graph zero e fuel _ _ _ Hin) as (Sc & _ & Sj).
      pose proof (init_reg fuel (chain_result e h b0 old b1 ls)) as Sr. rewrite Hin in Sr. cbn in Sr.
      set (h2 := set_frames (set_parent h b1 None) old None) in *.
      assert (S2 : same_reg h h2) by repeat split.
      destruct (do_links_frames_known ls h2 (same_reg_inv _ _ S2 Hi)) as (H3 & L3 & F3).
      assert (Kk : forall f, known (do_links e h2 ls) f -> known h' f).
      { intros f K. destruct Sr as (Sr & _). destruct f; auto; cbn in *; rewrite Sr; exact K. }
      intros b j f0 f1 Ij Ej. rewrite Sc in Ij. rewrite Sj in Ej.
      destruct (chain_result_pf e h b0 old b1 ls) as [_ J]. fold h2 in J. rewrite J in Ej.
      destruct (F3 j f0 f1 Ej) as [[K0 K1]|[E2 N2]]; [split; apply Kk; auto|].
      cbn in E2. unfold upd in E2. destruct (Nat.eqb_spec j old) as [|Njo]; [discriminate|].
      assert (In j (childrenjoints h b)).
      { destruct (in_split _ _ I) as (l1 & l2 & Es).
        pose proof (forest_children_nodup e h b0 F) as D. rewrite Es in D.
        pose proof (NoDup_remove_2 _ _ _ D) as Nd. rewrite in_app_iff in Nd.
        destruct (chain_result_children e h b0 old b1 ls l1 l2 Es) as (news & n & En & C0 & Cb); [tauto| |].
        { destruct ls as [|l ls]; [contradiction|]. exists l. split; [now left|auto]. }
        assert (Nn : forall x, In x (map l_joint (filter (fun l => Nat.eqb x (l_from e l)) ls)) -> In x (map l_joint ls)) by
          (intros x K; apply in_map_iff in K; destruct K as (l & <- & K); apply filter_In in K; apply in_map; tauto).
        assert (Nf : forall bb x, In x (map l_joint (filter (fun l => Nat.eqb bb (l_from e l)) ls)) -> In x (map l_joint ls)) by
          (intros bb x K; apply in_map_iff in K; destruct K as (l & <- & K); apply filter_In in K; apply in_map; tauto).
        destruct (Nat.eq_dec b b0) as [->|Nb].
        - rewrite C0 in Ij. rewrite Es. rewrite !in_app_iff in *. cbn in *. rewrite in_app_iff in Ij.
          destruct Ij as [K|[K|[K|K]]]; auto; exfalso; apply N2; apply (Nf b0); rewrite En; apply in_app_iff; cbn; auto.
        - rewrite Cb in Ij by auto. apply in_app_iff in Ij. destruct Ij as [K|K]; [auto|].
          exfalso. apply N2. eapply Nf; eauto. }
      destruct (Fk b j f0 f1 H E2) as [K0 K1].
      pose proof (reg_le_trans _ _ _ (same_reg_le _ _ S2) L3) as L.
      split; apply Kk; eapply reg_le_known; eauto.
    - destruct (register_graph e o h) as (Sc & _ & Sj). destruct (register_inv o h Hi) as [_ Le].
      intros b j f0 f1 Ij Ej. rewrite Sc in Ij. rewrite Sj in Ej. destruct (Fk b j f0 f1 Ij Ej).
      split; eapply reg_le_known; eauto.
    - destruct (init_graph zero e fuel h) as (Sc & _ & Sj). pose proof (init_reg fuel h) as Sr.
      intros b j f0 f1 Ij Ej. rewrite Sc in Ij. rewrite Sj in Ej. destruct (Fk b j f0 f1 Ij Ej).
      split; eapply reg_le_known; eauto; now apply same_reg_le.
    - destruct (write_graph j k v h) as (Sc & _ & Sj).
      assert (Sr : same_reg h (fst (write_gvel j k v h))) by (unfold write_gvel; destruct (Nat.ltb _ _); repeat split).
      intros b i f0 f1 Ij Ej. rewrite Sc in Ij. rewrite Sj in Ej. destruct (Fk b i f0 f1 Ij Ej).
      split; eapply reg_le_known; eauto; now apply same_reg_le.
  Qed.
  Lemma reachable_frames_known g0 h : reachable zero e g0 h -> frames_known h.
  Proof.
    induction 1 as [|h fuel o Hr IH A]; [intros b j f0 f1 []|].
    apply step_frames_known; auto; [eapply reachable_forest; eauto|eapply reachable_reg; eauto].
  Qed.
End P.
