(** A subtree of the world converted in place. *)
From Coq Require Import Lia.
From Verif Require Import Spec_Dyn Spec_Convert Proof_Tree Proof_World Proof_World2 Proof_World3 Proof_Dofs Proof_World4 Proof_Convert Proof_Convert2 Proof_Convert3.
Import ListNotations.
Open Scope nat_scope.

(** the second tree is the first one where the subtree [s] is replaced by [s'] *)
Inductive swap (s s' : tree) : tree -> tree -> Prop :=
| swap_here : swap s s' s s'
| swap_in : forall b ks1 j u u' ks2, swap s s' u u' -> swap s s' (Node b (ks1 ++ (j, u) :: ks2)) (Node b (ks1 ++ (j, u') :: ks2)).

Lemma swap_bodies s s' t t' : swap s s' t t' -> incl (bodies s) (bodies t) /\ incl (joints s) (joints t).
Proof.
  induction 1 as [|b ks1 j u u' ks2 H (A & B)]; [split; intros x X; exact X|]. rewrite bodies_eq, joints_eq, !flat_map_app. cbn [flat_map fst snd].
  split; intros x X; [right; apply in_or_app; right; apply in_or_app; left; apply A; exact X|apply in_or_app; right; right; apply in_or_app; left; apply B; exact X].
Qed.
Lemma swap_root s s' t t' : swap s s' t t' -> root s' = root s -> root t' = root t.
Proof. intros H E. destruct H; [exact E|reflexivity]. Qed.
Lemma swap_tail s s' t t' : swap s s' t t' -> NoDup (bodies t) -> ~ In (root t) (tailb s).
Proof.
  intros H N X. destruct H as [|b ks1 j u u' ks2 H].
  - rewrite bodies_tail in N. inversion N as [|? ? Y _]. exact (Y X).
  - cbn [root] in X. rewrite bodies_eq, flat_map_app in N. cbn [flat_map snd] in N. inversion N as [|? ? Y _]. apply Y. apply in_or_app. right. apply in_or_app. left.
    apply (proj1 (swap_bodies _ _ _ _ H)). rewrite bodies_tail. right. exact X.
Qed.

Section S.
  Variables (e : env) (h h' : heap) (s s' : tree) (nB nJ : nat -> Prop).
  Hypothesis K : keeps h h' (fun b => In b (bodies s) \/ nB b) (fun b => In b (tailb s) \/ nB b) (fun i => In i (joints s) \/ nJ i).
  Hypothesis Rs : rep e h' s'.
  Hypothesis Er : root s' = root s.
  Lemma swap_rep t t' : swap s s' t t' -> rep e h t -> NoDup (bodies t) -> NoDup (joints t) -> (forall x, In x (bodies t) -> ~ nB x) -> (forall i, In i (joints t) -> ~ nJ i) -> rep e h' t'.
  Proof.
    intros H. induction H as [|b ks1 j u u' ks2 H IH]; intros Rt Nb Nj Ub Uj; [exact Rs|].
    pose proof (rep_inv e h _ _ Rt) as [Ch Fk]. destruct (Fk j u) as [[(f0 & f1 & Fr & B0 & B1) Pa] Ru]; [apply in_or_app; right; left; reflexivity|].
    destruct (swap_bodies _ _ _ _ H) as [Ibs Ijs].
    rewrite bodies_eq, flat_map_app in Nb, Ub. cbn [flat_map snd] in Nb, Ub. apply NoDup_cons_iff in Nb. destruct Nb as [Xb Nd].
    rewrite NoDup_app_iff in Nd. destruct Nd as (_ & Nd2 & Nd3). rewrite NoDup_app_iff in Nd2. destruct Nd2 as (Ndu & _ & Nd4).
    rewrite joints_eq, flat_map_app in Nj, Uj. cbn [flat_map fst snd] in Nj, Uj.
    rewrite NoDup_app_iff in Nj. destruct Nj as (_ & NJ2 & NJ3). cbn [app] in NJ2. apply NoDup_cons_iff in NJ2. destruct NJ2 as [NJ4 NJ5]. rewrite NoDup_app_iff in NJ5. destruct NJ5 as (NJu & _ & NJ6).
    assert (Ru' : rep e h' u').
    { apply IH; [exact Ru|exact Ndu|exact NJu| |].
      - intros x Ix. apply Ub. right. apply in_or_app. right. apply in_or_app. left. exact Ix.
      - intros x Ix. apply Uj. apply in_or_app. right. right. apply in_or_app. left. exact Ix. }
    assert (Eu : root u' = root u) by (apply (swap_root s s'); assumption).
    destruct K as (Kc & Kp & Kf).
    assert (Ob : forall i v x, In (i, v) (ks1 ++ ks2) -> In x (bodies v) -> ~ (In x (bodies s) \/ nB x)).
    { intros i v x Iv Ix [X|X].
      - apply Ibs in X. apply in_app_or in Iv. destruct Iv as [Iv|Iv]; [apply (Nd3 x); [apply in_flat_map; exists (i, v); auto|apply in_or_app; left; exact X]|apply (Nd4 x X), in_flat_map; exists (i, v); auto].
      - apply (Ub x); [|exact X]. right. apply in_app_or in Iv. apply in_or_app. destruct Iv as [Iv|Iv]; [left|right; apply in_or_app; right]; apply in_flat_map; exists (i, v); auto. }
    assert (Oj : forall i v x, In (i, v) (ks1 ++ ks2) -> x = i \/ In x (joints v) -> ~ (In x (joints s) \/ nJ x)).
    { intros i v x Iv Ix. assert (Ix' : In x (fst (i, v) :: joints (snd (i, v)))) by (destruct Ix as [->|Ix]; [left; reflexivity|right; exact Ix]). intros [X|X].
      - apply Ijs in X. apply in_app_or in Iv. destruct Iv as [Iv|Iv]; [apply (NJ3 x); [apply in_flat_map; exists (i, v); split; [exact Iv|exact Ix']|right; apply in_or_app; left; exact X]|apply (NJ6 x X), in_flat_map; exists (i, v); split; [exact Iv|exact Ix']].
      - apply (Uj x); [|exact X]. apply in_app_or in Iv. apply in_or_app. destruct Iv as [Iv|Iv]; [left|right; right; apply in_or_app; right]; apply in_flat_map; exists (i, v); split; try exact Iv; exact Ix'. }
    apply rep_intro.
    - rewrite Kc; [rewrite Ch, !map_app; reflexivity|]. intros [X|X]; [apply Xb, in_or_app; right; apply in_or_app; left; apply Ibs; exact X|]. exact (Ub b (or_introl eq_refl) X).
    - intros i v Iv. assert (Iv' : (i, v) = (j, u') \/ In (i, v) (ks1 ++ ks2)).
      { apply in_app_or in Iv. destruct Iv as [Iv|[Iv|Iv]]; [right; apply in_or_app; left; exact Iv|left; symmetry; exact Iv|right; apply in_or_app; right; exact Iv]. }
      destruct Iv' as [Q|Iv'].
      + injection Q as -> ->. split; [|exact Ru']. split.
        * exists f0, f1. rewrite Eu. split; [|auto]. rewrite Kf; [exact Fr|]. intros [X|X]; [apply NJ4, in_or_app; left; apply Ijs; exact X|]. apply (Uj j); [|exact X]. apply in_or_app. right. left. reflexivity.
        * rewrite Eu, Kp; [exact Pa|]. intros [X|X]; [exact (swap_tail _ _ _ _ H Ndu X)|]. apply (Ub (root u)); [|exact X]. right. apply in_or_app. right. apply in_or_app. left. rewrite bodies_tail. left. reflexivity.
      + destruct (Fk i v) as [[(k0 & k1 & G & G0 & G1) Gp] Rv]; [apply in_app_or in Iv'; apply in_or_app; destruct Iv' as [Z|Z]; [left; exact Z|right; right; exact Z]|].
        assert (Tb : forall x, In x (bodies v) -> ~ (In x (tailb s) \/ nB x)).
        { intros x Ix X. apply (Ob i v x Iv' Ix). destruct X as [X|X]; [left; rewrite bodies_tail; right; exact X|right; exact X]. }
        split; [split|].
        * exists k0, k1. split; [|auto]. rewrite Kf; [exact G|]. apply (Oj i v); [exact Iv'|left; reflexivity].
        * rewrite Kp; [exact Gp|]. apply Tb. rewrite bodies_tail. left. reflexivity.
        * apply (rep_keeps e h h' _ _ _ v K Rv).
          -- intros x Ix. exact (Ob i v x Iv' Ix).
          -- intros x Ix. apply Tb. rewrite bodies_tail. right. exact Ix.
          -- intros x Ix. apply (Oj i v x Iv'). right; exact Ix.
  Qed.
End S.

Section P.
  Variables (e : env) (eigvals : m6 -> list R) (J : nat -> jstate) (nm : obj -> option string) (I : bids) (fuel : nat).
  Hypothesis Ib : forall i j, xb I i = xb I j -> i = j.
  Hypothesis Ij : forall i j, xj I i = xj I j -> i = j.
  Hypothesis Hm : ismassmatrix eigvals mid_mass true = true.

  Lemma rep_count (h : heap) t : rep e h t -> length (bodies t) = S (length (joints t)).
  Proof. intros Rt. pose proof (rep_parent e h t Rt) as X. apply (f_equal (@length _)) in X. rewrite !map_length in X. rewrite bodies_tail. cbn [length]. rewrite X. reflexivity. Qed.

  Lemma traverse_in g (h : heap) nb nj new s (W : tree -> tree) : (forall x, swap s x (W s) (W x)) ->
    reachable 0%R e g h -> rep e h (W s) -> root (W s) = ground e -> ~ In (ground e) (bodies s) -> 3 * length (bodies (W s)) <= fuel -> free_ids e I h nb nj ->
    exists h' nb' nj' new' s', conv_traverse e eigvals J nm I fuel fuel (root s) (CS h nb nj new) = (CS h' nb' nj' (new ++ new'), Ok tt) /\
      nb <= nb' /\ nj <= nj' /\ reachable 0%R e g h' /\ serial J nm h h' new' s s' /\ rep e h' (W s') /\
      (forall i, ~ In i (joints s) -> ~ newj I nj nj' i -> jframes h' i = jframes h i) /\ same_objects h h' /\ (numbered e h -> numbered e h').
  Proof.
    intros Sw Re Rw Eg Ng Hf Fi. pose proof (reachable_forest 0%R e g h Re) as Fo. pose proof (forest_nodup e h _ Fo Rw) as Nw. pose proof (rep_nodup_joints e h _ Rw Nw) as NJ.
    destruct (swap_bodies _ _ _ _ (Sw s)) as [Ibs Ijs].
    assert (Rs : rep e h s).
    { clear - Sw Rw. specialize (Sw s). revert Rw. generalize dependent (W s). intros T Sw. assert (X : forall T T', swap s s T T' -> rep e h T -> rep e h s).
      { clear. intros T T' H. induction H as [|b ks1 j u u' ks2 H IH]; intros Rt; [exact Rt|]. apply rep_inv in Rt. destruct Rt as [_ Fk]. apply IH. apply (Fk j u). apply in_or_app. right. left. reflexivity. }
      exact (X _ _ Sw). }
    assert (Ls : length (bodies s) <= length (bodies (W s))) by (apply NoDup_incl_length; [apply (forest_nodup e h); assumption|exact Ibs]).
    pose proof (rep_count h s Rs) as Lj.
    destruct (traverse_ok e eigvals J nm I fuel Ib Ij Hm g s fuel h nb nj new (W s)) as
      (h' & nb' & nj' & new' & s' & gt' & E & R' & (L1 & L2) & Re' & Fi' & _ & Er & Se & K & _ & _).
    { exact Rs. } { exact Ng. } { pose proof (height_bodies s). lia. }
    { exact Re. } { exact Fi. } { exact Rw. } { exact Eg. } { apply Ibs. rewrite bodies_tail. left. reflexivity. } { lia. }
    exists h', nb', nj', new', s'. split; [exact E|]. split; [exact L1|]. split; [exact L2|]. split; [exact Re'|]. split; [exact Se|].
    split; [|split; [|split]].
    - apply (swap_rep e h h' s s' _ _ K R' Er (W s) (W s') (Sw s') Rw Nw NJ).
      + intros x Ix X. rewrite bodies_tail in Ix. destruct Ix as [Ix|Ix]; [|exact (tail_used e I h nb nj (W s) x nb nb' Fi (le_n _) Rw Ix X)].
        destruct X as (k & Hk & ->). destruct Fi as [Fb _]. destruct (Fb k) as [_ Q]; [lia|]. apply Q. rewrite <- Eg. symmetry. exact Ix.
      + intros x Ix X. destruct (rep_frames e h (W s) x Rw Ix) as [f Hx]. exact (frames_used e I h nb nj x f nj nj' Fi (le_n _) Hx X).
    - intros i Ni Nn. destruct K as (_ & _ & Kf). apply Kf. intros [X|X]; [exact (Ni X)|exact (Nn X)].
    - apply (traverse_inv e eigvals J nm I fuel (same_objects h) (replace_objects e fuel h) fuel _ _ _ E). repeat split.
    - apply (traverse_inv e eigvals J nm I fuel (numbered e) (replace_numbered e fuel) fuel _ _ _ E).
  Qed.
End P.
