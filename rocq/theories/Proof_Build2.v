(** Robots whose bodies are numbered from parent to child. *)
From Coq Require Import Lra Lia.
From Verif Require Import Spec_Build.
From Verif Require Import Proof_Linalg Proof_SE3 Proof_Tree Proof_World Props_Dyn Proof_Build.
Open Scope R_scope.

Fixpoint posn (b : nat) (l : list nat) : nat := match l with [] => 0%nat | x :: l' => if Nat.eqb x b then 0%nat else S (posn b l') end.
Lemma posn_map (f : nat -> nat) : (forall k l, f k = f l -> k = l) -> forall n s k, (s <= k < s + n)%nat -> posn (f k) (map f (seq s n)) = (k - s)%nat.
Proof.
  intros Inj. induction n as [ | n IH]; intros s k H; [lia | ]. cbn [seq map posn]. destruct (Nat.eqb_spec (f s) (f k)) as [E | E].
  - apply Inj in E. lia.
  - assert (s <> k) by congruence. rewrite IH by lia. lia.
Qed.
Lemma NoDup_map_inj {A B} (f : A -> B) l : (forall x y, f x = f y -> x = y) -> NoDup l -> NoDup (map f l).
Proof. intros Inj. induction 1 as [ | x l Nx N IH]; cbn; constructor; auto. intros H. apply in_map_iff in H. destruct H as (y & E & Hy). apply Inj in E. now subst. Qed.

Section S.
  Variables (e : env) (h0 : @heap R) (I : bids) (n : nat).
  Hypothesis Ni : new_ids I h0 e.
  Let bs := map (xb I) (seq 0 n).
  Definition rank_of (b : nat) : nat := posn b (map (xb I) (seq 0 n)).
  Lemma bs_new b : In b bs -> childrenjoints h0 b = [] /\ parentjoint h0 b = None /\ b <> ground e.
  Proof. unfold bs. intros H. apply in_map_iff in H. destruct H as (k & <- & _). destruct Ni as (_ & _ & N). destruct (N k) as (? & ? & ? & ?). auto. Qed.
  Lemma bs_nodup : NoDup bs.
  Proof. apply NoDup_map_inj; [apply Ni | apply seq_NoDup]. Qed.
  Lemma bs_in k : (k < n)%nat -> In (xb I k) bs.
  Proof. intros H. apply in_map. apply in_seq. lia. Qed.
  Lemma idx_fits Lk : (forall l, In l Lk -> exists k, (k < n)%nat /\ l_to e l = xb I k /\ (exists j, l_joint l = xj I j) /\ (l_from e l = ground e \/ exists i, (i < k)%nat /\ l_from e l = xb I i)) ->
    NoDup (map (l_to e) Lk) -> NoDup (map l_joint Lk) -> fits e h0 bs rank_of Lk.
  Proof.
    intros H N1 N2. split; [ | auto]. intros l Hl. destruct (H l Hl) as (k & Hk & Et & (j & Ej) & Fr). split; [rewrite Et; now apply bs_in | ]. split.
    - intros Hin. destruct Fr as [Q | (i & Hi & Q)]; [rewrite Q in Hin; apply bs_new in Hin; tauto | ]. rewrite Et, Q. unfold rank_of. rewrite !posn_map by (try apply Ni; lia). lia.
    - rewrite Ej. destruct Ni as (_ & _ & N). destruct (N j) as (? & ? & ? & ?). auto.
  Qed.
End S.

(** the mass of a body created once *)
Lemma mass_once cs b n M : In (MkBody b n M) cs -> (forall n' M', In (MkBody b n' M') cs -> M' = M) -> (forall M', ~ In (SetMass b M') cs) -> mass_in b cs = Some M.
Proof.
  intros Hin U N. assert (X : exists M', mass_in b cs = Some M').
  { clear U N. induction cs as [ | c cs IH]; [destruct Hin | ]. cbn [mass_in]. destruct Hin as [-> | Hin]; [ | destruct (IH Hin) as (M' & ->); eauto]. destruct (mass_in b cs); [eauto | ]. rewrite Nat.eqb_refl. eauto. }
  destruct X as (M' & E). rewrite E. f_equal. clear Hin. revert U N E. induction cs as [ | c cs IH]; intros U N E; [discriminate | ]. cbn [mass_in] in E. destruct (mass_in b cs) as [M2 | ].
  - apply IH; [intros; eapply U; right; eassumption | intros M3 H; eapply N; right; eassumption | exact E].
  - destruct c; try discriminate; (destruct (Nat.eqb_spec b b0); [subst | discriminate]); injection E as <-; [eapply U; now left | destruct (N M0); now left].
Qed.
Lemma mass_set_last cs b M cs' : (forall n M', ~ In (MkBody b n M') cs') -> (forall M', ~ In (SetMass b M') cs') -> mass_in b (cs ++ SetMass b M :: cs') = Some M.
Proof.
  intros N1 N2. assert (X : mass_in b cs' = None).
  { induction cs' as [ | c cs' IH]; [reflexivity | ]. cbn [mass_in]. rewrite IH; [ | intros n M' H; eapply N1; right; eassumption | intros M' H; eapply N2; right; eassumption].
    destruct c; try reflexivity; (destruct (Nat.eqb_spec b b0); [subst | reflexivity]); [destruct (N1 name M0); now left | destruct (N2 M0); now left]. }
  induction cs as [ | c cs IH]; cbn [app mass_in]; [now rewrite X, Nat.eqb_refl | now rewrite IH].
Qed.
