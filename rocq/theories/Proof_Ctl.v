From Verif Require Import Spec_Ctl Proof_Tree Proof_World Proof_Dofs Proof_Linalg Proof_Deriv Proof_SE3 Proof_Dyn Proof_Dyn2 Proof_Matrix Proof_Step.

(** ** arrays indexed by lists *)
Lemma assign_out {A} m : forall k (v : nat -> A) x i, ~ In i m -> assign m k v x i = x i.
Proof.
  induction m as [ | a m IH]; intros k v x i N; cbn [assign]; [reflexivity | ].
  rewrite IH by (intros I; apply N; now right). unfold upd. destruct (Nat.eqb_spec i a); [subst; exfalso; apply N; now left | reflexivity].
Qed.
Lemma assign_in {A} m : NoDup m -> forall k (v : nat -> A) x r, (r < length m)%nat -> assign m k v x (nth r m 0%nat) = v (k + r)%nat.
Proof.
  induction 1 as [ | a m Na Nd IH]; intros k v x r L; cbn [length] in L; [lia | ]. cbn [assign]. destruct r as [ | r]; cbn [nth].
  - rewrite assign_out by exact Na. unfold upd. rewrite Nat.eqb_refl. f_equal. lia.
  - rewrite IH by lia. f_equal. lia.
Qed.
Lemma sumR_shift n f : sumR (S n) f = f 0%nat + sumR n (fun k => f (S k)).
Proof. induction n as [ | n IH]; [cbn; ring | ]. cbn [sumR] in *. rewrite IH. ring. Qed.
(** a sum whose terms vanish outside a list of indices *)
Lemma sumR_scatter n m : NoDup m -> (forall i, In i m -> (i < n)%nat) -> forall g, (forall i, (i < n)%nat -> ~ In i m -> g i = 0) ->
  sumR n g = sumR (length m) (fun k => g (nth k m 0%nat)).
Proof.
  induction 1 as [ | a m Na Nd IH]; intros B g Z.
  - cbn. apply sumR_zero. intros i L. apply Z; auto.
  - cbn [length]. rewrite sumR_shift. cbn [nth].
    rewrite (sumR_ext n g (fun i => (if Nat.eqb i a then g a else 0) + (if Nat.eqb i a then 0 else g i))).
    2:{ intros i _. destruct (Nat.eqb_spec i a); subst; ring. }
    rewrite sumR_add. rewrite (sumR_single n _ a); [ | apply B; now left | intros i _ Ni; destruct (Nat.eqb_spec i a); [contradiction | reflexivity]].
    rewrite Nat.eqb_refl. f_equal. rewrite IH.
    + apply sumR_ext. intros k L. destruct (Nat.eqb_spec (nth k m 0%nat) a) as [E | ]; [ | reflexivity]. exfalso. apply Na. rewrite <- E. apply nth_In, L.
    + intros i I. apply B. now right.
    + intros i L N. destruct (Nat.eqb_spec i a) as [ | Ne]; [reflexivity | ]. apply Z; auto. intros [E | I]; auto.
Qed.

(** ** the controlled coordinates *)
Lemma in_controlled e js j i : In (j, i) (controlled e js) <-> In j js /\ (i < jndof e j)%nat.
Proof.
  unfold controlled. rewrite in_flat_map. split.
  - intros (x & Ix & I). apply in_map_iff in I. destruct I as (y & [= -> ->] & I). apply in_seq in I. split; auto. lia.
  - intros [Ij L]. exists j. split; auto. apply in_map, in_seq. lia.
Qed.
Lemma controlled_nodup e js : NoDup js -> NoDup (controlled e js).
Proof.
  induction 1 as [ | a l Na Nd IH]; cbn; [constructor | ].
  assert (G : forall l1 l2 : list (nat * nat), NoDup l1 -> NoDup l2 -> (forall x, In x l1 -> ~ In x l2) -> NoDup (l1 ++ l2)).
  { induction l1 as [ | x l1 IHl]; intros l2 N1 N2 D; cbn; auto. inversion N1; subst. constructor.
    - rewrite in_app_iff. intros [I | I]; auto. apply (D x); [now left | auto].
    - apply IHl; auto. intros y Iy. apply D. now right. }
  apply G; auto.
  - apply FinFun.Injective_map_NoDup; [intros x y E; congruence | apply seq_NoDup].
  - intros [j i] I C. apply in_map_iff in I. destruct I as (y & [= -> ->] & _). apply in_controlled in C. tauto.
Qed.
Lemma controlled_length e js : length (controlled e js) = total_ndof e js.
Proof.
  unfold controlled. induction js as [ | j js IH]; [reflexivity | ]. cbn [flat_map]. rewrite app_length, map_length, seq_length, IH. reflexivity.
Qed.
Lemma controlled_coords e (x : nat -> nat -> R) js : concat (map (coords e x) js) = map (fun y => x (fst y) (snd y)) (controlled e js).
Proof.
  unfold controlled. induction js as [ | j js IH]; [reflexivity | ]. cbn. rewrite map_app, map_map, IH. reflexivity.
Qed.
Lemma index_range h j s d : jdof h j = Some (s, d) -> forall n i, (i < n)%nat -> index h (j, i) = (s + i)%nat.
Proof. intros E n i _. unfold index. cbn [fst snd]. rewrite E. reflexivity. Qed.
Lemma dof_ranges e h js : (forall j, In j js -> exists s, jdof h j = Some (s, s + jndof e j)%nat) ->
  rconcat (dof_range h) js = Ok (map (index h) (controlled e js)).
Proof.
  induction js as [ | j js IH]; intros D; [reflexivity | ]. cbn [rconcat]. destruct (D j (or_introl eq_refl)) as (s & E).
  unfold dof_range at 1. rewrite E. cbn [rbind]. rewrite IH by (intros; apply D; now right). cbn [rbind]. f_equal.
  unfold controlled. cbn [flat_map]. rewrite map_app. f_equal. rewrite map_map. replace (s + jndof e j - s)%nat with (jndof e j) by lia.
  clear -E. replace (map (fun x => index h (j, x)) (seq 0 (jndof e j))) with (map (fun x => (s + x)%nat) (seq 0 (jndof e j))).
  - generalize (jndof e j) at 1 2. intros n. rewrite <- (Nat.add_0_r s) at 1. generalize 0%nat. induction n as [ | n IH]; intros k; cbn; [reflexivity | ]. f_equal. rewrite <- IH. f_equal. lia.
  - apply map_ext. intros x. unfold index. cbn [fst snd]. rewrite E. reflexivity.
Qed.
Lemma index_inj e h t x y : ready e h t -> In (fst x) (joints t) -> In (fst y) (joints t) ->
  (snd x < jndof e (fst x))%nat -> (snd y < jndof e (fst y))%nat -> index h x = index h y -> x = y.
Proof.
  intros (_ & _ & _ & _ & D) Ix Iy Lx Ly E. destruct x as [j i], y as [k l]. cbn [fst snd] in *.
  destruct (in_split _ _ Ix) as (l1 & l2 & E1). destruct (in_split _ _ Iy) as (k1 & k2 & E2).
  assert (D1 := D _ _ _ E1). assert (D2 := D _ _ _ E2). unfold index in E. cbn [fst snd] in E. rewrite D1, D2 in E.
  destruct (Nat.eq_dec j k) as [-> | N].
  - rewrite D2 in D1. injection D1 as D1 _. f_equal. lia.
  - exfalso. destruct (slices_disjoint e _ _ _ _ _ _ _ E1 E2 N); lia.
Qed.
Lemma index_bound e h t x : ready e h t -> In (fst x) (joints t) -> (snd x < jndof e (fst x))%nat -> (index h x < w_ndof h)%nat.
Proof.
  intros (_ & _ & _ & W & D) Ix Lx. destruct x as [j i]. cbn [fst snd] in *. destruct (in_split _ _ Ix) as (l1 & l2 & E1).
  assert (D1 := D _ _ _ E1). unfold index. cbn [fst snd]. rewrite D1, W, E1, total_app, total_cons. lia.
Qed.
Lemma map_nodup e h t js : ready e h t -> NoDup js -> incl js (joints t) -> NoDup (map (index h) (controlled e js)).
Proof.
  intros Rd Nd Inc. assert (C := controlled_nodup e js Nd).
  assert (B : forall x, In x (controlled e js) -> In (fst x) (joints t) /\ (snd x < jndof e (fst x))%nat).
  { intros [j i] I. apply in_controlled in I. cbn. split; [apply Inc | ]; tauto. }
  induction C as [ | a l Na Nl IH]; cbn; [constructor | ]. constructor.
  - intros I. apply in_map_iff in I. destruct I as (y & E & Iy). apply Na.
    destruct (B a (or_introl eq_refl)), (B y (or_intror Iy)). rewrite <- (index_inj e h t y a Rd); auto.
  - apply IH. intros x Ix. apply B. now right.
Qed.
Lemma stack_ok l n r : np_stack l n = Ok r -> r = concat l /\ length r = n.
Proof.
  unfold np_stack. destruct l as [ | x l].
  - destruct (Nat.eqb_spec n 0); [ | discriminate]. intros [= <-]. subst. auto.
  - destruct (forallb _ _); cbn [andb]; [ | discriminate]. destruct (Nat.eqb_spec (length (concat (x :: l))) n); [ | discriminate]. intros [= <-]. auto.
Qed.
