(** The eigenvalues of a (n,n) array are finitely many, and the choice made by SoftFingerContact. *)
From Verif Require Import Spec_Con Proof_Dyn Proof_Dyn2 Proof_Matrix Proof_SE3 Proof_Cons.
From Coq Require Import Lra Classical ClassicalChoice.

Definition eigvec (n : nat) (B : mat) (s : R) (x : vec) : Prop := ~ veq n x vzero /\ veq n (mvn n B x) (vmul s x).

Lemma mvn_comb n B m (c : nat -> R) (x : nat -> vec) i :
  mvn n B (fun p => sumR m (fun k => c k * x k p)) i = sumR m (fun k => c k * mvn n B (x k) i).
Proof.
  unfold mvn. rewrite (sumR_ext n _ (fun p => sumR m (fun k => c k * (B i p * x k p)))).
  - rewrite sumR_swap. apply sumR_ext. intros k _. apply sumR_scal.
  - intros p _. rewrite <- sumR_scal. apply sumR_ext. intros; ring.
Qed.

Lemma eig_independent n B m : forall (s : nat -> R) (x : nat -> vec) (c : nat -> R),
  (forall k, (k < m)%nat -> eigvec n B (s k) (x k)) -> (forall k l, (k < l < m)%nat -> s k <> s l) ->
  (forall i, (i < n)%nat -> sumR m (fun k => c k * x k i) = 0) -> forall k, (k < m)%nat -> c k = 0.
Proof.
  induction m as [ | m IH]; intros s x c Hx Hs Hc k Lk; [lia | ].
  assert (Z : forall k, (k < m)%nat -> c k = 0).
  { intros j Lj. assert (Q : (fun k => c k * (s k - s m)) j = 0).
    { apply (IH s x (fun k => c k * (s k - s m))); auto.
      - intros p q L. apply Hs. lia.
      - intros i Li. assert (E1 := Hc i Li). cbn [sumR] in E1.
        assert (E2 : sumR (S m) (fun k => c k * (s k * x k i)) = 0).
        { transitivity (mvn n B (fun p => sumR (S m) (fun k => c k * x k p)) i).
          - rewrite mvn_comb. apply sumR_ext. intros p Lp. destruct (Hx p Lp) as [_ E]. rewrite (E i Li). reflexivity.
          - rewrite (mvn_ext n B B _ vzero) by (auto; intros p Lp; apply Hc, Lp). apply mvn_zero. }
        cbn [sumR] in E2.
        rewrite (sumR_ext m _ (fun k => c k * (s k * x k i) + (- s m) * (c k * x k i))) by (intros; ring).
        rewrite sumR_add, sumR_scal. set (u := sumR m (fun k => c k * (s k * x k i))) in *. set (w := sumR m (fun k => c k * x k i)) in *.
        replace u with (- (c m * (s m * x m i))) by lra. replace w with (- (c m * x m i)) by lra. ring. }
    cbv beta in Q. destruct (Rmult_integral _ _ Q) as [ | D]; auto. exfalso. apply (Hs j m); [lia | lra]. }
  destruct (Nat.eq_dec k m) as [-> | N]; [ | apply Z; lia].
  destruct (find_nz n (x m)) as [[i [Li Ni]] | V]; [ | exfalso; apply (proj1 (Hx m ltac:(lia))); exact V].
  specialize (Hc i Li). cbn [sumR] in Hc. rewrite sumR_zero in Hc by (intros p Lp; rewrite Z by auto; ring).
  destruct (Rmult_integral (c m) (x m i)); [lra | auto | contradiction].
Qed.

Lemma eig_bounded n B (s : nat -> R) : (forall k, (k < S n)%nat -> exists x, eigvec n B (s k) x) -> (forall k l, (k < l < S n)%nat -> s k <> s l) -> False.
Proof.
  intros Hx Hs. destruct (choice (fun k x => (k < S n)%nat -> eigvec n B (s k) x)) as [x Ex].
  { intros k. destruct (Nat.lt_ge_cases k (S n)) as [L | L]; [destruct (Hx k L) as [x E]; exists x; auto | exists vzero; lia]. }
  destruct (wide_kernel n (S n) (fun i k => x k i) (Nat.lt_succ_diag_r n)) as [c [Nc Hc]].
  apply Nc. intros k Lk. apply (eig_independent n B (S n) s x c Ex Hs); auto.
  intros i Li. rewrite <- (Hc i Li). apply sumR_ext. intros; ring.
Qed.

Lemma eig_list n B : exists l, forall s, In s l <-> exists x, eigvec n B s x.
Proof.
  assert (G : forall m, (exists s, (forall k, (k < m)%nat -> exists x, eigvec n B (s k) x) /\ (forall k l, (k < l < m)%nat -> s k <> s l)) \/
                        exists l, forall s, In s l <-> exists x, eigvec n B s x).
  { induction m as [ | m [(s & Hx & Hs) | D]]; [left; exists (fun _ => 0); split; intros; lia | | right; exact D].
    destruct (classic (exists r, (exists x, eigvec n B r x) /\ ~ In r (map s (seq 0 m)))) as [(r & Er & Nr) | A].
    - left. exists (fun k => if Nat.eqb k m then r else s k). split.
      + intros k L. destruct (Nat.eqb_spec k m); [exact Er | apply Hx; lia].
      + intros k l L E. destruct (Nat.eqb_spec k m); [lia | ]. destruct (Nat.eqb_spec l m) as [-> | ].
        * apply Nr. rewrite <- E. apply in_map, in_seq. lia.
        * apply (Hs k l); [lia | exact E].
    - right. exists (map s (seq 0 m)). intros r. split.
      + intros Ir. apply in_map_iff in Ir. destruct Ir as (k & <- & Ik). apply in_seq in Ik. apply Hx. lia.
      + intros Er. destruct (classic (In r (map s (seq 0 m)))) as [ | Nr]; auto. exfalso. apply A. exists r. auto. }
  destruct (G (S n)) as [(s & Hx & Hs) | D]; [exfalso; eapply eig_bounded; eauto | exact D].
Qed.

(** some function meets the assumption on numpy.linalg.eigvals *)
Lemma eig_spec_satisfiable : exists eigvals, eig_spec eigvals.
Proof.
  destruct (choice (fun (B : mat) (l : list (R * R)) => forall s, In (s, 0) l <-> exists x, eigvec 6 B s x)) as [f Hf].
  - intros B. destruct (eig_list 6 B) as [l Hl]. exists (map (fun s => (s, 0)) l). intros s. rewrite <- Hl. split.
    + intros Is. apply in_map_iff in Is. destruct Is as (r & E & Ir). injection E as <-. exact Ir.
    + intros Is. apply in_map_iff. exists s. auto.
  - exists f. exact Hf.
Qed.

(** ** The choice of s *)
Lemma fold_min_le l : forall x, fold_left Rmin l x <= x /\ (forall y, In y l -> fold_left Rmin l x <= y).
Proof.
  induction l as [ | z l IH]; intros x; cbn [fold_left]; [split; [lra | intros y []] | ].
  destruct (IH (Rmin x z)) as [A B]. split; [apply Rle_trans with (1 := A), Rmin_l | ].
  intros y [-> | Iy]; [apply Rle_trans with (1 := A), Rmin_r | apply B, Iy].
Qed.
Lemma fold_min_in l : forall x, fold_left Rmin l x = x \/ In (fold_left Rmin l x) l.
Proof.
  induction l as [ | z l IH]; intros x; cbn [fold_left]; [now left | ].
  destruct (IH (Rmin x z)) as [E | I].
  - rewrite E. unfold Rmin. destruct (Rle_dec x z); [left; reflexivity | right; left; reflexivity].
  - right. right. exact I.
Qed.

Lemma sf_choose_neg l : sf_choose l <= 0.
Proof.
  unfold sf_choose. destruct (map fst _) as [ | x xs] eqn:E; [lra | ].
  assert (Q : forall y, In y (x :: xs) -> y <= 0).
  { intros y Iy. rewrite <- E in Iy. apply in_map_iff in Iy. destruct Iy as ([a b] & <- & I). apply filter_In in I. destruct I as [_ B].
    apply andb_prop in B. destruct B as [_ B]. apply Rleb_true in B. exact B. }
  apply Rmax_lub; [ | lra]. unfold min_list. apply Rle_trans with x; [apply (proj1 (fold_min_le xs x)) | apply Q; now left].
Qed.
Lemma sf_choose_min l m : In (m, 0) l -> m <= 0 -> - 10000000000 <= m -> (forall s, In (s, 0) l -> s <= 0 -> m <= s) -> sf_choose l = m.
Proof.
  intros Im Nm Bm Mn. unfold sf_choose.
  assert (I0 : In m (map fst (filter (fun z => Reqb (snd z) 0 && Rleb (fst z) 0) l))).
  { apply in_map_iff. exists (m, 0). split; [reflexivity | ]. apply filter_In. split; [exact Im | ]. apply andb_true_intro. split; [apply Reqb_true; reflexivity | apply Rleb_true; exact Nm]. }
  assert (A0 : forall y, In y (map fst (filter (fun z => Reqb (snd z) 0 && Rleb (fst z) 0) l)) -> m <= y).
  { intros y Iy. apply in_map_iff in Iy. destruct Iy as ([a b] & <- & I). apply filter_In in I. destruct I as [I B]. apply andb_prop in B. destruct B as [B1 B2].
    apply Reqb_true in B1. apply Rleb_true in B2. cbn [fst snd] in *. subst b. apply Mn; auto. }
  destruct (map fst _) as [ | x xs]; [contradiction | ]. unfold min_list.
  destruct (fold_min_le xs x) as [L1 L2]. assert (E : fold_left Rmin xs x = m).
  { apply Rle_antisym.
    - destruct I0 as [-> | I0]; auto.
    - destruct (fold_min_in xs x) as [-> | I]; apply A0; [now left | right; exact I]. }
  rewrite E. apply Rmax_left. exact Bm.
Qed.
