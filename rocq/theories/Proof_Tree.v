(** Facts about rose trees. *)
From Verif Require Import Model_Base Spec_Tree.
From Coq Require Import Permutation.

Lemma root_in_bodies t : In (root t) (bodies t).
Proof. destruct t; rewrite bodies_eq; now left. Qed.

Lemma in_bodies b ks x :
  In x (bodies (Node b ks)) <-> x = b \/ exists j s, In (j, s) ks /\ In x (bodies s).
Proof.
  rewrite bodies_eq. cbn. rewrite in_flat_map. split.
  - intros [->|([j s] & I & H)]; [auto|right; eauto].
  - intros [->|(j & s & I & H)]; [auto|right; exists (j, s); auto].
Qed.
Lemma in_joints b ks x :
  In x (joints (Node b ks)) <-> exists j s, In (j, s) ks /\ (x = j \/ In x (joints s)).
Proof.
  rewrite joints_eq, in_flat_map. split.
  - intros ([j s] & I & [H|H]); exists j, s; auto.
  - intros (j & s & I & H). exists (j, s). split; [auto|]. destruct H as [->|H]; [now left|now right].
Qed.

(** non-root bodies, in preorder *)
Definition tailb (t : tree) : list nat := tl (bodies t).
Lemma bodies_tail t : bodies t = root t :: tailb t.
Proof. destruct t as [b ks]. unfold tailb. rewrite bodies_eq. reflexivity. Qed.
Lemma tailb_eq b ks : tailb (Node b ks) = flat_map (fun jt => bodies (snd jt)) ks.
Proof. unfold tailb. now rewrite bodies_eq. Qed.

Lemma NoDup_app_iff {A} (l l' : list A) :
  NoDup (l ++ l') <-> NoDup l /\ NoDup l' /\ (forall x, In x l -> ~ In x l').
Proof.
  induction l as [|a l IH]; cbn.
  - split; [intros H; repeat split; auto; constructor|tauto].
  - rewrite !NoDup_cons_iff, IH, in_app_iff. split.
    + intros (N & H1 & H2 & H3). repeat split; auto.
      intros x [<-|I]; [tauto|auto].
    + intros ((N & H1) & H2 & H3). repeat split; auto.
      intros [I|I]; [auto|]. apply (H3 a); auto.
Qed.

Lemma NoDup_flat_map_in {A B} (f : A -> list B) l x :
  NoDup (flat_map f l) -> In x l -> NoDup (f x).
Proof.
  induction l as [|a l IH]; cbn; [tauto|]. rewrite NoDup_app_iff.
  intros (H1 & H2 & _) [->|I]; auto.
Qed.

Lemma NoDup_kid b ks j s : NoDup (bodies (Node b ks)) -> In (j, s) ks -> NoDup (bodies s).
Proof.
  rewrite bodies_eq, NoDup_cons_iff. intros [_ H] I.
  now apply (NoDup_flat_map_in (fun jt => bodies (snd jt)) ks (j, s)).
Qed.
Lemma NoDup_kid_root b ks j s : NoDup (bodies (Node b ks)) -> In (j, s) ks -> ~ In b (bodies s).
Proof.
  rewrite bodies_eq, NoDup_cons_iff. intros [N _] I K. apply N, in_flat_map. now exists (j, s).
Qed.

(** two kids sharing a body are the same kid *)
Lemma NoDup_flat_map_split {A B} (f : A -> list B) l1 l2 a x :
  NoDup (flat_map f (l1 ++ a :: l2)) -> In x (f a) ->
  ~ In x (flat_map f l1) /\ ~ In x (flat_map f l2).
Proof.
  rewrite flat_map_app. cbn. rewrite NoDup_app_iff. intros (H1 & H2 & H3) I.
  apply NoDup_app_iff in H2. destruct H2 as (H4 & H5 & H6). split.
  - intros K. apply (H3 x); auto. apply in_app_iff; auto.
  - auto.
Qed.

Lemma height_kid b ks j s : In (j, s) ks -> S (height s) <= height (Node b ks).
Proof.
  rewrite height_eq. induction ks as [|[i u] ks IH]; cbn [fold_right In snd]; [tauto|].
  intros [[= -> ->]|I]; [lia|]. specialize (IH I). lia.
Qed.

Lemma height_lt_bodies t : height t < length (bodies t).
Proof.
  induction t as [b ks IH] using tree_ind'. rewrite height_eq, bodies_eq. cbn [length].
  enough (fold_right (fun jt n => Nat.max (S (height (snd jt))) n) 0 ks
          <= length (flat_map (fun jt => bodies (snd jt)) ks)) by lia.
  induction ks as [|[j s] ks IHk]; cbn [fold_right flat_map snd]; [cbn; lia|]. rewrite app_length.
  inversion IH; subst. specialize (IHk H2). cbn [snd] in *. lia.
Qed.

Lemma length_joints t : length (bodies t) = S (length (joints t)).
Proof.
  induction t as [b ks IH] using tree_ind'. rewrite joints_eq, bodies_eq. cbn [length]. f_equal.
  induction ks as [|[j s] ks IHk]; cbn; [reflexivity|].
  inversion IH; subst. rewrite !app_length, IHk by auto. cbn in *. lia.
Qed.

(** ** graft *)
Lemma graft_notin p j t' t : ~ In p (bodies t) -> graft p j t' t = t.
Proof.
  induction t as [b ks IH] using tree_ind'. rewrite bodies_eq, graft_eq. cbn. intros N.
  destruct (Nat.eqb_spec b p) as [->|Nb]; [exfalso; auto|]. rewrite app_nil_r. f_equal.
  assert (N' : ~ In p (flat_map (fun jt => bodies (snd jt)) ks)) by auto. clear N Nb.
  induction ks as [|[i s] ks IHk]; cbn; [reflexivity|]. inversion IH; subst.
  cbn in N'. rewrite in_app_iff in N'. cbn in *. rewrite H1, IHk; auto.
Qed.

Lemma graft_kids_notin p j t' (ks : list (nat * tree)) :
  ~ In p (flat_map (fun jt => bodies (snd jt)) ks) ->
  map (fun jt => (fst jt, graft p j t' (snd jt))) ks = ks.
Proof.
  induction ks as [|[i s] ks IH]; cbn; [reflexivity|]. rewrite in_app_iff. intros N.
  rewrite graft_notin, IH; auto.
Qed.

Lemma root_graft p j t' t : root (graft p j t' t) = root t.
Proof. destruct t; rewrite graft_eq; reflexivity. Qed.

Lemma bodies_graft p j t' t :
  NoDup (bodies t) -> In p (bodies t) ->
  Permutation (bodies (graft p j t' t)) (bodies t ++ bodies t').
Proof.
  induction t as [b ks IH] using tree_ind'. intros ND I. rewrite graft_eq, !bodies_eq, flat_map_app.
  rewrite bodies_eq in ND. apply NoDup_cons_iff in ND. destruct ND as [Nb ND].
  cbn. constructor. destruct (Nat.eqb_spec b p) as [->|N].
  - rewrite graft_kids_notin by auto. cbn. now rewrite app_nil_r.
  - rewrite bodies_eq in I. destruct I as [|I]; [congruence|]. cbn. rewrite app_nil_r. clear Nb N b.
    induction ks as [|[i s] ks IHk]; [destruct I|]. cbn in *. inversion IH; subst.
    apply NoDup_app_iff in ND. destruct ND as (N1 & N2 & N3).
    apply in_app_iff in I. destruct I as [I|I].
    + rewrite graft_kids_notin by auto. cbn in H1. rewrite (H1 N1 I).
      rewrite <- !app_assoc. apply Permutation_app_head. apply Permutation_app_comm.
    + rewrite graft_notin by (intros K; apply (N3 p); auto).
      rewrite <- app_assoc. apply Permutation_app_head. auto.
Qed.

(** ** relabel *)
Lemma root_relabel o n t : root (relabel o n t) = root t.
Proof. destruct t; rewrite relabel_eq; reflexivity. Qed.
Lemma bodies_relabel o n t : bodies (relabel o n t) = bodies t.
Proof.
  induction t as [b ks IH] using tree_ind'. rewrite relabel_eq, !bodies_eq. f_equal.
  induction ks as [|[j s] ks IHk]; cbn; [reflexivity|]. inversion IH; subst. cbn in *.
  now rewrite H1, IHk.
Qed.
Lemma joints_relabel o n t :
  joints (relabel o n t) = map (fun j => if Nat.eqb j o then n else j) (joints t).
Proof.
  induction t as [b ks IH] using tree_ind'. rewrite relabel_eq, !joints_eq.
  induction ks as [|[j s] ks IHk]; cbn; [reflexivity|]. inversion IH; subst. cbn in *.
  now rewrite map_app, H1, IHk.
Qed.
Lemma height_relabel o n t : height (relabel o n t) = height t.
Proof.
  induction t as [b ks IH] using tree_ind'. rewrite relabel_eq, !height_eq.
  induction ks as [|[j s] ks IHk]; cbn; [reflexivity|]. inversion IH; subst. cbn in *.
  now rewrite H1, IHk.
Qed.
