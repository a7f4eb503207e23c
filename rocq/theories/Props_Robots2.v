(** C60: the assumptions are met. *)
From Coq Require Import Lra Lia ClassicalChoice.
From Verif Require Import Spec_Robots.
From Verif Require Import Model_Step Spec_Dyn Proof_Linalg Proof_SE3 Proof_Dyn2 Proof_Eig Proof_World Proof_Robots2 Proof_Robots3 Props_Robots.
Open Scope R_scope.

(** ** Some function computes the eigenvalues of the 6x6 matrices. *)
Definition coord (u : v6) (i : nat) : R := dot6 (e6 i) u.
Definition entry (M : m6) (i j : nat) : R := coord (mv6 M (e6 j)) i.
Lemma coord_of f i : (i < 6)%nat -> coord (v6of f) i = f i.
Proof. intros H. do 6 (destruct i as [ | i]; [unfold coord, e6, v6of; cbn [Nat.eqb]; unf; ring | ]). lia. Qed.
Lemma of_coord u : v6of (coord u) = u.
Proof. destruct u as [[a b c] [p q r]]. unfold coord, e6, v6of; cbn [Nat.eqb]. unf. entries; ring. Qed.
Lemma mv_coord M u i : (i < 6)%nat -> coord (mv6 M u) i = mvn 6 (entry M) (coord u) i.
Proof.
  intros H. destruct M as [[] [] [] []], u as [[] []]. unfold mvn, entry, coord, e6, v6of. 
  do 6 (destruct i as [ | i]; [cbn [Nat.eqb sumR Nat.add]; unf; ring | ]). lia.
Qed.
Lemma coord_scal x u i : coord (v6scal x u) i = x * coord u i.
Proof. destruct u as [[] []]. unfold coord. unf. ring. Qed.
Lemma coord_inj u v : (forall i, (i < 6)%nat -> coord u i = coord v i) -> u = v.
Proof. intros H. rewrite <- (of_coord u), <- (of_coord v). unfold v6of. now rewrite !H by lia. Qed.
Lemma coord_zero i : (i < 6)%nat -> coord zero6 i = 0.
Proof. intros H. do 6 (destruct i as [ | i]; [unfold coord, e6, v6of; cbn [Nat.eqb]; unf; ring | ]). lia. Qed.
Lemma eigs_exist : exists eigvals, eigs_ok eigvals.
Proof.
  destruct (choice (fun (M : m6) (l : list R) => eigvals_of M l)) as (f & Hf); [ | exists f; intros M _; apply Hf].
  intros M. destruct (eig_list 6 (entry M)) as (l & Hl). exists l. intros x. rewrite Hl. split.
  - intros (u & Nu & Eu). exists (v6of u). split.
    + intros Z. apply Nu. intros i Hi. rewrite <- (coord_of u i Hi), Z. unfold vzero. now apply coord_zero.
    + apply coord_inj. intros i Hi. rewrite mv_coord, coord_scal, coord_of by exact Hi. specialize (Eu i Hi). unfold vmul in Eu. rewrite <- Eu. unfold mvn. apply sumR_ext. intros k Hk. now rewrite coord_of.
  - intros (u & Nu & Eu). exists (coord u). split.
    + intros Z. apply Nu. apply coord_inj. intros i Hi. rewrite (Z i Hi). unfold vzero. symmetry. now apply coord_zero.
    + intros i Hi. rewrite <- mv_coord by exact Hi. rewrite Eu, coord_scal. reflexivity.
Qed.

(** ** Any snake in a fresh world *)
Definition sn_I : ids := Ids S (fun k => k) (fun k => k).
Definition sn_e (fx : bool) : env := Env 0 S (fun _ => 0%nat) (fun _ => FBody 0) (fun _ => []) (fun j => if negb fx && Nat.eqb j 0 then 6%nat else 1%nat).
Definition sn_g0 (fx : bool) (vs : list R) (j i : nat) : R := if negb fx && Nat.eqb j 0 then 0 else nth (j - first_hinge fx) vs 0.
Lemma sn_parts_known e h I : forall k segs cr, snake_parts I k segs cr -> (forall i l m q v, nth_error segs i = Some (l, m, q, v) -> jndof e (nj I (k + i)) = 1%nat /\ joint_gvel h (nj I (k + i)) = [v] /\ sub_body e (ns I (k + i)) = nb I (k + i)) ->
  forall c, In c cr -> known_as e h c.
Proof.
  induction 1 as [k | k len mass q dq segs cr Sp IH]; intros Hk c Hc; [destruct Hc | ]. destruct (Hk 0%nat _ _ _ _ eq_refl) as (A & B & C). rewrite Nat.add_0_r in *. destruct Hc as [<- | [<- | [<- | Hc]]]; cbn [known_as ndof_of]; auto.
  apply IH; [ | exact Hc]. intros i l m q' v Hn. specialize (Hk (S i) l m q' v Hn). now rewrite <- plus_n_Sm in Hk.
Qed.
(** every snake with positive lengths and masses can be built in a fresh world *)
Theorem C60_witness : forall n lengths masses gpos gvel fx, snake_args n lengths masses gpos gvel fx ->
  let e := sn_e fx in let g0 := sn_g0 fx (or_default gvel 0 n) in let h := fresh e g0 in
  exists eigvals cr h', eigs_ok eigvals /\ reachable 0 e g0 h /\ new_objects sn_I h e /\ snake_objects sn_I fx (snake_segs n lengths masses gpos gvel) cr /\
    (forall c, In c cr -> known_as e h c) /\ add_snake e eigvals (S (S n)) sn_I n lengths masses gpos gvel fx h = (h', cr, Ok tt) /\
    ready e h' (Node 0 (chain (segments sn_I 0 (snake_size fx n)))) /\ w_ndof h' = ((if fx then 0 else 6) + n)%nat.
Proof.
  intros n lengths masses gpos gvel fx Ar e g0 h. destruct eigs_exist as (eigvals & Ev). assert (R : reachable 0 e g0 h) by constructor.
  assert (No : new_objects sn_I h e) by (split; [intros k l E; now injection E | ]; split; [auto | ]; intros k; repeat split; discriminate).
  destruct (C60_snake e g0 h eigvals sn_I n lengths masses gpos gvel fx R Ev No Ar) as (ks & cr & Rt & So & X).
  assert (Rt0 : rep e h (Node 0 [])) by (constructor; [reflexivity | constructor]). assert (Q := rep_unique e h _ _ Rt Rt0 eq_refl). injection Q as ->.
  assert (Kn : forall c, In c cr -> known_as e h c).
  { destruct Ar as (A1 & A2 & A3 & A4 & _). assert (V : forall i l m q v, nth_error (snake_segs n lengths masses gpos gvel) i = Some (l, m, q, v) -> v = nth i (or_default gvel 0 n) 0).
    { intros i l m q v E. apply (map_nth_error snd) in E. unfold snake_segs in E. rewrite map_snd_segs in E by congruence. cbn in E. symmetry. now apply nth_error_nth. }
    destruct fx; cbn [snake_objects] in So.
    - apply (sn_parts_known e h sn_I 0 _ cr So). intros i l m q v E. apply V in E. subst v. split; [reflexivity | ]. split; [cbn; now rewrite Nat.sub_0_r | reflexivity].
    - destruct So as (l0 & m0 & q0 & v0 & segs' & cr' & _ & Sp & ->). intros c [<- | [<- | Hc]]; [exact Logic.I | split; reflexivity | ].
      apply (sn_parts_known e h sn_I 1 _ cr' Sp); [ | exact Hc]. intros i l m q v E. apply V in E. subst v. split; [reflexivity | ]. split; [ | reflexivity]. cbn. now rewrite Nat.sub_0_r. }
  destruct (X Kn (S (S n)) ltac:(cbn; lia) ltac:(destruct fx; cbn; lia)) as (h' & E & _ & Rd & Nd & _). exists eigvals, cr, h'. split; [exact Ev | ]. split; [exact R | ]. split; [exact No | ]. split; [exact So | ]. split; [exact Kn | ]. split; [exact E | ]. split; [exact Rd | ]. rewrite Nd. reflexivity.
Qed.
Print Assumptions C60_witness.
Example C60_args : snake_args 3 (Some [1; 2; 3]) None (Some [0.1; 0.2; 0.3]) None false /\ forall n, snake_args n None None None None true.
Proof.
  split.
  - repeat split; try reflexivity; try lia; intros x; cbn; intros Hx; repeat (destruct Hx as [<- | Hx]; [lra | ]); destruct Hx.
  - intros n. unfold snake_args, or_default. rewrite !repeat_length. repeat split; try discriminate; intros x Hx; apply repeat_spec in Hx; lra.
Qed.
