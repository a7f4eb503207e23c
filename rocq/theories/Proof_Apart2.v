(** Lemmas for C103: the matrices, the controllers and one step. *)
From Coq Require Import Lra Lia FunctionalExtensionality.
From Verif Require Import Spec_Apart Proof_Linalg Proof_SE3 Proof_Tree Proof_World Proof_World2 Proof_Dofs Proof_Dyn Proof_Dyn2 Proof_Matrix Proof_Step Proof_Ctl Proof_Apart Props_Weight Props_Step.
Open Scope R_scope.

Lemma body_path (t : tree) b : In b (tl (bodies t)) -> exists ps, path t b ps.
Proof. intros H. apply path_of. apply tl_body. exact H. Qed.

Lemma sumlist_filter {A} (f : A -> R) p l : sumlist f (filter p l) = sumlist (fun x => if p x then f x else 0) l.
Proof. induction l as [ | x l IH]; cbn [filter sumlist]; [reflexivity | ]. destruct (p x); cbn [sumlist]; rewrite IH; ring. Qed.
(** no coupling in the matrices of the world *)
Definition uncoupled (n : nat) (D : nat -> bool) (A : nat -> nat -> R) : Prop := forall k l, (k < n)%nat -> (l < n)%nat -> D k <> D l -> A k l = 0.
Lemma dyn_cross e sc h t J P fuel st st' d : ready e h t -> rigid_scene e sc t J -> (height t < fuel)%nat -> whole_robots t P -> world_update_dynamic e sc h J fuel st = Ok (st', d) ->
  forall k l, own_dof h t P k <> own_dof h t P l -> d_mass d k l = 0 /\ d_visc d k l = 0 /\ d_nle d k l = 0.
Proof.
  intros Rd Ri Hf Wh E k l N. destruct (world_ok e sc h t J fuel st Rd Ri Hf) as (st1 & d1 & E1 & Hp & _ & Hm & Hv & Hn). rewrite E in E1. injection E1 as <- <-.
  assert (K : forall b, In b (tl (bodies t)) -> exists ps, path t b ps /\ kin_at st' b = kin_of sc h J (map fst ps)).
  { intros b Ib. destruct (body_path t b Ib) as (ps & Pb). exists ps. split; [exact Pb | ]. apply (kin_at_attr st' b (b_mass sc b)). apply Hp. exact Pb. }
  rewrite Hm, Hv, Hn. repeat split; apply suml_zero; intros b Ib; destruct (K b Ib) as (ps & Pb & ->); unfold congr;
    (destruct (col_cross e sc h t J P Rd Wh b ps k l Pb N) as [[A B] | [A B]]; rewrite ?A, ?B, ?mv6_zero6, ?v6add_zz; first [apply dot6_zl | apply dot6_zr]).
Qed.

Lemma rigid_at e sc h t J fuel st0 st d : ready e h t -> rigid_scene e sc t J -> (height t < fuel)%nat -> world_update_dynamic e sc h J fuel st0 = Ok (st, d) ->
  forall b, In b (bodies t) -> SE3 (k_pose (kin_at st b)) /\ a_pose (st b) = Some (k_pose (kin_at st b)) /\ a_jac (st b) = Some (k_jac (kin_at st b)).
Proof.
  intros R1 G1 F1 E1 b Ib. destruct (world_ok e sc h t J fuel st0 R1 G1 F1) as (x & y & E & A & _). rewrite E1 in E. injection E as <- <-.
  destruct (path_of t b Ib) as (ps & Pb). rewrite (kin_at_attr st b _ _ (A b ps Pb)), (A b ps Pb). cbn [attr a_pose a_jac]. split; [ | auto].
  rewrite kin_pose by (intros j Hj; destruct (ready_dof e h t j R1 (proj2 (path_in _ _ _ Pb) j Hj)) as (s & Ds & _); congruence). apply posej_SE3; [apply G1 | intros j Hj; apply G1; apply (proj2 (path_in _ _ _ Pb)); exact Hj].
Qed.
Section Pair.
  Context (e : env) (sc sc' : scene) (h h' : @heap R) (t : tree) (J J' : nat -> jstate) (P : nat -> bool) (fuel fuel' : nat) (st0 st0' st st' : store) (d d' : wdyn).
  Hypothesis R1 : ready e h t.
  Hypothesis R2 : ready e h' t.
  Hypothesis G1 : rigid_scene e sc t J.
  Hypothesis G2 : rigid_scene e sc' t J'.
  Hypothesis F1 : (height t < fuel)%nat.
  Hypothesis F2 : (height t < fuel')%nat.
  Hypothesis Wh : whole_robots t P.
  Hypothesis Ef : jframes h' = jframes h.
  Hypothesis Sc : same_scene t P h sc sc'.
  Hypothesis EJ : forall j, In j (joints t) -> P j = true -> J' j = J j.
  Hypothesis E1 : world_update_dynamic e sc h J fuel st0 = Ok (st, d).
  Hypothesis E2 : world_update_dynamic e sc' h' J' fuel' st0' = Ok (st', d').
  Let D := own_dof h t P.
  Lemma attrs : (forall b ps, path t b ps -> st b = attr (b_mass sc b) (kin_of sc h J (map fst ps))) /\ (forall b ps, path t b ps -> st' b = attr (b_mass sc' b) (kin_of sc' h' J' (map fst ps))).
  Proof.
    destruct (world_ok e sc h t J fuel st0 R1 G1 F1) as (x & y & E & Hp & _). rewrite E1 in E. injection E as <- <-.
    destruct (world_ok e sc' h' t J' fuel' st0' R2 G2 F2) as (x & y & E & Hp' & _). rewrite E2 in E. injection E as <- <-. split; assumption.
  Qed.
  Lemma own_attr b : own t P b -> st' b = st b.
  Proof.
    intros O. destruct (O) as (js & (ps & Pb & ->) & Nn & Hj). destruct attrs as [A B]. rewrite (A b ps Pb), (B b ps Pb). rewrite (proj1 (proj1 Sc b O)). f_equal.
    apply (kin_same e sc sc' h h' t J J' P R1 R2 Ef Sc EJ). intros j Hi. split; [apply (proj2 (path_in _ _ _ Pb)); exact Hi | apply Hj; exact Hi].
  Qed.
  (** a body: selected, with the same attributes; or not, with null columns in both worlds *)
  Lemma body_cases b : In b (tl (bodies t)) -> (own t P b /\ st' b = st b) \/
    (exists ps, path t b ps /\ forall k, D k = true -> k_jac (kin_at st b) k = zero6 /\ k_djac (kin_at st b) k = zero6 /\ k_jac (kin_at st' b) k = zero6 /\ k_djac (kin_at st' b) k = zero6).
  Proof.
    intros Ib. destruct (body_path t b Ib) as (ps & Pb). destruct attrs as [A B]. destruct (Wh b (map fst ps) (ex_intro _ ps (conj Pb eq_refl))) as [H | H].
    - left. assert (O : own t P b) by (exists (map fst ps); split; [exists ps; auto | split; [apply (tl_path t b ps); auto; apply R1 | exact H]]). split; [exact O | apply own_attr; exact O].
    - right. exists ps. split; [exact Pb | ]. intros k Dk. rewrite (kin_at_attr st b _ _ (A b ps Pb)), (kin_at_attr st' b _ _ (B b ps Pb)).
      destruct (col_out e sc h t J P R1 b ps k Pb H Dk) as [-> ->]. assert (Dk' : own_dof h' t P k = true) by (rewrite (own_dof_same e h h' t P R1 R2); exact Dk).
      destruct (col_out e sc' h' t J' P R2 b ps k Pb H Dk') as [-> ->]. auto.
  Qed.
  Lemma kin_at_same b : st' b = st b -> kin_at st' b = kin_at st b.
  Proof. intros E. unfold kin_at. rewrite E. reflexivity. Qed.
  Lemma dyn_same k l : D k = true -> D l = true -> d_mass d' k l = d_mass d k l /\ d_visc d' k l = d_visc d k l /\ d_nle d' k l = d_nle d k l.
  Proof.
    intros Dk Dl. destruct (world_ok e sc h t J fuel st0 R1 G1 F1) as (x & y & E & _ & _ & Hm & Hv & Hn). rewrite E1 in E. injection E as <- <-.
    destruct (world_ok e sc' h' t J' fuel' st0' R2 G2 F2) as (x & y & E & _ & _ & Hm' & Hv' & Hn'). rewrite E2 in E. injection E as <- <-.
    rewrite Hm, Hv, Hn, Hm', Hv', Hn'. repeat split; apply suml_ext; intros b Ib; unfold congr; (destruct (body_cases b Ib) as [[O Es] | (ps & Pb & Z)];
      [rewrite (kin_at_same b Es), ?(proj1 (proj1 Sc b O)), ?(proj2 (proj1 Sc b O)); reflexivity | destruct (Z k Dk) as (-> & _ & -> & _); rewrite !dot6_zl; reflexivity]).
  Qed.
  (** *** gravity *)
  Lemma weight_one (g : v6) b k : In b (tl (bodies t)) -> D k = true -> let F (s : scene) (w : store) := dot6 (k_jac (kin_at w b) k) (mv6 (b_mass s b) (mv6 (iadjoint_ (k_pose (kin_at w b))) g)) in F sc' st' = F sc st.
  Proof.
    intros Ib Dk F. unfold F. destruct (body_cases b Ib) as [[O Es] | (ps & Pb & Z)]; [rewrite (kin_at_same b Es), (proj1 (proj1 Sc b O)); reflexivity | ].
    destruct (Z k Dk) as (-> & _ & -> & _). rewrite !dot6_zl. reflexivity.
  Qed.
End Pair.

Definition massive (sc : scene) (b : nat) : bool := existsb (fun x => Rltb 0 x) (list6 (b_mass sc b)).
Section Weights.
  Context (e : env) (sc sc' : scene) (h h' : @heap R) (t : tree) (J J' : nat -> jstate) (P : nat -> bool) (fuel fuel' : nat) (st0 st0' st st' : store) (d d' : wdyn).
  Hypothesis R1 : ready e h t.
  Hypothesis R2 : ready e h' t.
  Hypothesis G1 : rigid_scene e sc t J.
  Hypothesis G2 : rigid_scene e sc' t J'.
  Hypothesis F1 : (height t < fuel)%nat.
  Hypothesis F2 : (height t < fuel')%nat.
  Hypothesis Wh : whole_robots t P.
  Hypothesis Ef : jframes h' = jframes h.
  Hypothesis Sc : same_scene t P h sc sc'.
  Hypothesis EJ : forall j, In j (joints t) -> P j = true -> J' j = J j.
  Hypothesis E1 : world_update_dynamic e sc h J fuel st0 = Ok (st, d).
  Hypothesis E2 : world_update_dynamic e sc' h' J' fuel' st0' = Ok (st', d').
  Lemma weights_local n g r r' : wc_update sc st (WC (filter (massive sc) (tl (bodies t))) g mzero) = Ok r -> wc_update sc' st' (WC (filter (massive sc') (tl (bodies t))) g mzero) = Ok r' ->
    local n (own_dof h t P) r r'.
  Proof.
    intros U1 U2. unfold wc_update in U1, U2. cbn [wc_bodies wc_dtwist wc_imp] in U1, U2.
    destruct (wc_loop_ok sc st g t (fun b => k_pose (kin_at st b)) (fun b => k_jac (kin_at st b)) (filter (massive sc) (tl (bodies t)))) with (f := vzero) as (f & W1 & V1).
    { intros b Hb. apply filter_In in Hb. apply tl_body. apply Hb. }
    { exact (rigid_at e sc h t J fuel st0 st d R1 G1 F1 E1). }
    destruct (wc_loop_ok sc' st' g t (fun b => k_pose (kin_at st' b)) (fun b => k_jac (kin_at st' b)) (filter (massive sc') (tl (bodies t)))) with (f := vzero) as (f' & W2 & V2).
    { intros b Hb. apply filter_In in Hb. apply tl_body. apply Hb. }
    { exact (rigid_at e sc' h' t J' fuel' st0' st' d' R2 G2 F2 E2). }
    rewrite W1 in U1. rewrite W2 in U2. cbn [rbind] in U1, U2. injection U1 as <-. injection U2 as <-. unfold local. cbn [fst snd].
    split; [ | split; [reflexivity | auto]]. intros k _ Dk. rewrite V1, V2, !sumlist_filter. f_equal. apply sumlist_ext. intros b Ib.
    destruct (body_cases e sc sc' h h' t J J' P fuel fuel' st0 st0' st st' d d' R1 R2 G1 G2 F1 F2 Wh Ef Sc EJ E1 E2 b Ib) as [[O Es] | (ps & Pb & Z)].
    - rewrite (kin_at_same st st' b Es). unfold massive. rewrite (proj1 (proj1 Sc b O)). reflexivity.
    - destruct (Z k Dk) as (-> & _ & -> & _). rewrite !dot6_zl. destruct (massive sc b), (massive sc' b); reflexivity.
  Qed.
End Weights.

(** *** PD controllers *)
Lemma assign_out {A} m : forall k (v x : nat -> A) i, ~ In i m -> assign m k v x i = x i.
Proof. induction m as [ | a m IH]; intros k v x i N; cbn [assign]; [reflexivity | ]. rewrite IH by (intros H; apply N; right; exact H). unfold upd. destruct (Nat.eqb_spec i a) as [-> | ]; [exfalso; apply N; left; reflexivity | reflexivity]. Qed.
Lemma set_at_out n m v x r i : set_at n m v x = Ok r -> ~ In i m -> r i = x i.
Proof. unfold set_at. destruct m as [ | a m]; [discriminate | ]. destruct (forallb _ _); [ | discriminate]. intros E N. injection E as <-. apply (assign_out (a :: m)). exact N. Qed.
Lemma assign_prop {A} (Q : A -> Prop) m : forall k (v x : nat -> A) i, Q (x i) -> (forall j, Q (v j)) -> Q (assign m k v x i).
Proof. induction m as [ | a m IH]; intros k v x i Hx Hv; cbn [assign]; [exact Hx | ]. apply IH; [ | exact Hv]. unfold upd. destruct (Nat.eqb_spec i a) as [-> | ]; auto. Qed.
Lemma set_block_out n m v r i j : set_block n m v mzero = Ok r -> ~ In i m \/ ~ In j m -> r i j = 0.
Proof.
  unfold set_block. destruct (forallb _ _); [ | discriminate]. intros E [N | N]; injection E as <-; [rewrite assign_out by exact N; reflexivity | ].
  apply (assign_prop (fun row : vec => row j = 0)); [reflexivity | ]. intros a. rewrite assign_out by exact N. reflexivity.
Qed.
Lemma pd_out e n q v c dt r k : pd_update e n q v c dt = Ok r -> ~ In k (pd_map c) -> fst r k = 0 /\ forall l, snd r k l = 0 /\ snd r l k = 0.
Proof.
  unfold pd_update. destruct (np_stack (map (coords e q) _) _) as [g | ]; [ | discriminate]. destruct (np_stack (map (coords e v) _) _) as [g2 | ]; [ | discriminate]. cbn [rbind]. cbv zeta.
  destruct (set_at _ _ _ _) as [f | ] eqn:E1; [ | discriminate]. cbn [rbind]. destruct (set_block _ _ _ _) as [Z | ] eqn:E2; [ | discriminate]. cbn [rbind]. intros E N. injection E as <-. cbn [fst snd].
  split; [exact (set_at_out _ _ _ _ _ _ E1 N) | ]. intros l. split; apply (set_block_out _ _ _ _ _ _ E2); auto.
Qed.
Lemma rconcat_in {A B} (f : A -> res (list B)) l : forall r y, rconcat f l = Ok r -> In y r -> exists x s, In x l /\ f x = Ok s /\ In y s.
Proof.
  induction l as [ | x l IH]; intros r y E Hy; cbn [rconcat] in E; [injection E as <-; contradiction | ]. destruct (f x) as [s | ] eqn:Ex; [ | discriminate]. cbn [rbind] in E. destruct (rconcat f l) as [s' | ]; [ | discriminate]. injection E as <-.
  apply in_app_or in Hy. destruct Hy as [Hy | Hy]; [exists x, s; cbn; auto | ]. destruct (IH s' y eq_refl Hy) as (z & u & A1 & A2). exists z, u. cbn. tauto.
Qed.
(** the numbers kept by the controller are those of the dofs of its joints *)
Definition pd_mapped (h : @heap R) (c : pdctl) : Prop := rconcat (dof_range h) (pd_joints c) = Ok (pd_map c).
Lemma mapped_dof e h t P c b : ready e h t -> pd_mapped h c -> (forall j, In j (pd_joints c) -> In j (joints t) /\ P j = b) -> forall k, In k (pd_map c) -> own_dof h t P k = b.
Proof.
  intros Rd M Hj k Hk. destruct (rconcat_in _ _ _ _ M Hk) as (j & s & Ij & Es & Is). destruct (Hj j Ij) as [It Pj]. unfold dof_range in Es. destruct (jdof h j) as [[x y] | ] eqn:Dj; [ | discriminate]. injection Es as <-. apply in_seq in Is.
  destruct b; [apply own_dof_iff; exists j, x, y; repeat split; auto; lia | ].
  destruct (own_dof h t P k) eqn:Ek; [ | reflexivity]. apply own_dof_iff in Ek. destruct Ek as (i & s & d & Ii & Pi & Di & Hk'). rewrite (dof_unique e h t i j s d x y k Rd Ii It Di Dj Hk' ltac:(lia)) in Pi. congruence.
Qed.
Lemma pd_local e h h' t P n q v q' v' c c' dt r r' : ready e h t -> ready e h' t -> pd_mapped h c -> pd_mapped h' c' ->
  (forall j, In j (pd_joints c) -> In j (joints t)) -> (forall j, In j (pd_joints c') -> In j (joints t)) ->
  ((c' = c /\ forall j, In j (pd_joints c) -> P j = true) \/ ((forall j, In j (pd_joints c) -> P j = false) /\ (forall j, In j (pd_joints c') -> P j = false))) ->
  (forall j, In j (joints t) -> P j = true -> q' j = q j /\ v' j = v j) ->
  pd_update e n q v c dt = Ok r -> pd_update e n q' v' c' dt = Ok r' -> local n (own_dof h t P) r r'.
Proof.
  intros R1 R2 M1 M2 I1 I2 [[-> Hp] | [Hp Hp']] Hq U1 U2.
  - assert (Er : r' = r).
    { assert (X : forall x x' : nat -> nat -> R, (forall j, In j (pd_joints c) -> x' j = x j) -> map (coords e x') (pd_joints c) = map (coords e x) (pd_joints c)) by (intros x x' H; apply map_ext_in; intros j Hj; unfold coords; rewrite (H j Hj); reflexivity).
      unfold pd_update in U1, U2. rewrite (X q q'), (X v v') in U2 by (intros j Hj; apply Hq; auto). congruence. }
    subst r'. split; [reflexivity | ]. split; [reflexivity | ]. intros k l _ _ N. assert (M := mapped_dof e h t P c true R1 M1 (fun j Hj => conj (I1 j Hj) (Hp j Hj))).
    assert (Q : ~ In k (pd_map c) \/ ~ In l (pd_map c)). { destruct (own_dof h t P k) eqn:Ek; [right | left]; intros H; apply M in H; congruence. }
    destruct Q as [Q | Q]; destruct (pd_out _ _ _ _ _ _ _ _ U1 Q) as [_ Z]; [destruct (Z l) as [-> _] | destruct (Z k) as [_ ->]]; auto.
  - assert (M := mapped_dof e h t P c false R1 M1 (fun j Hj => conj (I1 j Hj) (Hp j Hj))). assert (M' := mapped_dof e h' t P c' false R2 M2 (fun j Hj => conj (I2 j Hj) (Hp' j Hj))). rewrite (own_dof_same e h h' t P R1 R2) in M'.
    assert (Q : forall k, own_dof h t P k = true -> (fst r k = 0 /\ forall l, snd r k l = 0 /\ snd r l k = 0) /\ (fst r' k = 0 /\ forall l, snd r' k l = 0 /\ snd r' l k = 0)).
    { intros k Ek. split; [apply (pd_out _ _ _ _ _ _ _ _ U1) | apply (pd_out _ _ _ _ _ _ _ _ U2)]; intros H; [apply M in H | apply M' in H]; congruence. }
    split; [intros k _ Ek; destruct (Q k Ek) as [[-> _] [-> _]]; reflexivity | ]. split; [intros k l _ _ Ek _; destruct (Q k Ek) as [[_ Z] [_ Z']]; rewrite (proj1 (Z l)), (proj1 (Z' l)); reflexivity | ].
    intros k l _ _ N. destruct (own_dof h t P k) eqn:Ek.
    + destruct (Q k Ek) as [[_ Z] [_ Z']]. split; [apply Z | apply Z'].
    + assert (El : own_dof h t P l = true) by (destruct (own_dof h t P l); congruence). destruct (Q l El) as [[_ Z] [_ Z']]. split; [apply Z | apply Z'].
Qed.

