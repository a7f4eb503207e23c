(** Concrete worlds: witnesses for the hypotheses of Props_Dyn, and counterexamples to C42, C44. *)
From Verif Require Import Spec_Dyn Proof_Tree Proof_World Proof_World2 Proof_World3 Proof_Dofs Proof_Register Proof_World4.
From Verif Require Import Proof_Linalg Proof_Deriv Proof_SE3 Proof_Exp Proof_Joints Proof_Dyn Proof_Dyn2 Props_Dyn.

(** ground 0 - joint 1 - body 1 - joint 2 - body 2 - joint 3 - body 3, built with the API, every
    joint attached to the bodies themselves; [ks] are the classes of the joints *)
Definition ch_e (ks : list jtype) : env :=
  Env 0 (fun _ => 0%nat) (fun _ => 0%nat) (fun _ => FBody 0) (fun _ => []) (fun j => match j with O => O | S i => ndof_of (nth i ks FixedJoint) end).
Definition ch_ops (ks : list jtype) : list (@op R) :=
  map (fun i => AddLink (FBody i) (S i) (FBody (S i))) (seq 0 (length ks)) ++ [Init].
Definition ch_h (ks : list jtype) : @heap R := run 0 (ch_e ks) 10 (ch_ops ks) (fresh (ch_e ks) (fun _ _ => 1)).
Fixpoint ch_t (i n : nat) : tree := match n with O => Node i [] | S k => Node i [(S i, ch_t (S i) k)] end.
Definition ch_sc (m : nat -> m6) : scene := Scene m (fun _ => eye6) (fun _ => eye4) (fun _ => eye4).
Definition ch_J (ks : list jtype) (q : nat -> nat -> R) (v : nat -> nat -> R) (j : nat) : jstate :=
  JS (match j with O => FixedJoint | S i => nth i ks FixedJoint end) eye4 (q j) (v j).

Ltac ch_ready := split; [ | split; [reflexivity | split; [cbn; repeat (constructor; [cbn; intuition discriminate | ]); constructor | split; [reflexivity | ]]]];
  [ repeat (constructor; [reflexivity | ]; constructor;
      [split; [split; [do 2 eexists; split; [reflexivity | split; reflexivity] | reflexivity] | cbn [snd]] | constructor]); constructor; [reflexivity | constructor]
  | intros l1 j l2; cbn [joints ch_t app]; intros Hl; repeat (destruct l1 as [ | ? l1]; [injection Hl as <- _; reflexivity | injection Hl as <- Hl]); destruct l1; discriminate ].

Definition k12 := [RzJoint; RzRyJoint].
Lemma k12_ready : ready (ch_e k12) (ch_h k12) (ch_t 0 2).
Proof. ch_ready. Qed.
Definition k1 := [RzRyRxJoint].
Lemma k1_ready : ready (ch_e k1) (ch_h k1) (ch_t 0 1).
Proof. ch_ready. Qed.
Definition k123 := [RzJoint; RyJoint; RxJoint].
Lemma k123_ready : ready (ch_e k123) (ch_h k123) (ch_t 0 3).
Proof. ch_ready. Qed.
Definition k2 := [RzRyJoint].
Lemma k2_ready : ready (ch_e k2) (ch_h k2) (ch_t 0 1).
Proof. ch_ready. Qed.
Definition k22 := [RzJoint; RyJoint].
Lemma k22_ready : ready (ch_e k22) (ch_h k22) (ch_t 0 2).
Proof. ch_ready. Qed.
Lemma ch_rigid ks n m q v : Forall (fun k => k <> FreeJoint) ks -> rigid_scene (ch_e ks) (ch_sc m) (ch_t 0 n) (ch_J ks q v).
Proof.
  intros Fk. split; [intros [b | b | b]; apply SE3_eye | ]. intros j _. split.
  - intros E. cbn [ch_J jt] in E. destruct j as [ | j]; [discriminate | ].
    destruct (Nat.lt_ge_cases j (length ks)) as [L | L]; [ | rewrite nth_overflow in E by auto; discriminate].
    rewrite Forall_forall in Fk. apply (Fk (nth j ks FixedJoint)) in E; [contradiction | apply nth_In; auto].
  - destruct j; reflexivity.
Qed.
Lemma ch_updated ks n m q v : ready (ch_e ks) (ch_h ks) (ch_t 0 n) -> Forall (fun k => k <> FreeJoint) ks ->
  exists sd, updated (ch_e ks) (ch_sc m) (ch_h ks) (ch_t 0 n) (ch_J ks q v) sd /\
    sd 0%nat = attr (m 0%nat) kin0.
Proof.
  intros Rd Fk. assert (Ri := ch_rigid ks n m q v Fk).
  destruct (world_ok _ _ _ _ _ (S (height (ch_t 0 n))) (fun _ => no_attr) Rd Ri (le_n _)) as (sd & d & E & P & _).
  exists sd. split.
  - split; auto. split; auto. do 3 eexists. split; [ | exact E]. auto.
  - replace 0%nat with (root (ch_t 0 n)) by (destruct n; reflexivity). rewrite (P _ _ (path_root_nil _)). cbn [map kin_of fold_right ch_sc b_mass]. reflexivity.
Qed.
Ltac lins := match goal with |- In _ _ => cbn; auto 6 end.
(** the premises of C34_three_hinges and C34_two_hinges are met *)
Example C34_witness : forall q v m, exists sd sd',
  updated (ch_e k1) (ch_sc m) (ch_h k1) (ch_t 0 1) (ch_J k1 (fun _ => q) (fun _ => v)) sd /\
  updated (ch_e k123) (ch_sc m) (ch_h k123) (ch_t 0 3) (ch_J k123 (fun j _ => q (pred j)) (fun j _ => v (pred j))) sd' /\
  same_motion sd sd' 1 3.
Proof.
  intros q v m.
  destruct (ch_updated k1 1 m (fun _ => q) (fun _ => v) k1_ready) as (sd & U & G); [repeat constructor; discriminate | ].
  destruct (ch_updated k123 3 m (fun j _ => q (pred j)) (fun j _ => v (pred j)) k123_ready) as (sd' & U' & G'); [repeat constructor; discriminate | ].
  exists sd, sd'. split; auto. split; auto.
  apply (C34_three_hinges _ _ _ _ _ _ _ _ _ _ _ _ 1 (FBody 0) (FBody 1) 1 2 3 (FBody 0) (FBody 1) (FBody 1) (FBody 2) (FBody 2) (FBody 3) 0 U U'); try reflexivity;
    try (split; [lins | split; [reflexivity | eexists; reflexivity]]); try (repeat split; reflexivity).
  exists eye4, (fun _ => zero6), (fun _ => zero6), zero6. cbn [frame_body]. rewrite G, G'. repeat split; reflexivity.
Qed.
Example C34_witness2 : forall q v m, exists sd sd',
  updated (ch_e k2) (ch_sc m) (ch_h k2) (ch_t 0 1) (ch_J k2 (fun _ => q) (fun _ => v)) sd /\
  updated (ch_e k22) (ch_sc m) (ch_h k22) (ch_t 0 2) (ch_J k22 (fun j _ => q (pred j)) (fun j _ => v (pred j))) sd' /\
  same_motion sd sd' 1 2.
Proof.
  intros q v m.
  destruct (ch_updated k2 1 m (fun _ => q) (fun _ => v) k2_ready) as (sd & U & G); [repeat constructor; discriminate | ].
  destruct (ch_updated k22 2 m (fun j _ => q (pred j)) (fun j _ => v (pred j)) k22_ready) as (sd' & U' & G'); [repeat constructor; discriminate | ].
  exists sd, sd'. split; auto. split; auto.
  apply (C34_two_hinges RzJoint RyJoint RzRyJoint _ _ _ _ _ _ _ _ _ _ _ _ 1 (FBody 0) (FBody 1) 1 2 (FBody 0) (FBody 1) (FBody 1) (FBody 2) 0 ltac:(left; reflexivity) U U'); try reflexivity;
    try (split; [lins | split; [reflexivity | eexists; reflexivity]]); try (repeat split; reflexivity).
  exists eye4, (fun _ => zero6), (fun _ => zero6), zero6. cbn [frame_body]. rewrite G, G'. repeat split; reflexivity.
Qed.

(** A motion of the Rz - RzRy chain: unit rates, all coordinates running. *)
Definition mv_q (u : R) (j i : nat) : R := match i with O => u | _ => PI / 4 + u end.
Definition mv_f (ks : list jtype) (u : R) : nat -> jstate := ch_J ks (mv_q u) (fun _ _ => 1).
Lemma mv_motion ks n : Forall (fun k => k <> FreeJoint) ks -> world_motion (ch_t 0 n) (mv_f ks) 0.
Proof.
  intros Fk j Ij. assert (N : jt (mv_f ks 0 j) <> FreeJoint).
  { intros E. destruct (ch_rigid ks n (fun _ => eye6) (mv_q 0) (fun _ _ => 1) Fk) as [_ V].
    cbn [mv_f ch_J jt] in E. destruct j as [ | j]; [discriminate | ].
    destruct (Nat.lt_ge_cases j (length ks)) as [L | L]; [ | rewrite nth_overflow in E by auto; discriminate].
    rewrite Forall_forall in Fk. apply (Fk (nth j ks FixedJoint)) in E; [contradiction | apply nth_In; auto]. }
  split; [intros s; split; [reflexivity | intros E; contradiction (N E)] | ].
  split; [intros E; contradiction (N E) | ]. intros _ i _. cbn [mv_f ch_J gpos gvel]. destruct i; cbn [mv_q].
  - apply Did.
  - eapply dconv; [apply Dplus; [apply Dconst | apply Did] | ring].
Qed.

(** the premises of C39-C44 are met (with a mass and a world velocity) *)
Example C39_C44_witness : let ks := [RzJoint; RyJoint; RxJoint] in
  let m := fun _ : nat => rigid_mass 2 (V3 1 0 0) (mscal 3 eye3) in
  ready (ch_e ks) (ch_h ks) (ch_t 0 3) /\ rigid_scene (ch_e ks) (ch_sc m) (ch_t 0 3) (mv_f ks 0) /\
  world_motion (ch_t 0 3) (mv_f ks) 0 /\ world_velocity (ch_e ks) (ch_h ks) (ch_t 0 3) (mv_f ks 0) (fun _ => 1) /\
  (forall b, sym6 (m b) /\ psd6 (m b)) /\
  above (ch_t 0 3) 3 [3; 2; 1]%nat /\ djac_safe (fun j => jt (mv_f ks 0 j)) [3; 2; 1]%nat /\
  exists St D, forall u, world_update_dynamic (ch_e ks) (ch_sc m) (ch_h ks) (mv_f ks u) 10 (fun _ => no_attr) = Ok (St u, D u).
Proof.
  cbn zeta. set (ks := [RzJoint; RyJoint; RxJoint]). set (m := fun _ : nat => rigid_mass 2 (V3 1 0 0) (mscal 3 eye3)).
  assert (Fk : Forall (fun k => k <> FreeJoint) ks) by (repeat constructor; discriminate).
  split; [exact k123_ready | ]. split; [apply ch_rigid; auto | ]. split; [apply mv_motion; auto | ].
  split; [intros j s d _ _ i _; reflexivity | ]. split.
  { intros b. split.
    - intros u v. unfold m, rigid_mass. dall. unf. ring.
    - intros [[a1 a2 a3] [b1 b2 b3]]. unfold m, rigid_mass. unf.
      assert (Q := Rle_0_sqr). assert (Q1 := Q b1). assert (Q2 := Q (b2 + a3)). assert (Q3 := Q (b3 - a2)). assert (Q4 := Q a1). assert (Q5 := Q a2). assert (Q6 := Q a3).
      unfold Rsqr in *. lra. }
  split.
  { exists [(3, 2); (2, 1); (1, 0)]%nat. split; [ | reflexivity].
    apply (path_step 0 _ 1 (ch_t 1 2) 3 [(3, 2); (2, 1)]%nat); [now left | ].
    apply (path_step 1 _ 2 (ch_t 2 1) 3 [(3, 2)]%nat); [now left | ].
    apply (path_step 2 _ 3 (ch_t 3 0) 3 []); [now left | constructor]. }
  split.
  { intros l1 j l2 E. left. repeat (destruct l1 as [ | ? l1]; [injection E as <- _; exact Logic.I | injection E as <- E]). destruct l1; discriminate. }
  assert (X : forall u, exists sd_d, world_update_dynamic (ch_e ks) (ch_sc m) (ch_h ks) (mv_f ks u) 10 (fun _ => no_attr) = Ok sd_d).
  { intros u. destruct (world_ok _ _ _ _ (mv_f ks u) 10 (fun _ => no_attr) k123_ready (ch_rigid ks 3 m (mv_q u) (fun _ _ => 1) Fk)) as (sd & d & E & _); [cbn; lia | ].
    exists (sd, d). exact E. }
  exists (fun u => match world_update_dynamic (ch_e ks) (ch_sc m) (ch_h ks) (mv_f ks u) 10 (fun _ => no_attr) with Ok x => fst x | Err _ => fun _ => no_attr end),
         (fun u => match world_update_dynamic (ch_e ks) (ch_sc m) (ch_h ks) (mv_f ks u) 10 (fun _ => no_attr) with Ok x => snd x | Err _ => wdyn0 end).
  intros u. destruct (X u) as [[a b] ->]. reflexivity.
Qed.

(** ** Counterexample *)
Definition ce_m (b : nat) : m6 := if Nat.eqb b 2 then rigid_mass 1 zero3 eye3 else zerom6.
Lemma k12_frames1 : jframes (ch_h k12) 1 = Some (FBody 0, FBody 1). Proof. reflexivity. Qed.
Lemma k12_frames2 : jframes (ch_h k12) 2 = Some (FBody 1, FBody 2). Proof. reflexivity. Qed.
Lemma k12_dof1 : jdof (ch_h k12) 1 = Some (0, 1)%nat. Proof. reflexivity. Qed.
Lemma k12_dof2 : jdof (ch_h k12) 2 = Some (1, 3)%nat. Proof. reflexivity. Qed.
Lemma ce_k1 u : kin_of (ch_sc ce_m) (ch_h k12) (mv_f k12 u) [1]%nat =
  stepk (ch_sc ce_m) (ch_h k12) (mv_f k12 u 1%nat) (0, 1)%nat (FBody 0) (FBody 1) kin0.
Proof. unfold kin_of. cbn [fold_right]. unfold stepj. rewrite k12_frames1, k12_dof1. reflexivity. Qed.
Lemma ce_k2 u : kin_of (ch_sc ce_m) (ch_h k12) (mv_f k12 u) [2; 1]%nat =
  stepk (ch_sc ce_m) (ch_h k12) (mv_f k12 u 2%nat) (1, 3)%nat (FBody 1) (FBody 2) (kin_of (ch_sc ce_m) (ch_h k12) (mv_f k12 u) [1]%nat).
Proof.
  unfold kin_of at 1. cbn [fold_right]. fold (kin_of (ch_sc ce_m) (ch_h k12) (mv_f k12 u) [1]%nat).
  change (stepj (ch_sc ce_m) (ch_h k12) (mv_f k12 u) 1 kin0) with (kin_of (ch_sc ce_m) (ch_h k12) (mv_f k12 u) [1]%nat).
  unfold stepj. rewrite k12_frames2, k12_dof2. reflexivity.
Qed.
Lemma ce_jac_1 u : k_jac (kin_of (ch_sc ce_m) (ch_h k12) (mv_f k12 u) [1]%nat) 0%nat = e6 2.
Proof. rewrite ce_k1. cbn [stepk k_jac kin0 fst snd bpose]. rewrite adjoint_eye, mv6_zero6, v6add_0_l. unfold slice_col. cbn [Nat.leb Nat.ltb andb Nat.sub]. apply mv6_1. Qed.
Lemma ce_djac_1 u : k_djac (kin_of (ch_sc ce_m) (ch_h k12) (mv_f k12 u) [1]%nat) 0%nat = zero6.
Proof. rewrite ce_k1. cbn [stepk k_djac k_jac kin0 fst snd bpose]. rewrite adjoint_eye, !mv6_zero6, !v6add_0_l. unfold slice_col. cbn [Nat.leb Nat.ltb andb Nat.sub]. apply mv6_1. Qed.
Lemma rel_bodies sc s a b : rel_ sc s (FBody a) (FBody b) = pose s.
Proof. unfold rel_. cbn [bpose]. rewrite inv_eye, mm4_1_r, mm4_1_l. reflexivity. Qed.
Lemma ce_jac u c : k_jac (kin_of (ch_sc ce_m) (ch_h k12) (mv_f k12 u) [2; 1]%nat) c =
  match c with 0%nat | 1%nat => acol (- sin (PI / 4 + u)) 0 (cos (PI / 4 + u)) | 2%nat => acol 0 1 0 | _ => zero6 end.
Proof.
  rewrite ce_k2. cbn [stepk k_jac fst snd bpose]. rewrite rel_bodies, adjoint_eye. unfold slice_col.
  assert (Z : forall c, (0 < c)%nat -> k_jac (kin_of (ch_sc ce_m) (ch_h k12) (mv_f k12 u) [1]%nat) c = zero6).
  { intros c' Hc. rewrite ce_k1. cbn [stepk k_jac kin0 fst snd bpose]. rewrite adjoint_eye, mv6_zero6, v6add_0_l. unfold slice_col.
    replace (c' <? 1)%nat with false by (symmetry; apply Nat.ltb_ge; lia). rewrite andb_false_r. reflexivity. }
  destruct c as [ | [ | [ | c]]].
  - rewrite ce_jac_1. cbn [Nat.leb Nat.ltb andb Nat.sub]. rewrite v6add_0_r. unfold mv_f, ch_J, pose, k12, rotzy, e6, v6of, acol. cbn [nth jt gpos mv_q Nat.eqb]. cbv zeta. lin.
  - rewrite Z, mv6_zero6, v6add_0_l by lia. cbn [Nat.leb Nat.ltb andb Nat.sub]. rewrite mv6_1. reflexivity.
  - rewrite Z, mv6_zero6, v6add_0_l by lia. cbn [Nat.leb Nat.ltb andb Nat.sub]. rewrite mv6_1. reflexivity.
  - rewrite Z, mv6_zero6, v6add_0_l by lia. cbn [Nat.leb Nat.ltb andb Nat.sub]. destruct c; reflexivity.
Qed.
Lemma ce_djac c : let s := sin (PI / 4 + 0) in let d := cos (PI / 4 + 0) in
  k_djac (kin_of (ch_sc ce_m) (ch_h k12) (mv_f k12 0) [2; 1]%nat) c =
  match c with 0%nat => acol (- d) (- (2 * s * d)) (- s) | 1%nat => acol (- d) 0 (- s) | _ => zero6 end.
Proof.
  cbv zeta. rewrite ce_k2. cbn [stepk k_djac fst snd bpose]. rewrite rel_bodies, adjoint_eye, inv_eye, adjoint_eye, mm6_1_l, mm6_1_r. unfold slice_col.
  assert (Z : forall c, (0 < c)%nat -> k_jac (kin_of (ch_sc ce_m) (ch_h k12) (mv_f k12 0) [1]%nat) c = zero6 /\ k_djac (kin_of (ch_sc ce_m) (ch_h k12) (mv_f k12 0) [1]%nat) c = zero6).
  { intros c' Hc. rewrite ce_k1. cbn [stepk k_jac k_djac kin0 fst snd bpose]. rewrite adjoint_eye, !mv6_zero6, !v6add_0_l. unfold slice_col.
    replace (c' <? 1)%nat with false by (symmetry; apply Nat.ltb_ge; lia). rewrite andb_false_r. auto. }
  destruct c as [ | c].
  - rewrite ce_jac_1, ce_djac_1. cbn [Nat.leb Nat.ltb andb Nat.sub]. rewrite mv6_zero6, !v6add_0_r. rewrite mv6_mm6, twist_sum.
    unfold mv_f, ch_J, pose, k12, rotzy, jacobian, e6, v6of, acol. cbn [nth jt gpos gvel ndof_of sum6 mv_q Nat.eqb]. cbv zeta. rewrite sin_0, cos_0.
    assert (Q := sin2_cos2 (PI / 4 + 0)). unfold Rsqr in Q. set (s := sin _) in *. set (d := cos _) in *. clearbody s d.
    unf. f_equal; f_equal; ring.
  - destruct (Z (S c)) as [-> ->]; [lia | ]. rewrite !mv6_zero6, !v6add_0_l. destruct c as [ | [ | c]]; cbn [Nat.leb Nat.ltb andb Nat.sub]; rewrite ?mv6_1.
    + unfold djacobian, mv_f, ch_J, k12. cbn [nth jt gpos gvel mv_q]. cbv zeta. f_equal; lin.
    + reflexivity.
    + destruct c; reflexivity.
Qed.

Lemma ce_path : path (ch_t 0 2) 2 [(2, 1); (1, 0)]%nat.
Proof. apply (path_step 0 _ 1 (ch_t 1 1) 2 [(2, 1)]%nat); [now left | ]. apply (path_step 1 _ 2 (ch_t 2 0) 2 []); [now left | constructor]. Qed.
Lemma k12_nofree : Forall (fun k => k <> FreeJoint) k12. Proof. repeat constructor; discriminate. Qed.
Lemma k12_world : exists St D, forall u,
  world_update_dynamic (ch_e k12) (ch_sc ce_m) (ch_h k12) (mv_f k12 u) 10 (fun _ => no_attr) = Ok (St u, D u) /\
  St u 2%nat = attr (ce_m 2) (kin_of (ch_sc ce_m) (ch_h k12) (mv_f k12 u) [2; 1]%nat) /\
  (forall k l, d_mass (D u) k l = dot6 (k_jac (kin_of (ch_sc ce_m) (ch_h k12) (mv_f k12 u) [2; 1]%nat) k)
       (mv6 (ce_m 2) (k_jac (kin_of (ch_sc ce_m) (ch_h k12) (mv_f k12 u) [2; 1]%nat) l))) /\
  (forall k l, let K := kin_of (ch_sc ce_m) (ch_h k12) (mv_f k12 u) [2; 1]%nat in
     d_nle (D u) k l = dot6 (k_jac K k) (v6add (mv6 (ce_m 2) (k_djac K l)) (mv6 (body_nle (ce_m 2) (k_twist K)) (k_jac K l)))).
Proof.
  assert (X : forall u, exists sd d, world_update_dynamic (ch_e k12) (ch_sc ce_m) (ch_h k12) (mv_f k12 u) 10 (fun _ => no_attr) = Ok (sd, d) /\
     sd 2%nat = attr (ce_m 2) (kin_of (ch_sc ce_m) (ch_h k12) (mv_f k12 u) [2; 1]%nat) /\
  (forall k l, d_mass d k l = dot6 (k_jac (kin_of (ch_sc ce_m) (ch_h k12) (mv_f k12 u) [2; 1]%nat) k)
       (mv6 (ce_m 2) (k_jac (kin_of (ch_sc ce_m) (ch_h k12) (mv_f k12 u) [2; 1]%nat) l))) /\
  (forall k l, let K := kin_of (ch_sc ce_m) (ch_h k12) (mv_f k12 u) [2; 1]%nat in
     d_nle d k l = dot6 (k_jac K k) (v6add (mv6 (ce_m 2) (k_djac K l)) (mv6 (body_nle (ce_m 2) (k_twist K)) (k_jac K l))))).
  { intros u. destruct (world_ok _ _ _ _ (mv_f k12 u) 10 (fun _ => no_attr) k12_ready (ch_rigid k12 2 ce_m (mv_q u) (fun _ _ => 1) k12_nofree)) as (sd & d & E & P & _ & Md & _ & Nd); [cbn; lia | ].
    exists sd, d. split; auto. assert (S2 := P _ _ ce_path). cbn [map fst] in S2. split; auto.
    assert (Z : forall x, mv6 zerom6 x = zero6) by (intros; lin).
    assert (Z' : forall x T, mv6 (body_nle zerom6 T) x = zero6) by (intros; unfold body_nle; rewrite mv6_mm6, Z; apply mv6_zero6).
    assert (Zd : forall x, dot6 x zero6 = 0) by (intros; unf; ring).
    split.
    - intros k l. rewrite Md. change (tl (bodies (ch_t 0 2))) with [1; 2]%nat. cbn [suml map fold_right]. unfold congr.
      change (b_mass (ch_sc ce_m) 1) with zerom6. change (b_mass (ch_sc ce_m) 2) with (ce_m 2). rewrite Z, Zd.
      rewrite (kin_at_attr _ _ _ _ S2). ring.
    - intros k l. rewrite Nd. change (tl (bodies (ch_t 0 2))) with [1; 2]%nat. cbn [suml map fold_right].
      change (b_mass (ch_sc ce_m) 1) with zerom6. change (b_mass (ch_sc ce_m) 2) with (ce_m 2). rewrite Z, Z', v6add_0_l, Zd.
      rewrite (kin_at_attr _ _ _ _ S2). cbn zeta. ring. }
  set (w := fun u => world_update_dynamic (ch_e k12) (ch_sc ce_m) (ch_h k12) (mv_f k12 u) 10 (fun _ => no_attr)) in *.
  exists (fun u => match w u with Ok x => fst x | Err _ => fun _ => no_attr end), (fun u => match w u with Ok x => snd x | Err _ => wdyn0 end).
  intros u. destruct (X u) as (sd & d & E & Y). fold (w u) in E. fold (w u). rewrite E. auto.
Qed.
Lemma sc_pos : 0 < sin (PI / 4 + 0) /\ 0 < cos (PI / 4 + 0).
Proof. assert (P := PI_RGT_0). split; [apply sin_gt_0 | apply cos_gt_0]; lra. Qed.

(** C42 fails for the body carried by an RzRy joint whose parent body moves. *)
Theorem C42_djacobian_refuted : exists e sc h t f s fuel st (St : R -> store) (D : R -> wdyn),
  ready e h t /\ rigid_scene e sc t (f s) /\ world_motion t f s /\ (height t < fuel)%nat /\
  (forall u, world_update_dynamic e sc h (f u) fuel st = Ok (St u, D u)) /\
  exists b A dA, In b (bodies t) /\ (forall u, frame_jac e sc (St u) (FBody b) = Ok (A u)) /\ frame_djac e sc (St s) (FBody b) = Ok dA /\
    exists c, (c < w_ndof h)%nat /\ ~ dv6 (fun u => A u c) s (dA c).
Proof.
  destruct k12_world as (St & D & W).
  exists (ch_e k12), (ch_sc ce_m), (ch_h k12), (ch_t 0 2), (mv_f k12), 0, 10%nat, (fun _ => no_attr), St, D.
  split; [exact k12_ready | ]. split; [apply ch_rigid, k12_nofree | ]. split; [apply mv_motion, k12_nofree | ]. split; [cbn; lia | ].
  split; [intros u; apply W | ].
  exists 2%nat, (fun u => k_jac (kin_of (ch_sc ce_m) (ch_h k12) (mv_f k12 u) [2; 1]%nat)), (k_djac (kin_of (ch_sc ce_m) (ch_h k12) (mv_f k12 0) [2; 1]%nat)).
  split; [cbn; auto | ]. split; [intros u; unfold frame_jac; rewrite (proj1 (proj2 (W u))); reflexivity | ].
  split; [unfold frame_djac; rewrite (proj1 (proj2 (W 0))); reflexivity | ].
  exists 0%nat. split; [change (w_ndof (ch_h k12)) with 3%nat; lia | ]. intros Dv.
  rewrite ce_djac in Dv. destruct Dv as [(_ & Dy & _) _]. cbn [acol ang vy] in Dy.
  assert (X : derivable_pt_lim (fun _ : R => 0) 0 (- (2 * sin (PI / 4 + 0) * cos (PI / 4 + 0)))).
  { eapply dext; [ | exact Dy]. intros u. cbv beta. rewrite ce_jac. reflexivity. }
  assert (E := derivable_unique _ _ _ _ X (Dconst 0 0)). destruct sc_pos as [P1 P2].
  assert (P := Rmult_lt_0_compat _ _ P1 P2). lra.
Qed.

(** C44 fails in the same world: its mass matrix is constant along the motion, yet v'Nv is not 0:
    the kinetic energy of the equation of motion is not balanced by the power of the forces. *)
Theorem C80_world_refuted : exists e sc h t f s v fuel st (St : R -> store) (D : R -> wdyn),
  ready e h t /\ rigid_scene e sc t (f s) /\ world_motion t f s /\ (height t < fuel)%nat /\
  (forall u, world_update_dynamic e sc h (f u) fuel st = Ok (St u, D u)) /\
  world_velocity e h t (f s) v /\
  (forall b, In b (tl (bodies t)) -> exists m c I0, (1 / 10000000000 < m \/ m = 0) /\ tr I0 = I0 /\ b_mass sc b = rigid_mass m c I0) /\
  (forall u k l, (k < w_ndof h)%nat -> (l < w_ndof h)%nat -> d_mass (D u) k l = d_mass (D s) k l) /\ quad (w_ndof h) v (d_nle (D s)) v <> 0.
Proof.
  destruct k12_world as (St & D & W).
  exists (ch_e k12), (ch_sc ce_m), (ch_h k12), (ch_t 0 2), (mv_f k12), 0, (fun _ => 1), 10%nat, (fun _ => no_attr), St, D.
  split; [exact k12_ready | ]. split; [apply ch_rigid, k12_nofree | ]. split; [apply mv_motion, k12_nofree | ]. split; [cbn; lia | ].
  split; [intros u; apply W | ]. split; [intros j s d _ _ i _; reflexivity | ].
  split.
  { intros b [<- | [<- | []]].
    - exists 0, zero3, zerom3. split; [right; reflexivity | ]. split; [lin | ]. change (b_mass (ch_sc ce_m) 1) with zerom6. unfold rigid_mass, zerom6. f_equal; lin.
    - exists 1, zero3, eye3. split; [left; lra | ]. split; [lin | ]. reflexivity. }
  change (w_ndof (ch_h k12)) with 3%nat.
  assert (MI : forall u v, dot6 (acol (vx u) (vy u) (vz u)) (mv6 (ce_m 2) (acol (vx v) (vy v) (vz v))) = dot3 u v).
  { intros u v. change (ce_m 2) with (rigid_mass 1 zero3 eye3). unfold rigid_mass, acol. dall. unf. ring. }
  split.
  - intros u k l Hk Hl. rewrite !(proj1 (proj2 (proj2 (W _)))), !ce_jac.
    assert (Q := sin2_cos2 (PI / 4 + u)). assert (Q0 := sin2_cos2 (PI / 4 + 0)). unfold Rsqr in *.
    assert (MI' : forall a b c a' b' c', dot6 (acol a b c) (mv6 (ce_m 2) (acol a' b' c')) = a * a' + b * b' + c * c')
      by (intros; exact (MI (V3 a b c) (V3 a' b' c'))).
    destruct k as [ | [ | [ | k]]]; try lia; destruct l as [ | [ | [ | l]]]; try lia; rewrite !MI'; lra.
  - rewrite (quad_ext _ _ _ _ _ (proj2 (proj2 (proj2 (W 0))))). cbn zeta.
    set (K := kin_of (ch_sc ce_m) (ch_h k12) (mv_f k12 0) [2; 1]%nat).
    rewrite (quad_dot _ (fun _ => 1) (k_jac K) (fun l => v6add (mv6 (ce_m 2) (k_djac K l)) (mv6 (body_nle (ce_m 2) (k_twist K)) (k_jac K l))) (fun _ => 1)).
    rewrite (sum6_ext _ (fun k => v6scal 1 (v6add _ _)) (fun k => v6add (mv6 (ce_m 2) (v6scal 1 (k_djac K k))) (mv6 (body_nle (ce_m 2) (k_twist K)) (v6scal 1 (k_jac K k)))))
      by (intros; rewrite v6scal_add, !mv6_scal; reflexivity).
    rewrite sum6_add, !sum6_mv6.
    assert (TW : k_twist K = sum6 3 (fun k => v6scal 1 (k_jac K k))).
    { apply (kin_twist (ch_e k12) (ch_sc ce_m) (ch_h k12) (ch_t 0 2) (mv_f k12 0) (fun _ => 1) k12_ready (ch_rigid k12 2 ce_m (mv_q 0) (fun _ _ => 1) k12_nofree)).
      - intros j s d _ _ i _; reflexivity.
      - intros j Ij. apply (proj2 (path_in _ _ _ ce_path)). exact Ij. }
    rewrite <- TW, dot6_add_r. change (ce_m 2) with (rigid_mass 1 zero3 eye3) at 2. rewrite nle_power by lra. rewrite TW.
    cbn [sum6]. unfold K. rewrite !ce_jac, !ce_djac. change (ce_m 2) with (rigid_mass 1 zero3 eye3).
    destruct sc_pos as [P1 P2]. assert (P := Rmult_lt_0_compat _ _ P1 P2). set (s := sin _) in *. set (c := cos _) in *. clearbody s c.
    intros E. apply (Rlt_irrefl 0). rewrite <- E at 1. unfold rigid_mass, acol. unf. lra.
Qed.
