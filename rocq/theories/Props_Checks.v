(** C69, C70: what isadjointmatrix and ismassmatrix recognise; joints integrated on their own. *)
From Coq Require Import Lra Lia.
From Verif Require Import Spec_Mass Spec_Step.
From Verif Require Import Proof_Linalg Proof_SE3 Proof_Dyn2 Proof_Matrix Proof_Eig Proof_Spectral Props_Mass Proof_Robots2 Props_Robots2 Proof_Human36.
Open Scope R_scope.

(** ** Joint.integrate called directly *)
Theorem C45_joint_integrate : forall j v dt, moved_by j (j_integrate j v dt) (ndof_of (jt j)) v dt.
Proof. intros [k H q w] v dt. unfold moved_by, j_integrate. destruct k; cbn; (split; [reflexivity | ]); (split; [try reflexivity; auto | auto]); intros; lia. Qed.
Print Assumptions C45_joint_integrate.

(** ** C69 *)
Lemma m3eqb_iff a b : m3eqb a b = true <-> a = b.
Proof.
  destruct a, b. unfold m3eqb, v3eqb, Reqb. cbn. split.
  - intros H. repeat match goal with X : _ && _ = true |- _ => apply andb_prop in X; destruct X end. repeat match goal with X : (if Req_EM_T ?x ?y then true else false) = true |- _ => destruct (Req_EM_T x y); [subst; clear X | discriminate] end. reflexivity.
  - intros H. injection H as <- <- <- <- <- <- <- <- <-. repeat match goal with |- context [Req_EM_T ?x ?y] => destruct (Req_EM_T x y); [ | congruence] end. reflexivity.
Qed.
(** every adjoint is recognised, and what is recognised has the blocks of an adjoint up to the properties that are not looked at *)
Theorem C69_adjoints_accepted : forall H A, SE3 H -> adjoint H = Ok A -> isadjointmatrix A = true.
Proof.
  intros H A S E. rewrite (adjoint_ok H S) in E. apply Props_Draw.Ok_inj in E. subst A. unfold isadjointmatrix, adjoint_. cbn [aa al ll]. destruct S as ((O & D) & _).
  rewrite (proj2 (m3eqb_iff _ _) eq_refl), (proj2 (m3eqb_iff _ _) eq_refl). rewrite D. unfold Reqb. destruct (Req_EM_T 1 1); [reflexivity | congruence].
Qed.
Print Assumptions C69_adjoints_accepted.
Theorem C69_shape_partial : forall A, isadjointmatrix A = true <-> det3 (aa A) = 1 /\ ll A = aa A /\ al A = zerom3.
Proof.
  intros A. unfold isadjointmatrix. rewrite !andb_true_iff, !m3eqb_iff. unfold Reqb. destruct (Req_EM_T (det3 (aa A)) 1) as [D | D]; split; intros; intuition congruence.
Qed.
Print Assumptions C69_shape_partial.
(** a matrix that stretches by 2 is recognised: it is the adjoint of no displacement, and adjointmatrix.inv does not invert it *)
Definition stretch : m6 := M6 (M3 2 0 0 0 (1/2) 0 0 0 1) zerom3 zerom3 (M3 2 0 0 0 (1/2) 0 0 0 1).
(** so is a matrix with rotation blocks but an arbitrary lower left block *)
Definition askew : m6 := M6 eye3 zerom3 eye3 eye3.
Theorem C69_refuted : exists A B, isadjointmatrix A = true /\ isadjointmatrix B = true /\ (forall H, SE3 H -> adjoint H <> Ok A /\ adjoint H <> Ok B) /\ mm6 (Ad_inv A) A <> eye6 /\ mm6 (Ad_inv B) B <> eye6.
Proof.
  exists stretch, askew. split; [apply C69_shape_partial; unfold stretch; cbn [aa al ll]; split; [unfold det3; cbn; field | auto] | ]. split; [apply C69_shape_partial; unfold askew; cbn [aa al ll]; split; [unfold det3; cbn; ring | auto] | ].
  split; [ | split].
  - intros H S. rewrite (adjoint_ok H S). destruct S as ((O & D) & _). split; intros E; apply Props_Draw.Ok_inj in E.
    + apply (f_equal aa) in E. unfold adjoint_, stretch in E. cbn [aa] in E. rewrite E in O. apply (f_equal m00) in O. revert O. clear. unf. lra.
    + assert (E1 := f_equal aa E). assert (E2 := f_equal la E). unfold adjoint_, askew in E1, E2. cbn [aa la] in E1, E2. rewrite E1 in E2. apply (f_equal m00) in E2. revert E2. clear. destruct (pos H). unf. lra.
  - intros E. apply (f_equal aa) in E. apply (f_equal m00) in E. revert E. clear. unfold stretch, Ad_inv. unf. lra.
  - intros E. apply (f_equal la) in E. apply (f_equal m00) in E. revert E. clear. unfold askew, Ad_inv. unf. lra.
Qed.
Print Assumptions C69_refuted.

(** ** C70 *)
Lemma entry_sym M : sym6 M -> forall i j, (i < 6)%nat -> (j < 6)%nat -> entry M i j = entry M j i.
Proof. intros S i j _ _. unfold entry, coord. apply S. Qed.
Lemma dot_coord u v : dot6 u v = dt_ 6 (coord u) (coord v).
Proof. destruct u as [[] []], v as [[] []]. unfold dt_, coord, e6, v6of. cbn [sumR Nat.eqb]. unf. ring. Qed.
Lemma qf_coord M u : dot6 u (mv6 M u) = qf 6 (entry M) (coord u).
Proof. rewrite dot_coord. unfold qf. apply dt_ext; intros i Hi; [reflexivity | now apply mv_coord]. Qed.
Lemma lowest6 M : sym6 M -> exists l u, u <> zero6 /\ mv6 M u = v6scal l u /\ forall w, l * dot6 w w <= dot6 w (mv6 M w).
Proof.
  intros S. destruct (lowest_eig 6 (entry M) (entry_sym M S) ltac:(lia)) as (l & x & N & E & B). exists l, (v6of x). split; [ | split].
  - intros Z. apply N. intros i Hi. rewrite <- (coord_of x i Hi), Z. now apply coord_zero.
  - apply coord_inj. intros i Hi. rewrite mv_coord, coord_scal, coord_of by exact Hi. rewrite <- (E i Hi : _ = l * x i). unfold mvn. apply sumR_ext. intros k Hk. now rewrite coord_of.
  - intros w. rewrite qf_coord, dot_coord. apply B.
Qed.
Lemma dot6_pos u : u <> zero6 -> 0 < dot6 u u.
Proof. intros N. rewrite dot_coord. apply nn_pos. intros Z. apply N. apply coord_inj. intros i Hi. rewrite (Z i Hi), coord_zero by exact Hi. reflexivity. Qed.
(** On the symmetric matrices with a scalar translational block, looking at the eigenvalues decides exactly positive (semi-)definiteness. *)
Theorem C70_definite : forall eigvals m M, eigvals_of M (eigvals M) -> sym6 M -> ll M = mscal m eye3 ->
  (ismassmatrix eigvals M false = true <-> pd6 M) /\ (ismassmatrix eigvals M true = true <-> psd6 M).
Proof.
  intros eigvals m M Ev Sy L. destruct (lowest6 M Sy) as (l & u & Nu & Eu & B). assert (Hl : In l (eigvals M)) by (apply Ev; eauto). split; split.
  - intros A w Nw. unfold ismassmatrix in A. apply andb_prop in A. destruct A as (_ & A). rewrite forallb_forall in A. specialize (A l Hl). apply Rltb_true in A. specialize (B w). assert (P := dot6_pos w Nw). nra.
  - intros P. apply (accepts eigvals m M); [split; [exact Sy | split; assumption] | exact Ev].
  - intros A w. unfold ismassmatrix in A. apply andb_prop in A. destruct A as (_ & A). rewrite forallb_forall in A. specialize (A l Hl). apply Rleb_true in A. specialize (B w). assert (P : 0 <= dot6 w w) by (rewrite dot_coord; apply nn_nonneg). nra.
  - intros P. now apply (accepts_psd eigvals m M).
Qed.
Print Assumptions C70_definite.
(** What is accepted is symmetric with a scalar translational block up to the tolerances of allclose, and has no negative eigenvalue. *)
Definition near (a b : R) : Prop := Rabs (a - b) <= 1 / 100000000 + 1 / 100000 * Rabs b.
Lemma close1_iff a b : close1 a b = true <-> near a b.
Proof. unfold close1, near. apply Rleb_true. Qed.
Definition ent (M : m6) (i j : nat) : R := dot6 (e6 i) (mv6 M (e6 j)).
Lemma ent_ok A B D E i j : ent (M6 A B D E) i j = match i with
    | 0 => match j with 0 => m00 A | 1 => m01 A | 2 => m02 A | 3 => m00 B | 4 => m01 B | 5 => m02 B | _ => 0%R end
    | 1 => match j with 0 => m10 A | 1 => m11 A | 2 => m12 A | 3 => m10 B | 4 => m11 B | 5 => m12 B | _ => 0%R end
    | 2 => match j with 0 => m20 A | 1 => m21 A | 2 => m22 A | 3 => m20 B | 4 => m21 B | 5 => m22 B | _ => 0%R end
    | 3 => match j with 0 => m00 D | 1 => m01 D | 2 => m02 D | 3 => m00 E | 4 => m01 E | 5 => m02 E | _ => 0%R end
    | 4 => match j with 0 => m10 D | 1 => m11 D | 2 => m12 D | 3 => m10 E | 4 => m11 E | 5 => m12 E | _ => 0%R end
    | 5 => match j with 0 => m20 D | 1 => m21 D | 2 => m22 D | 3 => m20 E | 4 => m21 E | 5 => m22 E | _ => 0%R end
    | _ => 0%R end%nat.
Proof.
  unfold ent, e6, v6of. destruct A, B, D, E. do 6 (destruct i as [ | i]; [do 6 (destruct j as [ | j]; [cbn [Nat.eqb]; unf; ring | ]); cbn [Nat.eqb]; unf; ring | ]). cbn [Nat.eqb]; unf; ring.
Qed.
Theorem C70_tolerance : forall eigvals M semi, ismassmatrix eigvals M semi = true <->
  (forall i j, (i < 6)%nat -> (j < 6)%nat -> near (ent M i j) (ent M j i)) /\
  (forall i j, (i < 3)%nat -> (j < 3)%nat -> near (ent M (3 + i) (3 + j)) (if Nat.eqb i j then ent M 3 3 else 0)) /\
  (forall x, In x (eigvals M) -> if semi then 0 <= x else 0 < x).
Proof.
  intros eigvals M semi. unfold ismassmatrix. rewrite !andb_true_iff.
  assert (X : (if semi then forallb (fun l => Rleb 0 l) (eigvals M) else forallb (fun l => Rltb 0 l) (eigvals M)) = true <-> (forall x, In x (eigvals M) -> if semi then 0 <= x else 0 < x)).
  { destruct semi; rewrite forallb_forall; split; intros H x Hx; specialize (H x Hx); [now apply Rleb_true | now apply Rleb_true | now apply Rltb_true | now apply Rltb_true]. }
  rewrite X. clear X. rewrite <- and_assoc. apply and_iff_compat_r. destruct M as [A B D E].
  assert (P : close6 (M6 A B D E) (tr6 (M6 A B D E)) = true <-> forall i j, (i < 6)%nat -> (j < 6)%nat -> near (ent (M6 A B D E) i j) (ent (M6 A B D E) j i)).
  { unfold close6, close3, tr6, tr. cbn [aa al la ll m00 m01 m02 m10 m11 m12 m20 m21 m22]. rewrite !andb_true_iff, !close1_iff. split.
    - intros H i j Hi Hj. rewrite !ent_ok. do 6 (destruct i as [ | i]; [do 6 (destruct j as [ | j]; [cbn [m00 m01 m02 m10 m11 m12 m20 m21 m22]; clear Hi Hj; tauto | ]); lia | ]). lia.
    - intros H. assert (K00 := H 0%nat 0%nat ltac:(lia) ltac:(lia)). assert (K01 := H 0%nat 1%nat ltac:(lia) ltac:(lia)). assert (K02 := H 0%nat 2%nat ltac:(lia) ltac:(lia)). assert (K03 := H 0%nat 3%nat ltac:(lia) ltac:(lia)). assert (K04 := H 0%nat 4%nat ltac:(lia) ltac:(lia)). assert (K05 := H 0%nat 5%nat ltac:(lia) ltac:(lia)). assert (K10 := H 1%nat 0%nat ltac:(lia) ltac:(lia)). assert (K11 := H 1%nat 1%nat ltac:(lia) ltac:(lia)). assert (K12 := H 1%nat 2%nat ltac:(lia) ltac:(lia)). assert (K13 := H 1%nat 3%nat ltac:(lia) ltac:(lia)). assert (K14 := H 1%nat 4%nat ltac:(lia) ltac:(lia)). assert (K15 := H 1%nat 5%nat ltac:(lia) ltac:(lia)). assert (K20 := H 2%nat 0%nat ltac:(lia) ltac:(lia)). assert (K21 := H 2%nat 1%nat ltac:(lia) ltac:(lia)). assert (K22 := H 2%nat 2%nat ltac:(lia) ltac:(lia)). assert (K23 := H 2%nat 3%nat ltac:(lia) ltac:(lia)). assert (K24 := H 2%nat 4%nat ltac:(lia) ltac:(lia)). assert (K25 := H 2%nat 5%nat ltac:(lia) ltac:(lia)). assert (K30 := H 3%nat 0%nat ltac:(lia) ltac:(lia)). assert (K31 := H 3%nat 1%nat ltac:(lia) ltac:(lia)). assert (K32 := H 3%nat 2%nat ltac:(lia) ltac:(lia)). assert (K33 := H 3%nat 3%nat ltac:(lia) ltac:(lia)). assert (K34 := H 3%nat 4%nat ltac:(lia) ltac:(lia)). assert (K35 := H 3%nat 5%nat ltac:(lia) ltac:(lia)). assert (K40 := H 4%nat 0%nat ltac:(lia) ltac:(lia)). assert (K41 := H 4%nat 1%nat ltac:(lia) ltac:(lia)). assert (K42 := H 4%nat 2%nat ltac:(lia) ltac:(lia)). assert (K43 := H 4%nat 3%nat ltac:(lia) ltac:(lia)). assert (K44 := H 4%nat 4%nat ltac:(lia) ltac:(lia)). assert (K45 := H 4%nat 5%nat ltac:(lia) ltac:(lia)). assert (K50 := H 5%nat 0%nat ltac:(lia) ltac:(lia)). assert (K51 := H 5%nat 1%nat ltac:(lia) ltac:(lia)). assert (K52 := H 5%nat 2%nat ltac:(lia) ltac:(lia)). assert (K53 := H 5%nat 3%nat ltac:(lia) ltac:(lia)). assert (K54 := H 5%nat 4%nat ltac:(lia) ltac:(lia)). assert (K55 := H 5%nat 5%nat ltac:(lia) ltac:(lia)). clear H. rewrite !ent_ok in *. cbn [m00 m01 m02 m10 m11 m12 m20 m21 m22] in *. tauto. }
  assert (Q : close3 (ll (M6 A B D E)) (mscal (m00 (ll (M6 A B D E))) eye3) = true <-> forall i j, (i < 3)%nat -> (j < 3)%nat -> near (ent (M6 A B D E) (3 + i) (3 + j)) (if Nat.eqb i j then ent (M6 A B D E) 3 3 else 0)).
  { clear P. unfold close3, mscal, eye3. cbn [ll m00 m01 m02 m10 m11 m12 m20 m21 m22]. rewrite !andb_true_iff, !close1_iff, !Rmult_1_r, !Rmult_0_r. split.
    - intros H i j Hi Hj. rewrite !ent_ok. do 3 (destruct i as [ | i]; [do 3 (destruct j as [ | j]; [cbn [Nat.eqb Nat.add]; clear Hi Hj; tauto | ]); lia | ]). lia.
    - intros H. assert (K00 := H 0%nat 0%nat ltac:(lia) ltac:(lia)). assert (K01 := H 0%nat 1%nat ltac:(lia) ltac:(lia)). assert (K02 := H 0%nat 2%nat ltac:(lia) ltac:(lia)). assert (K10 := H 1%nat 0%nat ltac:(lia) ltac:(lia)). assert (K11 := H 1%nat 1%nat ltac:(lia) ltac:(lia)). assert (K12 := H 1%nat 2%nat ltac:(lia) ltac:(lia)). assert (K20 := H 2%nat 0%nat ltac:(lia) ltac:(lia)). assert (K21 := H 2%nat 1%nat ltac:(lia) ltac:(lia)). assert (K22 := H 2%nat 2%nat ltac:(lia) ltac:(lia)). clear H. rewrite !ent_ok in *. cbn [Nat.eqb Nat.add] in *. tauto. }
  rewrite P, Q. reflexivity.
Qed.
Print Assumptions C70_tolerance.
(** A positive definite matrix with a symmetric coupling block is accepted, although no rigid body has it: there the block is skew. *)
Definition coupled : m6 := M6 eye3 (M3 (1/2) 0 0 0 0 0 0 0 0) (M3 (1/2) 0 0 0 0 0 0 0 0) eye3.
Theorem C78_rigid_refuted : exists M, sym6 M /\ pd6 M /\ ll M = mscal 1 eye3 /\ (forall eigvals, eigvals_of M (eigvals M) -> ismassmatrix eigvals M false = true /\ ismassmatrix eigvals M true = true) /\ forall m c I0, M <> rigid_mass m c I0.
Proof.
  exists coupled. assert (Sy : sym6 coupled) by (intros [[] []] [[] []]; unfold coupled; unf; ring).
  assert (Pd : pd6 coupled).
  { intros [[a b c] [d e f]] N. unfold coupled. unf. destruct (Req_dec a 0) as [-> | Ha], (Req_dec b 0) as [-> | Hb], (Req_dec c 0) as [-> | Hc], (Req_dec d 0) as [-> | Hd], (Req_dec e 0) as [-> | He], (Req_dec f 0) as [-> | Hf]; try (destruct N; reflexivity);
    repeat match goal with H : ?x <> 0 |- _ => assert (0 < x * x) by (destruct (Rtotal_order x 0) as [ | [ | ]]; nra); clear H end; nra. }
  assert (Ll : ll coupled = mscal 1 eye3) by (unfold coupled; unf; entries; ring).
  split; [exact Sy | ]. split; [exact Pd | ]. split; [exact Ll | ]. split.
  - intros eigvals Ev. destruct (C70_definite eigvals 1 coupled Ev Sy Ll) as (X & _). assert (Y := proj2 X Pd). split; [exact Y | now apply accepts_semi].
  - intros m c I0 E. apply (f_equal al) in E. apply (f_equal m00) in E. revert E. clear. unfold coupled, rigid_mass. destruct c. unf. lra.
Qed.
Print Assumptions C78_rigid_refuted.
(** with the eigenvalues really computed, a box is accepted *)
Example C70_example : exists eigvals, eigs_ok eigvals /\ ismassmatrix eigvals (box (V3 1 2 3) 4) false = true.
Proof. destruct eigs_exist as (ev & Ev). exists ev. split; [exact Ev | ]. destruct (C36_mass_constructors 1 2 3 1 1 4 ltac:(lra) ltac:(lra) ltac:(lra) ltac:(lra) ltac:(lra) ltac:(lra)) as (M & _). apply (accepts ev 4); [exact M | apply Ev, M]. Qed.
