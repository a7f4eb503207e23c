(** C106: the unit of mass does not matter. *)
From Coq Require Import String Lra Lia FunctionalExtensionality.
From Verif Require Import Spec_Units Spec_Apart Proof_SE3 Proof_Tree Proof_World Proof_Dyn Spec_Con Props_Mass Props_DynEx Props_EnergyEx Proof_Linalg Proof_Matrix Proof_Step Proof_Sim Proof_Sim2 Proof_Sim3 Proof_Dyn2 Props_Sim Props_Resume Props_Sim3 Props_Sim4 Props_Apart2 Props_Order.
Open Scope R_scope.

Lemma m6scal_mul a b M : m6scal a (m6scal b M) = m6scal (a * b) M.
Proof. destruct M as [[] [] [] []]. unfold m6scal, mscal. cbn. f_equal; f_equal; ring. Qed.
Lemma m6scal_1 M : m6scal 1 M = M.
Proof. destruct M as [[] [] [] []]. unfold m6scal, mscal. cbn. f_equal; f_equal; ring. Qed.
Lemma mv6_scal c M u : mv6 (m6scal c M) u = v6scal c (mv6 M u).
Proof. destruct M as [[] [] [] []], u as [[] []]. unfold mv6, m6scal, v6scal, mscal, vscal, mv, vadd. cbn. f_equal; f_equal; ring. Qed.
Lemma mm6_scal c A M : mm6 A (m6scal c M) = m6scal c (mm6 A M).
Proof. destruct M as [[] [] [] []], A as [[] [] [] []]. unfold mm6, m6scal, mscal, mm, madd. cbn. f_equal; f_equal; ring. Qed.
Lemma dot6_scal c u v : dot6 u (v6scal c v) = c * dot6 u v.
Proof. destruct u as [[] []], v as [[] []]. unfold dot6, v6scal, vscal, dot3. cbn. ring. Qed.
Lemma v6add_scal c u v : v6add (v6scal c u) (v6scal c v) = v6scal c (v6add u v).
Proof. destruct u as [[] []], v as [[] []]. unfold v6add, v6scal, vscal, vadd. cbn. f_equal; f_equal; ring. Qed.

Lemma mmul_z c : mmul c mzero = mzero.
Proof. extensionality i; extensionality j; unfold mmul, mzero; ring. Qed.
Lemma vmul_z c : vmul c vzero = vzero.
Proof. extensionality i; unfold vmul, vzero; ring. Qed.
Lemma mvn_l c n A x : mvn n (mmul c A) x = vmul c (mvn n A x).
Proof. extensionality i. unfold mvn, mmul, vmul. rewrite <- sumR_scal. apply sumR_ext. intros k _. ring. Qed.
Lemma mvn_r c n A x : mvn n A (vmul c x) = vmul c (mvn n A x).
Proof. extensionality i. unfold mvn, vmul. rewrite <- sumR_scal. apply sumR_ext. intros k _. ring. Qed.
Lemma vplus_h c x y : vplus (vmul c x) (vmul c y) = vmul c (vplus x y).
Proof. extensionality i. unfold vplus, vmul. ring. Qed.
Lemma regular n A B x : inverse n A B -> veq n (mvn n A x) vzero -> veq n x vzero.
Proof.
  intros [_ Hb] K i Hi. rewrite <- (mvn_unit n x i Hi). rewrite <- (mvn_ext n (mmn n B A) unit_mat x x i); [ | intros k Hk; apply Hb; assumption | intros k _; reflexivity].
  rewrite mvn_mmn. rewrite (mvn_ext n B B _ vzero i); [ | reflexivity | exact K]. unfold mvn, vzero. apply sumR_zero. intros k _. ring.
Qed.
Lemma assign_map {A B} (f : A -> B) m : forall k v x, assign m k (fun i => f (v i)) (fun i => f (x i)) = (fun i => f (assign m k v x i)).
Proof. induction m as [ | a m IH]; intros k v x; [reflexivity | ]. cbn [assign]. rewrite <- IH. f_equal. extensionality i. unfold upd. destruct (Nat.eqb i a); reflexivity. Qed.

Lemma cc c x : 0 < c -> / c * (c * x) = x.
Proof. intros. field. lra. Qed.
(** *** constraints *)
Lemma linv_scale (linv : nat -> mat -> option mat) c : 0 < c -> inv_spec linv -> tidy linv -> forall n A, linv n (mmul c A) = option_map (mmul (/ c)) (linv n A).
Proof.
  intros Pc Hiv Ht n A. assert (P1 := Hiv n A). assert (P2 := Hiv n (mmul c A)). destruct (linv n A) as [B | ] eqn:E1, (linv n (mmul c A)) as [B' | ] eqn:E2; cbn [option_map].
  - f_equal. extensionality i. extensionality j. destruct (le_lt_dec n i) as [L | L]; [unfold mmul; rewrite (Ht _ _ _ i j E1), (Ht _ _ _ i j E2) by auto; ring | ].
    destruct (le_lt_dec n j) as [L' | L']; [unfold mmul; rewrite (Ht _ _ _ i j E1), (Ht _ _ _ i j E2) by auto; ring | ].
    rewrite <- (mmn_unit_r n B' i j L'). assert (Q : mmn n B' unit_mat i j = mmn n B' (mmn n A B) i j).
    { unfold mmn at 1 2. apply sumR_ext. intros k Hk. rewrite (proj1 P1 k j Hk L'). reflexivity. }
    rewrite Q, <- mmn_assoc. assert (Q2 : forall k, (k < n)%nat -> mmn n B' A i k = / c * unit_mat i k).
    { intros k Hk. rewrite <- (proj2 P2 i k L Hk). unfold mmn, mmul. rewrite <- sumR_scal. apply sumR_ext. intros l _. field. lra. }
    unfold mmn at 1. rewrite (sumR_ext n _ (fun k => / c * (unit_mat i k * B k j))); [ | intros k Hk; rewrite Q2 by exact Hk; ring]. rewrite sumR_scal. unfold mmul. f_equal. exact (mvn_unit n (fun k => B k j) i L).
  - exfalso. destruct P2 as (x & Nx & Kx). apply Nx. apply (regular n A B); [exact P1 | ]. intros i Hi. specialize (Kx i Hi). rewrite mvn_l in Kx. unfold vmul, vzero in *. apply (Rmult_eq_reg_l c); lra.
  - exfalso. destruct P1 as (x & Nx & Kx). apply Nx. apply (regular n (mmul c A) B'); [exact P2 | ]. intros i Hi. rewrite mvn_l. unfold vmul. rewrite (Kx i Hi). unfold vzero. ring.
  - reflexivity.
Qed.
Section UnitsCon.
  Context (c : R) (e : env) (sc : scene) (st : store) (q : nat -> nat -> R) (pinv : nat -> mat -> mat) (eigc : mat -> list (R * R)) (solve : nat -> mat -> vec -> option vec).
  Hypothesis Pc : 0 < c.
  Hypothesis Hp : pinv_scales c pinv.
  Definition E0 := CE e sc st q pinv eigc solve.
  Definition E1 := CE e (heavy_scene c sc) (fun b => heavy_attr c (st b)) q pinv eigc solve.
  Notation hc := (heavy_con c).
  Definition hp (p : con * option nat) : con * option nat := (hc (fst p), snd p).
  Definition noc (l : list (con * option nat)) : Prop := Forall (fun p => no_contact (fst p)) l.

  Lemma ccv x : c * (/ c * x) = x. Proof. field. lra. Qed.
  Lemma upd_c x dt : no_contact x -> c_update (con_ops E1) (hc x) dt = rmap hc (c_update (con_ops E0) x dt) /\ forall y, c_update (con_ops E0) x dt = Ok y -> no_contact y.
  Proof.
    destruct x as [j | b | s]; [ | | contradiction]; intros _; cbn [con_ops c_update heavy_con].
    - split; [ | intros y [= <-]; exact Logic.I]. cbn [rmap heavy_con]. unfold jl_update, jl_set_force. cbn [jl_force jl_on jl_joint jl_nd jl_min jl_max jl_prox jl_pos0 jl_jac]. rewrite vmul_z. reflexivity.
    - unfold bs_update. cbn [bs_f0 bs_f1]. change (frame_pose (ce_e E1) (ce_sc E1) (ce_st E1) (bs_f0 b)) with (frame_pose e sc st (bs_f0 b)). change (frame_pose (ce_e E1) (ce_sc E1) (ce_st E1) (bs_f1 b)) with (frame_pose e sc st (bs_f1 b)). cbn [ce_e ce_sc ce_st E0].
      destruct (frame_pose e sc st (bs_f0 b)) as [H0 | ]; [ | split; [reflexivity | discriminate]]. cbn [rbind]. destruct (inv H0) as [iH | ]; [ | split; [reflexivity | discriminate]]. cbn [rbind].
      destruct (frame_pose e sc st (bs_f1 b)) as [H1 | ]; [ | split; [reflexivity | discriminate]]. split; [reflexivity | ]. intros y [= <-]. exact Logic.I.
  Qed.
  Lemma jac_c x : no_contact x -> c_jac (con_ops E1) (hc x) = c_jac (con_ops E0) x.
  Proof. destruct x as [j | b | s]; [reflexivity | reflexivity | contradiction]. Qed.
  Lemma ndol_c x : c_ndol (con_ops E1) (hc x) = c_ndol (con_ops E0) x. Proof. destruct x; reflexivity. Qed.
  Lemma on_c x : c_enabled (con_ops E1) (hc x) = c_enabled (con_ops E0) x. Proof. destruct x; reflexivity. Qed.
  Lemma act_c x : c_active (con_ops E1) (hc x) = c_active (con_ops E0) x. Proof. destruct x; reflexivity. Qed.
  Lemma gforce_c x : no_contact x -> c_gforce (con_ops E1) (hc x) = rmap (vmul c) (c_gforce (con_ops E0) x).
  Proof.
    intros N. unfold c_gforce. rewrite (jac_c x N). destruct (c_jac (con_ops E0) x) as [A | ]; [ | reflexivity]. cbn [rbind rmap]. rewrite ndol_c. rewrite <- mvn_r. destruct x; [reflexivity | reflexivity | contradiction].
  Qed.
  Lemma solve_c x v Y dt : no_contact x -> c_solve (con_ops E1) (hc x) v (mmul (/ c) Y) dt = rmap (fun p => (hc (fst p), vmul c (snd p))) (c_solve (con_ops E0) x v Y dt) /\ forall y d, c_solve (con_ops E0) x v Y dt = Ok (y, d) -> no_contact y.
  Proof.
    destruct x as [j | b | s]; [ | | contradiction]; intros _; cbn [con_ops c_solve heavy_con].
    - split; [ | intros y d; destruct (jl_solve E0 j v Y dt); intros [= <- _]; exact Logic.I]. unfold jl_solve. cbv zeta. cbn [jl_set_force jl_force jl_on jl_joint jl_nd jl_min jl_max jl_prox jl_pos0 jl_jac np_pinv E0 E1].
      assert (P0 : mvn (jl_nd j) (mmul (/ c) Y) (vmul c (jl_force j)) = mvn (jl_nd j) Y (jl_force j)) by (rewrite mvn_l, mvn_r; extensionality i; unfold vmul; apply cc; exact Pc). rewrite P0.
      rewrite Hp.
      assert (Mx : forall x y, Rmax (c * x) 0 = c * Rmax x 0 /\ Rmin (c * y) 0 = c * Rmin y 0).
      { intros x y. split; [rewrite <- (Rmult_0_r c) at 1; rewrite RmaxRmult by lra; reflexivity | ]. unfold Rmin. destruct (Rle_dec (c * y) 0) as [A | A], (Rle_dec y 0) as [B | B]; try ring; exfalso; [apply B; apply (Rmult_le_reg_l c); lra | apply A; rewrite <- (Rmult_0_r c); apply Rmult_le_compat_l; lra]. }
      destruct (existsb_n (jl_nd j) (fun i => Rleb (jl_pos0 j i + dt * (v i - mvn (jl_nd j) Y (jl_force j) i)) (jl_min j i))); [ | destruct (existsb_n (jl_nd j) (fun i => Rleb (jl_max j i) (jl_pos0 j i + dt * (v i - mvn (jl_nd j) Y (jl_force j) i))))]; cbn [rmap fst snd heavy_con jl_set_force jl_force jl_on jl_joint jl_nd jl_min jl_max jl_prox jl_pos0 jl_jac]; rewrite ?mvn_l.
      + match goal with |- Ok (CJ (jl_set_force _ ?a), ?b) = Ok (CJ (jl_set_force _ ?a'), ?b') => assert (Q1 : a = a') by (extensionality i; unfold vmul; apply Mx; exact 0); assert (Q2 : b = b') by (extensionality i; unfold vminus, vmul; rewrite (proj1 (Mx _ 0)); ring); exact (f_equal2 (fun zf zd => Ok (CJ (jl_set_force j zf), zd)) Q1 Q2) end.
      + match goal with |- Ok (CJ (jl_set_force _ ?a), ?b) = Ok (CJ (jl_set_force _ ?a'), ?b') => assert (Q1 : a = a') by (extensionality i; unfold vmul; apply (Mx 0)); assert (Q2 : b = b') by (extensionality i; unfold vminus, vmul; rewrite (proj2 (Mx 0 _)); ring); exact (f_equal2 (fun zf zd => Ok (CJ (jl_set_force j zf), zd)) Q1 Q2) end.
      + match goal with |- Ok (CJ (jl_set_force _ ?a), ?b) = Ok (CJ (jl_set_force _ ?a'), ?b') => assert (Q1 : a = a') by (extensionality i; unfold vmul, vzero; ring); assert (Q2 : b = b') by (extensionality i; unfold vminus, vmul, vzero; ring); exact (f_equal2 (fun zf zd => Ok (CJ (jl_set_force j zf), zd)) Q1 Q2) end.
    - split; [ | intros y d [= <- _]; exact Logic.I]. unfold bs_solve. cbn [bs_on bs_f0 bs_f1 bs_pos0 bs_force np_pinv E0 E1 rmap fst snd heavy_con]. rewrite Hp, mvn_l.
      match goal with |- Ok (CB (BS _ _ _ _ ?a), ?d) = Ok (CB (BS _ _ _ _ ?a'), ?d') => assert (Q1 : a = a') by (extensionality i; unfold vmul; ring); assert (Q2 : d = d') by (extensionality i; unfold vmul; ring); exact (f_equal2 (fun zf zd => Ok (CB (BS (bs_on b) (bs_f0 b) (bs_f1 b) (bs_pos0 b) zf), zd)) Q1 Q2) end.
  Qed.
  Lemma activate_c dt cs : Forall no_contact cs -> forall n, activate (con_ops E1) dt n (map hc cs) = rmap (fun p => (map hp (fst p), snd p)) (activate (con_ops E0) dt n cs) /\ forall l m, activate (con_ops E0) dt n cs = Ok (l, m) -> noc l.
  Proof.
    induction 1 as [ | x cs Nx _ IH]; intros n; [split; [reflexivity | intros l m [= <- _]; constructor] | ]. cbn [map activate]. rewrite on_c. destruct (c_enabled (con_ops E0) x).
    - destruct (upd_c x dt Nx) as [U1 U2]. rewrite U1. destruct (c_update (con_ops E0) x dt) as [y | ]; [ | split; [reflexivity | discriminate]]. specialize (U2 y eq_refl). cbn [rmap rbind]. rewrite act_c, ndol_c. destruct (c_active (con_ops E0) y).
      + destruct (IH (n + c_ndol (con_ops E0) y)%nat) as [A B]. rewrite A. destruct (activate (con_ops E0) dt _ cs) as [[l m] | ]; [ | split; [reflexivity | discriminate]]. cbn [rmap rbind fst snd map]. split; [reflexivity | ]. intros l1 m1 [= <- _]. constructor; [exact U2 | exact (B l m eq_refl)].
      + destruct (IH n) as [A B]. rewrite A. destruct (activate (con_ops E0) dt _ cs) as [[l m] | ]; [ | split; [reflexivity | discriminate]]. cbn [rmap rbind fst snd map]. split; [reflexivity | ]. intros l1 m1 [= <- _]. constructor; [exact U2 | exact (B l m eq_refl)].
    - destruct (IH n) as [A B]. rewrite A. destruct (activate (con_ops E0) dt _ cs) as [[l m] | ]; [ | split; [reflexivity | discriminate]]. cbn [rmap rbind fst snd map]. split; [reflexivity | ]. intros l1 m1 [= <- _]. constructor; [exact Nx | exact (B l m eq_refl)].
  Qed.
  Lemma stack_c l : noc l -> forall jac, stack (con_ops E1) (map hp l) jac = stack (con_ops E0) l jac.
  Proof.
    induction 1 as [ | [x [a | ]] l Nx _ IH]; intros jac; [reflexivity | | ]; cbn [map hp fst snd stack] in *; [ | apply IH]. rewrite (jac_c x Nx). destruct (c_jac (con_ops E0) x) as [A | ]; [ | reflexivity]. cbn [rbind]. rewrite ndol_c. apply IH.
  Qed.
  Lemma gforces_c l : noc l -> forall f, add_gforces (con_ops E1) (map hp l) (vmul c f) = rmap (vmul c) (add_gforces (con_ops E0) l f).
  Proof.
    induction 1 as [ | [x [a | ]] l Nx _ IH]; intros f; [reflexivity | | ]; cbn [map hp fst snd add_gforces] in *; [ | apply IH]. rewrite (gforce_c x Nx). destruct (c_gforce (con_ops E0) x) as [g | ]; [ | reflexivity]. cbn [rmap rbind]. rewrite vplus_h. apply IH.
  Qed.
  Lemma sweep_c dt Y l : noc l -> forall v, sweep (con_ops E1) dt (mmul (/ c) Y) (map hp l) v = rmap (fun p => (map hp (fst p), snd p)) (sweep (con_ops E0) dt Y l v) /\ forall l1 v1, sweep (con_ops E0) dt Y l v = Ok (l1, v1) -> noc l1.
  Proof.
    induction 1 as [ | [x [a | ]] l Nx _ IH]; intros v; [split; [reflexivity | intros l1 v1 [= <- _]; constructor] | | ]; cbn [map hp fst snd sweep] in *.
    - destruct (solve_c x (vslice a v) (fun i j => Y (a + i)%nat (a + j)%nat) dt Nx) as [S1 S2]. change (fun i j => mmul (/ c) Y (a + i)%nat (a + j)%nat) with (mmul (/ c) (fun i j => Y (a + i)%nat (a + j)%nat)). rewrite S1. destruct (c_solve (con_ops E0) x _ _ dt) as [[y d] | ]; [ | split; [reflexivity | discriminate]].
      specialize (S2 y d eq_refl). cbn [rmap rbind fst snd]. rewrite ndol_c.
      assert (Q : (fun i => v i + sumR (c_ndol (con_ops E0) x) (fun k => mmul (/ c) Y i (a + k)%nat * vmul c d k)) = (fun i => v i + sumR (c_ndol (con_ops E0) x) (fun k => Y i (a + k)%nat * d k))) by (extensionality i; f_equal; apply sumR_ext; intros k _; unfold mmul, vmul; field; lra).
      rewrite Q. destruct (IH (fun i => v i + sumR (c_ndol (con_ops E0) x) (fun k => Y i (a + k)%nat * d k))) as [A B]. rewrite A. destruct (sweep (con_ops E0) dt Y l _) as [[r w] | ]; [ | split; [reflexivity | discriminate]]. cbn [rmap rbind fst snd map]. split; [reflexivity | ]. intros l1 v1 [= <- _]. constructor; [exact S2 | exact (B r w eq_refl)].
    - destruct (IH v) as [A B]. rewrite A. destruct (sweep (con_ops E0) dt Y l v) as [[r w] | ]; [ | split; [reflexivity | discriminate]]. cbn [rmap rbind fst snd map]. split; [reflexivity | ]. intros l1 v1 [= <- _]. constructor; [exact Nx | exact (B r w eq_refl)].
  Qed.
  Lemma relax_c dt tol n Y it : forall k l v p, noc l -> relax (con_ops E1) dt tol n (mmul (/ c) Y) it k (map hp l) v p = rmap (fun p => (map hp (fst p), snd p)) (relax (con_ops E0) dt tol n Y it k l v p) /\ forall l1 v1, relax (con_ops E0) dt tol n Y it k l v p = Ok (l1, v1) -> noc l1.
  Proof.
    induction it as [ | it IH]; intros k l v p Nl; cbn [relax]; [split; [reflexivity | intros l1 v1 [= <- _]; exact Nl] | ]. destruct (sweep_c dt Y l Nl v) as [A B]. rewrite A. destruct (sweep (con_ops E0) dt Y l v) as [[l2 v2] | ]; [ | split; [reflexivity | discriminate]].
    cbn [rmap rbind fst snd]. specialize (B l2 v2 eq_refl). destruct (Nat.ltb 0 k && _); [split; [reflexivity | intros l1 v1 [= <- _]; exact B] | ]. apply IH. exact B.
  Qed.
  Lemma next_c s dt f : next_gvel (heavy_s c s) dt (vmul c f) = next_gvel s dt f.
  Proof. unfold next_gvel. cbn [heavy_s s_heap s_dyn heavy_dyn d_mass s_gforce s_adm]. rewrite !mvn_l, vplus_h, mvn_r. extensionality i. unfold vmul. field. lra. Qed.
  Lemma constraints_c dt tol it cs s : Forall no_contact cs -> update_constraints (con_ops E1) dt tol it (map hc cs) (heavy_s c s) = rmap (fun p => (heavy_s c (fst (fst p)), map hp (snd (fst p)), snd p)) (update_constraints (con_ops E0) dt tol it cs s) /\
    forall s1 l v, update_constraints (con_ops E0) dt tol it cs s = Ok (s1, l, v) -> noc l.
  Proof.
    intros Nc. unfold update_constraints. destruct (Rlt_dec 0 dt); [ | split; [reflexivity | discriminate]]. cbv zeta. destruct (activate_c dt cs Nc 0%nat) as [A B]. rewrite A. destruct (activate (con_ops E0) dt 0 cs) as [[l m] | ]; [ | split; [reflexivity | discriminate]]. specialize (B l m eq_refl). cbn [rmap rbind fst snd].
    rewrite (stack_c l B). destruct (stack (con_ops E0) l mzero) as [jac | ]; [ | split; [reflexivity | discriminate]]. cbn [rbind]. change (s_gforce (heavy_s c s)) with (vmul c (s_gforce s)). rewrite (gforces_c l B). destruct (add_gforces (con_ops E0) l (s_gforce s)) as [f | ]; [ | split; [reflexivity | discriminate]]. cbn [rmap rbind].
    rewrite next_c. change (s_heap (heavy_s c s)) with (s_heap s). set (n := w_ndof (s_heap s)). change (s_adm (heavy_s c s)) with (mmul (/ c) (s_adm s)).
    assert (Q : mmn n jac (mmn n (mmul (/ c) (s_adm s)) (trans jac)) = mmul (/ c) (mmn n jac (mmn n (s_adm s) (trans jac)))).
    { extensionality i. extensionality j. unfold mmul at 2. unfold mmn at 1 3. rewrite <- sumR_scal. apply sumR_ext. intros k _. unfold mmn, mmul. rewrite (sumR_ext n _ (fun k0 => / c * (s_adm s k k0 * trans jac k0 j))); [rewrite sumR_scal; ring | intros k0 _; ring]. }
    rewrite Q. set (vel := mvn n jac (next_gvel s dt f)). set (Y := mmn n jac (mmn n (s_adm s) (trans jac))). destruct (relax_c dt tol m Y it 0%nat l vel vel B) as [A1 B1]. rewrite A1. destruct (relax (con_ops E0) dt tol m Y it 0 l vel vel) as [[l1 v1] | ]; [ | split; [reflexivity | discriminate]]. specialize (B1 l1 v1 eq_refl).
    cbn [rmap rbind fst snd]. rewrite (gforces_c l1 B1). destruct (add_gforces (con_ops E0) l1 (s_gforce s)) as [f1 | ]; [ | split; [reflexivity | discriminate]]. cbn [rmap rbind fst snd]. split; [reflexivity | ]. intros s1 l2 v2 [= _ <- _]. exact B1.
  Qed.
End UnitsCon.

Section Units.
  Context (U : setup) (O : nat -> okind) (c : R).
  Hypothesis Pc : 0 < c.
  Hypothesis Hinv : inv_spec (su_linv U).
  Hypothesis Htidy : tidy (su_linv U).
  Hypothesis Htiny : not_tiny c (su_sc U).
  Hypothesis Hpinv : pinv_scales c (su_pinv U).
  Let U' := heavy_setup c U.
  Definition hw (w : world) : world := W (heavy_v c (w_v w)) (fun a => heavy_ctl c (w_ctl w a)).
  Definition hwr (p : world * res unit) : world * res unit := (hw (fst p), snd p).
  Notation hst st := (fun b : nat => heavy_attr c (st b)).

  Lemma nle_h b T : body_nle (m6scal c (b_mass (su_sc U) b)) T = m6scal c (body_nle (b_mass (su_sc U) b) T).
  Proof.
    unfold body_nle. rewrite <- mm6_scal. cbv zeta. f_equal. f_equal. cbn [m6scal ll al]. assert (Q := Htiny b). cbv zeta in Q. cbn [mscal m22].
    destruct (Rle_dec (c * m22 (ll (b_mass (su_sc U) b))) (1 / 10000000000)) as [A | A], (Rle_dec (m22 (ll (b_mass (su_sc U) b))) (1 / 10000000000)) as [B | B]; [reflexivity | tauto | tauto | ].
    assert (E : mscal (/ (c * m22 (ll (b_mass (su_sc U) b)))) (mscal c (al (b_mass (su_sc U) b))) = mscal (/ m22 (ll (b_mass (su_sc U) b))) (al (b_mass (su_sc U) b))).
    { set (m := m22 (ll (b_mass (su_sc U) b))) in *. destruct (al (b_mass (su_sc U) b)). unfold mscal. cbn. f_equal; field; lra. }
    rewrite E. reflexivity.
  Qed.
  Lemma child_kin_h h j J f0 f1 k : child_kin (su_sc U') h j J f0 f1 k = child_kin (su_sc U) h j J f0 f1 k.
  Proof. reflexivity. Qed.
  Lemma update_h h J fuel : forall b k st, update_dynamic (su_e U) (su_sc U') h J fuel b k (hst st) = rmap (fun st => hst st) (update_dynamic (su_e U) (su_sc U) h J fuel b k st).
  Proof.
    induction fuel as [ | n IH]; intros b k st; [reflexivity | ]. cbn [update_dynamic]. set (s1 := upd st b _). match goal with |- context [upd (hst st) b ?a] => replace (upd (hst st) b a) with (hst s1) end.
    2: { extensionality i. unfold s1, upd. destruct (Nat.eqb i b); [ | reflexivity]. unfold heavy_attr. cbn [a_pose a_jac a_djac a_twist a_nle option_map]. rewrite <- nle_h. reflexivity. }
    generalize s1. clear s1. induction (childrenjoints h b) as [ | j js IHj]; intros s; [reflexivity | ].
    destruct (jframes h j) as [[f0 f1] | ]; [ | reflexivity]. rewrite child_kin_h. destruct (child_kin (su_sc U) h j (J j) f0 f1 k) as [k1 | ]; [ | reflexivity]. cbn [rbind]. rewrite IH.
    destruct (update_dynamic (su_e U) (su_sc U) h J n (frame_body (su_e U) f1) k1 s) as [s2 | ]; [ | reflexivity]. cbn [rmap rbind]. apply IHj.
  Qed.
  Lemma accumulate_h st bs : forall d, accumulate (su_sc U') (hst st) bs (heavy_dyn c d) = rmap (heavy_dyn c) (accumulate (su_sc U) st bs d).
  Proof.
    induction bs as [ | b bs IH]; intros d; [reflexivity | ]. cbn [accumulate heavy_attr a_jac a_djac a_nle]. destruct (a_jac (st b)) as [A | ]; [ | reflexivity]. destruct (a_djac (st b)) as [dA | ]; [ | reflexivity]. destruct (a_nle (st b)) as [N | ]; [ | reflexivity]. cbn [option_map].
    rewrite <- IH. f_equal. unfold heavy_dyn. cbn [d_mass d_visc d_nle U' heavy_setup su_sc heavy_scene b_mass b_visc]. unfold mmul, congr.
    f_equal; extensionality k; extensionality l; rewrite ?mv6_scal, ?v6add_scal, dot6_scal; ring.
  Qed.
  Lemma dyn_h w : world_dynamic U' (hw w) = hwr (world_dynamic U w).
  Proof.
    unfold world_dynamic, world_update_dynamic. cbn [U' heavy_setup su_e su_fuel]. change (s_heap (w_s (hw w))) with (s_heap (w_s w)). change (joints_of (w_s (hw w))) with (joints_of (w_s w)). change (v_st (w_v (hw w))) with (hst (v_st (w_v w))). cbv zeta.
    change (su_sc _) with (su_sc U') at 1. rewrite update_h. destruct (update_dynamic _ _ _ _ _ _ _ _) as [st | ]; [ | reflexivity]. cbn [rmap rbind]. destruct (iter_descendant_bodies _ _ _ _) as [bs | ]; [ | reflexivity]. cbn [rbind].
    assert (Q : wdyn0 = heavy_dyn c wdyn0) by (unfold heavy_dyn, wdyn0; cbn [d_mass d_visc d_nle]; unfold mmul; f_equal; extensionality k; extensionality l; unfold mzero; ring). rewrite Q at 1.
    change (heavy_scene c (su_sc U)) with (su_sc U'). rewrite accumulate_h. destruct (accumulate _ _ _ _) as [d | ]; reflexivity.
  Qed.
  (** *** init *)
  Lemma list6_pos M : existsb (fun x => Rltb 0 x) (list6 (m6scal c M)) = existsb (fun x => Rltb 0 x) (list6 M).
  Proof.
    assert (Q : forall x, Rltb 0 (c * x) = Rltb 0 x).
    { intros x. unfold Rltb. destruct (Rlt_dec 0 (c * x)) as [A | A], (Rlt_dec 0 x) as [B | B]; try reflexivity; exfalso; [ | apply A, Rmult_lt_0_compat; assumption]. apply B. apply (Rmult_lt_reg_l c); lra. }
    destruct M as [[] [] [] []]. unfold list6, list3, m6scal, mscal. cbn -[Rltb Rmult]. rewrite !Q. reflexivity.
  Qed.
  Lemma ctl_init_h h k : ctl_init U' h (heavy_ctl c k) = rmap (heavy_ctl c) (ctl_init U h k).
  Proof.
    destruct k as [g o | p | f]; cbn [heavy_ctl ctl_init].
    - unfold wc_init. cbn [U' heavy_setup su_e su_fuel su_sc heavy_scene b_mass]. destruct (iter_descendant_bodies _ _ _ _) as [bs | ]; [ | reflexivity]. cbn [rbind rmap heavy_ctl option_map wc_bodies wc_dtwist wc_imp]. rewrite mmul_z. erewrite filter_ext; [reflexivity | ]. intros b. cbn beta. apply list6_pos.
    - unfold pd_init. cbn [pd_joints]. destruct (rconcat _ _) as [m | ]; reflexivity.
    - reflexivity.
  Qed.
  Lemma ctl_inits_h h m : forall k, ctl_inits U' h m (fun a => heavy_ctl c (k a)) = rmap (fun k a => heavy_ctl c (k a)) (ctl_inits U h m k).
  Proof.
    induction m as [ | a m IH]; intros k; [reflexivity | ]. cbn [ctl_inits]. rewrite ctl_init_h. destruct (ctl_init U h (k a)) as [k1 | ]; [ | reflexivity]. cbn [rmap rbind]. rewrite <- IH. f_equal. extensionality i. unfold upd. destruct (Nat.eqb i a); reflexivity.
  Qed.
  Lemma con_inits_h h cs : rmapM (con_init h) (map (heavy_con c) cs) = rmap (map (heavy_con c)) (rmapM (con_init h) cs).
  Proof.
    induction cs as [ | x cs IH]; [reflexivity | ]. cbn [map rmapM]. rewrite IH. assert (Q : con_init h (heavy_con c x) = rmap (heavy_con c) (con_init h x)).
    { destruct x as [j | b | s]; [ | reflexivity | reflexivity]. cbn [heavy_con con_init jl_set_force jl_joint]. destruct (jdof h (jl_joint j)) as [[a b] | ]; [reflexivity | ]. unfold jl_init_lost. cbn [jl_set_force jl_nd]. destruct (_ || _ || _); reflexivity. }
    rewrite Q. destruct (con_init h x) as [y | ]; [ | reflexivity]. cbn [rmap rbind]. destruct (rmapM (con_init h) cs) as [ys | ]; reflexivity.
  Qed.
  Lemma init_h w : world_init U' (hw w) = hwr (world_init U w).
  Proof.
    unfold world_init. cbn [U' heavy_setup su_e su_fuel]. change (s_heap (w_s (hw w))) with (s_heap (w_s w)). destruct (Model_World.init 0 _ _ _) as [h [[] | ]]; [ | reflexivity]. cbv zeta. change (v_cs (w_v (hw w))) with (map (heavy_con c) (v_cs (w_v w))). change (w_ctl (hw w)) with (fun a => heavy_ctl c (w_ctl w a)).
    change (SU _ _ _ _ _ _ _ _ _ _) with U'. rewrite ctl_inits_h. 
    assert (Q : WS h (s_ty (w_s (hw w))) (s_qH (w_s (hw w))) (s_q (w_s (hw w))) wdyn0 vzero (s_imp (w_s (hw w))) (s_adm (w_s (hw w))) (s_time (w_s (hw w))) = heavy_s c (WS h (s_ty (w_s w)) (s_qH (w_s w)) (s_q (w_s w)) wdyn0 vzero (s_imp (w_s w)) (s_adm (w_s w)) (s_time (w_s w)))).
    { unfold heavy_s, heavy_dyn, wdyn0. cbn [s_heap s_ty s_qH s_q s_dyn s_gforce s_imp s_adm s_time d_mass d_visc d_nle]. 
      assert (Z : mmul c mzero = mzero) by (extensionality i; extensionality j; unfold mmul, mzero; ring). assert (Z' : vmul c vzero = vzero) by (extensionality i; unfold vmul, vzero; ring).
      cbn. rewrite ?Z, ?Z'. f_equal; try reflexivity. unfold mmul. f_equal; extensionality i; extensionality j; unfold mzero; ring. }
    rewrite Q, con_inits_h. destruct (rmapM (con_init h) (v_cs (w_v w))) as [cs | ]; [ | reflexivity]. cbn [rmap]. destruct (ctl_inits _ _ _ _) as [k | ]; reflexivity.
  Qed.
  (** *** controllers *)
  Definition hr (r : vec * mat) : vec * mat := (vmul c (fst r), mmul c (snd r)).
  Lemma heavy_back v : heavy_v (/ c) (heavy_v c v) = v.
  Proof.
    destruct v as [[h ty qH q [m vi nl] f Z Y t] st cs]. unfold heavy_v, heavy_s, heavy_dyn, mmul, vmul. cbn. f_equal.
    - f_equal; [f_equal | | | ]; repeat (apply functional_extensionality; intros ?); try (apply cc; exact Pc). field. lra.
    - extensionality b. destruct (st b) as [p j dj tw n]. unfold heavy_attr. cbn. f_equal. destruct n as [n | ]; [ | reflexivity]. cbn. f_equal. rewrite m6scal_mul. replace (/ c * c) with 1 by (field; lra). apply m6scal_1.
    - rewrite map_map. rewrite <- (map_id cs) at 2. apply map_ext. intros [j | b | x]; [ | | reflexivity]; cbn [heavy_con]; [destruct j as [j1 j2 j3 j4 j5 j6 j7 j8 j9]; unfold jl_set_force; cbn | destruct b as [b1 b2 b3 b4 b5]; cbn]; do 2 f_equal; extensionality i; unfold vmul; apply cc; exact Pc.
  Qed.
  Lemma wc_h st g bs : forall f, wc_loop (su_sc U') (hst st) g bs (vmul c f) = rmap (vmul c) (wc_loop (su_sc U) st g bs f).
  Proof.
    induction bs as [ | b bs IH]; intros f; [reflexivity | ]. cbn [wc_loop heavy_attr a_pose a_jac]. destruct (Model_Dyn.get (a_pose (st b))) as [P | ]; [ | reflexivity]. cbn [rbind]. destruct (iadjoint P) as [A | ]; [ | reflexivity]. cbn [rbind]. destruct (Model_Dyn.get (a_jac (st b))) as [J | ]; [ | reflexivity]. cbn [rbind].
    rewrite <- IH. f_equal. extensionality k. cbn [U' heavy_setup su_sc heavy_scene b_mass]. unfold vmul. rewrite mv6_scal, dot6_scal. ring.
  Qed.
  Lemma linv_h n A : su_linv U n (mmul c A) = option_map (mmul (/ c)) (su_linv U n A).
  Proof. exact (linv_scale _ c Pc Hinv Htidy n A). Qed.
  Lemma pd_h n q v p dt : pd_update (su_e U) n q v (PD (pd_joints p) (pd_cndof p) (pd_map p) (mmul c (pd_kp p)) (mmul c (pd_kd p)) (pd_qd p) (pd_vd p)) dt = rmap hr (pd_update (su_e U) n q v p dt).
  Proof.
    unfold pd_update. cbn [pd_joints pd_cndof pd_map pd_kp pd_kd pd_qd pd_vd]. destruct (np_stack _ _) as [gp | ]; [ | reflexivity]. cbn [rbind]. destruct (np_stack _ _) as [gv | ]; [ | reflexivity]. cbn [rbind]. cbv zeta. rewrite !mvn_l, vplus_h.
    set (f := vplus _ _). assert (F : set_at n (pd_map p) (vmul c f) vzero = rmap (vmul c) (set_at n (pd_map p) f vzero)).
    { unfold set_at. destruct (pd_map p) as [ | i m]; [reflexivity | ]. destruct (forallb _ _); [ | reflexivity]. cbn [rmap]. f_equal. rewrite <- (vmul_z c) at 1. exact (assign_map (Rmult c) (i :: m) 0 f vzero). }
    rewrite F. destruct (set_at n (pd_map p) f vzero) as [f1 | ]; [ | reflexivity]. cbn [rmap rbind].
    replace (mmul (-1) (mplus (mmul dt (mmul c (pd_kp p))) (mmul c (pd_kd p)))) with (mmul c (mmul (-1) (mplus (mmul dt (pd_kp p)) (pd_kd p)))) by (extensionality i; extensionality j; unfold mmul, mplus; ring).
    set (Z := mmul (-1) _). assert (G : set_block n (pd_map p) (mmul c Z) mzero = rmap (mmul c) (set_block n (pd_map p) Z mzero)).
    { unfold set_block. destruct (forallb _ _); [ | reflexivity]. cbn [rmap]. f_equal. assert (H1 := assign_map (fun (r : nat -> R) j => c * r j) (pd_map p) 0 (fun a => assign (pd_map p) 0 (Z a) (mzero (nth a (pd_map p) 0%nat))) mzero). cbv beta in H1. unfold mmul at 2. rewrite <- H1.
      f_equal; [ | extensionality i; extensionality j; unfold mzero; ring]. extensionality a. rewrite <- (assign_map (Rmult c)). unfold mmul. f_equal. extensionality i. unfold mzero. ring. }
    rewrite G. destruct (set_block n (pd_map p) Z mzero); reflexivity.
  Qed.
  Lemma ctl_update_h w a dt : ctl_update U' (hw w) a dt = rmap hr (ctl_update U w a dt).
  Proof.
    unfold ctl_update. change (w_ctl (hw w) a) with (heavy_ctl c (w_ctl w a)). destruct (w_ctl w a) as [g [o | ] | p | f]; cbn [heavy_ctl option_map]; [ | reflexivity | | ].
    - unfold wc_update. cbn [wc_dtwist wc_bodies wc_imp]. change (v_st (w_v (hw w))) with (hst (v_st (w_v w))). rewrite <- (vmul_z c) at 1. rewrite wc_h. destruct (wc_loop _ _ _ _ _); reflexivity.
    - cbn [U' heavy_setup su_e]. change (s_heap (w_s (hw w))) with (s_heap (w_s w)). change (s_q (w_s (hw w))) with (s_q (w_s w)). change (joints_of (w_s (hw w))) with (joints_of (w_s w)). apply pd_h.
    - change (w_v (hw w)) with (heavy_v c (w_v w)). rewrite heavy_back. reflexivity.
  Qed.
  Lemma add_h w dt m : forall s, add_controllers (ctl_update U' (hw w)) dt m (heavy_s c s) = (heavy_s c (fst (add_controllers (ctl_update U w) dt m s)), snd (add_controllers (ctl_update U w) dt m s)).
  Proof.
    induction m as [ | a m IH]; intros s; [reflexivity | ]. cbn [add_controllers]. rewrite ctl_update_h. destruct (ctl_update U w a dt) as [[f Z] | ]; [ | reflexivity]. cbn [rmap hr fst snd]. rewrite <- IH. f_equal.
    unfold heavy_s, set_forces. cbn [s_heap s_ty s_qH s_q s_dyn s_gforce s_imp s_adm s_time]. rewrite vplus_h. f_equal. extensionality i. extensionality j. unfold mminus, mmul. ring.
  Qed.
  Lemma ctl_h w dt : world_controllers U' dt (hw w) = hwr (world_controllers U dt w).
  Proof.
    unfold world_controllers, update_controllers. destruct (Rlt_dec 0 dt); [ | reflexivity]. cbv zeta. change (w_s (hw w)) with (heavy_s c (w_s w)). change (s_heap (heavy_s c (w_s w))) with (s_heap (w_s w)).
    set (s0 := set_forces (w_s w) vzero _ _).
    assert (Q : set_forces (heavy_s c (w_s w)) vzero (mplus (mplus (mmul (/ dt) (d_mass (s_dyn (heavy_s c (w_s w))))) (d_visc (s_dyn (heavy_s c (w_s w))))) (d_nle (s_dyn (heavy_s c (w_s w))))) (s_adm (heavy_s c (w_s w))) = heavy_s c s0).
    { unfold s0, heavy_s, set_forces, heavy_dyn. cbn [s_heap s_ty s_qH s_q s_dyn s_gforce s_imp s_adm s_time d_mass d_visc d_nle]. rewrite vmul_z. f_equal. extensionality i. extensionality j. unfold mplus, mmul. ring. }
    rewrite Q, add_h. destruct (add_controllers (ctl_update U w) dt _ s0) as [s1 [[] | ]]; cbn [fst snd]; [ | reflexivity]. change (s_imp (heavy_s c s1)) with (mmul c (s_imp s1)). cbn [U' heavy_setup su_linv].
    rewrite linv_h. destruct (su_linv U _ (s_imp s1)) as [Y | ]; reflexivity.
  Qed.
  Notation nocs w := (Forall no_contact (v_cs (w_v w))).
  Lemma scene_0 (V : setup) v : Forall no_contact (v_cs v) -> scene_of V v = su_sc V.
  Proof. unfold scene_of. generalize (su_sc V). induction (v_cs v) as [ | x cs IH]; intros s N; [reflexivity | ]. inversion N as [ | ? ? N1 N2]; subst. cbn [fold_left]. destruct x; [ | | contradiction]; apply IH; exact N2. Qed.
  Lemma cons_h w dt : nocs w -> world_constraints U' dt (hw w) = hwr (world_constraints U dt w) /\ forall w1, world_constraints U dt w = (w1, Ok tt) -> nocs w1.
  Proof.
    intros N. unfold world_constraints. assert (N' : Forall no_contact (v_cs (heavy_v c (w_v w)))) by (cbn [heavy_v v_cs]; apply Forall_map; eapply Forall_impl; [ | exact N]; intros [ | | ]; auto).
    assert (Q1 : con_env U' (hw w) = E1 c (su_e U) (su_sc U) (v_st (w_v w)) (s_q (w_s w)) (su_pinv U) (su_eigc U) (su_solve U)) by (unfold con_env, E1; change (w_v (hw w)) with (heavy_v c (w_v w)) at 1; rewrite (scene_0 U' _ N'); reflexivity).
    assert (Q0 : con_env U w = E0 (su_e U) (su_sc U) (v_st (w_v w)) (s_q (w_s w)) (su_pinv U) (su_eigc U) (su_solve U)) by (unfold con_env, E0; rewrite (scene_0 U _ N); reflexivity).
    rewrite Q1, Q0. change (w_s (hw w)) with (heavy_s c (w_s w)). change (v_cs (w_v (hw w))) with (map (heavy_con c) (v_cs (w_v w))).
    destruct (constraints_c c (su_e U) (su_sc U) (v_st (w_v w)) (s_q (w_s w)) (su_pinv U) (su_eigc U) (su_solve U) Pc Hpinv dt (1 / 10000) 1000 (v_cs (w_v w)) (w_s w) N) as [A B]. rewrite A.
    destruct (update_constraints _ _ _ _ (v_cs (w_v w)) (w_s w)) as [[[s1 l] v1] | ]; [ | split; [reflexivity | discriminate]]. cbn [rmap fst snd]. specialize (B s1 l v1 eq_refl). split.
    - unfold hwr, hw, heavy_v. cbn [fst snd w_v v_s v_st v_cs w_ctl]. rewrite !map_map. reflexivity.
    - intros w1 [= <-]. cbn [w_v v_cs]. apply Forall_map. exact B.
  Qed.
  Lemma next_h s dt : next_gvel (heavy_s c s) dt (s_gforce (heavy_s c s)) = next_gvel s dt (s_gforce s).
  Proof.
    unfold next_gvel. cbn [heavy_s s_heap s_dyn heavy_dyn d_mass s_gforce s_adm]. rewrite !mvn_l, vplus_h, mvn_r. extensionality i. unfold vmul. field. lra.
  Qed.
  Lemma int_joints_h dt js : forall s, integrate_joints dt js (heavy_s c s) = (heavy_s c (fst (integrate_joints dt js s)), snd (integrate_joints dt js s)).
  Proof.
    induction js as [ | j js IH]; intros s; [reflexivity | ]. cbn [integrate_joints]. assert (Q : integrate_joint dt j (heavy_s c s) = rmap (heavy_s c) (integrate_joint dt j s)) by (unfold integrate_joint; cbn [heavy_s s_heap]; destruct (jdof (s_heap s) j) as [[a b] | ]; reflexivity).
    rewrite Q. destruct (integrate_joint dt j s) as [s1 | ]; [ | reflexivity]. cbn [rmap rbind]. apply IH.
  Qed.
  Lemma int_h w dt : world_integrate U' dt (hw w) = hwr (world_integrate U dt w).
  Proof.
    unfold world_integrate, integrate. cbn [U' heavy_setup su_e su_fuel]. destruct (Rlt_dec 0 dt); [ | reflexivity]. cbv zeta. change (w_s (hw w)) with (heavy_s c (w_s w)). rewrite next_h.
    set (v := next_gvel (w_s w) dt (s_gforce (w_s w))). change (s_heap (heavy_s c (w_s w))) with (s_heap (w_s w)). destruct (iterjoints _ _ _) as [js | ]; [ | reflexivity].
    set (s0 := WS (write_world_gvel (s_heap (w_s w)) v) (s_ty (w_s w)) (s_qH (w_s w)) (s_q (w_s w)) (s_dyn (w_s w)) (s_gforce (w_s w)) (s_imp (w_s w)) (s_adm (w_s w)) (s_time (w_s w))).
    match goal with |- context [integrate_joints dt js ?s] => match s with context [heavy_s] => change s with (heavy_s c s0) end end.
    rewrite int_joints_h. destruct (integrate_joints dt js s0) as [s2 [[] | ]]; reflexivity.
  Qed.
  Lemma loop_h tl ts : forall x, nocs (sm_w x) -> sim_loop (interp U' O tl) [] ts (heavy c x) = (heavy c (fst (sim_loop (interp U O tl) [] ts x)), snd (sim_loop (interp U O tl) [] ts x)).
  Proof.
    induction ts as [ | t1 ts IH]; intros x B; cbn [sim_loop map calls interp]; [reflexivity | ]. cbv zeta. change (now (heavy c x)) with (now x). set (dt := t1 - now x).
    change (sm_w (heavy c x)) with (hw (sm_w x)). rewrite dyn_h. unfold hwr. assert (A : nocs (fst (world_dynamic U (sm_w x)))) by (unfold world_dynamic; destruct (world_update_dynamic _ _ _ _ _ _) as [[st e] | ]; exact B).
    destruct (world_dynamic U (sm_w x)) as [w1 [[] | z]]; cbn [fst snd bind_ sm_w set_w sm_names sm_obs] in *; [ | reflexivity].
    rewrite ctl_h. unfold hwr. assert (A2 : nocs (fst (world_controllers U dt w1))) by (unfold world_controllers; destruct (update_controllers _ _ _ _); exact A). destruct (world_controllers U dt w1) as [w2 [[] | z]]; cbn [fst snd bind_ sm_w set_w sm_names sm_obs] in *; [ | reflexivity].
    destruct (cons_h w2 dt A2) as [C1 C2]. rewrite C1. unfold hwr. destruct (world_constraints U dt w2) as [w3 [[] | z]]; cbn [fst snd bind_ sm_w set_w sm_names sm_obs] in *; [ | reflexivity]. specialize (C2 w3 eq_refl).
    rewrite int_h. unfold hwr. assert (A4 : nocs (fst (world_integrate U dt w3))) by (unfold world_integrate; destruct (integrate _ _ _ _); exact C2). destruct (world_integrate U dt w3) as [w4 [[] | z]]; cbn [fst snd bind_ sm_w set_w sm_names sm_obs] in *; [ | reflexivity].
    apply (IH (Sim w4 (sm_names x) (sm_obs x))). exact A4.
  Qed.
End Units.

(** [C106] Describe a world in another unit of mass (masses, viscosities, gains, forces and impedances [c] times greater): the simulation has the same outcome, and ends with the same
    positions, velocities and time, and matrices and forces in the other unit; unless a body is lighter than 1e-10 in one of the units only. *)
Theorem C106_units : forall U O timeline x c, 0 < c -> inv_spec (su_linv U) -> tidy (su_linv U) -> not_tiny c (su_sc U) -> pinv_scales c (su_pinv U) -> Forall no_contact (v_cs (w_v (sm_w x))) ->
  simulate (heavy_setup c U) O timeline (IterList []) (heavy c x) = (heavy c (fst (simulate U O timeline (IterList []) x)), snd (simulate U O timeline (IterList []) x)).
Proof.
  intros U O [ | t0 ts] x c Pc Hi Ht Hn Hq Ec; [reflexivity | ]. rewrite !simulate_alone. change (set_time (sm_w (heavy c x)) t0) with (hw c (set_time (sm_w x) t0)). rewrite (init_h U c Pc). unfold hwr.
  assert (B1 : forall w1, world_init U (set_time (sm_w x) t0) = (w1, Ok tt) -> Forall no_contact (v_cs (w_v w1))).
  { unfold world_init. destruct (Model_World.init 0 _ _ _) as [h [[] | ]]; [ | discriminate]. cbv zeta. change (v_cs (w_v (set_time (sm_w x) t0))) with (v_cs (w_v (sm_w x))). destruct (rmapM (con_init h) (v_cs (w_v (sm_w x)))) as [cs | ] eqn:Em; [ | discriminate]. destruct (ctl_inits _ _ _ _); [ | discriminate]. intros w1 [= <-]. cbn [w_v v_cs].
    clear - Ec Em. revert cs Em. induction Ec as [ | y l Ny _ IH]; intros cs Em; cbn [rmapM] in Em; [injection Em as <-; constructor | ]. destruct (con_init h y) as [y1 | ] eqn:Ey; [ | discriminate]. cbn [rbind] in Em. destruct (rmapM (con_init h) l) as [ys | ]; [ | discriminate]. injection Em as <-. constructor; [ | apply IH; reflexivity].
    destruct y as [j | b | z]; cbn [con_init] in Ey; [ | injection Ey as <-; exact Ny | contradiction]. destruct (jdof h (jl_joint j)) as [[a b] | ]; [injection Ey as <-; exact Logic.I | ]. unfold jl_init_lost in Ey. destruct (_ || _ || _); [injection Ey as <-; exact Logic.I | discriminate]. }
  destruct (world_init U (set_time (sm_w x) t0)) as [w1 [[] | z]]; cbn [fst snd bind_] in *; [ | reflexivity]. apply (loop_h U O c Pc Hi Ht Hn Hq _ ts (set_w x w1)). exact (B1 w1 eq_refl).
Qed.
(** in particular the motion is the same *)
Corollary C106_motion : forall U O timeline x y c, 0 < c -> inv_spec (su_linv U) -> tidy (su_linv U) -> not_tiny c (su_sc U) -> pinv_scales c (su_pinv U) -> Forall no_contact (v_cs (w_v (sm_w x))) ->
  simulate U O timeline (IterList []) x = (y, Ok tt) -> exists y', simulate (heavy_setup c U) O timeline (IterList []) (heavy c x) = (y', Ok tt) /\ now y' = now y /\ forall j, joints_of (w_s (sm_w y')) j = joints_of (w_s (sm_w y)) j.
Proof.
  intros U O tl x y c Pc Hi Ht Hn Hq Ec E. exists (heavy c y). rewrite (C106_units U O tl x c Pc Hi Ht Hn Hq Ec), E. split; [reflexivity | ]. split; reflexivity.
Qed.
Lemma x10 A B : m10 (al (mm6 A B)) = (m10 (aa A) * m00 (al B) + m11 (aa A) * m10 (al B) + m12 (aa A) * m20 (al B)) + (m10 (al A) * m00 (ll B) + m11 (al A) * m10 (ll B) + m12 (al A) * m20 (ll B)).
Proof. destruct A as [[] [] [] []], B as [[] [] [] []]. reflexivity. Qed.
Lemma tiny_nle (m c : R) : 0 < c -> c * (m * 1) <= 1 / 10000000000 -> 1 / 10000000000 < m * 1 ->
  body_nle (m6scal c (rigid_mass m (V3 1 0 0) eye3)) (V6 (V3 0 1 0) zero3) <> m6scal c (body_nle (rigid_mass m (V3 1 0 0) eye3) (V6 (V3 0 1 0) zero3)).
Proof.
  intros Pc L1 L2 E. apply (f_equal (fun N => m10 (al N))) in E. revert E. change (m10 (al (m6scal c (body_nle (rigid_mass m (V3 1 0 0) eye3) (V6 (V3 0 1 0) zero3))))) with (c * m10 (al (body_nle (rigid_mass m (V3 1 0 0) eye3) (V6 (V3 0 1 0) zero3)))). unfold body_nle. cbv zeta. cbn [m6scal rigid_mass aa al la ll mscal m22 eye3].
  destruct (Rle_dec (c * (m * 1)) (1 / 10000000000)) as [A | A]; [ | contradiction]. destruct (Rle_dec (m * 1) (1 / 10000000000)) as [B | B]; [exfalso; lra | ].
  assert (Pm : 0 < m) by lra. clear A B L1 L2. rewrite !x10. cbn [aa al ll m00 m01 m02 m10 m11 m12 m20 m21 m22 vx vy vz ang skew]. intros E. cbv [mscal msub mm zerom3 tr skew eye3 m6scal rigid_mass mm6 madd zero3 aa al la ll m00 m01 m02 m10 m11 m12 m20 m21 m22 vx vy vz ang lin] in E.
  assert (Q : c * m = 0) by (match type of E with ?a = ?b => replace (c * m) with (b - a) by (field; lra) end; lra). apply Rmult_integral in Q. lra.
Qed.
(** the limit of Body.update_dynamic is an absolute number: a valid body of 2e-10 kg, with a centre of mass out of its frame, has other non-linear effects when its mass is given in tons *)
Theorem C106_tiny_refuted : exists M T c, 0 < c /\ (exists m r J, 0 < m /\ M = rigid_mass m r J) /\ body_nle (m6scal c M) T <> m6scal c (body_nle M T).
Proof.
  exists (rigid_mass (2 / 10000000000) (V3 1 0 0) eye3), (V6 (V3 0 1 0) zero3), (1 / 1000). split; [lra | ]. split; [exists (2 / 10000000000), (V3 1 0 0), eye3; split; [lra | reflexivity] | ].
  apply tiny_nle; lra.
Qed.
(** an inverse without useless entries exists *)
Definition tidy_inv (n : nat) (A : mat) : option mat := option_map (fun Y i j => if Nat.ltb i n && Nat.ltb j n then Y i j else 0) (gauss_inv n A).
Lemma tidy_inv_tidy : tidy tidy_inv.
Proof.
  intros n A Y i j E H. unfold tidy_inv in E. destruct (gauss_inv n A) as [B | ]; [ | discriminate]. injection E as <-. destruct (Nat.ltb_spec i n), (Nat.ltb_spec j n); cbn; try reflexivity. lia.
Qed.
Lemma tidy_inv_spec : inv_spec tidy_inv.
Proof.
  intros n A. assert (P := gauss_inv_spec n A). unfold tidy_inv. destruct (gauss_inv n A) as [B | ]; [ | exact P]. cbn [option_map]. destruct P as [P1 P2]. set (Y := fun i j : nat => if Nat.ltb i n && Nat.ltb j n then B i j else 0).
  assert (Q : meq n Y B) by (intros i j Hi Hj; unfold Y; rewrite (proj2 (Nat.ltb_lt i n) Hi), (proj2 (Nat.ltb_lt j n) Hj); reflexivity).
  split; intros i j Hi Hj; [rewrite <- (P1 i j Hi Hj) | rewrite <- (P2 i j Hi Hj)]; unfold mmn; apply sumR_ext; intros k Hk; rewrite Q by assumption; reflexivity.
Qed.
(** the two slides of Props_Apart2, with this inverse *)
Definition uy_U (c : R) : setup := SU ty_e (ch_sc (ty_m c)) 10 tidy_inv (fun _ _ => mzero) (fun _ => []) (fun _ _ _ => None) ky_eigvals ky_eig (fun _ => EmptyString).
Lemma uy_progress c v q t0 ts : 0 < c -> Spec_Sim.increasing (t0 :: ts) -> exists y, simulate (uy_U c) sy_O (t0 :: ts) (IterList []) (ty_x v q) = (y, Ok tt).
Proof.
  intros Pc Inc. destruct (C18_progress (uy_U c) sy_O t0 ts [] (ty_x v q) (fun j _ => v j) ty_t) as (y & [E | (_ & h' & J & st & st' & d & dt & So & Lv & Tj & Pd & E & Sg)]).
  - exact (ty_reachable v).
  - exact (ty_rep v).
  - reflexivity.
  - cbn. lia.
  - exact tidy_inv_spec.
  - intros [b | b | b]; apply SE3_eye.
  - intros j Ij. cbn in Ij. split; [destruct Ij as [<- | [<- | []]]; reflexivity | discriminate].
  - reflexivity.
  - repeat constructor. intros [].
  - intros a _. do 2 eexists. reflexivity.
  - constructor.
  - intros i [].
  - exact Inc.
  - exists y. exact E.
  - exfalso. destruct So as (_ & Sj & _).
    destruct (ty_dyn c h' J st st' d (proj1 Lv) (ltac:(intros j Hj; rewrite Sj; apply (ty_frames v); exact Hj)) Tj E) as (M1 & V1 & N1 & M2 & V2 & N2 & X).
    assert (Nd : w_ndof h' = 2%nat) by (rewrite (proj1 (proj2 (proj2 (proj2 (proj1 Lv))))); reflexivity). rewrite Nd in Sg.
    destruct Sg as (u & Nv & Kv). apply Nv. assert (K0 := Kv 0%nat ltac:(lia)). assert (K1 := Kv 1%nat ltac:(lia)). destruct (X 0 1)%nat as (X1 & X2 & X3); [auto | ]. destruct (X 1 0)%nat as (Y1 & Y2 & Y3); [auto | ].
    unfold mvn, mplus, mmul, vzero in K0, K1. cbn [sumR] in K0, K1. rewrite M1, V1, N1, X1, X2, X3 in K0. rewrite M2, V2, N2, Y1, Y2, Y3 in K1.
    assert (0 < / dt) by (apply Rinv_0_lt_compat; exact Pd). assert (0 < / dt * c) by (apply Rmult_lt_0_compat; assumption).
    assert (A0 : u 0%nat = 0) by (apply (Rmult_eq_reg_l (/ dt + 1)); lra). assert (A1 : u 1%nat = 0) by (apply (Rmult_eq_reg_l (/ dt * c + 1)); lra).
    intros [ | [ | i]] Hi; [exact A0 | exact A1 | lia].
Qed.
Example C106_witness : forall c v q, 1 <= c -> exists y,
  simulate (uy_U 2) sy_O [0; 1 / 2; 1] (IterList []) (ty_x v q) = (y, Ok tt) /\ simulate (heavy_setup c (uy_U 2)) sy_O [0; 1 / 2; 1] (IterList []) (heavy c (ty_x v q)) = (heavy c y, Ok tt).
Proof.
  intros c v q Hc. assert (Inc : Spec_Sim.increasing [0; 1 / 2; 1]) by (intros k Hk; cbn in Hk; destruct k as [ | [ | k]]; cbn; lra || lia). destruct (uy_progress 2 v q 0 [1 / 2; 1] ltac:(lra) Inc) as (y & E). exists y. split; [exact E | ].
  rewrite (C106_units (uy_U 2) sy_O [0; 1 / 2; 1] (ty_x v q) c); [rewrite E; reflexivity | lra | exact tidy_inv_spec | exact tidy_inv_tidy | | intros n A; cbn [uy_U su_pinv]; rewrite mmul_z; reflexivity | constructor].
  intros b. cbv zeta. change (b_mass (su_sc (uy_U 2)) b) with (ty_m 2 b). assert (Q : 1 <= m22 (ll (ty_m 2 b))) by (unfold ty_m; destruct b as [ | [ | [ | b]]]; unfold wm, rigid_mass; cbn; lra). assert (1 <= c * m22 (ll (ty_m 2 b))) by nra. split; intros; lra.
Qed.
(** a pseudo-inverse that scales as assumed, and that is the inverse where there is one *)
Definition tidy_pinv (n : nat) (A : mat) : mat := match tidy_inv n A with Some B => B | None => mzero end.
Lemma tidy_pinv_spec : pinv_spec tidy_pinv.
Proof.
  intros n A Ns. unfold tidy_pinv. assert (P := tidy_inv_spec n A). destruct (tidy_inv n A) as [B | ]; [exact P | contradiction].
Qed.
Lemma tidy_pinv_scales c : 0 < c -> pinv_scales c tidy_pinv.
Proof.
  intros Pc n A. assert (Pi : 0 < / c) by (apply Rinv_0_lt_compat; exact Pc). unfold tidy_pinv. rewrite (linv_scale tidy_inv (/ c) Pi tidy_inv_spec tidy_inv_tidy). destruct (tidy_inv n A) as [B | ]; cbn [option_map]; [rewrite Rinv_inv; reflexivity | rewrite mmul_z; reflexivity].
Qed.
(** the two slides, the first of which starts against an enabled joint limit, and a ball-and-socket constraint between their bodies *)
Definition uz_U : setup := SU ty_e (ch_sc (ty_m 2)) 10 tidy_inv tidy_pinv (fun _ => []) (fun _ _ _ => None) ky_eigvals ky_eig (fun _ => EmptyString).
Definition uz_cs : list con := [CJ (JL true 1 1 (fun _ => 0) (fun _ => 1) (fun _ => 1) (fun _ => 0) mzero vzero); CB (BS true (FBody 1) (FBody 2) zero3 vzero)].
Definition uz_x (v q : nat -> R) : sim := Sim (W (WV (w_s (sm_w (ty_x v q))) (v_st (w_v (sm_w (ty_x v q)))) uz_cs) (w_ctl (sm_w (ty_x v q)))) (sm_names (ty_x v q)) (sm_obs (ty_x v q)).
Example C106_limits_witness : forall c v q tl, 1 <= c -> pinv_spec (su_pinv uz_U) /\
  simulate (heavy_setup c uz_U) sy_O tl (IterList []) (heavy c (uz_x v q)) = (heavy c (fst (simulate uz_U sy_O tl (IterList []) (uz_x v q))), snd (simulate uz_U sy_O tl (IterList []) (uz_x v q))).
Proof.
  intros c v q tl Hc. split; [exact tidy_pinv_spec | ]. apply C106_units; [lra | exact tidy_inv_spec | exact tidy_inv_tidy | | apply tidy_pinv_scales; lra | repeat constructor].
  intros b. cbv zeta. change (b_mass (su_sc uz_U) b) with (ty_m 2 b). assert (Q : 1 <= m22 (ll (ty_m 2 b))) by (unfold ty_m; destruct b as [ | [ | [ | b]]]; unfold wm, rigid_mass; cbn; lra). assert (1 <= c * m22 (ll (ty_m 2 b))) by nra. split; intros; lra.
Qed.
