(** C46, C47, C61: controllers and the energy observer. *)
From Verif Require Import Spec_Ctl Proof_Tree Proof_World Proof_Dofs Proof_Linalg Proof_Deriv Proof_SE3 Proof_Joints Proof_Dyn Proof_Dyn2 Proof_Matrix Proof_Step Proof_Mass.
From Verif Require Import Props_World Props_Dyn Props_DynEx Props_Mass Props_Step Proof_Ctl.
From Coq Require Import Lra.

(** ** C46 *)
Lemma pd_scan_ok e h ty : forall js n m n' m', pd_scan e h ty js n m = Ok (n', m') ->
  n' = (n + total_ndof e js)%nat /\ forall j, In j js -> is_linear (ty j) = true.
Proof.
  induction js as [ | j js IH]; intros n m n' m' H; cbn [pd_scan] in H.
  - injection H as <- <-. split; [cbn; lia | intros j []].
  - destruct (is_linear (ty j)) eqn:L; [ | discriminate]. destruct (dof_range h j) as [l | ]; [ | discriminate]. cbn [rbind] in H.
    destruct (IH _ _ _ _ H) as [E F]. split; [rewrite E, total_cons; lia | ]. intros k [<- | I]; auto.
Qed.

(** what a PD controller is after construction (at any earlier state [h0] of the world) and [init] *)
Definition pd_ready (e : env) (h : @heap R) (ty : nat -> jtype) (js : list nat) (kp kd : mat) (qd vd : vec) (c : pdctl) : Prop :=
  exists h0 c0, pd_new e h0 ty js (Some kp) (Some kd) (Some qd) (Some vd) = Ok c0 /\ pd_init h c0 = Ok c.
Lemma pd_ready_eq e h t ty js kp kd qd vd c : ready e h t -> incl js (joints t) -> pd_ready e h ty js kp kd qd vd c ->
  c = PD js (total_ndof e js) (map (index h) (controlled e js)) kp kd qd vd /\ forall j, In j js -> is_linear (ty j) = true.
Proof.
  intros Rd Inc (h0 & c0 & N & I). unfold pd_new in N. destruct (pd_scan _ _ _ _ _ _) as [[n m] | ] eqn:S; [ | discriminate]. cbn [rbind] in N. injection N as <-.
  destruct (pd_scan_ok _ _ _ _ _ _ _ _ S) as [E L]. unfold pd_init in I. cbn [pd_joints pd_cndof pd_kp pd_kd pd_qd pd_vd] in I.
  rewrite (dof_ranges e h js) in I. 2:{ intros j Ij. destruct (ready_dof e h t j Rd (Inc j Ij)) as (s & D & _). eauto. }
  cbn [rbind] in I. injection I as <-. rewrite E. split; auto.
Qed.

(** The effective force f + Z v' (f and Z returned by [update], v' the velocity after the step) is the
    documented law on the controlled coordinates, with the position q + dt v' reached at the end of the
    step, and it vanishes on all other dofs. *)
Theorem C46_effective_force : forall e h t ty js kp kd qd vd c q v dt f Z v',
  ready e h t -> incl js (joints t) -> NoDup js -> pd_ready e h ty js kp kd qd vd c ->
  pd_update e (w_ndof h) q v c dt = Ok (f, Z) ->
  let C := controlled e js in let N := length C in let n := w_ndof h in
  let q' := fun r => let x := nth r C (0, 0)%nat in q (fst x) (snd x) + dt * v' (index h x) in
  let w' := fun r => v' (index h (nth r C (0, 0)%nat)) in
  (forall r, (r < N)%nat -> let k := index h (nth r C (0, 0)%nat) in
     f k + mvn n Z v' k = pd_law N kp kd qd vd q' w' r) /\
  (forall k, (k < n)%nat -> (forall x, In x C -> k <> index h x) -> f k = 0 /\ mvn n Z v' k = 0).
Proof.
  intros e h t ty js kp kd qd vd c q v dt f Z v' Rd Inc Nd Pr U C N n q' w'.
  destruct (pd_ready_eq e h t ty js kp kd qd vd c Rd Inc Pr) as [-> _].
  assert (Nm := map_nodup e h t js Rd Nd Inc). fold C in Nm.
  assert (Bm : forall i, In i (map (index h) C) -> (i < n)%nat).
  { intros i I. apply in_map_iff in I. destruct I as ([j k] & <- & I). apply in_controlled in I. apply (index_bound e h t); auto; cbn; [apply Inc | ]; tauto. }
  unfold pd_update in U. cbn [pd_joints pd_cndof pd_map pd_kp pd_kd pd_qd pd_vd] in U. fold C in U.
  destruct (np_stack (map (coords e q) js) _) as [gp | ] eqn:Sp; [ | discriminate]. cbn [rbind] in U.
  destruct (np_stack (map (coords e v) js) _) as [gv | ] eqn:Sv; [ | discriminate]. cbn [rbind] in U.
  apply stack_ok in Sp. destruct Sp as [Eg _]. rewrite controlled_coords in Eg. fold C in Eg.
  rewrite <- controlled_length in U. fold C N in U.
  unfold set_at in U. destruct (map (index h) C) as [ | i0 m0] eqn:Em; [discriminate | ]. rewrite <- Em in *. clear Em i0 m0.
  destruct (forallb _ _) eqn:Fb; [ | discriminate]. cbn [rbind] in U. unfold set_block in U. rewrite Fb in U. cbn [rbind] in U. injection U as <- <-.
  assert (Lm : length (map (index h) C) = N) by apply map_length.
  assert (Ek : forall r, (r < N)%nat -> nth r (map (index h) C) 0%nat = index h (nth r C (0, 0)%nat)).
  { intros r L. rewrite (nth_indep _ 0%nat (index h (0, 0)%nat)) by (rewrite Lm; exact L). apply map_nth. }
  set (m := map (index h) C) in *. set (V := mmul (-1) (mplus (mmul dt kp) kd)) in *.
  set (ZZ := assign m 0 (fun a => assign m 0 (V a) (mzero (nth a m 0%nat))) mzero).
  assert (Zin : forall r, (r < N)%nat -> mvn n ZZ v' (nth r m 0%nat) = sumR N (fun k => V r k * v' (nth k m 0%nat))).
  { intros r L. unfold mvn. assert (Er : ZZ (nth r m 0%nat) = assign m 0 (V r) (mzero (nth r m 0%nat))).
    { unfold ZZ. rewrite assign_in by (auto; rewrite Lm; exact L). reflexivity. }
    rewrite Er. rewrite (sumR_scatter n m Nm Bm).
    - rewrite Lm. apply sumR_ext. intros k Lk. rewrite assign_in by (auto; rewrite Lm; exact Lk). reflexivity.
    - intros i Li Ni. rewrite assign_out by exact Ni. unfold mzero. ring. }
  split.
  - intros r L. cbn zeta. rewrite <- Ek by exact L. rewrite Zin by exact L. rewrite assign_in by (auto; rewrite Lm; exact L). cbn [plus].
    unfold pd_law, vplus, mvn. rewrite <- !sumR_add. apply sumR_ext. intros k Lk. unfold V, mmul, mplus, vminus, q', w'. rewrite Ek by exact Lk.
    rewrite Eg. replace (nth k (map (fun y => q (fst y) (snd y)) C) 0) with (q (fst (nth k C (0, 0)%nat)) (snd (nth k C (0, 0)%nat))).
    + ring.
    + symmetry. etransitivity; [apply (nth_indep _ 0 (q 0%nat 0%nat)); rewrite map_length; exact Lk | exact (map_nth (fun y => q (fst y) (snd y)) C (0, 0)%nat k)].
  - intros k Lk Nk. assert (Nm' : ~ In k m) by (intros I; apply in_map_iff in I; destruct I as (x & E & Ix); apply (Nk x Ix); auto).
    split; [rewrite assign_out by exact Nm'; reflexivity | ].
    unfold mvn. apply sumR_zero. intros i _. unfold ZZ. rewrite assign_out by exact Nm'. unfold mzero. ring.
Qed.

(** In a complete step of the world (any other controllers and constraint forces): the force applied by
    the controller is the documented law evaluated at the positions and velocities the joints have after
    the step. *)
Theorem C46_step : forall linv ctl e t fuel dt s s1 fa Za fc a js kp kd qd vd c,
  inv_spec linv -> live e (s_heap s) t -> (height t < fuel)%nat ->
  (forall j, In j (joints t) -> jndof e j = ndof_of (s_ty s j)) ->
  (forall b, In b (w_controllers (s_heap s)) -> ctl b dt = Ok (fa b, Za b)) ->
  In a (w_controllers (s_heap s)) -> incl js (joints t) -> NoDup js ->
  pd_ready e (s_heap s) (s_ty s) js kp kd qd vd c ->
  ctl a dt = pd_update e (w_ndof (s_heap s)) (s_q s) (fun j => gvel (joints_of s j)) c dt ->
  update_controllers linv ctl dt s = (s1, Ok tt) ->
  exists s', integrate e fuel dt (set_forces s1 (vplus (s_gforce s1) fc) (s_imp s1) (s_adm s1)) = (s', Ok tt) /\
    let C := controlled e js in let n := w_ndof (s_heap s) in let v' := gvel_vec (s_heap s') in
    let q1 := fun r => let x := nth r C (0, 0)%nat in gpos (joints_of s' (fst x)) (snd x) in
    let w1 := fun r => let x := nth r C (0, 0)%nat in gvel (joints_of s' (fst x)) (snd x) in
    (forall r, (r < length C)%nat -> let k := index (s_heap s) (nth r C (0, 0)%nat) in
       fa a k + mvn n (Za a) v' k = pd_law (length C) kp kd qd vd q1 w1 r) /\
    (forall k, (k < n)%nat -> (forall x, In x C -> k <> index (s_heap s) x) -> fa a k + mvn n (Za a) v' k = 0).
Proof.
  intros linv ctl e t fuel dt s s1 fa Za fc a js kp kd qd vd c Hi Lv F Hty Hc Ia Inc Nd Pr Ec Hu.
  destruct (C45_step linv ctl e t fuel dt s s1 fa Za fc Hi Lv F Hty Hc Hu) as (s' & Es & _ & Mv & _).
  exists s'. split; [exact Es | ]. cbn zeta. rewrite (Hc a Ia) in Ec. symmetry in Ec.
  destruct (C46_effective_force e (s_heap s) t (s_ty s) js kp kd qd vd c _ _ dt _ _ (gvel_vec (s_heap s')) (proj1 Lv) Inc Nd Pr Ec) as [A B].
  destruct (pd_ready_eq e _ t _ js kp kd qd vd c (proj1 Lv) Inc Pr) as [_ Lin].
  split.
  - intros r L. rewrite A by exact L. unfold pd_law.
    assert (G : forall k, (k < length (controlled e js))%nat -> let x := nth k (controlled e js) (0, 0)%nat in
      gpos (joints_of s' (fst x)) (snd x) = s_q s (fst x) (snd x) + dt * gvel_vec (s_heap s') (index (s_heap s) x) /\
      gvel (joints_of s' (fst x)) (snd x) = gvel_vec (s_heap s') (index (s_heap s) x)).
    { intros k Lk x. assert (I : In x (controlled e js)) by (apply nth_In, Lk). destruct x as [j i]. apply in_controlled in I. destruct I as [Ij Li]. cbn [fst snd].
      destruct (Mv j (Inc j Ij)) as (b & D & Et & Mp & Mg). unfold index. cbn [fst snd]. rewrite D.
      specialize (Lin j Ij). change (jt (joints_of s j)) with (s_ty s j) in Mp. cbv beta in Mg.
      split; [ | apply Mg, Li]. destruct (s_ty s j); try discriminate; apply Mp, Li. }
    f_equal; apply sumR_ext; intros k Lk; cbv zeta; destruct (G k Lk) as [G1 G2]; [rewrite G1 | rewrite G2]; reflexivity.
  - intros k Lk Nk. destruct (B k Lk Nk) as [-> ->]. ring.
Qed.

(** [update] succeeds for every non-empty list of joints that have the same number of dofs, and raises
    ValueError as soon as two of them differ: the property fails on such lists (and on the empty one). *)
Theorem C46_defined_partial : forall e h t ty js kp kd qd vd c q v dt, ready e h t -> incl js (joints t) -> js <> [] ->
  (forall j, In j js -> (0 < jndof e j)%nat) -> pd_ready e h ty js kp kd qd vd c -> same_ndof e js ->
  exists f Z, pd_update e (w_ndof h) q v c dt = Ok (f, Z).
Proof.
  intros e h t ty js kp kd qd vd c q v dt Rd Inc Ne Pos Pr Sa.
  destruct (pd_ready_eq e h t ty js kp kd qd vd c Rd Inc Pr) as [-> _].
  assert (S : forall x : nat -> nat -> R, exists r, np_stack (map (coords e x) js) (total_ndof e js) = Ok r).
  { intros x. unfold np_stack. destruct js as [ | j js]; [contradiction | ]. cbn [map].
    change (coords e x j :: map (coords e x) js) with (map (coords e x) (j :: js)). rewrite controlled_coords, map_length, controlled_length, Nat.eqb_refl.
    replace (forallb _ _) with true; [cbn [andb]; eauto | ]. symmetry. apply forallb_forall. intros y Iy. apply in_map_iff in Iy. destruct Iy as (k & <- & Ik).
    unfold coords. rewrite !map_length, !seq_length. apply Nat.eqb_eq, Sa; [now right | now left]. }
  unfold pd_update. cbn [pd_joints pd_cndof pd_map pd_kp pd_kd pd_qd pd_vd].
  destruct (S q) as [gp ->], (S v) as [gv ->]. cbn [rbind].
  assert (Fb : forallb (fun i => Nat.ltb i (w_ndof h)) (map (index h) (controlled e js)) = true).
  { apply forallb_forall. intros i I. apply Nat.ltb_lt. apply in_map_iff in I. destruct I as ([j k] & <- & I). apply in_controlled in I. apply (index_bound e h t); auto; cbn; [apply Inc | ]; tauto. }
  unfold set_at, set_block. rewrite Fb.
  destruct (map (index h) (controlled e js)) eqn:Em; [ | cbn [rbind]; eauto].
  exfalso. destruct js as [ | j js]; [contradiction | ]. apply (f_equal (@length nat)) in Em. rewrite map_length, controlled_length, total_cons in Em. specialize (Pos j (or_introl eq_refl)). cbn in Em. lia.
Qed.
Theorem C46_mixed_refuted : forall e h t ty js kp kd qd vd c q v dt i j, ready e h t -> incl js (joints t) ->
  pd_ready e h ty js kp kd qd vd c -> In i js -> In j js -> jndof e i <> jndof e j ->
  pd_update e (w_ndof h) q v c dt = Err ValueError.
Proof.
  intros e h t ty js kp kd qd vd c q v dt i j Rd Inc Pr Ii Ij N.
  destruct (pd_ready_eq e h t ty js kp kd qd vd c Rd Inc Pr) as [-> _]. unfold pd_update. cbn [pd_joints pd_cndof].
  assert (E : np_stack (map (coords e q) js) (total_ndof e js) = Err ValueError); [ | rewrite E; reflexivity].
  unfold np_stack. destruct js as [ | a js]; [destruct Ii | ]. cbn [map].
  replace (forallb _ _) with false; [reflexivity | ]. symmetry. apply not_true_is_false. intros Fb. rewrite forallb_forall in Fb.
  assert (G : forall k, In k (a :: js) -> jndof e k = jndof e a).
  { intros k [-> | Ik]; [reflexivity | ]. specialize (Fb (coords e q k) (in_map _ _ _ Ik)). unfold coords in Fb. rewrite !map_length, !seq_length in Fb. apply Nat.eqb_eq, Fb. }
  apply N. rewrite (G i Ii), (G j Ij). reflexivity.
Qed.

(** A hinge of unit inertia at angle 0 turning at 1 rad/s, driven to 3 rad (Kp = 2, Kd = 1) during 0.5 s: the
    implicit law leads to 2 rad/s and 1 rad. *)
Definition pw_h : @heap R := run 0 (ch_e [RzJoint]) 10 (ch_ops [RzJoint] ++ [Register (OController 7); Init]) (fresh (ch_e [RzJoint]) (fun _ _ => 1)).
Definition pw_s : wst := WS pw_h (fun _ => RzJoint) (fun _ => eye4) (fun _ _ => 0) (WD (fun _ _ => 1) (fun _ _ => 0) (fun _ _ => 0)) vzero mzero mzero 0.
Definition pw_c : pdctl := PD [1]%nat 1 [0]%nat (fun _ _ => 2) (fun _ _ => 1) (fun _ => 3) vzero.
Example C46_witness : let e := ch_e [RzJoint] in
  live e pw_h (ch_t 0 1) /\ w_controllers pw_h = [7]%nat /\ incl [1]%nat (joints (ch_t 0 1)) /\
  pd_ready e pw_h (s_ty pw_s) [1]%nat (fun _ _ => 2) (fun _ _ => 1) (fun _ => 3) vzero pw_c /\
  exists s1 s', update_controllers gauss_inv (fun _ => pd_update e 1 (s_q pw_s) (fun j => gvel (joints_of pw_s j)) pw_c) (1 / 2) pw_s = (s1, Ok tt) /\
    integrate e 10 (1 / 2) (set_forces s1 (vplus (s_gforce s1) vzero) (s_imp s1) (s_adm s1)) = (s', Ok tt) /\ gvel_vec (s_heap s') 0%nat = 2 /\ gpos (joints_of s' 1) 0%nat = 1.
Proof.
  cbn zeta. set (e := ch_e [RzJoint]).
  assert (Lv : live e pw_h (ch_t 0 1)).
  { split; [unfold pw_h; ch_ready | ]. split; [reflexivity | ]. intros j a b [<- | []] D. cbn in D. injection D as <- <-. reflexivity. }
  assert (Pr : pd_ready e pw_h (s_ty pw_s) [1]%nat (fun _ _ => 2) (fun _ _ => 1) (fun _ => 3) vzero pw_c) by (exists pw_h, pw_c; split; reflexivity).
  assert (Inc : incl [1]%nat (joints (ch_t 0 1))) by (intros x I; exact I).
  split; [exact Lv | ]. split; [reflexivity | ]. split; [exact Inc | ]. split; [exact Pr | ].
  set (ctl := fun _ : nat => pd_update e 1 (s_q pw_s) (fun j => gvel (joints_of pw_s j)) pw_c).
  destruct (C46_defined_partial e pw_h (ch_t 0 1) (s_ty pw_s) [1]%nat (fun _ _ => 2) (fun _ _ => 1) (fun _ => 3) vzero pw_c (s_q pw_s) (fun j => gvel (joints_of pw_s j)) (1 / 2) (proj1 Lv) Inc) as (f & Z & U).
  { discriminate. } { intros j [<- | []]. cbn. lia. } { exact Pr. } { intros i j [<- | []] [<- | []]. reflexivity. }
  change (w_ndof pw_h) with 1%nat in U.
  assert (Ef : f 0%nat = 6 /\ Z 0%nat 0%nat = - 2).
  { revert U. unfold pd_update. cbn. intros [= <- <-]. unfold upd. cbn. unfold mmul, mplus, vplus, vminus, mvn, vzero. cbn. split; lra. }
  destruct Ef as [Ef EZ].
  destruct (C45_singular gauss_inv ctl (1 / 2) pw_s (fun _ => f) (fun _ => Z) gauss_inv_spec ltac:(lra)) as (s1 & [[Sg _] | (NS & E & Iv)] & _).
  { intros a _. exact U. }
  - exfalso. destruct Sg as (x & Nx & Kx). apply Nx. intros i Li. cbn in Li. assert (i = 0)%nat by lia. subst i.
    specialize (Kx 0%nat ltac:(cbn; lia)). unfold mvn, mminus, mplus, mmul, vzero in *. cbn in Kx. rewrite EZ in Kx. lra.
  - exists s1.
    destruct (C46_step gauss_inv ctl e (ch_t 0 1) 10 (1 / 2) pw_s s1 (fun _ => f) (fun _ => Z) vzero 7 [1]%nat (fun _ _ => 2) (fun _ _ => 1) (fun _ => 3) vzero pw_c gauss_inv_spec Lv)
      as (s' & Es & L1 & _); try (cbn; auto; lia).
    { intros j [<- | []]. reflexivity. } { repeat constructor; intros []. }
    destruct (C45_step gauss_inv ctl e (ch_t 0 1) 10 (1 / 2) pw_s s1 (fun _ => f) (fun _ => Z) vzero gauss_inv_spec Lv) as (s2 & Es2 & Eq & Mv & _); try (cbn; auto; lia).
    { intros j [<- | []]. reflexivity. }
    rewrite Es in Es2. injection Es2 as <-.
    exists s'. split; [exact E | ].
    specialize (Eq 0%nat ltac:(cbn; lia)). cbn zeta in Eq. change (w_ndof (s_heap pw_s)) with 1%nat in Eq.
    destruct (Mv 1%nat (or_introl eq_refl)) as (b & D & _ & Mp & _). cbn in D. injection D as <-. specialize (Mp 0%nat ltac:(cbn; lia)).
    assert (V : gvel_vec (s_heap s') 0%nat = 2).
    { revert Eq. unfold mvn, vmul, vminus, mplus, vzero. cbn [sumR sumlist w_controllers]. change (w_controllers (s_heap pw_s)) with [7]%nat. cbn [sumlist]. rewrite Ef, EZ.
      change (gvel_vec (s_heap pw_s) 0%nat) with 1. cbn [s_dyn pw_s d_mass d_nle d_visc]. intros Q. lra. }
    cbn [plus] in Mp. rewrite V in Mp. change (gpos (joints_of pw_s 1) 0%nat) with 0 in Mp.
    split; [exact Es | split; [exact V | lra]].
Qed.
(** two joints of different classes *)
Example C46_mixed_witness : forall q v dt, exists c,
  ready (ch_e k12) (ch_h k12) (ch_t 0 2) /\ incl [1; 2]%nat (joints (ch_t 0 2)) /\
  pd_ready (ch_e k12) (ch_h k12) (fun j => match j with 1%nat => RzJoint | _ => RzRyJoint end) [1; 2]%nat mzero mzero vzero vzero c /\
  pd_update (ch_e k12) (w_ndof (ch_h k12)) q v c dt = Err ValueError.
Proof.
  intros q v dt. assert (Inc : incl [1; 2]%nat (joints (ch_t 0 2))) by (intros x I; exact I).
  set (c := PD [1; 2]%nat 3 [0; 1; 2]%nat mzero mzero vzero vzero).
  assert (Pr : pd_ready (ch_e k12) (ch_h k12) (fun j => match j with 1%nat => RzJoint | _ => RzRyJoint end) [1; 2]%nat mzero mzero vzero vzero c) by (exists (ch_h k12), c; split; reflexivity).
  exists c. split; [exact k12_ready | ]. split; [exact Inc | ]. split; [exact Pr | ].
  apply (C46_mixed_refuted _ _ (ch_t 0 2) _ _ _ _ _ _ _ q v dt 1 2 k12_ready Inc Pr); cbn; auto.
Qed.
