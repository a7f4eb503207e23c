(** C91: a witness.  C92: MatlabSimulationGenerator. *)
From Coq Require Import Lra Lia.
From Verif Require Import Spec_Matlab Proof_World Proof_Matlab3 Props_Matlab Props_Matlab2 Proof_Dyn2 Props_DynEx.
Open Scope R_scope.

(** A free body that carries another one by a hinge, without shape: it is accepted. *)
Definition kfz := [FreeJoint; RzJoint].
Lemma kfz_ready : ready (ch_e kfz) (ch_h kfz) (ch_t 0 2).
Proof. ch_ready. Qed.
Lemma kfz_frames : jframes (ch_h kfz) 1 = Some (FBody 0, FBody 1). Proof. reflexivity. Qed.
Lemma kfz_robot : robot (ch_e kfz) (ch_h kfz) 1 (ch_t 1 1).
Proof.
  destruct kfz_ready as (R0 & _ & Nd & _). cbn [ch_t] in R0. apply rep_inv in R0. destruct R0 as [_ F]. destruct (F 1%nat _ (or_introl eq_refl)) as [_ R1].
  split; [exact R1|]. split; [cbn in Nd |- *; inversion Nd; assumption|]. exists (FBody 0), (FBody 1). split; [exact kfz_frames|reflexivity].
Qed.
Theorem C91_witness : forall m q v nm geo, exists g' ls,
  robot (ch_e kfz) (ch_h kfz) 1 (ch_t 1 1) /\ (forall j, In j (joints (ch_t 1 1)) -> hinge (jt (ch_J kfz q v j))) /\
  make_robot (ch_e kfz) (ch_sc m) (ch_h kfz) (ch_J kfz q v) nm geo 5 1 "robot" new_gen = (g', ls, Ok tt).
Proof.
  intros m q v nm geo.
  assert (Hh : forall j, In j (joints (ch_t 1 1)) -> hinge (jt (ch_J kfz q v j))) by (intros j [<-|[]]; right; right; left; reflexivity).
  assert (Ws : w_shapes (ch_h kfz) = []) by reflexivity.
  destruct (C91_accepts (ch_e kfz) (ch_sc m) (ch_h kfz) (ch_J kfz q v) nm geo 4 1 (ch_t 1 1) "robot" kfz_robot) as (g' & ls & E & _).
  - cbn. lia.
  - reflexivity.
  - exact Hh.
  - discriminate.
  - rewrite Ws. intros s [].
  - rewrite Ws. intros s n d [].
  - exists g', ls. split; [exact kfz_robot|]. split; [exact Hh|exact E].
Qed.

(** [n] dates from [t0], every [dt] *)
Definition every (t0 dt : R) (n : nat) : list R := map (fun k => t0 + INR k * dt) (seq 0 n).

Lemma all_equal_eq a : forall b, all_equal a b = true <-> a = b.
Proof.
  induction a as [|x a IH]; intros [|y b]; cbn; split; try discriminate; try reflexivity.
  - destruct (Req_EM_T x y) as [->|]; [|discriminate]. cbn. intros E. f_equal. now apply IH.
  - intros E. injection E as -> ->. destruct (Req_EM_T y y) as [_|N]; [|destruct (N eq_refl)]. cbn. now apply IH.
Qed.
Lemma every_length t0 dt n : length (every t0 dt n) = n.
Proof. unfold every. now rewrite map_length, seq_length. Qed.
Lemma every_last t0 dt n : last (every t0 dt (S n)) 0 = t0 + INR n * dt.
Proof. unfold every. rewrite seq_S, map_app. cbn [map plus]. apply last_last. Qed.
Lemma arange_every t0 dt n : dt <> 0 -> arange t0 (t0 + INR n * dt + dt) dt = every t0 dt (S n).
Proof.
  intros D. unfold arange, every. f_equal. f_equal.
  replace ((t0 + INR n * dt + dt - t0) / dt) with (INR (S n)) by (rewrite S_INR; field; exact D).
  rewrite INR_IZR_INZ, <- opp_IZR.
  assert (X : Int_part (IZR (- Z.of_nat (S n))) = (- Z.of_nat (S n))%Z).
  { unfold Int_part. rewrite <- (tech_up (IZR (- Z.of_nat (S n))) (- Z.of_nat (S n) + 1)); [lia| |]; rewrite plus_IZR; lra. }
  rewrite X, Z.opp_involutive. apply Nat2Z.id.
Qed.
Lemma every_2 t0 dt n : every t0 dt (S (S n)) = t0 :: (t0 + dt) :: map (fun k => t0 + INR k * dt) (seq 2 n).
Proof. unfold every. cbn [seq map]. f_equal; [cbn [INR]; lra|]. f_equal. cbn [INR]; lra. Qed.

(** The accepted timelines are those of equally spaced dates, at least two, whatever the sign of the step. *)
Theorem C92_timeline : forall tl t0 dt te, check_timeline tl = Ok (t0, dt, te) <->
  exists n, (2 <= n)%nat /\ dt <> 0 /\ tl = every t0 dt n /\ te = last tl 0 - dt / 2.
Proof.
  intros tl t0 dt te. split.
  - destruct tl as [|a [|b tl]]; try discriminate. unfold check_timeline. destruct (Req_EM_T (b - a) 0) as [|D]; [discriminate|].
    match goal with |- context [Nat.eqb (length ?x) _] => set (A := x) end.
    destruct (Nat.eqb (length A) (length (a :: b :: tl))) eqn:L; [|destruct (Nat.eqb (length A) 1); discriminate].
    destruct (all_equal A (a :: b :: tl)) eqn:Q; [|discriminate]. apply all_equal_eq in Q. apply Nat.eqb_eq in L. intros E. injection E as <- <- <-.
    exists (length (a :: b :: tl)). split; [cbn; lia|]. split; [exact D|]. split; [|change (last (a :: b :: tl) 0) with (match tl with [] => b | _ :: _ => last tl 0 end); lra].
    rewrite <- Q at 1. unfold A, arange, every. f_equal. f_equal. rewrite <- L. unfold A, arange. now rewrite map_length, seq_length.
  - intros (n & Hn & D & -> & ->). destruct n as [|[|n]]; [lia|lia|]. rewrite every_last, every_2. cbn [check_timeline].
    replace (t0 + dt - t0) with dt by lra. destruct (Req_EM_T dt 0) as [X|_]; [destruct (D X)|]. rewrite <- every_2, every_last.
    rewrite arange_every by exact D. rewrite Nat.eqb_refl.
    destruct (all_equal (every t0 dt (S (S n))) (every t0 dt (S (S n)))) eqn:Q.
    + do 2 f_equal. lra.
    + rewrite (proj2 (all_equal_eq _ _) eq_refl) in Q. discriminate Q.
Qed.

(** The gravity that is written is the sum of the gravities of the weight controllers, the only controllers that are accepted. *)
Definition total_gravity (ctl : nat -> option R) (cs : list nat) : R := fold_right (fun a s => match ctl a with Some g => g + s | None => s end) 0 cs.
Lemma gravity_ok ctl cs : forall g0 g, gen_gravity ctl cs g0 = Ok g -> g = g0 + total_gravity ctl cs /\ forall a, In a cs -> ctl a <> None.
Proof.
  induction cs as [|a cs IH]; intros g0 g; cbn [gen_gravity total_gravity fold_right].
  - intros E. injection E as <-. split; [lra|intros a []].
  - destruct (ctl a) as [ga|] eqn:Ea; [|discriminate]. destruct (Req_EM_T g0 0) as [->|]; [|discriminate]. intros E. apply IH in E.
    destruct E as [-> Hc]. split; [unfold total_gravity; lra|]. intros a' [<-|I']; [rewrite Ea; discriminate|auto].
Qed.
(** What generate_simulation writes: the dates, the acceleration of the gravity (six numbers, the linear part first) and the robot.
    The dates are equally spaced, the ground has one joint, there is no constraint, and the controllers are weight controllers. *)
Theorem C92_simulation : forall e sc h J nm geo ctl up fuel tl sname ls,
  generate_simulation e sc h J nm geo ctl up fuel tl sname = (ls, Ok tt) ->
  exists t0 dt n root g' text, (2 <= n)%nat /\ dt <> 0 /\ tl = every t0 dt n /\
    childrenjoints h (ground e) = [root] /\ w_constraints h = [] /\ (forall a, In a (w_controllers h) -> ctl a <> None) /\
    let G := total_gravity ctl (w_controllers h) in
    ls = MHead dt (last tl 0 - dt / 2) t0 (row6 (swap (V6 zero3 (vscal G up)))) "robot" sname :: text /\
    make_robot e sc h J nm geo fuel root "robot" new_gen = (g', text, Ok tt).
Proof.
  intros e sc h J nm geo ctl up fuel tl sname ls. unfold generate_simulation. destruct (check_timeline tl) as [[[t0 dt] te]|] eqn:T; [|discriminate].
  apply C92_timeline in T. destruct T as (n & Hn & D & Et & ->).
  destruct (childrenjoints h (ground e)) as [|root [|? ?]] eqn:C; try discriminate. destruct (w_constraints h) as [|? ?] eqn:W; [|discriminate].
  destruct (gen_gravity ctl (w_controllers h) 0) as [g|] eqn:Gr; [|discriminate]. destruct (gravity_ok _ _ _ _ Gr) as [-> Hc].
  destruct (make_robot e sc h J nm geo fuel root "robot" new_gen) as [[g' text] r] eqn:M. intros E. injection E as <- ->.
  exists t0, dt, n, root, g', text. do 6 (split; [assumption || reflexivity|]). cbv zeta. split; [|exact M]. f_equal. f_equal.
  rewrite Rplus_0_l. destruct up; reflexivity.
Qed.

(** What is refused, and how: with RuntimeError (GenerationError) for several robots, constraints, other controllers. *)
Theorem C92_refuses : forall e sc h J nm geo ctl up fuel tl sname,
  (forall t0 dt n, ~ ((2 <= n)%nat /\ dt <> 0 /\ tl = every t0 dt n)) \/
  (length (childrenjoints h (ground e)) <> 1)%nat \/ w_constraints h <> [] \/ (exists a, In a (w_controllers h) /\ ctl a = None) ->
  exists x, generate_simulation e sc h J nm geo ctl up fuel tl sname = ([], Err x) /\
    ((exists t0 dt n, (2 <= n)%nat /\ dt <> 0 /\ tl = every t0 dt n) -> x = RuntimeError).
Proof.
  intros e sc h J nm geo ctl up fuel tl sname Bad. unfold generate_simulation. destruct (check_timeline tl) as [[[t0 dt] te]|x] eqn:T.
  - apply C92_timeline in T. destruct T as (n & Hn & D & Et & Ee).
    exists RuntimeError. split; [|reflexivity]. destruct Bad as [Bad|[Bad|[Bad|(a & Ia & Ca)]]].
    + destruct (Bad t0 dt n). auto.
    + destruct (childrenjoints h (ground e)) as [|r [|? ?]]; try reflexivity. destruct Bad; reflexivity.
    + destruct (childrenjoints h (ground e)) as [|r [|? ?]]; try reflexivity. destruct (w_constraints h); [destruct (Bad eq_refl)|reflexivity].
    + destruct (childrenjoints h (ground e)) as [|r [|? ?]]; try reflexivity. destruct (w_constraints h); [|reflexivity].
      assert (X : forall cs g0, In a cs -> gen_gravity ctl cs g0 = Err RuntimeError).
      { induction cs as [|c cs IH]; intros g0 I0; [destruct I0|]. cbn [gen_gravity]. destruct (ctl c) eqn:Ec; [|reflexivity].
        destruct (Req_EM_T g0 0); [|reflexivity]. destruct I0 as [->|I0]; [congruence|auto]. }
      rewrite X by exact Ia. reflexivity.
  - exists x. split; [reflexivity|]. intros (t0 & dt & n & H). exfalso.
    assert (Q : check_timeline tl = Ok (t0, dt, last tl 0 - dt / 2)) by (apply C92_timeline; exists n; tauto). rewrite Q in T. discriminate T.
Qed.
(** The timelines that are refused are not all refused with the GenerationError of the documentation of the check: here AttributeError. *)
Theorem C92_timeline_refuted : check_timeline [0; 1; 3] = Err AttributeError.
Proof.
  cbn [check_timeline last]. destruct (Req_EM_T (1 - 0) 0); [lra|].
  replace (3 + (1 - 0)) with (0 + INR 3 * 1 + 1) by (cbn [INR]; lra). replace (1 - 0) with 1 by lra. rewrite arange_every by lra. rewrite !every_length. reflexivity.
Qed.
(** A second weight controller is accepted, although the generator claims to refuse it, when the first has no gravity; it is refused when they compensate each other. *)
Theorem C92_gravity_refuted : forall g, g <> 0 ->
  gen_gravity (fun a => Some (match a with O => 0 | _ => g end)) [0; 1]%nat 0 = Ok g /\
  gen_gravity (fun a => Some (match a with O => g | _ => - g end)) [0; 1]%nat 0 = Err RuntimeError.
Proof.
  intros g N. cbn [gen_gravity]. destruct (Req_EM_T 0 0) as [_|X]; [|destruct (X eq_refl)]. destruct (Req_EM_T g 0); [contradiction|]. split; reflexivity.
Qed.
(** Going backwards in time is accepted. *)
Theorem C92_backwards : check_timeline [0; -1; -2] = Ok (0, -1, -3/2).
Proof.
  apply C92_timeline. exists 3%nat. split; [lia|]. split; [lra|]. split; [|cbn [last]; lra]. unfold every. cbn [seq map INR]. f_equal; [lra|]. f_equal; [lra|]. f_equal. lra.
Qed.
Theorem C92_witness : forall m q v nm geo ctl up, exists ls,
  generate_simulation (ch_e kfz) (ch_sc m) (ch_h kfz) (ch_J kfz q v) nm geo ctl up 5 [0; 1; 2] "simu" = (ls, Ok tt).
Proof.
  intros m q v nm geo ctl up.
  assert (T : check_timeline [0; 1; 2] = Ok (0, 1, 3/2)).
  { apply C92_timeline. exists 3%nat. split; [lia|]. split; [lra|]. split; [|cbn [last]; lra]. unfold every. cbn [seq map INR]. f_equal; [lra|]. f_equal; [lra|]. f_equal. lra. }
  assert (C : childrenjoints (ch_h kfz) (ground (ch_e kfz)) = [1%nat]) by reflexivity. assert (W : w_constraints (ch_h kfz) = []) by reflexivity.
  assert (K : w_controllers (ch_h kfz) = []) by reflexivity.
  destruct (C91_witness m q v nm geo) as (g' & text & _ & _ & E).
  unfold generate_simulation. rewrite T, C, W, K. cbn [gen_gravity]. rewrite E. eexists. reflexivity.
Qed.
Print Assumptions C92_witness.
