(** C18, C19: the schedule of simulate. *)
From Verif Require Import Spec_Sim Proof_Sim.
From Coq Require Import Lra.

(** ** C18 *)
(** A simulation returns normally, in the state [y], iff from the given world with its time set to t0 the scheduled calls
    (and only these) can be made one after the other, each at the stated time, and lead to [y]; the final time is then t_n.
    If it raises, the exception is the one of the first scheduled call that raises; the later ones are not made. *)
Theorem C18_schedule : forall U O t0 ts obs x y, let I := interp U O (t0 :: ts) in
  let x0 := set_w x (set_time (sm_w x) t0) in let r := simulate U O (t0 :: ts) (IterList obs) x in
  (r = (y, Ok tt) <-> performed I x0 (schedule obs t0 ts) y) /\
  (r = (y, Ok tt) -> now y = last ts t0) /\
  (forall e, r = (y, Err e) <-> raises I x0 (schedule obs t0 ts) y e).
Proof.
  intros U O t0 ts obs x y I x0 r. assert (S := simulate_spec U O t0 ts obs x). cbn zeta in S. fold I in S. fold r in S. change (start x t0) with x0 in S.
  destruct r as [z [[] | e]].
  - destruct S as [P N]. split; [ | split].
    + split; [intros E; injection E as <-; exact P | ]. intros P'. rewrite (perf_fun _ _ _ _ P _ P'). reflexivity.
    + intros E; injection E as <-; exact N.
    + intros e. split; [discriminate | ]. intros R. exfalso. eapply perf_not_raises; eassumption.
  - split; [ | split; [discriminate | ]].
    + split; [discriminate | ]. intros P. exfalso. eapply perf_not_raises; eassumption.
    + intros e'. split; [intros E; injection E as <- <-; exact S | ]. intros (l1 & c & l2 & x1 & EL & P1 & E1). destruct S as (m1 & d & m2 & z1 & EM & P2 & E2).
      assert (X : l1 = m1).
      { rewrite EL in EM. clear EL. revert m1 EM P2. generalize dependent x0. induction l1 as [ | [a ta] l1 IH]; intros x0 P1 m1 EM P2.
        - destruct m1 as [ | [b tb] m1]; [reflexivity | ]. cbn in EM. injection EM as -> Et EM. inversion P1; subst. inversion P2; subst. congruence.
        - destruct m1 as [ | [b tb] m1].
          + cbn in EM. injection EM as -> Et EM. inversion P2; subst. inversion P1; subst. congruence.
          + cbn in EM. injection EM as -> -> EM. inversion P1 as [ | ? ? ? ? ? Ea Pa]; subst. inversion P2 as [ | ? ? ? ? ? Eb Pb]; subst. rewrite Ea in Eb. injection Eb as <-. f_equal. eapply IH; eassumption. }
      subst m1. rewrite (perf_fun _ _ _ _ P1 _ P2) in E1. rewrite EL in EM. apply app_inv_head in EM. rewrite (perf_fun _ _ _ _ P1 _ P2) in EM. injection EM as -> _. rewrite E2 in E1. injection E1 as -> ->. reflexivity.
Qed.
(** n steps for n + 1 times: each of the world updates is made once per step, each observer is initialised and finished once
    and updated once per step *)
Definition times (p : call -> bool) (l : list (call * R)) : nat := length (filter (fun x => p (fst x)) l).
Lemma times_app p a b : times p (a ++ b) = (times p a + times p b)%nat.
Proof. unfold times. rewrite filter_app, app_length. reflexivity. Qed.
Theorem C18_counts : forall obs t0 ts, let S := schedule obs t0 ts in
  (forall k t t', nth_error (t0 :: ts) k = Some t -> nth_error ts k = Some t' ->
     exists l1 l2, S = l1 ++ at_ t (step_calls obs t t') ++ l2) /\
  times (fun c => match c with Int _ => true | _ => false end) S = length ts /\
  times (fun c => match c with Dyn => true | _ => false end) S = length ts /\
  times (fun c => match c with Ctl _ => true | _ => false end) S = length ts /\
  times (fun c => match c with Cons _ => true | _ => false end) S = length ts /\
  times (fun c => match c with WInit => true | _ => false end) S = 1%nat /\
  (forall i, NoDup obs -> In i obs ->
     times (fun c => match c with OInit j => Nat.eqb i j | _ => false end) S = 1%nat /\
     times (fun c => match c with OUpd j _ => Nat.eqb i j | _ => false end) S = length ts /\
     times (fun c => match c with OFin j => Nat.eqb i j | _ => false end) S = 1%nat).
Proof.
  intros obs t0 ts S.
  assert (Z : forall p t (f : nat -> call), (forall i, p (f i) = false) -> times p (at_ t (map f obs)) = 0%nat).
  { intros p t f H. unfold times, at_. clear - H. induction obs as [ | i l IH]; [reflexivity | ]. cbn. rewrite H. exact IH. }
  assert (O1 : forall p t (f : nat -> call) i, (forall j, p (f j) = Nat.eqb i j) -> NoDup obs -> In i obs -> times p (at_ t (map f obs)) = 1%nat).
  { intros p t f i H N In_. clear S Z. unfold times, at_. induction obs as [ | j l IH]; [contradiction | ]. cbn. rewrite H. inversion N as [ | ? ? Ni Nl]; subst. destruct In_ as [-> | Hin].
    - rewrite Nat.eqb_refl. cbn. f_equal. clear IH N. induction l as [ | k l IHl]; [reflexivity | ]. cbn. rewrite H. inversion Nl; subst.
      destruct (Nat.eqb_spec i k) as [-> | ]; [exfalso; apply Ni; now left | ]. apply IHl; [intros F; apply Ni; now right | assumption].
    - destruct (Nat.eqb_spec i j) as [-> | ]; [contradiction | ]. apply IH; assumption. }
  assert (Tc : forall p t c l, times p ((c, t) :: l) = ((if p c then 1 else 0) + times p l)%nat).
  { intros p t c l. unfold times. cbn. destruct (p c); reflexivity. }
  assert (St : forall p d, (forall t t', times p (at_ t (step_calls obs t t')) = d) -> forall t us, times p (steps obs t us) = (d * length us)%nat).
  { intros p d H t us. revert t. induction us as [ | u us IH]; intros t; cbn [steps]; [unfold times; cbn; lia | ]. rewrite times_app, H, IH. cbn [length]. lia. }
  assert (Sc : forall p t t', times p (at_ t (step_calls obs t t')) =
    ((if p Dyn then 1 else 0) + ((if p (Ctl (t' - t)) then 1 else 0) + ((if p (Cons (t' - t)) then 1 else 0) + (times p (at_ t (map (fun i => OUpd i (t' - t)) obs)) + (if p (Int (t' - t)) then 1 else 0)))))%nat).
  { intros p t t'. unfold step_calls. rewrite at_app, times_app. rewrite at_app, times_app. unfold at_ at 1 3. cbn [map]. rewrite !Tc. unfold times at 1. unfold times at 2. cbn [filter length]. lia. }
  unfold S, schedule.
  split; [ | repeat split].
  - clear. intros k t t'. cbn [nth_error]. intros E E'.
    assert (X : exists l1 l2, steps obs t0 ts = l1 ++ at_ t (step_calls obs t t') ++ l2).
    { revert t0 k E E'. induction ts as [ | u us IH]; intros t0 k E E'; [destruct k; discriminate | ]. destruct k as [ | k]; cbn in E, E'.
      - injection E as <-. injection E' as <-. exists [], (steps obs u us). reflexivity.
      - destruct (IH u k E E') as (l1 & l2 & Q). exists (at_ t0 (step_calls obs t0 u) ++ l1), l2. cbn [steps]. rewrite Q, <- ?app_assoc. reflexivity. }
    destruct X as (l1 & l2 & ->). exists (at_ t0 (WInit :: map OInit obs) ++ l1), (l2 ++ at_ (last ts t0) (map OFin obs)). rewrite <- ?app_assoc. reflexivity.
  - cbn [at_ map app]. rewrite Tc, !times_app, (Z _ t0 OInit), (Z _ _ OFin) by reflexivity. rewrite (St _ 1%nat); [lia | ]. intros. rewrite Sc, Z by reflexivity. reflexivity.
  - cbn [at_ map app]. rewrite Tc, !times_app, (Z _ t0 OInit), (Z _ _ OFin) by reflexivity. rewrite (St _ 1%nat); [lia | ]. intros. rewrite Sc, Z by reflexivity. reflexivity.
  - cbn [at_ map app]. rewrite Tc, !times_app, (Z _ t0 OInit), (Z _ _ OFin) by reflexivity. rewrite (St _ 1%nat); [lia | ]. intros. rewrite Sc, Z by reflexivity. reflexivity.
  - cbn [at_ map app]. rewrite Tc, !times_app, (Z _ t0 OInit), (Z _ _ OFin) by reflexivity. rewrite (St _ 1%nat); [lia | ]. intros. rewrite Sc, Z by reflexivity. reflexivity.
  - cbn [at_ map app]. rewrite Tc, !times_app, (Z _ t0 OInit), (Z _ _ OFin) by reflexivity. rewrite (St _ 0%nat); [lia | ]. intros. rewrite Sc, Z by reflexivity. reflexivity.
  - cbn [at_ map app]. rewrite Tc, !times_app, (O1 _ t0 OInit i), (Z _ _ OFin) by (reflexivity || assumption). rewrite (St _ 0%nat); [lia | ]. intros. rewrite Sc, Z by reflexivity. reflexivity.
  - cbn [at_ map app]. rewrite Tc, !times_app, (Z _ t0 OInit), (Z _ _ OFin) by reflexivity. rewrite (St _ 1%nat); [lia | ]. intros. rewrite Sc, (O1 _ _ _ i) by (reflexivity || assumption). reflexivity.
  - cbn [at_ map app]. rewrite Tc, !times_app, (Z _ t0 OInit), (O1 _ _ OFin i) by (reflexivity || assumption). rewrite (St _ 0%nat); [lia | ]. intros. rewrite Sc, Z by reflexivity. reflexivity.
Qed.

(** ** C19 *)
(** A timeline t0 .. tk, t, ... with t <= tk: never returns normally; unless one of the calls of the initialisation, of the
    first k steps or update_dynamic at t_k raises, these calls are made, no other, and AssertionError is raised. *)
Theorem C19_non_increasing : forall U O t0 ts t ts' obs x y r, let tl := t0 :: ts ++ t :: ts' in
  let I := interp U O tl in let tk := last ts t0 in
  t <= tk -> simulate U O tl (IterList obs) x = (y, r) ->
  let made := at_ t0 (WInit :: map OInit obs) ++ steps obs t0 ts ++ at_ tk [Dyn] in
  let x0 := set_w x (set_time (sm_w x) t0) in
  (r = Err AssertionError /\ performed I x0 made y) \/ (exists e, r = Err e /\ raises I x0 made y e).
Proof.
  intros U O t0 ts t ts' obs x y r tl I tk L E made x0.
  assert (Ss : steps obs t0 (ts ++ t :: ts') = steps obs t0 ts ++ at_ tk (step_calls obs tk t) ++ steps obs t ts').
  { unfold tk. clear. revert t0. induction ts as [ | a ts IH]; intros t0; [reflexivity | ]. cbn [steps app]. rewrite IH, last_cons, <- app_assoc. reflexivity. }
  assert (Cd : forall z, I (Ctl (t - tk)) z = (z, Err AssertionError)).
  { intros z. unfold I, interp. cbn. unfold world_controllers, update_controllers. destruct (Rlt_dec 0 (t - tk)); [lra | ].
    unfold set_s, set_w, w_s. destruct z as [[[s st cs] k] nm o]. reflexivity. }
  assert (Es : schedule obs t0 (ts ++ t :: ts') = made ++ (Ctl (t - tk), tk) :: ([(Cons (t - tk), tk)] ++ at_ tk (map (fun i => OUpd i (t - tk)) obs ++ [Int (t - tk)]) ++ steps obs t ts' ++ at_ (last (ts ++ t :: ts') t0) (map OFin obs))).
  { unfold schedule, made. rewrite Ss. unfold step_calls. rewrite !at_app. rewrite <- ?app_assoc. cbn [at_ map app]. rewrite <- ?app_assoc. reflexivity. }
  destruct (C18_schedule U O t0 (ts ++ t :: ts') obs x y) as (A & _ & B). fold tl in A, B. fold I in A, B. change (set_w x (set_time (sm_w x) t0)) with x0 in A, B.
  rewrite E in A, B. destruct r as [[] | e].
  - exfalso. apply proj1 in A. specialize (A eq_refl). rewrite Es in A. apply perf_inv_app in A. destruct A as (z & _ & P). inversion P; subst. congruence.
  - destruct (proj1 (B e) eq_refl) as (l1 & c & l2 & x1 & EL & P & Ec). rewrite Es in EL. clear A B E Es Ss.
    assert (D : (l1 = made /\ c = Ctl (t - tk)) \/ exists l3, made = l1 ++ (c, now x1) :: l3).
    { assert (Q : forall m, performed I x0 l1 x1 -> forall q, m ++ (Ctl (t - tk), tk) :: q = l1 ++ (c, now x1) :: l2 -> (l1 = m /\ c = Ctl (t - tk)) \/ exists l3, m = l1 ++ (c, now x1) :: l3).
      { clear EL P. generalize x0. intros a m P. revert m. induction P as [b | b c' x2 l b' E1 P IH]; intros m q EL.
        - destruct m as [ | [d s] m]; cbn in EL; injection EL as -> Et EL; [left; auto | right; exists m; rewrite Et; reflexivity].
        - destruct m as [ | [d s] m]; cbn in EL; injection EL as Ed Et EL.
          + rewrite <- Ed, Cd in E1. discriminate.
          + destruct (IH Ec m q EL) as [[-> ->] | (l3 & ->)]; [left; rewrite Ed, Et; auto | right; exists l3; rewrite Ed, Et; reflexivity]. }
      exact (Q made P _ EL). }
    destruct D as [[-> ->] | (l3 & D)].
    + left. rewrite Cd in Ec. injection Ec as -> <-. split; [reflexivity | ]. exact P.
    + right. exists e. split; [reflexivity | ]. exists l1, c, l3, x1. auto.
Qed.
(** the empty timeline *)
Theorem C19_empty : forall U O obs x, simulate U O [] obs x = (x, Err IndexError).
Proof. reflexivity. Qed.
