(** C100: the summary of the performance monitor. *)
From Coq Require Import Lra Lia.
From Verif Require Import Model_Perf.
Open Scope R_scope.

(** the durations between consecutive readings of the clock *)
Definition durations (r0 : R) (rs d : list R) : Prop := length d = length rs /\ forall k, (k < length rs)%nat -> nth k d 0 = nth (S k) (r0 :: rs) 0 - nth k (r0 :: rs) 0.

Fixpoint diffs (r0 : R) (rs : list R) : list R := match rs with [] => [] | r :: rs' => (r - r0) :: diffs r rs' end.
Lemma diffs_durations rs : forall r0, durations r0 rs (diffs r0 rs).
Proof.
  induction rs as [ | r rs IH]; intros r0; cbn [diffs]; (split; [cbn; auto | ]); [intros k Hk; inversion Hk | cbn [length]; rewrite (proj1 (IH r)); reflexivity | ].
  intros [ | k] Hk; [reflexivity | ]. cbn in Hk. exact (proj2 (IH r) k ltac:(lia)).
Qed.
Lemma sum_acc l : forall a, fold_left Rplus l a = a + sum_list l.
Proof. unfold sum_list. induction l as [ | x l IH]; intros a; cbn; [lra | ]. rewrite (IH (a + x)), (IH (0 + x)). lra. Qed.
Lemma sum_app a b : sum_list (a ++ b) = sum_list a + sum_list b.
Proof. unfold sum_list at 1. rewrite fold_left_app. apply sum_acc. Qed.
Lemma sum_cons x l : sum_list (x :: l) = x + sum_list l.
Proof. change (x :: l) with ([x] ++ l). rewrite sum_app. unfold sum_list at 1. cbn. lra. Qed.
Lemma last_any (l : list R) : forall x d d', last (x :: l) d = last (x :: l) d'.
Proof. induction l as [ | y l IH]; intros x d d'; [reflexivity | ]. change (last (x :: y :: l) d) with (last (y :: l) d). change (last (x :: y :: l) d') with (last (y :: l) d'). apply IH. Qed.
Lemma last_first r rs (r0 : R) : last (r :: rs) r0 = last rs r.
Proof. destruct rs as [ | x rs]; [reflexivity | ]. change (last (r :: x :: rs) r0) with (last (x :: rs) r0). apply last_any. Qed.
Lemma sum_diffs rs : forall r0, sum_list (diffs r0 rs) = last rs r0 - r0.
Proof.
  induction rs as [ | r rs IH]; intros r0; cbn [diffs]; [unfold sum_list; cbn; lra | ]. rewrite sum_cons, IH.
  rewrite last_first. lra.
Qed.

(** *** the calls of a simulation *)
Definition foreign (i : nat) (c : call) : Prop := c <> OInit i /\ forall dt, c <> OUpd i dt.
Lemma run_foreign i l l' rs m : Forall (fun c => foreign i (fst c)) l -> perf_run i (l ++ l') rs m = perf_run i l' rs m.
Proof.
  induction 1 as [ | [c n] l Hc Hl IH]; [reflexivity | ]. cbn [app perf_run]. destruct Hc as [H1 H2]. cbn [fst] in *.
  destruct c as [ | j | | dt | dt | j dt | dt | j]; try (destruct rs; exact IH); destruct rs as [ | r rs]; try exact IH;
    (destruct (Nat.eqb_spec i j) as [-> | ]; [exfalso; try (apply H1; reflexivity); try (apply (H2 dt); reflexivity) | exact IH]).
Qed.
Lemma split_once (i : nat) obs : NoDup obs -> In i obs -> exists a b, obs = a ++ i :: b /\ ~ In i a /\ ~ In i b.
Proof.
  intros N H. destruct (in_split _ _ H) as (a & b & ->). exists a, b. split; [reflexivity | ]. apply NoDup_remove_2 in N. rewrite in_app_iff in N. tauto.
Qed.
Lemma foreign_map (i : nat) (f : nat -> call) t l : (forall j, j <> i -> foreign i (f j)) -> ~ In i l -> Forall (fun c => foreign i (fst c)) (at_ t (map f l)).
Proof. intros H N. unfold at_. rewrite map_map. apply Forall_forall. intros c Hc. apply in_map_iff in Hc. destruct Hc as (j & <- & Hj). cbn. apply H. intros ->. contradiction. Qed.
Lemma at_app t a b : at_ t (a ++ b) = at_ t a ++ at_ t b.
Proof. apply map_app. Qed.
Lemma run_step i obs t t' l' r rs m m1 : NoDup obs -> In i obs -> perf_update r t m = Ok m1 -> perf_run i (at_ t (step_calls obs t t') ++ l') (r :: rs) m = perf_run i l' rs m1.
Proof.
  intros N H E. destruct (split_once i obs N H) as (a & b & -> & Na & Nb). unfold step_calls. rewrite map_app, !at_app. cbn [map]. rewrite <- !app_assoc.
  assert (F : forall j, j <> i -> foreign i (OUpd j (t' - t))) by (intros j Hj; split; [discriminate | intros dt Q; congruence]).
  rewrite run_foreign by (repeat constructor; cbn; try discriminate; intros; discriminate).
  rewrite run_foreign by (apply (foreign_map i (fun i => OUpd i (t' - t))); assumption).
  cbn [at_ map app perf_run]. rewrite Nat.eqb_refl, E. cbn [rbind]. fold (at_ t).
  change (map (fun c : call => (c, t)) ?l) with (at_ t l). rewrite run_foreign by (apply (foreign_map i (fun i => OUpd i (t' - t))); assumption).
  cbn [at_ map app perf_run]. reflexivity.
Qed.
Lemma run_steps i obs l' : NoDup obs -> In i obs -> forall ts rs t r0 m, length rs = length ts -> pm_last m = Some r0 ->
  perf_run i (steps obs t ts ++ l') rs m =
  perf_run i l' [] (PM (pm_log m) (Some (last rs r0)) (pm_comp m ++ diffs r0 rs) (if pm_log m then pm_said m ++ removelast (t :: ts) else pm_said m)).
Proof.
  intros N H. induction ts as [ | t' ts IH]; intros rs t r0 m L E; destruct rs as [ | r rs]; try discriminate L.
  - cbn [steps app diffs last removelast]. rewrite !app_nil_r. destruct m as [lg la co sa]; cbn in *. subst la. destruct lg; reflexivity.
  - cbn [steps]. rewrite <- app_assoc. assert (Eu : perf_update r t m = Ok (PM (pm_log m) (Some r) (pm_comp m ++ [r - r0]) (if pm_log m then pm_said m ++ [t] else pm_said m))) by (unfold perf_update; rewrite E; reflexivity).
    rewrite (run_step i obs t t' _ r rs m _ N H Eu), (IH rs t' r) by (cbn in *; congruence). cbn [pm_log pm_comp pm_said diffs].
    rewrite last_first.
    rewrite <- !app_assoc. cbn [app]. destruct (pm_log m); [ | reflexivity]. rewrite <- app_assoc. reflexivity.
Qed.
Lemma run_schedule i obs t0 ts r0 rs m : NoDup obs -> In i obs -> length rs = length ts ->
  perf_run i (schedule obs t0 ts) (r0 :: rs) m = Ok (PM (pm_log m) (Some (last rs r0)) (pm_comp m ++ diffs r0 rs) (if pm_log m then pm_said m ++ removelast (t0 :: ts) else pm_said m)).
Proof.
  intros N H L. destruct (split_once i obs N H) as (a & b & E & Na & Nb). unfold schedule.
  assert (F1 : forall j, j <> i -> foreign i (OInit j)) by (intros j Hj; split; [congruence | discriminate]).
  assert (Ff : Forall (fun c => foreign i (fst c)) (at_ (last ts t0) (map OFin obs))).
  { unfold at_. rewrite map_map. apply Forall_forall. intros c Hc. apply in_map_iff in Hc. destruct Hc as (j & <- & _). split; discriminate. }
  assert (E1 : at_ t0 (WInit :: map OInit obs) = (at_ t0 [WInit] ++ at_ t0 (map OInit a)) ++ (OInit i, t0) :: at_ t0 (map OInit b)).
  { rewrite E, map_app. cbn [map]. unfold at_. cbn [map app]. rewrite map_app. reflexivity. }
  rewrite E1, <- !app_assoc. rewrite run_foreign by (repeat constructor; cbn; try discriminate; intros; discriminate).
  rewrite run_foreign by (apply foreign_map; assumption). cbn [app perf_run]. rewrite Nat.eqb_refl.
  rewrite run_foreign by (apply foreign_map; assumption). rewrite (run_steps i obs _ N H ts rs t0 r0) by (auto; reflexivity).
  rewrite <- (app_nil_r (at_ (last ts t0) (map OFin obs))), run_foreign by exact Ff. reflexivity.
Qed.

(** *** the summary *)
Lemma min_acc l : forall x, fold_left Rmin l x <= x /\ (forall y, In y l -> fold_left Rmin l x <= y) /\ (fold_left Rmin l x = x \/ In (fold_left Rmin l x) l).
Proof.
  induction l as [ | a l IH]; intros x; cbn [fold_left]; [split; [lra | split; [intros y [] | auto]] | ]. destruct (IH (Rmin x a)) as (A & B & C). assert (H1 := Rmin_l x a). assert (H2 := Rmin_r x a).
  split; [lra | split; [intros y [<- | Hy]; [lra | auto] | ]]. destruct C as [C | C]; [ | right; right; exact C]. rewrite C. unfold Rmin. destruct (Rle_dec x a); [left; reflexivity | right; left; reflexivity].
Qed.
Lemma max_acc l : forall x, x <= fold_left Rmax l x /\ (forall y, In y l -> y <= fold_left Rmax l x) /\ (fold_left Rmax l x = x \/ In (fold_left Rmax l x) l).
Proof.
  induction l as [ | a l IH]; intros x; cbn [fold_left]; [split; [lra | split; [intros y [] | auto]] | ]. destruct (IH (Rmax x a)) as (A & B & C). assert (H1 := Rmax_l x a). assert (H2 := Rmax_r x a).
  split; [lra | split; [intros y [<- | Hy]; [lra | auto] | ]]. destruct C as [C | C]; [ | right; right; exact C]. rewrite C. unfold Rmax. destruct (Rle_dec x a); [right; left; reflexivity | left; reflexivity].
Qed.
Lemma sum_bounds l : forall a b, (forall y, In y l -> a <= y <= b) -> INR (length l) * a <= sum_list l <= INR (length l) * b.
Proof.
  induction l as [ | x l IH]; intros a b H; [unfold sum_list; cbn; lra | ]. rewrite sum_cons. cbn [length]. rewrite S_INR.
  assert (Hx := H x (or_introl eq_refl)). assert (Hl := IH a b (fun y Hy => H y (or_intror Hy))). lra.
Qed.

(** [C100] whatever the clock says ([r0] at the initialisation, then [rs] at the end of each step) the monitor adds to its history the duration of each step, and logs the time at the
    start of each step; the summary is about all the steps since its creation (the time between two simulations is not counted) *)
Theorem C100_summary : forall i obs t0 ts r0 rs m, NoDup obs -> In i obs -> length rs = length ts ->
  exists m' d, perf_run i (schedule obs t0 ts) (r0 :: rs) m = Ok m' /\ durations r0 rs d /\ pm_comp m' = pm_comp m ++ d /\
    (pm_log m = true -> pm_said m' = pm_said m ++ removelast (t0 :: ts)) /\ (pm_log m = false -> pm_said m' = pm_said m) /\
    forall total mn mean mx, get_summary m' = Ok (total, mn, mean, mx) ->
      total = sum_list (pm_comp m) + (last rs r0 - r0) /\ INR (length (pm_comp m) + length ts) * mean = total /\
      In mn (pm_comp m') /\ In mx (pm_comp m') /\ (forall y, In y (pm_comp m') -> mn <= y <= mx) /\ mn <= mean <= mx.
Proof.
  intros i obs t0 ts r0 rs m N H L. rewrite (run_schedule i obs t0 ts r0 rs m N H L). eexists. exists (diffs r0 rs). split; [reflexivity | ]. split; [apply diffs_durations | ]. cbn [pm_comp pm_said].
  split; [reflexivity | ]. split; [intros ->; reflexivity | ]. split; [intros ->; reflexivity | ].
  intros total mn mean mx E. unfold get_summary in E. cbn [pm_comp] in E. rewrite sum_app, sum_diffs in E.
  assert (Ln : length (pm_comp m ++ diffs r0 rs) = (length (pm_comp m) + length ts)%nat) by (rewrite app_length, (proj1 (diffs_durations rs r0)), L; reflexivity). rewrite Ln in E. rewrite <- Ln in *.
  set (c := pm_comp m ++ diffs r0 rs) in *. assert (Sc : sum_list c = sum_list (pm_comp m) + (last rs r0 - r0)) by (unfold c; rewrite sum_app, sum_diffs; reflexivity). rewrite <- Sc in *. clearbody c. clear Sc Ln.
  destruct c as [ | x l]; [discriminate | ]. cbn [min_of max_of rbind] in E. injection E as <- <- <- <-.
  destruct (min_acc l x) as (A1 & A2 & A3). destruct (max_acc l x) as (B1 & B2 & B3).
  assert (Bd : forall y, In y (x :: l) -> fold_left Rmin l x <= y <= fold_left Rmax l x) by (intros y [<- | Hy]; [split; assumption | split; auto]).
  assert (P : 0 < INR (length (x :: l))) by (apply lt_0_INR; cbn; lia). assert (Sb := sum_bounds _ _ _ Bd).
  split; [reflexivity | ]. change (match length l with O => 1 | S _ => INR (length l) + 1 end) with (INR (length (x :: l))). split; [field; apply Rgt_not_eq; exact P | ]. split; [destruct A3 as [-> | A3]; [left; reflexivity | right; exact A3] | ]. split; [destruct B3 as [-> | B3]; [left; reflexivity | right; exact B3] | ].
  split; [exact Bd | ]. split; [apply Rmult_le_reg_l with (INR (length (x :: l))); [exact P | ] | apply Rmult_le_reg_l with (INR (length (x :: l))); [exact P | ]];
    replace (INR (length (x :: l)) * (sum_list (x :: l) / INR (length (x :: l)))) with (sum_list (x :: l)) by (field; apply Rgt_not_eq; exact P); apply Sb.
Qed.
(** there is a summary as soon as a step was made; before that, ValueError *)
Theorem C100_steps : forall m, (exists s, get_summary m = Ok s) <-> pm_comp m <> [].
Proof. intros m. unfold get_summary. destruct (pm_comp m) as [ | x l]; cbn; split; [intros (s & Q); discriminate | congruence | discriminate | eauto]. Qed.
Theorem C100_no_step : forall m, pm_comp m = [] -> get_summary m = Err ValueError.
Proof. intros m E. unfold get_summary. rewrite E. reflexivity. Qed.
(** with a clock that does not go back, no duration is negative *)
Theorem C100_positive : forall r0 rs d, durations r0 rs d -> (forall k, (k < length rs)%nat -> nth k (r0 :: rs) 0 <= nth (S k) (r0 :: rs) 0) -> forall y, In y d -> 0 <= y.
Proof.
  intros r0 rs d [L D] H y Hy. destruct (In_nth _ _ 0 Hy) as (k & Hk & <-). rewrite L in Hk. rewrite D by exact Hk. specialize (H k Hk). lra.
Qed.
(** two simulations observed by the same monitor, of one and two steps *)
Example C100_witness : exists m1 m2, perf_run 1 (schedule [0; 1]%nat 0 [1]) [10; 12] (new_perf true) = Ok m1 /\ perf_run 1 (schedule [1]%nat 1 [2; 3]) [100; 101; 106] m1 = Ok m2 /\
  get_summary m2 = Ok (8, 1, 8 / 3, 5) /\ pm_said m2 = [0; 1; 2].
Proof.
  eexists. eexists. split; [apply run_schedule; [repeat constructor; cbn; intuition discriminate | cbn; auto | reflexivity] | ].
  split; [apply run_schedule; [repeat constructor; cbn; intuition | cbn; auto | reflexivity] | ]. split; [ | reflexivity].
  unfold get_summary. cbn [pm_comp new_perf diffs app min_of max_of rbind sum_list fold_left length]. f_equal.
  assert (E1 : Rmin (Rmin (12 - 10) (101 - 100)) (106 - 101) = 1) by (unfold Rmin; repeat destruct (Rle_dec _ _); lra).
  assert (E2 : Rmax (Rmax (12 - 10) (101 - 100)) (106 - 101) = 5) by (unfold Rmax; repeat destruct (Rle_dec _ _); lra).
  rewrite E1, E2. replace (INR 3) with 3 by (cbn; lra). repeat f_equal; lra.
Qed.
