(** C50, C51, C52 through a whole step: what the solved forces give to the constraint that is solved last. *)
From Coq Require Import Lra Lia.
From Verif Require Import Spec_Con Model_Sim Proof_Tree Proof_World Proof_Linalg Proof_SE3 Proof_Dyn Proof_Dyn2 Proof_Matrix Proof_Step Proof_Con Proof_Cons.
From Verif Require Import Props_Dyn Props_DynEx Props_Step Props_Con Props_Finger.
Open Scope R_scope.

(** the slice of the admittance that a constraint sees *)
Definition block (Y : mat) (a : nat) : mat := fun i j => Y (a + i)%nat (a + j)%nat.

Section L.
  Context {C : Type} (ops : cops C) (alike : C -> C -> Prop).
  Hypothesis Rf : forall c, alike c c.
  Hypothesis St : forall c c0 vel Y dt c1 df, alike c c0 -> c_solve ops c0 vel Y dt = Ok (c1, df) -> alike c c1.
  Hypothesis Nd : forall c c0, alike c c0 -> c_ndol ops c0 = c_ndol ops c.
  Definition idle (l : list (C * option nat)) : Prop := Forall (fun x => snd x = None) l.
  Lemma sweep_idle dt Y l : idle l -> forall vel, sweep ops dt Y l vel = Ok (l, vel).
  Proof. induction 1 as [ | (c, o) l H _ IH]; intros vel; [reflexivity | ]. cbn [snd] in H. subst o. cbn [sweep]. now rewrite IH. Qed.
  Lemma sweep_last dt Y c c0 a l2 : idle l2 -> alike c c0 -> forall l1 vel l' vel', sweep ops dt Y (l1 ++ (c0, Some a) :: l2) vel = Ok (l', vel') ->
    exists l1' v0 c1 df, c_solve ops c0 (vslice a v0) (block Y a) dt = Ok (c1, df) /\ l' = l1' ++ (c1, Some a) :: l2 /\ length l1' = length l1 /\ alike c c1 /\
      forall i, vel' i = v0 i + sumR (c_ndol ops c) (fun k => Y i (a + k)%nat * df k).
  Proof.
    intros Hi Ha. induction l1 as [ | (d, [b | ]) l1 IH]; intros vel l' vel' H; cbn [app sweep] in H.
    - destruct (c_solve ops c0 _ _ dt) as [(c1, df) | ] eqn:E; [ | discriminate]. cbn [rbind] in H. rewrite (sweep_idle dt Y l2 Hi) in H. cbn [rbind] in H. injection H as <- <-.
      exists [], vel, c1, df. split; [exact E | ]. split; [reflexivity | ]. split; [reflexivity | ]. split; [eapply St; eauto | ]. intros i. now rewrite (Nd c c0 Ha).
    - destruct (c_solve ops d _ _ dt) as [(d1, df) | ]; [ | discriminate]. cbn [rbind] in H. destruct (sweep ops dt Y _ _) as [(r, v) | ] eqn:E in H; [ | discriminate]. cbn [rbind] in H. injection H as <- <-.
      destruct (IH _ _ _ E) as (l1' & v0 & c1 & df' & Q & -> & Ln & Al & V). exists ((d1, Some b) :: l1'), v0, c1, df'. cbn [app length]. auto.
    - destruct (sweep ops dt Y _ _) as [(r, v) | ] eqn:E in H; [ | discriminate]. cbn [rbind] in H. injection H as <- <-.
      destruct (IH _ _ _ E) as (l1' & v0 & c1 & df' & Q & -> & Ln & Al & V). exists ((d, None) :: l1'), v0, c1, df'. cbn [app length]. auto.
  Qed.
  Lemma relax_last dt tol m Y c a l2 : idle l2 -> forall iters k l1 c0 vel prev l' vel', (0 < iters)%nat -> alike c c0 -> relax ops dt tol m Y iters k (l1 ++ (c0, Some a) :: l2) vel prev = Ok (l', vel') ->
    exists l1' c2 v0 c1 df, alike c c2 /\ c_solve ops c2 (vslice a v0) (block Y a) dt = Ok (c1, df) /\ l' = l1' ++ (c1, Some a) :: l2 /\ length l1' = length l1 /\ alike c c1 /\
      forall i, vel' i = v0 i + sumR (c_ndol ops c) (fun k => Y i (a + k)%nat * df k).
  Proof.
    intros Hi. induction iters as [ | iters IH]; intros k l1 c0 vel prev l' vel' L Ha H; [lia | ]. cbn [relax] in H.
    destruct (sweep ops dt Y _ vel) as [(r, v) | ] eqn:E; [ | discriminate]. cbn [rbind] in H.
    destruct (sweep_last dt Y c c0 a l2 Hi Ha l1 vel r v E) as (l1' & v0 & c1 & df & Q & -> & Ln & Al & V).
    assert (Base : exists l1'0 c2 v1 c3 df0, alike c c2 /\ c_solve ops c2 (vslice a v1) (block Y a) dt = Ok (c3, df0) /\ l1' ++ (c1, Some a) :: l2 = l1'0 ++ (c3, Some a) :: l2 /\ length l1'0 = length l1 /\ alike c c3 /\
      forall i, v i = v1 i + sumR (c_ndol ops c) (fun k => Y i (a + k)%nat * df0 k)) by (exists l1', c0, v0, c1, df; auto 10).
    destruct (Nat.ltb 0 k && _); [injection H as <- <-; exact Base | ].
    destruct iters as [ | iters]; [cbn [relax] in H; injection H as <- <-; exact Base | ].
    destruct (IH (S k) l1' c1 v v l' vel' ltac:(lia) Al H) as (l3 & c2 & v1 & c3 & df0 & A1 & A2 & A3 & A4 & A5). exists l3, c2, v1, c3, df0. rewrite Ln in A4. auto 10.
  Qed.
End L.

(** the entries of [activate] for the constraints of [cs2] when none acts *)
Definition not_acting (E : cenv) (dt : R) (c : con) : Prop :=
  c_enabled (con_ops E) c = false \/ exists c1, c_update (con_ops E) c dt = Ok c1 /\ c_active (con_ops E) c1 = false.
Lemma activate_split {C} (ops : cops C) dt c cs2 : forall cs1 n l m, activate ops dt n (cs1 ++ c :: cs2) = Ok (l, m) ->
  exists l1 l2 n1, activate ops dt n1 (c :: cs2) = Ok (l2, m) /\ l = l1 ++ l2 /\ length l1 = length cs1.
Proof.
  induction cs1 as [ | d cs1 IH]; intros n l m H; [exists [], l, n; auto | ]. cbn [app activate] in H.
  assert (X : forall n' (x : C * option nat), (let* (l, m) := activate ops dt n' (cs1 ++ c :: cs2) in Ok (x :: l, m)) = Ok (l, m) -> exists l1 l2 n1, activate ops dt n1 (c :: cs2) = Ok (l2, m) /\ l = l1 ++ l2 /\ length l1 = length (d :: cs1)).
  { intros n' x Q. destruct (activate ops dt n' _) as [(r, k) | ] eqn:E; [ | discriminate]. cbn [rbind] in Q. injection Q as <- <-. destruct (IH _ _ _ E) as (l1 & l2 & n1 & A & -> & B). exists (x :: l1), l2, n1. split; [exact A | ]. split; [reflexivity | cbn; now rewrite B]. }
  destruct (c_enabled ops d); [ | exact (X _ _ H)]. destruct (c_update ops d dt) as [d1 | ]; [ | discriminate]. cbn [rbind] in H. destruct (c_active ops d1); exact (X _ _ H).
Qed.
Lemma activate_idle E dt cs : Forall (not_acting E dt) cs -> forall n l m, activate (con_ops E) dt n cs = Ok (l, m) -> idle l.
Proof.
  induction 1 as [ | c cs H _ IH]; intros n l m Q; [injection Q as <- <-; constructor | ]. cbn [activate] in Q. destruct H as [H | (c1 & H1 & H2)].
  - rewrite H in Q. destruct (activate _ dt n cs) as [(r, k) | ] eqn:E1; [ | discriminate]. cbn [rbind] in Q. injection Q as <- <-. (constructor; [reflexivity | eapply IH; eassumption]).
  - destruct (c_enabled (con_ops E) c).
    + rewrite H1 in Q. cbn [rbind] in Q. rewrite H2 in Q. destruct (activate _ dt n cs) as [(r, k) | ] eqn:E1; [ | discriminate]. cbn [rbind] in Q. injection Q as <- <-. (constructor; [reflexivity | eapply IH; eassumption]).
    + destruct (activate _ dt n cs) as [(r, k) | ] eqn:E1; [ | discriminate]. cbn [rbind] in Q. injection Q as <- <-. (constructor; [reflexivity | eapply IH; eassumption]).
Qed.

(** everything but the force *)
Definition but_force (c c' : con) : Prop :=
  match c, c' with
  | CJ x, CJ y => y = jl_set_force x (jl_force y)
  | CB x, CB y => y = BS (bs_on x) (bs_f0 x) (bs_f1 x) (bs_pos0 x) (bs_force y)
  | CS x, CS y => y = sf_set_force x (sf_force y)
  | _, _ => False
  end.
Lemma but_refl c : but_force c c.
Proof. destruct c as [x | x | x]; destruct x; reflexivity. Qed.
Lemma but_solve E c c0 vel Y dt c1 df : but_force c c0 -> c_solve (con_ops E) c0 vel Y dt = Ok (c1, df) -> but_force c c1.
Proof.
  intros B H. destruct c as [x | x | x], c0 as [y | y | y]; try contradiction; cbn [but_force c_solve con_ops] in *.
  - destruct (jl_solve E y vel Y dt) as (z, d) eqn:Ez. injection H as <- <-. cbn [but_force]. unfold jl_solve in Ez. rewrite B in Ez. repeat match type of Ez with context [if ?b then _ else _] => destruct b end; injection Ez as <- <-; reflexivity.
  - destruct (bs_solve E y vel Y dt) as (z, d) eqn:Ez. injection H as <- <-. cbn [but_force]. unfold bs_solve in Ez. rewrite B in Ez. injection Ez as <- <-. reflexivity.
  - destruct (sf_solve E y vel Y dt) as [(z, d) | ] eqn:Ez; [ | discriminate]. cbn [rbind] in H. injection H as <- <-. cbn [but_force]. unfold sf_solve in Ez. rewrite B in Ez. cbv zeta in Ez.
    repeat match type of Ez with context [if ?b then _ else _] => destruct b | context [match ?b with Some _ => _ | None => _ end] => destruct b end; try discriminate; injection Ez as <- <-; reflexivity.
Qed.
Lemma but_ndol E c c0 : but_force c c0 -> c_ndol (con_ops E) c0 = c_ndol (con_ops E) c.
Proof. destruct c as [x | x | x], c0 as [y | y | y]; cbn [but_force]; try contradiction; intros B; cbn [c_ndol con_ops]; [now rewrite B | reflexivity | reflexivity]. Qed.

(** The last acting constraint is solved against the velocity at the end of the step. *)
Lemma last_acting E dt tol maxiters cs1 c cs2 s s' l vel c1 :
  (0 < maxiters)%nat -> update_constraints (con_ops E) dt tol maxiters (cs1 ++ c :: cs2) s = Ok (s', l, vel) ->
  c_enabled (con_ops E) c = true -> c_update (con_ops E) c dt = Ok c1 -> c_active (con_ops E) c1 = true -> Forall (not_acting E dt) cs2 ->
  0 < dt /\ exists A a c2 c3 v0 df Y, c_jac (con_ops E) c1 = Ok A /\ nth_error l (length cs1) = Some (c3, Some a) /\ but_force c1 c2 /\ but_force c1 c3 /\
    c_solve (con_ops E) c2 v0 Y dt = Ok (c3, df) /\
    (forall i j, (i < c_ndol (con_ops E) c1)%nat -> (j < c_ndol (con_ops E) c1)%nat -> Y i j = mmn (w_ndof (s_heap s)) A (mmn (w_ndof (s_heap s)) (s_adm s) (trans A)) i j) /\
    (forall i, (i < c_ndol (con_ops E) c1)%nat -> mvn (w_ndof (s_heap s)) A (next_gvel s' dt (s_gforce s')) i = v0 i + mvn (c_ndol (con_ops E) c1) Y df i).
Proof.
  intros Im H En Eu Ea Ni. assert (H0 := H). set (ops := con_ops E) in *. unfold update_constraints in H0. destruct (Rlt_dec 0 dt) as [Pd | ]; [ | discriminate]. split; [exact Pd | ].
  destruct (activate ops dt 0 _) as [(l0, m) | ] eqn:E1; [ | discriminate]. cbn [rbind] in H0.
  destruct (stack ops l0 mzero) as [jac | ] eqn:E2; [ | discriminate]. cbn [rbind] in H0. destruct (add_gforces ops l0 _) as [f | ] eqn:E3; [ | discriminate]. cbn [rbind] in H0.
  destruct (relax ops dt tol m _ maxiters 0 l0 _ _) as [(l1, v1) | ] eqn:E4; [ | discriminate]. cbn [rbind] in H0. destruct (add_gforces ops l1 _) as [f1 | ]; [ | discriminate]. cbn [rbind] in H0. injection H0 as Q1 Q2 Q3. subst l1 v1.
  assert (Sl := activate_slices ops dt _ _ _ _ E1). destruct (stack_rows ops l0 _ _ _ _ Sl E2) as (_ & Rw).
  destruct (activate_split ops dt c cs2 cs1 _ _ _ E1) as (la & lb & a & A1 & -> & Ln). cbn [activate] in A1. fold ops in En, Eu, Ea. rewrite En in A1. rewrite Eu in A1. cbn [rbind] in A1. rewrite Ea in A1.
  destruct (activate ops dt (a + c_ndol ops c1) cs2) as [(lc, k) | ] eqn:E5; [ | discriminate]. cbn [rbind] in A1. injection A1 as <- <-.
  assert (Id := activate_idle E dt cs2 Ni _ _ _ E5).
  destruct (relax_last ops but_force (but_solve E) (but_ndol E) dt tol k _ c1 a lc Id maxiters 0 la c1 _ _ _ _ Im (but_refl c1) E4) as (la' & c2 & v0 & c3 & df & B1 & B2 & B3 & B4 & B5 & B6).
  destruct (Rw c1 a ltac:(apply in_or_app; right; now left)) as (A & EA & HA).
  destruct (C48_solver_velocities con ops dt tol maxiters _ s s' l vel (con_increments E) H) as (_ & _ & V & _).
  exists A, a, c2, c3, (vslice a v0), df, (block (mmn (w_ndof (s_heap s)) jac (mmn (w_ndof (s_heap s)) (s_adm s) (trans jac))) a).
  split; [exact EA | ]. split; [rewrite B3, <- Ln, <- B4; now rewrite nth_error_app2, Nat.sub_diag by lia | ]. split; [exact B1 | ]. split; [exact B5 | ]. split; [exact B2 | ].
  assert (En3 : c_ndol ops c3 = c_ndol ops c1) by (apply but_ndol; exact B5).
  assert (Ej3 : c_jac ops c3 = Ok A).
  { rewrite <- EA. clear - B5. destruct c1 as [x | x | x], c3 as [y | y | y]; cbn [but_force] in B5; try contradiction; cbn [c_jac ops con_ops]; unfold bs_jac, sf_jac, sf_scene; rewrite B5; reflexivity. }
  split.
  - intros i j Hi Hj. unfold block, mmn, trans. apply sumR_ext. intros p _. rewrite (HA i Hi). f_equal. apply sumR_ext. intros q _. now rewrite (HA j Hj).
  - intros i Hi. destruct (V c3 a ltac:(rewrite B3; apply in_or_app; right; now left)) as (A' & EA' & VA). assert (A' = A) by congruence. subst A'. rewrite <- (VA i) by (now rewrite En3). rewrite B6. unfold vslice, mvn, block. f_equal.
Qed.

(** the admittance seen by a constraint of jacobian [A] *)
Definition seen (s : wst) (A : mat) : mat := mmn (w_ndof (s_heap s)) A (mmn (w_ndof (s_heap s)) (s_adm s) (trans A)).
Lemma same_singular n Y Z : meq n Y Z -> singular n Y -> singular n Z.
Proof. intros M (x & Nx & K). exists x. split; [exact Nx | ]. intros i Li. rewrite <- (K i Li). apply mvn_ext; [intros k Lk; symmetry; now apply M | intros k Lk; reflexivity]. Qed.

Lemma read_q E (c : jlim) : jl_pos0 (jl_update E c) = ce_q E (jl_joint c).
Proof. reflexivity. Qed.
(** JointLimits on a joint with one degree of freedom, through the whole step: when it is the last constraint to act, whatever the other constraints, the controllers,
    the previous force and position, the joint ends the step between its limits, and is pushed only by the limit it is left at. *)
Theorem C50_step : forall e t fuel E dt tol maxiters cs1 c cs2 s s' l vel j c0,
  pinv_spec (np_pinv E) -> live e (s_heap s) t -> (height t < fuel)%nat -> (forall k, In k (joints t) -> jndof e k = ndof_of (s_ty s k)) -> (0 < maxiters)%nat ->
  ce_q E j = s_q s j -> jl_joint c = j -> jl_nd c = 1%nat -> In j (joints t) -> jndof e j = 1%nat -> con_init (s_heap s) (CJ c0) = Ok (CJ c) ->
  jl_on c = true -> jl_active (jl_update E c) = true -> Forall (not_acting E dt) cs2 -> jl_min c 0%nat <= jl_max c 0%nat ->
  (forall i, (i < w_ndof (s_heap s))%nat -> 0 < s_adm s i i) ->
  update_constraints (con_ops E) dt tol maxiters (cs1 ++ CJ c :: cs2) s = Ok (s', l, vel) ->
  exists s2 c' a, integrate e fuel dt s' = (s2, Ok tt) /\ nth_error l (length cs1) = Some (CJ c', Some a) /\
    jl_min c 0%nat <= s_q s2 j 0%nat <= jl_max c 0%nat /\
    (0 < jl_force c' 0%nat -> s_q s2 j 0%nat = jl_min c 0%nat) /\ (jl_force c' 0%nat < 0 -> s_q s2 j 0%nat = jl_max c 0%nat).
Proof.
  intros e t fuel E dt tol maxiters cs1 c cs2 s s' l vel j c0 Hp Lv F Ty Im Eq Ej N1 Ij Nj Ci On Ac Ni Mm Pos H.
  destruct (last_acting E dt tol maxiters cs1 (CJ c) cs2 s s' l vel (CJ (jl_update E c)) Im H On eq_refl Ac Ni) as (Pd & A & a & c2 & c3 & v0 & df & Y & EA & En & B2 & B3 & So & HY & HV).
  destruct (C48_solver_velocities con (con_ops E) dt tol maxiters _ s s' l vel (con_increments E) H) as (_ & _ & _ & Eh & Q1 & Q2 & Q3 & Q4 & Q5).
  assert (Ts : s_ty s' = s_ty s).
  { clear - H. unfold update_constraints in H. destruct (Rlt_dec 0 dt); [ | discriminate]. repeat match type of H with rbind ?x _ = _ => destruct x as [[] | ] eqn:?; [ | discriminate]; cbn [rbind] in H | rbind ?x _ = _ => destruct x eqn:?; [ | discriminate]; cbn [rbind] in H end. injection H as <- _ _. reflexivity. }
  assert (Lv' : live e (s_heap s') t) by (now rewrite Eh).
  destruct (integrate_ok e t dt fuel s' Lv' F Pd ltac:(now rewrite Ts)) as (s2 & Ei & _ & Hv & Hj & _).
  destruct (Hj j Ij) as (b & Db & (_ & Mv & _)). rewrite Nj in *. rewrite Eh in *.
  assert (Tj : ndof_of (s_ty s j) = 1%nat) by (rewrite <- Ty; auto).
  cbn [con_init] in Ci. assert (Ec : jl_joint c0 = j /\ jl_nd c0 = 1%nat /\ jl_jac c = fun k i => if Nat.ltb k 1 && Nat.eqb i (b + k) then 1 else 0).
  { destruct (jdof (s_heap s) (jl_joint c0)) as [(p, q) | ] eqn:Ed; [ | exfalso; assert (X0 : jl_joint c0 = j) by (rewrite <- Ej; unfold jl_init_lost in Ci; destruct (_ || _ || _); [ | discriminate]; injection Ci as Ci; rewrite <- Ci; reflexivity); congruence]. injection Ci as Ci. assert (X1 : jl_joint c0 = j) by (rewrite <- Ej, <- Ci; reflexivity). assert (X2 : jl_nd c0 = 1%nat) by (rewrite <- N1, <- Ci; reflexivity). split; [exact X1 | ]. split; [exact X2 | ]. rewrite X1, Db in Ed. injection Ed as <- _. rewrite <- Ci. unfold jl_init. cbn [jl_jac]. now rewrite X2. }
  destruct Ec as (_ & _ & Ejac). cbn [c_jac con_ops jl_update jl_jac] in EA. injection EA as EA. rewrite Ejac in EA. subst A.
  assert (Bn : (b < w_ndof (s_heap s))%nat).
  { destruct Lv as ((Rp & Er & Nb & Nn & Sl) & _). destruct (in_split _ _ Ij) as (x1 & x2 & Ex). rewrite (Sl x1 j x2 Ex) in Db. injection Db as <- _. rewrite Nn, Ex. unfold total_ndof, list_sum. rewrite map_app, fold_right_app. cbn [map fold_right]. rewrite Nj. clear. induction (map (jndof e) x1) as [ | k r IH]; cbn [fold_right]; lia. }
  cbn [c_ndol con_ops jl_update jl_nd] in HV, HY. rewrite N1 in HV, HY. specialize (HV 0%nat ltac:(lia)). specialize (HY 0%nat 0%nat ltac:(lia) ltac:(lia)).
  set (A := fun k i => if Nat.ltb k 1 && Nat.eqb i (b + k) then 1 else 0) in *.
  assert (Sel : forall x, mvn (w_ndof (s_heap s)) A x 0%nat = x b).
  { intros x. unfold mvn. rewrite (sumR_single _ _ b Bn); [unfold A; cbn [Nat.ltb Nat.leb andb]; rewrite Nat.add_0_r, Nat.eqb_refl; lra | ]. intros i _ Nb. unfold A. cbn [Nat.ltb Nat.leb andb]. rewrite Nat.add_0_r. destruct (Nat.eqb_spec i b); [contradiction | lra]. }
  assert (Y0 : Y 0%nat 0%nat = s_adm s b b).
  { rewrite HY. change (mmn (w_ndof (s_heap s)) A (mmn (w_ndof (s_heap s)) (s_adm s) (trans A)) 0%nat 0%nat) with (mvn (w_ndof (s_heap s)) A (fun k => mmn (w_ndof (s_heap s)) (s_adm s) (trans A) k 0%nat) 0%nat). rewrite Sel. unfold mmn, trans.
    rewrite <- (Sel (s_adm s b)). unfold mvn. apply sumR_ext. intros; lra. }
  destruct c2 as [y | y | y]; try contradiction. destruct c3 as [z | z | z]; try contradiction. cbn [but_force] in B2, B3. cbn [c_solve con_ops] in So. destruct (jl_solve E y v0 Y dt) as (z', d') eqn:Es. injection So as -> ->.
  assert (Sg := C50_one_dof E y v0 Y dt z df Hp Pd ltac:(rewrite B2; exact N1) ltac:(rewrite Y0; now apply Pos) ltac:(rewrite B2; exact Mm) Es 0%nat ltac:(lia)).
  assert (Ym : jl_min y = jl_min c /\ jl_max y = jl_max c /\ jl_pos0 y = s_q s j) by (rewrite B2; cbn [jl_set_force jl_update jl_min jl_max jl_pos0]; rewrite Ej, Eq; auto). destruct Ym as (Y1 & Y2 & Y3). rewrite Y1, Y2, Y3 in Sg. unfold end_pos in Sg.
  assert (Qe : s_q s2 j 0%nat = s_q s j 0%nat + dt * (v0 0%nat + mvn 1 Y df 0%nat)).
  { rewrite <- HV, Sel. rewrite <- (Hv b Bn). cbn [joints_of joint_state jt gpos] in Mv. rewrite Ts, Q1 in Mv. destruct (s_ty s j); try discriminate Tj; rewrite (Mv 0%nat ltac:(lia)), Nat.add_0_r; reflexivity. }
  rewrite <- Qe in Sg. exists s2, z, a. split; [exact Ei | ]. split; [exact En | ]. exact Sg.
Qed.
Print Assumptions C50_step.

(** A limit that is not active, or is switched off, pushes nothing: it is told so ([_force] is zero when it was updated), and the generalized forces, velocities and positions
    are those of the world without it. *)
Theorem C50_idle : forall E dt tol maxiters cs1 c cs2 s s' l vel, jl_on c = true -> jl_active (jl_update E c) = false ->
  update_constraints (con_ops E) dt tol maxiters (cs1 ++ CJ c :: cs2) s = Ok (s', l, vel) ->
  (exists c', nth_error l (length cs1) = Some (CJ c', None) /\ forall i, jl_force c' i = 0) /\
  exists l', update_constraints (con_ops E) dt tol maxiters (cs1 ++ cs2) s = Ok (s', l', vel).
Proof.
  intros E dt tol maxiters cs1 c cs2 s s' l vel On Na H. set (ops := con_ops E) in *. pose (y := (CJ (jl_update E c), @None nat)).
  (* dropping an idle entry *)
  assert (Ac : forall xs n l m, activate ops dt n (xs ++ CJ c :: cs2) = Ok (l, m) -> exists l1 l2, l = l1 ++ y :: l2 /\ length l1 = length xs /\ activate ops dt n (xs ++ cs2) = Ok (l1 ++ l2, m)).
  { induction xs as [ | d xs IH]; intros n l0 m Q; cbn [app activate] in Q.
    - cbn [c_enabled ops con_ops c_update rbind c_active] in Q. rewrite On, Na in Q. fold ops in Q. destruct (activate ops dt n cs2) as [(r, k) | ] eqn:E1; [ | discriminate]. cbn [rbind] in Q. injection Q as <- <-. exists [], r. auto.
    - assert (X : forall n' (x : con * option nat), (let* (l, m) := activate ops dt n' (xs ++ CJ c :: cs2) in Ok (x :: l, m)) = Ok (l0, m) ->
        exists l1 l2, l0 = l1 ++ y :: l2 /\ length l1 = length (d :: xs) /\ (let* (l, m) := activate ops dt n' (xs ++ cs2) in Ok (x :: l, m)) = Ok (l1 ++ l2, m)).
      { intros n' x Q'. destruct (activate ops dt n' _) as [(r, k) | ] eqn:E1; [ | discriminate]. cbn [rbind] in Q'. injection Q' as <- <-. destruct (IH _ _ _ E1) as (l1 & l2 & -> & Ln & E2). exists (x :: l1), l2. rewrite E2. cbn [app length rbind]. auto. }
      cbn [app activate]. destruct (c_enabled ops d); [ | exact (X _ _ Q)]. destruct (c_update ops d dt) as [d1 | ]; [ | discriminate]. cbn [rbind] in *. destruct (c_active ops d1); exact (X _ _ Q). }
  assert (Sk : forall l1 l2 J, stack ops (l1 ++ y :: l2) J = stack ops (l1 ++ l2) J).
  { induction l1 as [ | (d, [a | ]) l1 IH]; intros l2 J; cbn [app stack]; [reflexivity | | apply IH]. destruct (c_jac ops d); cbn [rbind]; [apply IH | reflexivity]. }
  assert (Gf : forall l1 l2 f, add_gforces ops (l1 ++ y :: l2) f = add_gforces ops (l1 ++ l2) f).
  { induction l1 as [ | (d, [a | ]) l1 IH]; intros l2 f; cbn [app add_gforces]; [reflexivity | | apply IH]. destruct (c_gforce ops d); cbn [rbind]; [apply IH | reflexivity]. }
  assert (Sw : forall Y l1 l2 v l' v', sweep ops dt Y (l1 ++ y :: l2) v = Ok (l', v') -> exists l1' l2', l' = l1' ++ y :: l2' /\ length l1' = length l1 /\ sweep ops dt Y (l1 ++ l2) v = Ok (l1' ++ l2', v')).
  { intros Y. induction l1 as [ | (d, [a | ]) l1 IH]; intros l2 v l' v' Q; cbn [app sweep] in *.
    - unfold y in Q. destruct (sweep ops dt Y l2 v) as [(r, k) | ]; [ | discriminate]. cbn [rbind] in Q. injection Q as <- <-. exists [], r. auto.
    - destruct (c_solve ops d _ _ dt) as [(d1, df) | ]; [ | discriminate]. cbn [rbind] in *. destruct (sweep ops dt Y (l1 ++ y :: l2) _) as [(r, k) | ] eqn:E1; [ | discriminate]. cbn [rbind] in Q. injection Q as <- <-. destruct (IH _ _ _ _ E1) as (p & q & -> & Ln & E2). exists ((d1, Some a) :: p), q. rewrite E2. cbn [app length rbind]. auto.
    - destruct (sweep ops dt Y (l1 ++ y :: l2) _) as [(r, k) | ] eqn:E1; [ | discriminate]. cbn [rbind] in Q. injection Q as <- <-. destruct (IH _ _ _ _ E1) as (p & q & -> & Ln & E2). exists ((d, None) :: p), q. rewrite E2. cbn [app length rbind]. auto. }
  assert (Rx : forall m Y it k l1 l2 v p l' v', relax ops dt tol m Y it k (l1 ++ y :: l2) v p = Ok (l', v') -> exists l1' l2', l' = l1' ++ y :: l2' /\ length l1' = length l1 /\ relax ops dt tol m Y it k (l1 ++ l2) v p = Ok (l1' ++ l2', v')).
  { intros m Y. induction it as [ | it IH]; intros k l1 l2 v p l' v' Q; cbn [relax] in *; [injection Q as <- <-; exists l1, l2; auto | ].
    destruct (sweep ops dt Y (l1 ++ y :: l2) v) as [(r, w) | ] eqn:E1; [ | discriminate]. cbn [rbind] in Q. destruct (Sw _ _ _ _ _ _ E1) as (p1 & q1 & -> & Ln & E2). rewrite E2. cbn [rbind]. destruct (Nat.ltb 0 k && _); [injection Q as <- <-; exists p1, q1; auto | ].
    destruct (IH _ _ _ _ _ _ _ Q) as (p2 & q2 & -> & Ln2 & E3). exists p2, q2. rewrite Ln2. auto. }
  unfold update_constraints in *. destruct (Rlt_dec 0 dt); [ | discriminate].
  destruct (activate ops dt 0 _) as [(l0, m) | ] eqn:E1; [ | discriminate]. cbn [rbind] in H. destruct (Ac _ _ _ _ E1) as (l1 & l2 & -> & Ln & ->). cbn [rbind]. rewrite Sk in H. rewrite Gf in H.
  destruct (stack ops (l1 ++ l2) mzero) as [jac | ]; [ | discriminate]. cbn [rbind] in *. destruct (add_gforces ops (l1 ++ l2) _) as [f | ]; [ | discriminate]. cbn [rbind] in *.
  destruct (relax ops dt tol m _ maxiters 0 (l1 ++ y :: l2) _ _) as [(l3, v3) | ] eqn:E2; [ | discriminate]. cbn [rbind] in H. destruct (Rx _ _ _ _ _ _ _ _ _ _ E2) as (p & q & -> & Lp & ->). cbn [rbind]. rewrite Gf in H.
  destruct (add_gforces ops (p ++ q) _) as [f1 | ]; [ | discriminate]. cbn [rbind] in *. injection H as <- <- <-. split; [ | eexists; reflexivity].
  exists (jl_update E c). split; [rewrite <- Ln, <- Lp; now rewrite nth_error_app2, Nat.sub_diag by lia | reflexivity].
Qed.
Print Assumptions C50_idle.

(** After [init], a limit acts on the coordinates of its joint, one by one, and on no other: whatever its force, its generalized force is that force at the dofs of the joint and 0 elsewhere,
    and the velocity it is given is that of the joint. *)
Theorem C50_own_dofs : forall E h c0 c a b, con_init h (CJ c0) = Ok (CJ c) -> jdof h (jl_joint c) = Some (a, b) ->
  exists g, c_gforce (con_ops E) (CJ c) = Ok g /\ (forall k, (k < jl_nd c)%nat -> g (a + k)%nat = jl_force c k) /\
    (forall i, (i < a \/ a + jl_nd c <= i)%nat -> g i = 0) /\
    forall A, c_jac (con_ops E) (CJ c) = Ok A -> forall n v k, (k < jl_nd c)%nat -> (a + jl_nd c <= n)%nat -> mvn n A v k = v (a + k)%nat.
Proof.
  intros E h c0 c a b Ci D. cbn [con_init] in Ci. destruct (jdof h (jl_joint c0)) as [(p, q) | ] eqn:Ed; [ | exfalso; unfold jl_init_lost in Ci; destruct (_ || _ || _); [ | discriminate]; injection Ci as <-; cbn [jl_joint] in D; congruence]. injection Ci as <-. cbn [jl_init jl_joint] in D. rewrite D in Ed. injection Ed as <- <-.
  unfold c_gforce. cbn [c_jac con_ops rbind jl_init jl_jac c_ndol c_force jl_nd jl_force]. set (n := jl_nd c0). set (A := fun k i => if Nat.ltb k n && Nat.eqb i (a + k) then 1 else 0).
  eexists. split; [reflexivity | ]. split; [ | split].
  - intros k Lk. unfold mvn, trans. rewrite (sumR_single n _ k Lk).
    + unfold A. rewrite (proj2 (Nat.ltb_lt k n) Lk), Nat.eqb_refl. cbn [andb]. lra.
    + intros i _ Ni. unfold A. destruct (Nat.eqb_spec (a + k) (a + i)); [lia | ]. rewrite andb_false_r. lra.
  - intros i Hi. unfold mvn, trans. apply sumR_zero. intros k Lk. unfold A. destruct (Nat.eqb_spec i (a + k)); [lia | ]. rewrite andb_false_r. lra.
  - intros A' EA. injection EA as <-. intros m v k Lk Lm. unfold mvn. rewrite (sumR_single m _ (a + k)%nat ltac:(lia)).
    + unfold A. rewrite (proj2 (Nat.ltb_lt k n) Lk), Nat.eqb_refl. cbn [andb]. lra.
    + intros i _ Ni. unfold A. destruct (Nat.eqb_spec i (a + k)); [lia | ]. rewrite andb_false_r. lra.
Qed.
(** A limit on a joint of one dof that is not in the world is accepted by [init]; it then acts on every coordinate of the world, and the velocity it is given is the sum of all the velocities. *)
Theorem C50_foreign_refuted : forall E h c0, jdof h (jl_joint c0) = None -> jl_nd c0 = 1%nat ->
  exists c, con_init h (CJ c0) = Ok (CJ c) /\ (exists g, c_gforce (con_ops E) (CJ c) = Ok g /\ forall i, (i < w_ndof h)%nat -> g i = jl_force c 0%nat) /\
    forall A, c_jac (con_ops E) (CJ c) = Ok A -> forall v, mvn (w_ndof h) A v 0%nat = sumR (w_ndof h) v.
Proof.
  intros E h c0 D N. cbn [con_init]. rewrite D. unfold jl_init_lost. rewrite N. cbn [Nat.eqb orb]. eexists. split; [reflexivity | ].
  assert (Q : forall i, (i < w_ndof h)%nat -> (if (0 <? 1)%nat && (i <? w_ndof h)%nat && true then 1 else 0) = 1) by (intros i Hi; rewrite (proj2 (Nat.ltb_lt _ _) Hi); reflexivity).
  split; [eexists; split; [reflexivity | ] | ].
  - intros i Hi. cbn [c_ndol con_ops jl_nd c_force jl_force jl_jac]. unfold mvn, trans. cbn [sumR]. rewrite (Q i Hi). ring.
  - intros A EA v. cbn [c_jac con_ops jl_jac] in EA. injection EA as <-. unfold mvn. apply sumR_ext. intros k Hk. rewrite (Q k Hk). ring.
Qed.
(** such a joint: the second one of a world to which only the first one was added *)
Example C50_foreign_witness : let h := run 0 (ch_e [TyJoint; TyJoint]) 10 [AddLink (FBody 0) 1 (FBody 1); Init] (fresh (ch_e [TyJoint; TyJoint]) (fun _ _ => 0)) in jdof h 2%nat = None /\ w_ndof h = 1%nat.
Proof. split; reflexivity. Qed.
Print Assumptions C50_own_dofs.

(** The ball and socket, when it is the last constraint to act: the velocity at the end of the step closes the gap exactly, whatever the other constraints and the previous force. *)
Theorem C51_step : forall E dt tol maxiters cs1 c cs2 s s' l vel c1,
  pinv_spec (np_pinv E) -> (0 < maxiters)%nat -> bs_on c = true -> bs_update E c = Ok c1 -> Forall (not_acting E dt) cs2 ->
  update_constraints (con_ops E) dt tol maxiters (cs1 ++ CB c :: cs2) s = Ok (s', l, vel) ->
  exists A, bs_jac E c1 = Ok A /\ (~ singular 3 (seen s A) -> forall k, (k < 3)%nat ->
    comp3 k (bs_pos0 c1) + dt * mvn (w_ndof (s_heap s)) A (next_gvel s' dt (s_gforce s')) k = 0).
Proof.
  intros E dt tol maxiters cs1 c cs2 s s' l vel c1 Hp Im On Eu Ni H.
  destruct (last_acting E dt tol maxiters cs1 (CB c) cs2 s s' l vel (CB c1) Im H On ltac:(cbn [c_update con_ops]; now rewrite Eu) eq_refl Ni) as (Pd & A & a & c2 & c3 & v0 & df & Y & EA & En & B2 & B3 & So & HY & HV).
  exists A. split; [exact EA | ]. intros NS k Lk. cbn [c_ndol con_ops] in HY, HV. rewrite (HV k Lk).
  destruct c2 as [y | y | y]; try contradiction. cbn [but_force] in B2. cbn [c_solve con_ops] in So. destruct (bs_solve E y v0 Y dt) as (z', d') eqn:Es. injection So as <- ->.
  assert (NS' : ~ singular 3 Y) by (intros S'; apply NS; refine (same_singular 3 Y _ _ S'); intros i j Li Lj; now apply HY).
  assert (X := C51_gap_closed E y v0 Y dt z' df Hp Pd NS' Es k Lk). unfold end_pos in X. rewrite B2 in X at 1. exact X.
Qed.
Print Assumptions C51_step.

(** The contact, when it is the last constraint to act: the predicted gap at the end of the step is not negative, and is zero when the contact pushes; friction dissipates. *)
Theorem C52_step : forall E dt tol maxiters cs1 c cs2 s s' l vel c1,
  pinv_spec (np_pinv E) -> solve_spec (np_solve E) -> (0 < maxiters)%nat -> sf_on c = true -> sf_update E c dt = Ok c1 -> sf_act c1 = true -> Forall (not_acting E dt) cs2 ->
  update_constraints (con_ops E) dt tol maxiters (cs1 ++ CS c :: cs2) s = Ok (s', l, vel) ->
  exists A c' a, sf_jac E c1 = Ok A /\ nth_error l (length cs1) = Some (CS c', Some a) /\
    (~ singular 4 (seen s A) -> let v := mvn (w_ndof (s_heap s)) A (next_gvel s' dt (s_gforce s')) in
       0 <= sf_sdist c1 + dt * v 3%nat /\ ((exists i, (i < 4)%nat /\ sf_force c' i <> 0) -> sf_sdist c1 + dt * v 3%nat = 0) /\ sumR 3 (fun i => v i * sf_force c' i) <= 0).
Proof.
  intros E dt tol maxiters cs1 c cs2 s s' l vel c1 Hp Hs Im On Eu Ac Ni H.
  destruct (last_acting E dt tol maxiters cs1 (CS c) cs2 s s' l vel (CS c1) Im H On ltac:(cbn [c_update con_ops]; now rewrite Eu) Ac Ni) as (Pd & A & a & c2 & c3 & v0 & df & Y & EA & En & B2 & B3 & So & HY & HV).
  destruct c2 as [y | y | y]; try contradiction. destruct c3 as [z | z | z]; try contradiction. cbn [but_force] in B2, B3. cbn [c_solve con_ops] in So. destruct (sf_solve E y v0 Y dt) as [(z', d') | ] eqn:Es; [ | discriminate]. cbn [rbind] in So. injection So as -> ->.
  exists A, z, a. split; [exact EA | ]. split; [exact En | ]. intros NS v. cbn [c_ndol con_ops] in HY, HV.
  assert (NS' : ~ singular 4 Y) by (intros S'; apply NS; refine (same_singular 4 Y _ _ S'); intros i j Li Lj; now apply HY).
  assert (Vv : forall i, (i < 4)%nat -> v i = end_vel v0 Y df i) by (intros i Li; unfold v; rewrite (HV i Li); reflexivity).
  assert (Ed : sf_sdist y = sf_sdist c1) by (rewrite B2; reflexivity).
  rewrite (Vv 3%nat ltac:(lia)). rewrite (sumR_ext 3 _ (fun i => end_vel v0 Y df i * sf_force z i)) by (intros i Li; rewrite Vv by lia; reflexivity).
  destruct (Rlt_dec 0 (free_gap y v0 Y dt)) as [G | G].
  - destruct (C52_no_contact E y v0 Y dt G) as (c' & d & Es' & F0 & D0). rewrite Es in Es'. injection Es' as <- <-.
    assert (Eg : sf_sdist c1 + dt * end_vel v0 Y df 3%nat = free_gap y v0 Y dt). { unfold free_gap, end_gap. rewrite Ed. f_equal. f_equal. unfold end_vel. f_equal. apply mvn_ext; [reflexivity | ]. intros i _. rewrite D0. unfold vmul. lra. }
    rewrite Eg. split; [lra | ]. split; [intros (i & _ & N); destruct (N (F0 i)) | ]. rewrite sumR_zero; [lra | ]. intros i _. rewrite F0. lra.
  - destruct (C52_persistence_dissipation E y v0 Y dt z df Hp Hs Pd NS' G Es) as (X1 & _ & X3). unfold end_gap in X1. rewrite Ed in X1. rewrite X1. split; [lra | ]. split; [reflexivity | exact X3].
Qed.
Print Assumptions C52_step.

(** a turning hinge about to overshoot its upper limit meets the hypotheses *)
Example C50_step_witness : exists E s c s' l vel,
  pinv_spec (np_pinv E) /\ live (ch_e [RzJoint]) (s_heap s) (ch_t 0 1) /\ (forall k, In k (joints (ch_t 0 1)) -> jndof (ch_e [RzJoint]) k = ndof_of (s_ty s k)) /\ ce_q E 1%nat = s_q s 1%nat /\
  jl_joint c = 1%nat /\ jl_nd c = 1%nat /\ In 1%nat (joints (ch_t 0 1)) /\ con_init (s_heap s) (CJ c) = Ok (CJ c) /\ jl_on c = true /\ jl_active (jl_update E c) = true /\ jl_min c 0%nat < jl_max c 0%nat /\
  (forall i, (i < w_ndof (s_heap s))%nat -> 0 < s_adm s i i) /\ jl_max c 0%nat < s_q s 1%nat 0%nat + 1 / 2 * next_gvel s (1 / 2) vzero 0%nat /\
  update_constraints (con_ops E) (1 / 2) 1 1 [CJ c] s = Ok (s', l, vel).
Proof.
  pose (s := WS (ch_h [RzJoint]) (fun _ => RzJoint) (fun _ => eye4) (fun _ _ => 0) (WD (fun _ _ => 1) mzero mzero) vzero mzero (fun _ _ => 1 / 2) 0).
  pose (c := jl_init 0 (JL true 1 1 (fun _ => 0) (fun _ => 1 / 10) (fun _ => 1) vzero mzero vzero)).
  pose (E := CE (ch_e [RzJoint]) (ch_sc (fun _ => eye6)) (fun _ => no_attr) (s_q s) gauss_pinv (fun _ => []) (fun _ _ _ => None)).
  assert (Ac : jl_active (jl_update E c) = true).
  { unfold jl_active. cbn [c jl_init jl_update jl_nd jl_pos0 jl_min jl_max jl_prox]. unfold existsb_n. cbn [seq existsb]. rewrite (proj2 (Rltb_true _ _)); [reflexivity | ]. unfold E, s. cbn [ce_q s_q]. lra. }
  assert (U : exists r, update_constraints (con_ops E) (1 / 2) 1 1 [CJ c] s = Ok r).
  { unfold update_constraints. destruct (Rlt_dec 0 (1 / 2)) as [_ | N]; [ | lra]. cbn [activate]. change (c_enabled (con_ops E) (CJ c)) with true. cbv iota. change (c_update (con_ops E) (CJ c) (1 / 2)) with (Ok (CJ (jl_update E c))). cbn [rbind].
    change (c_active (con_ops E) (CJ (jl_update E c))) with (jl_active (jl_update E c)). rewrite Ac. cbn [stack c_jac con_ops rbind add_gforces]. unfold c_gforce. cbn [c_jac con_ops rbind relax]. cbn [sweep c_solve con_ops].
    match goal with |- context [jl_solve ?a ?b ?v ?y ?d] => destruct (jl_solve a b v y d) as (z, df) eqn:Q end. cbn [rbind Nat.ltb Nat.leb andb add_gforces]. unfold c_gforce. cbn [c_jac con_ops rbind]. eexists. reflexivity. }
  destruct U as (((s', l), vel) & U). exists E, s, c, s', l, vel. split; [exact gauss_pinv_spec | ]. split; [ | split; [ | split; [reflexivity | split; [reflexivity | split; [reflexivity | split; [now left | split; [reflexivity | split; [reflexivity | split; [exact Ac | split; [ | split; [ | split; [ | exact U]]]]]]]]]]]].
  - split; [ch_ready | ]. split; [reflexivity | ]. intros j a b [<- | []] D. cbn in D. injection D as <- <-. reflexivity.
  - intros k [<- | []]. reflexivity.
  - unfold c. cbn [jl_init jl_min jl_max]. lra.
  - intros i _. unfold s. cbn [s_adm]. lra.
  - unfold c, s, next_gvel, gvel_vec. cbn. unfold vplus, vmul, vzero, mvn. cbn. lra.
Qed.
