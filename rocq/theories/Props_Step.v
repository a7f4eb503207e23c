(** C45, C48: one simulation step. *)
From Verif Require Import Spec_Step Proof_Tree Proof_World Proof_World2 Proof_World3 Proof_Dofs Proof_World4.
From Verif Require Import Proof_Dyn Proof_Dyn2 Proof_Matrix Proof_Step Proof_Con Props_Dyn Props_DynEx.
From Coq Require Import Lra.

(** Every world built by API calls is [live] once initialised, and stays so while it is integrated
    (last clause of C45_step): the hypotheses below are met by all the states of a simulation. *)
Theorem C45_reachable : forall e g0 h, reachable 0 e g0 h -> exists t, rep e h t /\ root t = ground e /\
  forall fuel, (height t < fuel)%nat -> exists h', init 0 e fuel h = (h', Ok tt) /\ live e h' t.
Proof.
  intros e g0 h R. destruct (world_iterators e h (reachable_forest 0 e g0 h R)) as (t & Rt & Er & ND & NJ & _).
  exists t. split; auto. split; auto. intros fuel F.
  assert (Vi := reachable_vinv 0 e g0 h R).
  destruct (init_spec 0 e h t fuel Vi Rt Er ND F) as (h' & E & N & Sl & _ & W & _).
  exists h'. split; auto.
  assert (S : exists d n a g w k, h' = set_dofs h d n a g w k).
  { unfold init in E. destruct (iterjoints _ _ _); [ | discriminate]. destruct (assign_dofs _ _ _ _).
    destruct (copy_gvels _ _ _ _ _) as [[? ?] | ]; [ | discriminate]. injection E as <-. repeat eexists. }
  split; [ | split].
  - destruct S as (d & n & a & g & w & k & ->). split; [apply rep_set_dofs; auto | ]. split; [auto | ]. split; [auto | ]. split; [exact N | ].
    intros l1 j l2 El. apply (Sl l1 j l2 El).
  - rewrite W, N. unfold total_ndof. clear - Vi. induction (joints t) as [ | j js IH]; [reflexivity | ]. cbn. rewrite app_length, IH. f_equal.
    unfold joint_gvel, read. pose proof (vi_len e h Vi j) as L1. pose proof (vi_bound e h Vi j) as L2. rewrite firstn_length, skipn_length. lia.
  - intros j s d Ij D. destruct (in_split _ _ Ij) as (l1 & l2 & El). destruct (Sl l1 j l2 El) as [D' G]. rewrite D in D'. injection D' as -> ->.
    rewrite G. f_equal. lia.
Qed.

(** [update_controllers] never touches velocities, positions or time, whatever it returns. *)
Lemma update_controllers_frame linv ctl dt s : exists f Z Y, fst (update_controllers linv ctl dt s) = set_forces s f Z Y.
Proof.
  unfold update_controllers. destruct (Rlt_dec 0 dt); [ | exists (s_gforce s), (s_imp s), (s_adm s); destruct s; reflexivity].
  match goal with |- context [add_controllers ctl dt ?l ?s0] => destruct (add_controllers_frame ctl dt l s0) as (f & Z & E); destruct (add_controllers ctl dt l s0) as [s1 [u | x]] eqn:Ea end;
  cbn [fst] in E; subst s1.
  - destruct (linv _ _) as [Y | ]; cbn [fst].
    + exists f, Z, Y. reflexivity. + exists f, Z, (s_adm s). reflexivity.
  - exists f, Z, (s_adm s). reflexivity.
Qed.

(** The documented implicit equation. [fa], [Za]: what the controllers returned; [fc]: the constraint
    forces added between the two calls (C48). *)
Theorem C45_step : forall linv ctl e t fuel dt s s1 fa Za fc,
  inv_spec linv -> live e (s_heap s) t -> (height t < fuel)%nat ->
  (forall j, In j (joints t) -> jndof e j = ndof_of (s_ty s j)) ->
  (forall a, In a (w_controllers (s_heap s)) -> ctl a dt = Ok (fa a, Za a)) ->
  update_controllers linv ctl dt s = (s1, Ok tt) ->
  exists s', integrate e fuel dt (set_forces s1 (vplus (s_gforce s1) fc) (s_imp s1) (s_adm s1)) = (s', Ok tt) /\
    (let n := w_ndof (s_heap s) in let d := s_dyn s in
     let v := gvel_vec (s_heap s) in let v' := gvel_vec (s_heap s') in
     forall i, (i < n)%nat ->
       mvn n (d_mass d) (vmul (/ dt) (vminus v' v)) i + mvn n (mplus (d_nle d) (d_visc d)) v' i =
       sumlist (fun a => fa a i + mvn n (Za a) v' i) (w_controllers (s_heap s)) + fc i) /\
    (forall j, In j (joints t) -> exists a, jdof (s_heap s) j = Some (a, a + jndof e j)%nat /\
        moved_by (joints_of s j) (joints_of s' j) (jndof e j) (fun i => gvel_vec (s_heap s') (a + i)%nat) dt) /\
    (forall j, ~ In j (joints t) -> s_q s' j = s_q s j /\ s_qH s' j = s_qH s j) /\
    s_time s' = s_time s + dt /\ live e (s_heap s') t.
Proof.
  intros linv ctl e t fuel dt s s1 fa Za fc Hi Lv F Hty Hc Hu.
  unfold update_controllers in Hu. destruct (Rlt_dec 0 dt) as [P | ]; [ | discriminate].
  match type of Hu with context [add_controllers ctl dt ?l ?s0] => destruct (add_controllers_ok ctl dt fa Za l Hc s0) as (f & Z & E & Ef & EZ) end.
  rewrite E in Hu. cbn [s_heap s_imp set_forces s_gforce] in *. specialize (Hi (w_ndof (s_heap s)) Z).
  destruct (linv _ Z) as [Y | ]; [ | discriminate]. injection Hu as <-.
  set (s2 := set_forces _ _ _ _).
  destruct (integrate_ok e t dt fuel s2 Lv F P Hty) as (s' & Es & L' & Ev & Mv & Out & _ & Ty & _ & _ & Ti).
  exists s'. split; [exact Es | ]. split; [ | split; [exact Mv | split; [exact Out | split; [exact Ti | exact L']]]].
  cbn zeta. intros i Li. set (n := w_ndof (s_heap s)) in *. set (v := gvel_vec (s_heap s)). set (v' := gvel_vec (s_heap s')).
  assert (EZv : mvn n Z v' i = mvn n (d_mass (s_dyn s)) (vmul (/ dt) v) i + (f i + fc i)).
  { transitivity (mvn n Z (mvn n Y (vplus (mvn n (d_mass (s_dyn s)) (vmul (/ dt) v)) (vplus f fc))) i).
    - apply mvn_ext; [reflexivity | exact Ev].
    - rewrite <- mvn_mmn. rewrite (mvn_ext n _ unit_mat _ (vplus (mvn n (d_mass (s_dyn s)) (vmul (/ dt) v)) (vplus f fc))).
      + rewrite mvn_unit by exact Li. reflexivity.
      + intros k Lk. apply Hi; auto.
      + intros k Lk. reflexivity. }
  assert (EZ' : mvn n Z v' i = mvn n (d_mass (s_dyn s)) (vmul (/ dt) v') i + mvn n (d_visc (s_dyn s)) v' i + mvn n (d_nle (s_dyn s)) v' i
                   - sumlist (fun a => mvn n (Za a) v' i) (w_controllers (s_heap s))).
  { rewrite <- mvn_sumlist. rewrite mvn_mul, <- mvn_mmul, <- !mvn_mplus, <- mvn_mminus. apply mvn_ext; [ | intros ? ?; reflexivity].
    intros k _. rewrite EZ. reflexivity. }
  rewrite mvn_mplus, mvn_mul, mvn_minus, sumlist_add. rewrite EZ', !mvn_mul in EZv. specialize (Ef i). unfold vzero in Ef. lra.
Qed.

(** [update_controllers] succeeds, or raises LinAlgError exactly when the impedance is singular; the
    velocities, positions and time are then untouched. *)
Theorem C45_singular : forall linv ctl dt s fa Za, inv_spec linv -> 0 < dt ->
  (forall a, In a (w_controllers (s_heap s)) -> ctl a dt = Ok (fa a, Za a)) ->
  let n := w_ndof (s_heap s) in let d := s_dyn s in
  let Z := mminus (mplus (mmul (/ dt) (d_mass d)) (mplus (d_nle d) (d_visc d)))
                  (fun i j => sumlist (fun a => Za a i j) (w_controllers (s_heap s))) in
  exists s1, ((singular n Z /\ update_controllers linv ctl dt s = (s1, Err LinAlgError)) \/
              (~ singular n Z /\ update_controllers linv ctl dt s = (s1, Ok tt) /\ inverse n Z (s_adm s1))) /\
    s_heap s1 = s_heap s /\ s_q s1 = s_q s /\ s_qH s1 = s_qH s /\ s_ty s1 = s_ty s /\ s_dyn s1 = s_dyn s /\ s_time s1 = s_time s.
Proof.
  intros linv ctl dt s fa Za Hi P Hc. cbn zeta. unfold update_controllers. destruct (Rlt_dec 0 dt) as [_ | ]; [ | lra].
  match goal with |- context [add_controllers ctl dt ?l ?s0] => destruct (add_controllers_ok ctl dt fa Za l Hc s0) as (f & Z & E & Ef & EZ) end.
  rewrite E. cbn [s_heap s_imp set_forces s_gforce] in *. specialize (Hi (w_ndof (s_heap s)) Z). set (n := w_ndof (s_heap s)) in *.
  set (Z0 := mminus _ _).
  assert (E0 : forall i j, Z i j = Z0 i j). { intros i j. rewrite EZ. unfold Z0, mminus, mplus, mmul. lra. }
  assert (Sg : singular n Z -> singular n Z0).
  { intros (x & Nx & Kx). exists x. split; auto. intros i Li. rewrite <- (Kx i Li). apply mvn_ext; [intros; symmetry; apply E0 | intros ? ?; reflexivity]. }
  destruct (linv n Z) as [Y | ].
  - assert (I0 : inverse n Z0 Y).
    { destruct Hi as [H1 H2]. split; intros i j Li Lj.
      - rewrite <- (H1 i j Li Lj). apply mmn_ext; auto. - rewrite <- (H2 i j Li Lj). apply mmn_ext; auto. }
    eexists. split; [right; split; [exact (inverse_not_singular n Z0 Y I0) | split; [reflexivity | exact I0]] | ]. repeat split; reflexivity.
  - eexists. split; [left; split; [exact (Sg Hi) | reflexivity] | ]. repeat split; reflexivity.
Qed.

(** The assumption on numpy.linalg.inv can be met, and a hinge with unit inertia meets the rest. *)
Example C45_witness : inv_spec gauss_inv /\
  let d := WD (fun _ _ => 1) (fun _ _ => 0) (fun _ _ => 0) in
  let s := WS (ch_h [RzJoint]) (fun _ => RzJoint) (fun _ => eye4) (fun _ _ => 0) d vzero mzero mzero 0 in
  live (ch_e [RzJoint]) (s_heap s) (ch_t 0 1) /\ gvel_vec (s_heap s) 0%nat = 1 /\
  exists s1, update_controllers gauss_inv (fun _ _ => Err ValueError) (1 / 2) s = (s1, Ok tt) /\ s_adm s1 0%nat 0%nat = 1 / 2.
Proof.
  split; [exact gauss_inv_spec | ]. cbn zeta. set (s := WS _ _ _ _ _ _ _ _ _).
  assert (L : live (ch_e [RzJoint]) (s_heap s) (ch_t 0 1)).
  { split; [ch_ready | ]. split; [reflexivity | ]. intros j a b [<- | []] D. cbn in D. injection D as <- <-. reflexivity. }
  split; [exact L | ]. split; [reflexivity | ].
  destruct (C45_singular gauss_inv (fun _ _ => Err ValueError) (1 / 2) s (fun _ => vzero) (fun _ => mzero) gauss_inv_spec ltac:(lra)) as (s1 & [[Sg _] | (NS & E & Iv)] & _).
  { intros a []. }
  - exfalso. destruct Sg as (x & Nx & Kx). apply Nx. intros i Li. cbn in Li. assert (i = 0)%nat by lia. subst i.
    specialize (Kx 0%nat ltac:(cbn; lia)). unfold mvn, mminus, mplus, mmul, vzero in *. cbn in Kx. lra.
  - exists s1. split; [exact E | ]. destruct Iv as [Iv _]. specialize (Iv 0%nat 0%nat ltac:(cbn; lia) ltac:(cbn; lia)).
    unfold mmn, mminus, mplus, mmul, unit_mat in Iv. cbn in Iv. lra.
Qed.

(** ** C48 *)
(** For any implementation of the constraint interface whose [solve] returns the force increment
    ([increments], proved for each constraint class in C49), any number of iterations and any
    tolerance: disabled constraints are left alone, the enabled ones are updated and those found active
    contribute their generalized force and nothing else does, and the velocities seen by the solver are
    the constraint jacobians applied to the velocity that [integrate] will compute. *)
Theorem C48_solver_velocities : forall (C : Type) (ops : cops C) dt tol maxiters cs s s' l vel,
  (forall c, increments ops c) ->
  update_constraints ops dt tol maxiters cs s = Ok (s', l, vel) ->
  Forall2 (fun c x =>
     (c_enabled ops c = false /\ x = (c, None)) \/
     (c_enabled ops c = true /\ exists c1, c_update ops c dt = Ok c1 /\
        ((c_active ops c1 = false /\ x = (c1, None)) \/
         (c_active ops c1 = true /\ exists a, snd x = Some a /\ c_jac ops (fst x) = c_jac ops c1 /\ c_ndol ops (fst x) = c_ndol ops c1)))) cs l /\
  (forall i, s_gforce s' i = s_gforce s i +
     sumlist (fun c => match c_jac ops c with Ok A => sumR (c_ndol ops c) (fun k => A k i * c_force ops c k) | Err _ => 0 end) (acting l)) /\
  (forall c a, In (c, Some a) l -> exists A, c_jac ops c = Ok A /\ forall k, (k < c_ndol ops c)%nat ->
     vel (a + k)%nat = mvn (w_ndof (s_heap s)) A (next_gvel s' dt (s_gforce s')) k) /\
  s_heap s' = s_heap s /\ s_q s' = s_q s /\ s_qH s' = s_qH s /\ s_dyn s' = s_dyn s /\ s_adm s' = s_adm s /\ s_time s' = s_time s.
Proof.
  intros C ops dt tol maxiters cs s s' l vel OK H. unfold update_constraints in H. destruct (Rlt_dec 0 dt); [ | discriminate].
  destruct (activate ops dt 0 cs) as [[l0 m] | ] eqn:Ea; [ | discriminate]. cbn [rbind] in H.
  destruct (stack ops l0 mzero) as [jac | ] eqn:Es; [ | discriminate]. cbn [rbind] in H.
  destruct (add_gforces ops l0 _) as [f | ] eqn:Ef; [ | discriminate]. cbn [rbind] in H.
  destruct (relax ops dt tol m _ maxiters 0 l0 _ _) as [[l1 v1] | ] eqn:Er; [ | discriminate]. cbn [rbind] in H.
  destruct (add_gforces ops l1 _) as [f1 | ] eqn:Ef1; [ | discriminate]. cbn [rbind] in H. injection H as <- <- <-.
  set (n := w_ndof (s_heap s)) in *.
  assert (Sl := activate_slices ops dt cs _ _ _ Ea).
  destruct (stack_rows ops l0 _ _ _ _ Sl Es) as [_ Rw].
  destruct (relax_spec ops OK dt tol m n jac (s_adm s) maxiters _ _ _ _ _ _ Rw Er) as [Sh Hv].
  split; [ | split; [ | split; [ | repeat split; reflexivity]]].
  - assert (W := activate_who ops dt cs _ _ _ Ea). clear - W Sh. revert l1 Sh.
    induction W as [ | c x cs l0 Hx W IH]; intros l1 Sh; inversion Sh; subst; constructor; [ | apply IH; auto].
    rename y into z. destruct H1 as (E1 & E2 & E3 & E4 & _). destruct Hx as [[En ->] | (En & Eu & Ea)].
    + left. split; auto. destruct z as [c' o]. cbn [fst snd] in *. subst o. rewrite (E2 eq_refl). reflexivity.
    + right. split; auto. exists (fst x). split; auto. destruct (c_active ops (fst x)) eqn:Ax.
      * right. split; auto. destruct (snd x) as [a | ] eqn:Sx; [ | exfalso; apply (proj2 Ea eq_refl); auto]. exists a. auto.
      * left. split; auto. destruct (snd x) as [a | ] eqn:Sx; [exfalso; assert (true = false) by (symmetry; apply Ea; discriminate); discriminate | ].
        destruct z as [c' o]. cbn [fst snd] in *. subst o. rewrite (E2 eq_refl). reflexivity.
  - intros i. cbn [s_gforce set_forces]. apply (add_gforces_ok ops l1 _ _ Ef1 i).
  - intros c a I. destruct (same_rows ops l0 l1 jac Sh Rw c a I) as (A & EA & HA). exists A. split; auto. intros k Lk.
    specialize (Hv (a + k)%nat).
    assert (Q : forall l2 f2, add_gforces ops l2 (s_gforce s) = Ok f2 ->
      mvn n jac (next_gvel s dt f2) (a + k)%nat = mvn n jac (next_gvel s dt (s_gforce s)) (a + k)%nat +
        eff n jac (s_adm s) (fun p => sumlist (fun c => cf ops c p) (acting l2)) (a + k)%nat).
    { intros l2 f2 E2. unfold next_gvel. fold n. fold (eff n jac (s_adm s) (vplus (mvn n (d_mass (s_dyn s)) (vmul (/ dt) (gvel_vec (s_heap s)))) f2)).
      fold (eff n jac (s_adm s) (vplus (mvn n (d_mass (s_dyn s)) (vmul (/ dt) (gvel_vec (s_heap s)))) (s_gforce s))).
      rewrite (eff_ext n jac (s_adm s) (vplus _ f2) (vplus (vplus (mvn n (d_mass (s_dyn s)) (vmul (/ dt) (gvel_vec (s_heap s)))) (s_gforce s)) (fun p => sumlist (fun c0 => cf ops c0 p) (acting l2)))).
      - rewrite eff_plus. reflexivity.
      - intros p. unfold vplus. rewrite (add_gforces_ok ops l2 _ _ E2 p). lra. }
    assert (V : v1 (a + k)%nat = mvn n jac (next_gvel s dt f1) (a + k)%nat).
    { rewrite (Q _ _ Ef1). rewrite (Q _ _ Ef) in Hv. lra. }
    rewrite V. unfold mvn at 1. apply sumR_ext. intros q Lq. rewrite HA by exact Lk. reflexivity.
Qed.
