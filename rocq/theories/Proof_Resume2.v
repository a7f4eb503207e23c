(** Lemmas for interrupted simulations: the steps. *)
From Coq Require Import Lra Lia FunctionalExtensionality.
From Verif Require Import Spec_Resume Proof_World Proof_World2 Proof_World3 Proof_World4 Proof_Tree Proof_Dofs Proof_Step Proof_Sim Proof_Sim2 Proof_Sim3 Props_Dyn Props_Step Proof_Resume.

(** a property of constraints kept by [update] and [solve] is kept by update_constraints *)
Section Keep.
  Context {C : Type} (ops : cops C) (P : C -> Prop) (dt : R).
  Hypothesis Hu : forall c c1, c_update ops c dt = Ok c1 -> P c -> P c1.
  Hypothesis Hs : forall c v Y c1 df, c_solve ops c v Y dt = Ok (c1, df) -> P c -> P c1.
  Notation ok l := (Forall P (map fst l)).
  Lemma keep_activate cs : forall n l m, Forall P cs -> activate ops dt n cs = Ok (l, m) -> ok l.
  Proof.
    induction cs as [ | c cs IH]; cbn [activate]; intros n l m H E; [injection E as <- _; constructor | ]. inversion H as [ | ? ? Hc Hcs]; subst.
    destruct (c_enabled ops c).
    - destruct (c_update ops c dt) as [c1 | ] eqn:Ec; [ | discriminate]. cbn [rbind] in E. destruct (c_active ops c1).
      + destruct (activate ops dt _ cs) as [[l0 m0] | ] eqn:E0; [ | discriminate]. injection E as <- _. cbn. constructor; [exact (Hu _ _ Ec Hc) | exact (IH _ _ _ Hcs E0)].
      + destruct (activate ops dt _ cs) as [[l0 m0] | ] eqn:E0; [ | discriminate]. injection E as <- _. cbn. constructor; [exact (Hu _ _ Ec Hc) | exact (IH _ _ _ Hcs E0)].
    - destruct (activate ops dt _ cs) as [[l0 m0] | ] eqn:E0; [ | discriminate]. injection E as <- _. cbn. constructor; [exact Hc | exact (IH _ _ _ Hcs E0)].
  Qed.
  Lemma keep_sweep Y l : forall vel l1 v1, ok l -> sweep ops dt Y l vel = Ok (l1, v1) -> ok l1.
  Proof.
    induction l as [ | [c [a | ]] l IH]; cbn [sweep]; intros vel l1 v1 H E; [injection E as <- _; constructor | | ]; inversion H as [ | ? ? Hc Hcs]; subst; cbn [fst] in *.
    - destruct (c_solve ops c _ _ dt) as [[c1 df] | ] eqn:Ec; [ | discriminate]. cbn [rbind] in E. destruct (sweep ops dt Y l _) as [[r v] | ] eqn:E0; [ | discriminate]. injection E as <- _. cbn. constructor; [exact (Hs _ _ _ _ _ Ec Hc) | exact (IH _ _ _ Hcs E0)].
    - destruct (sweep ops dt Y l _) as [[r v] | ] eqn:E0; [ | discriminate]. injection E as <- _. cbn. constructor; [exact Hc | exact (IH _ _ _ Hcs E0)].
  Qed.
  Lemma keep_relax tol n Y iters : forall k l vel prev l1 v1, ok l -> relax ops dt tol n Y iters k l vel prev = Ok (l1, v1) -> ok l1.
  Proof.
    induction iters as [ | m IH]; cbn [relax]; intros k l vel prev l1 v1 H E; [injection E as <- _; exact H | ].
    destruct (sweep ops dt Y l vel) as [[l2 v2] | ] eqn:Es; [ | discriminate]. cbn [rbind] in E. assert (H2 := keep_sweep _ _ _ _ _ H Es). destruct (_ && _); [injection E as <- _; exact H2 | exact (IH _ _ _ _ _ _ H2 E)].
  Qed.
  Lemma keep_constraints tol n cs s s1 l v : Forall P cs -> update_constraints ops dt tol n cs s = Ok (s1, l, v) -> ok l.
  Proof.
    intros H E. unfold update_constraints in E. destruct (Rlt_dec 0 dt); [ | discriminate]. destruct (activate ops dt 0 cs) as [[l0 m] | ] eqn:E0; [ | discriminate]. cbn [rbind] in E.
    destruct (stack _ _ _); [ | discriminate]. cbn [rbind] in E. destruct (add_gforces _ _ _); [ | discriminate]. cbn [rbind] in E.
    destruct (relax _ _ _ _ _ _ _ _ _ _) as [[l1 v1] | ] eqn:E1; [ | discriminate]. cbn [rbind] in E. destruct (add_gforces _ l1 _); [ | discriminate]. injection E as _ <- _.
    exact (keep_relax _ _ _ _ _ _ _ _ _ _ (keep_activate _ _ _ _ H E0) E1).
  Qed.
End Keep.
Lemma con_update_keeps E h c dt c1 : c_update (con_ops E) c dt = Ok c1 -> con_init h c = Ok c -> con_init h c1 = Ok c1.
Proof.
  destruct c as [x | x | x]; cbn [con_ops c_update].
  - intros [= <-] H. cbn [con_init] in *. cbn [jl_update jl_joint]. destruct (jdof h (jl_joint x)) as [(a, b) | ]; [injection H as H; unfold jl_update, jl_init in *; cbn; destruct x; cbn in *; congruence | ]. unfold jl_init_lost in *. cbn [jl_update jl_nd jl_on jl_joint jl_min jl_max jl_prox jl_pos0 jl_force]. destruct (_ || _ || _); [ | discriminate]. injection H as H. unfold jl_update. destruct x; cbn in *. congruence.
  - destruct (bs_update E x); [ | discriminate]. intros [= <-] _. reflexivity.
  - destruct (sf_update E x dt); [ | discriminate]. intros [= <-] _. reflexivity.
Qed.
Lemma con_solve_keeps E h c v Y dt c1 df : c_solve (con_ops E) c v Y dt = Ok (c1, df) -> con_init h c = Ok c -> con_init h c1 = Ok c1.
Proof.
  destruct c as [x | x | x]; cbn [con_ops c_solve].
  - assert (Q : exists f, fst (jl_solve E x v Y dt) = jl_set_force x f) by (unfold jl_solve; cbv zeta; destruct (existsb_n _ _); [eexists; reflexivity | destruct (existsb_n _ _); eexists; reflexivity]).
    destruct Q as (f & Q). destruct (jl_solve E x v Y dt) as [y d]. cbn [fst] in Q. subst y. intros [= <- _] H.
    cbn [con_init jl_set_force jl_joint] in *. destruct (jdof h (jl_joint x)) as [(a, b) | ]; [injection H as H; unfold jl_set_force, jl_init in *; cbn; destruct x; cbn in *; congruence | ]. unfold jl_init_lost in *. cbn [jl_set_force jl_nd jl_on jl_joint jl_min jl_max jl_prox jl_pos0 jl_force]. destruct (_ || _ || _); [ | discriminate]. injection H as H. unfold jl_set_force. destruct x; cbn in *. congruence.
  - intros [= <- _] _. reflexivity.
  - destruct (sf_solve E x v Y dt) as [[y d] | ]; [ | discriminate]. intros [= <- _] _. reflexivity.
Qed.

Section Run.
  Context (U : setup) (t : tree).
  Hypothesis Hf : (height t < su_fuel U)%nat.
  Notation hp w := (s_heap (w_s w)).
  Notation settled := (settled U t).
  Notation close := (close U t).
  Lemma settled_frame w w1 : hp w1 = hp w -> v_cs (w_v w1) = v_cs (w_v w) -> w_ctl w1 = w_ctl w -> settled w -> settled w1.
  Proof. intros A B C S. constructor; rewrite ?A, ?B, ?C; apply S. Qed.
  Lemma close_joints w w' : close w w' -> forall j, In j (joints t) -> joints_of (w_s w') j = joints_of (w_s w) j.
  Proof.
    intros (A & B & C & D & E & F & G & _) j Ij. unfold joints_of, joint_state. rewrite E, F, G, (live_same U t _ _ (st_live _ _ _ A) (st_live _ _ _ B) C D j Ij). reflexivity.
  Qed.
  (** update_dynamic *)
  Lemma close_dyn w w' : close w w' -> snd (world_dynamic U w') = snd (world_dynamic U w) /\ close (fst (world_dynamic U w)) (fst (world_dynamic U w')) /\
    (snd (world_dynamic U w) = Ok tt -> s_dyn (w_s (fst (world_dynamic U w'))) = s_dyn (w_s (fst (world_dynamic U w)))).
  Proof.
    intros K. assert (J := close_joints _ _ K). destruct (K) as (A & B & C & D & E & F & G & H & I0 & L & M).
    assert (Rt := proj1 (proj1 (st_live _ _ _ A))). assert (Er := proj1 (proj2 (proj1 (st_live _ _ _ A)))).
    assert (Q : world_update_dynamic (su_e U) (su_sc U) (hp w') (joints_of (w_s w')) (su_fuel U) (v_st (w_v w')) = world_update_dynamic (su_e U) (su_sc U) (hp w) (joints_of (w_s w)) (su_fuel U) (v_st (w_v w))).
    { unfold world_update_dynamic. rewrite I0, <- Er, (upd_dyn_same (su_e U) (su_sc U) (hp w) (hp w') (joints_of (w_s w)) (joints_of (w_s w')) t C Rt J).
      destruct (update_dynamic _ _ _ _ _ _ _ _) as [st1 | ]; [ | reflexivity]. cbn [rbind]. rewrite (iter_bodies_same _ _ _ C). reflexivity. }
    unfold world_dynamic. rewrite Q. destruct (world_update_dynamic _ _ (hp w) _ _ _) as [[st d] | e]; cbn [fst snd]; [ | split; [reflexivity | split; [exact K | discriminate]]].
    split; [reflexivity | ]. split; [ | reflexivity].
    split; [apply (settled_frame w); [reflexivity | reflexivity | reflexivity | exact A] | ]. split; [apply (settled_frame w'); [reflexivity | reflexivity | reflexivity | exact B] | ]. repeat (split; [assumption | ]). cbn. auto.
  Qed.
  (** update_controllers *)
  Definition calm_ctl (w : world) : Prop := forall a, In a (w_controllers (hp w)) -> match w_ctl w a with KUser f => memoryless t f | _ => True end.
  Lemma close_ctl_update w w' a dt : close w w' -> s_dyn (w_s w') = s_dyn (w_s w) -> match w_ctl w a with KUser f => memoryless t f | _ => True end -> ctl_update U w' a dt = ctl_update U w a dt.
  Proof.
    intros K Ed Hm. destruct (K) as (A & B & C & D & E & F & G & H & I0 & L & M). unfold ctl_update. rewrite M. destruct (w_ctl w a) as [g [c | ] | c | f].
    - rewrite I0. reflexivity.
    - reflexivity.
    - assert (Nd : w_ndof (hp w') = w_ndof (hp w)) by (destruct C as (? & ? & ? & ? & ->); reflexivity). rewrite Nd, F. unfold pd_update.
      assert (X : forall q, map (coords (su_e U) q) (pd_joints c) = map (fun j => map (q j) (seq 0 (jndof (su_e U) j))) (pd_joints c)) by reflexivity.
      destruct (np_stack (map (coords (su_e U) (s_q (w_s w))) (pd_joints c)) (pd_cndof c)); [ | reflexivity]. cbn [rbind].
      assert (Y : forall v v', match np_stack (map (coords (su_e U) v) (pd_joints c)) (pd_cndof c) with Ok _ => true | Err ValueError => false | Err _ => true end = match np_stack (map (coords (su_e U) v') (pd_joints c)) (pd_cndof c) with Ok _ => true | Err ValueError => false | Err _ => true end).
      { intros v v'. generalize (pd_joints c). intros js. unfold np_stack. destruct js as [ | j js]; cbn [map]; [reflexivity | ].
        assert (L1 : forall x i, length (coords (su_e U) x i) = jndof (su_e U) i) by (intros; unfold coords; rewrite map_length, seq_length; reflexivity).
        assert (F1 : forall x y, forallb (fun y0 => Nat.eqb (length y0) (length (coords (su_e U) x j))) (map (coords (su_e U) x) js) = forallb (fun y0 => Nat.eqb (length y0) (length (coords (su_e U) y j))) (map (coords (su_e U) y) js)).
        { intros x y. rewrite !L1. induction js as [ | i js IH]; [reflexivity | ]. cbn [map forallb]. rewrite !L1, IH. reflexivity. }
        assert (F2 : forall x y l, length (concat (map (coords (su_e U) x) l)) = length (concat (map (coords (su_e U) y) l))).
        { intros x y l. induction l as [ | i l IH]; [reflexivity | ]. cbn [map concat]. rewrite !app_length, !L1, IH. reflexivity. }
        assert (F3 := F2 v v' (j :: js)). cbn [map] in F3. rewrite F3, (F1 v v'). destruct (_ && _); reflexivity. }
      assert (N2 : forall l n e, np_stack l n = Err e -> e = ValueError) by (intros l n e; unfold np_stack; destruct l; [destruct (Nat.eqb n 0); [discriminate | congruence] | destruct (_ && _); [discriminate | congruence]]).
      specialize (Y (fun j => gvel (joints_of (w_s w') j)) (fun j => gvel (joints_of (w_s w) j))).
      destruct (np_stack (map (coords (su_e U) (fun j => gvel (joints_of (w_s w') j))) _) _) as [x1 | e1] eqn:E1; destruct (np_stack (map (coords (su_e U) (fun j => gvel (joints_of (w_s w) j))) _) _) as [x2 | e2] eqn:E2; cbn [rbind].
      + reflexivity.
      + apply N2 in E2. subst e2. discriminate.
      + apply N2 in E1. subst e1. discriminate.
      + apply N2 in E1, E2. subst. reflexivity.
    - apply Hm; [exact (proj1 (close_same U t _ _ K)) | exact Ed].
  Qed.
  Lemma add_ctl_same c c' dt l : forall s s', (forall a, In a l -> c' a dt = c a dt) -> s_gforce s' = s_gforce s -> s_imp s' = s_imp s ->
    snd (add_controllers c' dt l s') = snd (add_controllers c dt l s) /\ s_gforce (fst (add_controllers c' dt l s')) = s_gforce (fst (add_controllers c dt l s)) /\
    s_imp (fst (add_controllers c' dt l s')) = s_imp (fst (add_controllers c dt l s)).
  Proof.
    induction l as [ | a l IH]; intros s s' H G I0; cbn [add_controllers]; [auto | ]. rewrite H by (left; reflexivity). destruct (c a dt) as [[f Z] | ]; [ | auto].
    apply IH; [intros b Hb; apply H; right; exact Hb | | ]; cbn [s_gforce s_imp set_forces]; congruence.
  Qed.
  Lemma close_ctl w w' dt : close w w' -> s_dyn (w_s w') = s_dyn (w_s w) -> calm_ctl w ->
    snd (world_controllers U dt w') = snd (world_controllers U dt w) /\ close (fst (world_controllers U dt w)) (fst (world_controllers U dt w')) /\
    (snd (world_controllers U dt w) = Ok tt -> same_matrices (fst (world_controllers U dt w)) (fst (world_controllers U dt w'))).
  Proof.
    intros K Ed Hc. destruct (K) as (A & B & C & D & E & F & G & H & I0 & L & M).
    destruct (update_controllers_frame (su_linv U) (ctl_update U w) dt (w_s w)) as (f & Z & Y & Fr).
    destruct (update_controllers_frame (su_linv U) (ctl_update U w') dt (w_s w')) as (f' & Z' & Y' & Fr').
    assert (Q : snd (update_controllers (su_linv U) (ctl_update U w') dt (w_s w')) = snd (update_controllers (su_linv U) (ctl_update U w) dt (w_s w)) /\
      (snd (update_controllers (su_linv U) (ctl_update U w) dt (w_s w)) = Ok tt -> f' = f /\ Z' = Z /\ Y' = Y)).
    { unfold update_controllers in *. destruct (Rlt_dec 0 dt); [ | split; [reflexivity | discriminate]]. cbv zeta in *.
      assert (Nd : w_ndof (hp w') = w_ndof (hp w) /\ w_controllers (hp w') = w_controllers (hp w)) by (destruct C as (? & ? & ? & ? & ->); split; reflexivity). destruct Nd as [Nd Nc].
      rewrite Ed, Nd, Nc in *.
      match goal with |- context [add_controllers (ctl_update U w) dt ?l ?s] => match goal with |- context [add_controllers (ctl_update U w') dt l ?s'] => destruct (add_ctl_same (ctl_update U w) (ctl_update U w') dt l s s') as (X1 & X2 & X3) end end.
      { intros a Ha. apply close_ctl_update; [exact K | exact Ed | apply Hc; exact Ha]. }
      { reflexivity. } { reflexivity. }
      destruct (add_controllers (ctl_update U w') dt _ _) as [s1' r1']. destruct (add_controllers (ctl_update U w) dt _ _) as [s1 r1]. cbn [fst snd] in X1, X2, X3. subst r1'.
      destruct r1 as [ | e]; [ | split; [reflexivity | discriminate]]. rewrite X3 in *. destruct (su_linv U (w_ndof (hp w)) (s_imp s1)) as [V | ]; [ | split; [reflexivity | discriminate]].
      split; [reflexivity | ]. intros _. cbn [fst] in Fr, Fr'. rewrite X2 in Fr'. 
      assert (P1 := f_equal s_gforce Fr). assert (P2 := f_equal s_imp Fr). assert (P3 := f_equal s_adm Fr). assert (P4 := f_equal s_gforce Fr'). assert (P5 := f_equal s_imp Fr'). assert (P6 := f_equal s_adm Fr'). cbn [s_gforce s_imp s_adm set_forces] in *. split; [congruence | split; congruence]. }
    unfold world_controllers. destruct (update_controllers (su_linv U) (ctl_update U w) dt (w_s w)) as [s r]. destruct (update_controllers (su_linv U) (ctl_update U w') dt (w_s w')) as [s' r'].
    cbn [fst snd] in *. destruct Q as [-> Q]. split; [reflexivity | ]. subst s s'. split.
    - split; [apply (settled_frame w); [reflexivity | reflexivity | reflexivity | exact A] | ]. split; [apply (settled_frame w'); [reflexivity | reflexivity | reflexivity | exact B] | ]. repeat (split; [assumption | ]). auto.
    - intros Er. destruct (Q Er) as (-> & -> & ->). unfold same_matrices. cbn. auto.
  Qed.

  (** update_constraints *)
  Lemma next_same s s' dt f : w_ndof (s_heap s') = w_ndof (s_heap s) -> world_gvel (s_heap s') = world_gvel (s_heap s) -> s_dyn s' = s_dyn s -> s_adm s' = s_adm s -> next_gvel s' dt f = next_gvel s dt f.
  Proof. intros A B C D. unfold next_gvel, gvel_vec. rewrite A, B, C, D. reflexivity. Qed.
  Lemma uc_same {C} (ops : cops C) dt tol n cs s s' : w_ndof (s_heap s') = w_ndof (s_heap s) -> world_gvel (s_heap s') = world_gvel (s_heap s) -> s_dyn s' = s_dyn s -> s_adm s' = s_adm s -> s_gforce s' = s_gforce s ->
    match update_constraints ops dt tol n cs s, update_constraints ops dt tol n cs s' with
    | Ok (s1, l, v), Ok (s1', l', v') => l' = l /\ exists f, s1 = set_forces s f (s_imp s) (s_adm s) /\ s1' = set_forces s' f (s_imp s') (s_adm s')
    | Err e, Err e' => e' = e
    | _, _ => False
    end.
  Proof.
    intros A B D E F. unfold update_constraints. destruct (Rlt_dec 0 dt); [ | reflexivity]. destruct (activate ops dt 0 cs) as [[l m] | ]; [ | reflexivity]. cbn [rbind].
    destruct (stack ops l mzero) as [jac | ]; [ | reflexivity]. cbn [rbind]. rewrite F. destruct (add_gforces ops l (s_gforce s)) as [f | ]; [ | reflexivity]. cbn [rbind].
    rewrite (next_same s s' dt f A B D E), A, E. destruct (relax _ _ _ _ _ _ _ _ _ _) as [[l1 v1] | ]; [ | reflexivity]. cbn [rbind].
    destruct (add_gforces ops l1 (s_gforce s)) as [f1 | ]; [ | reflexivity]. cbn [rbind]. rewrite <- E. split; [reflexivity | exists f1; split; [rewrite E | ]; reflexivity].
  Qed.
  Lemma close_cons w w' dt : close w w' -> same_matrices w w' ->
    snd (world_constraints U dt w') = snd (world_constraints U dt w) /\ close (fst (world_constraints U dt w)) (fst (world_constraints U dt w')) /\
    same_matrices (fst (world_constraints U dt w)) (fst (world_constraints U dt w')) /\ (calm_ctl w -> calm_ctl (fst (world_constraints U dt w))).
  Proof.
    intros K Em. destruct (K) as (A & B & C & D & E & F & G & H & I0 & L & M). destruct (Em) as (M1 & M2 & M3 & M4).
    assert (Ce : con_env U w' = con_env U w) by (unfold con_env, scene_of; rewrite F, I0, L; reflexivity).
    assert (Nd : w_ndof (hp w') = w_ndof (hp w)) by (destruct C as (? & ? & ? & ? & ->); reflexivity).
    unfold world_constraints. rewrite Ce, L.
    assert (Q := uc_same (con_ops (con_env U w)) dt (1 / 10000) 1000 (v_cs (w_v w)) (w_s w) (w_s w') Nd D M1 M4 M2).
    destruct (update_constraints _ dt _ _ (v_cs (w_v w)) (w_s w)) as [[[s1 l] v] | e] eqn:E1; destruct (update_constraints _ dt _ _ (v_cs (w_v w)) (w_s w')) as [[[s1' l'] v'] | e'] eqn:E2; try (exfalso; exact Q).
    - destruct Q as (-> & f & Ef & Ef'). cbn [fst snd]. 
      assert (St : forall x, settled x -> con_env U x = con_env U w -> v_cs (w_v x) = v_cs (w_v w) -> forall s, s_heap s = hp x -> settled (W (WV s (v_st (w_v x)) (map fst l)) (w_ctl x))).
      { intros x Sx Ex Vx s Hs. constructor; cbn [w_s w_v v_s v_cs w_ctl]; rewrite ?Hs; try apply Sx. intros c Hc.
        assert (Q : Forall (fun c => con_init (hp x) c = Ok c) (map fst l)); [ | rewrite Forall_forall in Q; exact (Q c Hc)].
        eapply (keep_constraints (con_ops (con_env U w))); [ | | | exact E1].
        - intros c0 c1. apply con_update_keeps.
        - intros c0 vv Y c1 df. apply con_solve_keeps.
        - rewrite Forall_forall. intros c0 Hc0. apply Sx. rewrite Vx. exact Hc0. }
      split; [reflexivity | ]. split; [ | split].
      + split; [apply St; auto; rewrite Ef; reflexivity | ]. split; [apply St; auto; rewrite Ef'; reflexivity | ]. subst s1 s1'. cbn. repeat (split; [assumption | ]). auto.
      + subst s1 s1'. unfold same_matrices. cbn. auto.
      + subst s1. intros X. exact X.
    - subst e'. cbn [fst snd]. auto.
  Qed.
  (** integrate *)
  Lemma close_int w w' dt : close w w' -> same_matrices w w' ->
    snd (world_integrate U dt w') = snd (world_integrate U dt w) /\ close (fst (world_integrate U dt w)) (fst (world_integrate U dt w')) /\
    same_matrices (fst (world_integrate U dt w)) (fst (world_integrate U dt w')) /\ (calm_ctl w -> calm_ctl (fst (world_integrate U dt w))).
  Proof.
    intros K Em. destruct (K) as (A & B & C & D & E & F & G & H & I0 & L & M). destruct (Em) as (M1 & M2 & M3 & M4).
    unfold world_integrate, integrate. destruct (Rlt_dec 0 dt) as [P | NP].
    2:{ cbn [fst snd]. split; [reflexivity | ]. assert (X : forall x, set_s x (w_s x) = x) by (intros [[]]; reflexivity). rewrite !X. auto. }
    assert (Nd : w_ndof (hp w') = w_ndof (hp w)) by (destruct C as (? & ? & ? & ? & ->); reflexivity).
    assert (Nx : next_gvel (w_s w') dt (s_gforce (w_s w')) = next_gvel (w_s w) dt (s_gforce (w_s w))) by (rewrite M2; apply next_same; auto). rewrite Nx.
    set (v := next_gvel (w_s w) dt (s_gforce (w_s w))).
    (* the heap of a settled world after the velocities are written *)
    assert (Wr : forall x, settled x -> keeps_views (hp x) (write_world_gvel (hp x) v) /\ iterjoints (su_e U) (su_fuel U) (write_world_gvel (hp x) v) = Ok (joints t)).
    { intros x Sx. assert (Kv : keeps_views (hp x) (write_world_gvel (hp x) v)) by (exists (map v (seq 0 (length (world_gvel (hp x))))); split; [rewrite map_length, seq_length; reflexivity | reflexivity]).
      split; [exact Kv | ]. destruct (kv_live _ _ _ _ Kv (st_live _ _ _ Sx)) as ((Rt & Er & _) & _). unfold iterjoints. rewrite <- Er. exact (iter_joints_ok _ _ _ Rt _ Hf). }
    destruct (Wr w A) as [Kv Ij]. destruct (Wr w' B) as [Kv' Ij']. rewrite Ij, Ij'.
    set (h1 := write_world_gvel (hp w) v) in *. set (h1' := write_world_gvel (hp w') v) in *.
    match goal with |- context [integrate_joints dt (joints t) (WS h1 ?a ?b ?c ?d ?e ?f ?g ?h)] => set (s1 := WS h1 a b c d e f g h) end.
    match goal with |- context [integrate_joints dt (joints t) (WS h1' ?a ?b ?c ?d ?e ?f ?g ?h)] => set (s1' := WS h1' a b c d e f g h) end.
    assert (Lv := kv_live _ _ _ _ Kv (st_live _ _ _ A)). assert (Lv' := kv_live _ _ _ _ Kv' (st_live _ _ _ B)).
    assert (NJ : NoDup (joints t)) by (eapply rep_nodup_joints; [exact (proj1 (proj1 Lv)) | apply Lv]).
    assert (Dj : forall s, live (su_e U) (s_heap s) t -> forall j, In j (joints t) -> exists a b, jdof (s_heap s) j = Some (a, b) /\ jgvel (s_heap s) j = View (w_gvel (s_heap s)) a (b - a)).
    { intros s Ls j Hj. destruct (in_split _ _ Hj) as (l1 & l2 & El). assert (Dd := proj2 (proj2 (proj2 (proj2 (proj1 Ls)))) l1 j l2 El). do 2 eexists. split; [exact Dd | exact (proj2 (proj2 Ls) j _ _ Hj Dd)]. }
    destruct (integrate_joints_ok dt (joints t) NJ s1 (Dj s1 Lv)) as (s2 & E2 & (g2 & Eg2 & Eh2) & Ty & Dy & Fo & Im & Ad & Ti & Out & Inn).
    destruct (integrate_joints_ok dt (joints t) NJ s1' (Dj s1' Lv')) as (s2' & E2' & (g2' & Eg2' & Eh2') & Ty' & Dy' & Fo' & Im' & Ad' & Ti' & Out' & Inn').
    rewrite E2, E2'. cbn [fst snd].
    assert (Hs1 : hsame h1 h1') by (destruct C as (? & ? & ? & ? & Ec); unfold h1', write_world_gvel; rewrite Ec; do 4 eexists; reflexivity).
    assert (Wg1 : world_gvel h1' = world_gvel h1) by (unfold h1, h1', write_world_gvel, world_gvel; cbn [arr w_gvel set_dofs]; unfold upd_arr; rewrite !aid_eqb_refl; unfold world_gvel in D; rewrite D; reflexivity).
    assert (Jv : forall j, In j (joints t) -> joints_of s1' j = joints_of s1 j).
    { intros j Hj. unfold joints_of, joint_state, s1, s1'. cbn [s_heap s_ty s_q s_qH]. rewrite E, F, G, (live_same U t h1 h1' Lv Lv' Hs1 Wg1 j Hj). reflexivity. }
    assert (G2 : g2 = jgvel h1) by (extensionality j; exact (Eg2 j)). assert (G2' : g2' = jgvel h1') by (extensionality j; exact (Eg2' j)). subst g2 g2'.
    assert (H2 : s_heap s2 = h1) by (rewrite Eh2; reflexivity). assert (H2' : s_heap s2' = h1') by (rewrite Eh2'; reflexivity).
    assert (Q : s_q s2' = s_q s2 /\ s_qH s2' = s_qH s2).
    { split; extensionality j; (destruct (in_dec Nat.eq_dec j (joints t)) as [Hj | Nj]; [specialize (Inn j Hj); specialize (Inn' j Hj); cbv zeta in Inn, Inn'; rewrite (Jv j Hj) in Inn'; destruct Inn as [X1 X2], Inn' as [X3 X4]; congruence | ]);
      destruct (Out j Nj) as [X1 X2], (Out' j Nj) as [X3 X4]; [rewrite X1, X3 | rewrite X2, X4]; cbn [s_q s_qH s1 s1']; congruence. }
    assert (Sx : forall x h, settled x -> keeps_views (hp x) h -> forall s, s_heap s = h -> settled (set_s x s)).
    { intros x h Sx Kx s Es. assert (Hx : hsame (hp x) h) by (destruct Kx as (l & _ & ->); do 4 eexists; reflexivity). constructor; cbn [w_s set_s w_v v_s v_cs w_ctl]; rewrite Es.
      - exact (kv_vinv _ _ _ Kx (st_vinv _ _ _ Sx)).
      - exact (kv_live _ _ _ _ Kx (st_live _ _ _ Sx)).
      - intros c Hc. rewrite (con_init_same _ _ c Hx). apply Sx. exact Hc.
      - intros a Ha. rewrite (ctl_init_same U _ _ _ Hx). apply Sx. destruct Kx as (l & _ & Ek). rewrite Ek in Ha. exact Ha. }
    split; [reflexivity | ]. split; [ | split].
    - split; [apply (Sx w h1 A Kv); exact H2 | ]. split; [apply (Sx w' h1' B Kv'); exact H2' | ]. cbn [w_s set_s w_v v_s s_heap s_ty s_q s_qH s_time v_st v_cs w_ctl].
      rewrite H2, H2'. split; [exact Hs1 | ]. split; [exact Wg1 | ]. split; [rewrite Ty, Ty'; exact E | ]. split; [apply Q | ]. split; [apply Q | ]. split; [rewrite Ti, Ti'; cbn [s_time s1 s1']; rewrite H; reflexivity | ]. auto.
    - unfold same_matrices. cbn [w_s set_s w_v v_s s_dyn s_gforce s_imp s_adm]. rewrite Dy, Dy', Fo, Fo', Im, Im', Ad, Ad'. cbn [s_dyn s_gforce s_imp s_adm s1 s1']. auto.
    - intros X a Ha. cbn [w_s set_s w_v v_s s_heap w_ctl] in Ha |- *. rewrite H2 in Ha. exact (X a Ha).
  Qed.
  Lemma calm_dyn w : calm_ctl w -> calm_ctl (fst (world_dynamic U w)).
  Proof. unfold world_dynamic. destruct (world_update_dynamic _ _ _ _ _ _) as [[st d] | ]; auto. Qed.
  Lemma calm_controllers w dt : calm_ctl w -> calm_ctl (fst (world_controllers U dt w)).
  Proof.
    intros H. unfold world_controllers. destruct (update_controllers_frame (su_linv U) (ctl_update U w) dt (w_s w)) as (f & Z & Y & Fr). destruct (update_controllers _ _ _ _) as [s r]. cbn [fst] in *. subst s. exact H.
  Qed.
  (** the loop of simulate, without observers *)
  Lemma close_loop O tl tl' ts : forall x x', close (sm_w x) (sm_w x') -> calm_ctl (sm_w x) ->
    exists y y' r, sim_loop (interp U O tl) [] ts x = (y, r) /\ sim_loop (interp U O tl') [] ts x' = (y', r) /\ close (sm_w y) (sm_w y') /\ calm_ctl (sm_w y) /\
      (r = Ok tt -> ts <> [] -> same_matrices (sm_w y) (sm_w y')).
  Proof.
    induction ts as [ | t1 ts IH]; intros x x' K Cl; [exists x, x', (Ok tt); repeat split; auto; try (apply K); intros; contradiction | ].
    cbn [sim_loop map calls].
    assert (Nw : now x' = now x) by exact (proj1 (proj2 (proj2 (proj2 (proj2 (proj2 (proj2 (proj2 K)))))))). rewrite Nw. set (dt := t1 - now x). 
    destruct (close_dyn _ _ K) as (R1 & K1 & D1). assert (Cl1 := calm_dyn _ Cl). cbn [interp].
    destruct (world_dynamic U (sm_w x)) as [w1 r1]. destruct (world_dynamic U (sm_w x')) as [w1' r1']. cbn [fst snd] in *. subst r1'.
    destruct r1 as [[] | e]; cbn [bind_]; [ | exists (set_w x w1), (set_w x' w1'), (Err e); split; [reflexivity | split; [reflexivity | split; [exact K1 | split; [exact Cl1 | discriminate]]]]].
    change (sm_w (set_w x w1)) with w1. change (sm_w (set_w x' w1')) with w1'.
    destruct (close_ctl _ _ dt K1 (D1 eq_refl) Cl1) as (R2 & K2 & D2). assert (Cl2 := calm_controllers w1 dt Cl1).
    destruct (world_controllers U dt w1) as [w2 r2]. destruct (world_controllers U dt w1') as [w2' r2']. cbn [fst snd] in *. subst r2'.
    destruct r2 as [[] | e]; cbn [bind_]; [ | eexists _, _, (Err e); split; [reflexivity | split; [reflexivity | split; [exact K2 | split; [exact Cl2 | discriminate]]]]].
    change (sm_w (set_w (set_w x w1) w2)) with w2. change (sm_w (set_w (set_w x' w1') w2')) with w2'.
    destruct (close_cons _ _ dt K2 (D2 eq_refl)) as (R3 & K3 & M3 & Cl3). specialize (Cl3 Cl2).
    destruct (world_constraints U dt w2) as [w3 r3]. destruct (world_constraints U dt w2') as [w3' r3']. cbn [fst snd] in *. subst r3'.
    destruct r3 as [[] | e]; cbn [bind_]; [ | eexists _, _, (Err e); split; [reflexivity | split; [reflexivity | split; [exact K3 | split; [exact Cl3 | discriminate]]]]].
    match goal with |- context [sm_w (set_w ?a w3)] => change (sm_w (set_w a w3)) with w3 end. match goal with |- context [sm_w (set_w ?a w3')] => change (sm_w (set_w a w3')) with w3' end.
    destruct (close_int _ _ dt K3 M3) as (R4 & K4 & M4 & Cl4). specialize (Cl4 Cl3).
    destruct (world_integrate U dt w3) as [w4 r4]. destruct (world_integrate U dt w3') as [w4' r4']. cbn [fst snd] in *. subst r4'.
    destruct r4 as [[] | e]; cbn [bind_]; [ | eexists _, _, (Err e); split; [reflexivity | split; [reflexivity | split; [exact K4 | split; [exact Cl4 | discriminate]]]]].
    match goal with |- context [sim_loop _ [] ts (set_w ?a w4)] => set (x4 := set_w a w4) end. match goal with |- context [sim_loop _ [] ts (set_w ?a w4')] => set (x4' := set_w a w4') end.
    destruct (IH x4 x4' K4 Cl4) as (y & y' & r & E1 & E2 & K5 & Cl5 & M5). exists y, y', r. split; [exact E1 | ]. split; [exact E2 | ]. split; [exact K5 | ]. split; [exact Cl5 | ].
    intros Hr _. destruct ts as [ | t2 ts2]; [ | apply M5; [exact Hr | discriminate]]. cbn [sim_loop] in E1, E2. injection E1 as <- _. injection E2 as <-. exact M4.
  Qed.
End Run.
