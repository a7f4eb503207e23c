(** Displaced robots: the phases of a simulation. *)
From Coq Require Import Lra Lia FunctionalExtensionality.
From Verif Require Import Spec_Move Proof_Linalg Proof_SE3 Proof_Tree Proof_World Proof_World2 Proof_World3 Proof_World4 Proof_Dofs Proof_Step Proof_Move Proof_Move2 Spec_Resume Proof_Sim Proof_Sim2 Proof_Sim3 Props_Dyn Props_Step Proof_Resume Proof_Resume2.
Open Scope R_scope.

(** constraints that act in the same way in two environments *)
Section Same.
  Context {C : Type} (ops ops' : cops C) (P : C -> Prop) (dt : R).
  Hypothesis He : c_enabled ops' = c_enabled ops.
  Hypothesis Ha : c_active ops' = c_active ops.
  Hypothesis Hn : c_ndol ops' = c_ndol ops.
  Hypothesis Hf : c_force ops' = c_force ops.
  Hypothesis Hu : forall c, P c -> c_update ops' c dt = c_update ops c dt.
  Hypothesis Hs : forall c v Y, P c -> c_solve ops' c v Y dt = c_solve ops c v Y dt.
  Hypothesis Hj : forall c, P c -> c_jac ops' c = c_jac ops c.
  Hypothesis Ku : forall c c1, c_update ops c dt = Ok c1 -> P c -> P c1.
  Hypothesis Ks : forall c v Y c1 df, c_solve ops c v Y dt = Ok (c1, df) -> P c -> P c1.
  Notation ok l := (Forall P (map fst l)).
  Lemma same_activate cs : forall n, Forall P cs -> activate ops' dt n cs = activate ops dt n cs.
  Proof.
    induction cs as [ | c cs IH]; intros n H; [reflexivity | ]. inversion H as [ | ? ? Hc Hcs]; subst. cbn [activate]. rewrite He, (Hu c Hc). destruct (c_enabled ops c); [ | rewrite IH by exact Hcs; reflexivity].
    destruct (c_update ops c dt) as [c1 | ]; [ | reflexivity]. cbn [rbind]. rewrite Ha, Hn, !IH by exact Hcs. reflexivity.
  Qed.
  Lemma same_stack l : forall J, ok l -> stack ops' l J = stack ops l J.
  Proof.
    induction l as [ | [c [a | ]] l IH]; intros J H; [reflexivity | | ]; inversion H as [ | ? ? Hc Hcs]; subst; cbn [stack fst] in *; [ | apply IH; exact Hcs].
    rewrite (Hj c Hc), Hn. destruct (c_jac ops c); [ | reflexivity]. cbn [rbind]. apply IH. exact Hcs.
  Qed.
  Lemma same_gforces l : forall f, ok l -> add_gforces ops' l f = add_gforces ops l f.
  Proof.
    induction l as [ | [c [a | ]] l IH]; intros f H; [reflexivity | | ]; inversion H as [ | ? ? Hc Hcs]; subst; cbn [add_gforces fst] in *; [ | apply IH; exact Hcs].
    unfold c_gforce. rewrite (Hj c Hc), Hn, Hf. destruct (c_jac ops c); [ | reflexivity]. cbn [rbind]. apply IH. exact Hcs.
  Qed.
  Lemma same_sweep Y l : forall v, ok l -> sweep ops' dt Y l v = sweep ops dt Y l v.
  Proof.
    induction l as [ | [c [a | ]] l IH]; intros v H; [reflexivity | | ]; inversion H as [ | ? ? Hc Hcs]; subst; cbn [sweep fst] in *; [ | rewrite IH by exact Hcs; reflexivity].
    rewrite (Hs c _ _ Hc), Hn. destruct (c_solve ops c _ _ dt) as [[c1 df] | ]; [ | reflexivity]. cbn [rbind]. rewrite IH by exact Hcs. reflexivity.
  Qed.
  Lemma same_relax tol n Y iters : forall k l v p, ok l -> relax ops' dt tol n Y iters k l v p = relax ops dt tol n Y iters k l v p.
  Proof.
    induction iters as [ | m IH]; intros k l v p H; [reflexivity | ]. cbn [relax]. rewrite same_sweep by exact H. destruct (sweep ops dt Y l v) as [[l1 v1] | ] eqn:Es; [ | reflexivity]. cbn [rbind].
    destruct (_ && _); [reflexivity | ]. apply IH. exact (keep_sweep ops P dt Ks Y l v l1 v1 H Es).
  Qed.
  Lemma same_constraints tol n cs s : Forall P cs -> update_constraints ops' dt tol n cs s = update_constraints ops dt tol n cs s.
  Proof.
    intros H. unfold update_constraints. destruct (Rlt_dec 0 dt); [ | reflexivity]. rewrite same_activate by exact H. destruct (activate ops dt 0 cs) as [[l m] | ] eqn:El; [ | reflexivity]. cbn [rbind].
    assert (Hl := keep_activate ops P dt Ku cs _ _ _ H El). rewrite same_stack, same_gforces by exact Hl. destruct (stack ops l mzero); [ | reflexivity]. cbn [rbind]. destruct (add_gforces ops l (s_gforce s)); [ | reflexivity]. cbn [rbind].
    rewrite same_relax by exact Hl. destruct (relax _ _ _ _ _ _ _ _ _ _) as [[l1 v1] | ] eqn:Er; [ | reflexivity]. cbn [rbind]. rewrite same_gforces by exact (keep_relax ops P dt Ks _ _ _ _ _ _ _ _ _ _ Hl Er). reflexivity.
  Qed.
End Same.

Section Run.
  Context (U : setup) (sc' : scene) (fr : nat -> bool) (G : m4) (t : tree).
  Let e := su_e U.
  Let sc := su_sc U.
  Let U' := with_scene U sc'.
  Notation hp w := (s_heap (w_s w)).
  (** the world of the displaced robot *)
  Definition mvs (s : wst) : wst := set_qH s (placed fr G (s_qH s)).
  Definition mvw (st' : store) (w : world) : world := W (WV (mvs (w_s w)) st' (v_cs (w_v w))) (w_ctl w).
  Lemma same_run_eq w w' : same_run fr G w w' <-> w' = mvw (v_st (w_v w')) w.
  Proof.
    split.
    - intros (A & B & C). destruct w' as [[s' st' cs'] k']. cbn [w_s w_v v_s v_cs v_st w_ctl] in *. unfold w_s in A. cbn in A. subst. reflexivity.
    - intros ->. repeat split.
  Qed.
  (** the weight controllers that [init] leaves *)
  Definition settled_ctl (k : kctl wview) : Prop :=
    match k with
    | KWeight g c => mv (rot G) (vscal g world_up) = vscal g world_up /\
        match c with Some c => wc_dtwist c = V6 zero3 (vscal g world_up) /\ (forall b, In b (wc_bodies c) -> In b (tailb t)) | None => True end
    | KPD _ => True
    | KUser f => indifferent e t fr G f
    end.
  Record good (w : world) : Prop := {
    gd_rep : rep e (hp w) t;
    gd_disp : displaced e sc sc' (hp w) (s_ty (w_s w)) fr G;
    gd_con : Forall (fair_con e sc sc' t G) (v_cs (w_v w));
    gd_ctl : forall a, In a (w_controllers (hp w)) -> settled_ctl (w_ctl w a) }.
  Hypothesis Er : root t = ground e.
  Hypothesis ND : NoDup (bodies t).

  Lemma displaced_graph h h' ty : same_graph h h' -> displaced e sc sc' h ty fr G -> displaced e sc sc' h' ty fr G.
  Proof.
    intros (A & B & C) D. destruct D as [D1 D2 D3 D4 D5 D6]. constructor; try assumption.
    - intros j f0 f1 Ij Ef. rewrite A in Ij. rewrite C in Ef. exact (D5 j f0 f1 Ij Ef).
    - intros j Ej. rewrite A. exact (D6 j Ej).
  Qed.
  (** *** World.init *)
  Lemma con_init_fair h c c' : con_init h c = Ok c' -> fair_con e sc sc' t G c -> fair_con e sc sc' t G c'.
  Proof. destruct c as [x | x | x]; cbn [con_init]; [destruct (jdof h _) as [[a b] | ]; [intros [= <-]; auto | unfold jl_init_lost; destruct (_ || _ || _); [intros [= <-]; auto | discriminate]] | intros [= <-]; auto | intros [= <-]; auto]. Qed.
  Lemma rmapM_fair h cs : forall cs', rmapM (con_init h) cs = Ok cs' -> Forall (fair_con e sc sc' t G) cs -> Forall (fair_con e sc sc' t G) cs'.
  Proof.
    induction cs as [ | c cs IH]; cbn [rmapM]; intros cs' E H; [injection E as <-; constructor | ]. inversion H; subst. destruct (con_init h c) eqn:Ec; [ | discriminate]. cbn [rbind] in E. destruct (rmapM (con_init h) cs); [ | discriminate].
    injection E as <-. constructor; [eapply con_init_fair; eassumption | apply IH; auto].
  Qed.
  Lemma ctl_init_moved h k : b_mass sc' = b_mass sc -> ctl_init U' h k = ctl_init U h k.
  Proof. intros M. destruct k as [g c | c | f]; try reflexivity. cbn [ctl_init]. unfold wc_init, U'. cbn [with_scene su_e su_sc su_fuel]. fold sc. rewrite M. reflexivity. Qed.
  Lemma ctl_inits_moved h l : b_mass sc' = b_mass sc -> forall k, ctl_inits U' h l k = ctl_inits U h l k.
  Proof. intros M. induction l as [ | a l IH]; intros k; [reflexivity | ]. cbn [ctl_inits]. rewrite ctl_init_moved by exact M. destruct (ctl_init U h (k a)); [ | reflexivity]. cbn [rbind]. apply IH. Qed.
  Lemma ctl_init_settled h k k' : rep e h t -> fair_ctl e t fr G k -> ctl_init U h k = Ok k' -> settled_ctl k' /\ fair_ctl e t fr G k'.
  Proof.
    intros Rt F E. destruct k as [g c | c | f]; cbn [ctl_init] in E.
    - unfold wc_init in E. fold e in E. destruct (iter_descendant_bodies e (su_fuel U) h (ground e)) as [bs | ] eqn:Eb; [ | discriminate]. cbn [rbind] in E. injection E as <-. rewrite <- Er in Eb. apply (iter_bodies_fuel e h t Rt) in Eb. subst bs.
      split; [ | exact F]. split; [exact F | ]. split; [reflexivity | ]. intros b Hb. apply filter_In in Hb. apply Hb.
    - destruct (pd_init h c); [ | discriminate]. injection E as <-. split; exact I.
    - injection E as <-. split; exact F.
  Qed.
  Lemma ctl_inits_settled h l : rep e h t -> forall k k', (forall a, In a l -> fair_ctl e t fr G (k a)) -> ctl_inits U h l k = Ok k' ->
    forall a, In a l \/ settled_ctl (k a) -> settled_ctl (k' a).
  Proof.
    intros Rt. induction l as [ | b l IH]; cbn [ctl_inits]; intros k k' F E a Ha; [destruct Ha as [[] | Ha]; injection E as <-; exact Ha | ].
    destruct (ctl_init U h (k b)) as [c | ] eqn:Ec; [ | discriminate]. cbn [rbind] in E. destruct (ctl_init_settled h _ _ Rt (F b (or_introl eq_refl)) Ec) as [S1 S2].
    apply (IH _ _) with (2 := E).
    - intros x Hx. unfold upd. destruct (Nat.eqb_spec x b); [exact S2 | apply F; right; exact Hx].
    - unfold upd. destruct (Nat.eqb_spec a b) as [-> | Na]; [right; exact S1 | ]. destruct Ha as [[Ha | Ha] | Ha]; [congruence | left; exact Ha | right; exact Ha].
  Qed.
  Lemma init_moved w st' : rep e (hp w) t -> displaced e sc sc' (hp w) (s_ty (w_s w)) fr G -> Forall (fair_con e sc sc' t G) (v_cs (w_v w)) ->
    (forall a, In a (w_controllers (hp w)) -> fair_ctl e t fr G (w_ctl w a)) ->
    world_init U' (mvw st' w) = (mvw st' (fst (world_init U w)), snd (world_init U w)) /\ (snd (world_init U w) = Ok tt -> good (fst (world_init U w))).
  Proof.
    intros Rt D Fc Fk. unfold world_init. cbn [mvw w_s w_v v_s v_cs v_st w_ctl mvs set_qH s_heap s_ty s_q s_qH s_imp s_adm s_time]. change (su_e U') with e. change (su_fuel U') with (su_fuel U). fold e.
    assert (Hc : forall h' r, Model_World.init 0 e (su_fuel U) (hp w) = (h', Ok r) -> w_controllers h' = w_controllers (hp w)).
    { intros h' r Ei. unfold Model_World.init in Ei. destruct (iterjoints _ _ _); [ | discriminate]. destruct (assign_dofs _ _ _ _) as [n d]. destruct (copy_gvels _ _ _ _ _) as [[a1 g1] | ]; [ | discriminate]. injection Ei as <-. reflexivity. }
    destruct (Model_World.init 0 e (su_fuel U) (hp w)) as [h [u | x]] eqn:Ei; [ | cbn [fst snd]; split; [reflexivity | discriminate]].
    assert (Sg := init_ok_graph 0 e _ _ _ _ Ei). assert (Rt' := same_graph_rep e _ _ t Sg Rt). assert (D' := displaced_graph _ _ _ Sg D). specialize (Hc _ _ eq_refl).
    destruct (rmapM (con_init h) (v_cs (w_v w))) as [cs | ] eqn:Ec; [ | cbn [fst snd]; split; [reflexivity | discriminate]].
    rewrite ctl_inits_moved by exact (dp_mass _ _ _ _ _ _ _ D). destruct (ctl_inits U h (w_controllers h) (w_ctl w)) as [k | ] eqn:Ek; [ | cbn [fst snd]; split; [reflexivity | discriminate]].
    cbn [fst snd]. split; [reflexivity | ]. intros _. constructor; cbn [w_s w_v v_s v_cs w_ctl s_heap s_ty].
    - exact Rt'.
    - exact D'.
    - exact (rmapM_fair h _ _ Ec Fc).
    - intros a Ha. apply (ctl_inits_settled h (w_controllers h) Rt' (w_ctl w) k); [rewrite Hc; exact Fk | exact Ek | left; exact Ha].
  Qed.
  (** *** World.update_dynamic *)
  Definition moved_st (w : world) (st' : store) : Prop := displaced_bodies e t G (v_st (w_v w)) st' /\ grounded e (v_st (w_v w)).
  Lemma dyn_moved w st' : good w -> exists st1', world_dynamic U' (mvw st' w) = (mvw st1' (fst (world_dynamic U w)), snd (world_dynamic U w)) /\
    good (fst (world_dynamic U w)) /\ (snd (world_dynamic U w) = Ok tt -> moved_st (fst (world_dynamic U w)) st1').
  Proof.
    intros Gd. destruct Gd as [Rt D Fc Fk]. unfold world_dynamic. cbn [mvw w_s w_v v_s v_cs v_st w_ctl mvs set_qH s_heap s_ty s_q s_qH s_imp s_adm s_time]. change (su_e U') with e. change (su_fuel U') with (su_fuel U). change (su_sc U') with sc'. fold e sc.
    assert (Q := world_dyn e sc sc' (hp w) (joints_of (w_s w)) (joints_of (mvs (w_s w))) G (s_ty (w_s w)) fr t D (fun j => eq_refl)).
    change (w_s (mvw st' w)) with (mvs (w_s w)).
    assert (HJ : forall j, joints_of (mvs (w_s w)) j = JS (jt (joints_of (w_s w) j)) (if fr j then mm4 G (gposH (joints_of (w_s w) j)) else gposH (joints_of (w_s w) j)) (gpos (joints_of (w_s w) j)) (gvel (joints_of (w_s w) j))) by (intros j; reflexivity).
    specialize (Q HJ Rt Er ND (su_fuel U) (v_st (w_v w)) st').
    destruct (world_update_dynamic e sc (hp w) (joints_of (w_s w)) (su_fuel U) (v_st (w_v w))) as [[st d] | x]; destruct (world_update_dynamic e sc' (hp w) (joints_of (mvs (w_s w))) (su_fuel U) st') as [[st1 d1] | x1]; try (exfalso; exact Q).
    - destruct Q as (Q1 & Q2 & ->). exists st1. cbn [fst snd]. split; [reflexivity | ]. split; [constructor; assumption | ]. intros _. split; assumption.
    - subst x1. exists st'. cbn [fst snd]. split; [reflexivity | ]. split; [constructor; assumption | discriminate].
  Qed.
  (** *** World.update_controllers *)
  Lemma wc_loop_moved st st' u bs : b_mass sc' = b_mass sc -> SE3 G -> mv (rot G) u = u -> (forall b, In b bs -> In b (bodies t) /\ b <> ground e) -> displaced_bodies e t G st st' ->
    forall f, wc_loop sc' st' (V6 zero3 u) bs f = wc_loop sc st (V6 zero3 u) bs f.
  Proof.
    intros M Sg Eu Hb Hd. induction bs as [ | b bs IH]; intros f; [reflexivity | ]. cbn [wc_loop]. destruct (Hb b (or_introl eq_refl)) as [B1 B2]. destruct (Hd b B1) as (A1 & A2 & _).
    rewrite A1, A2. destruct (Nat.eqb_spec b (ground e)); [contradiction | ]. destruct (a_pose (st b)) as [P | ]; [ | reflexivity]. cbn [option_map Model_Dyn.get rbind].
    rewrite !iadjoint_eq, ishom_G by exact Sg. destruct (ishomogeneousmatrix P) eqn:Ep; [ | reflexivity]. cbn [rbind]. destruct (a_jac (st b)) as [J | ]; [ | reflexivity]. cbn [Model_Dyn.get rbind].
    rewrite (iadjoint_weight G P u Sg Eu Ep), M. apply IH. intros c Hc. apply Hb. right. exact Hc.
  Qed.
  Lemma ground_not_tail b : In b (tailb t) -> In b (bodies t) /\ b <> ground e.
  Proof. intros Hb. rewrite bodies_tail in ND |- *. inversion ND; subst. split; [right; exact Hb | ]. intros ->. rewrite <- Er in Hb. contradiction. Qed.
  Lemma ctl_update_moved w st' a dt : good w -> moved_st w st' -> In a (w_controllers (hp w)) -> ctl_update U' (mvw st' w) a dt = ctl_update U w a dt.
  Proof.
    intros Gd [Ms _] Ha. assert (K := gd_ctl _ Gd a Ha). unfold ctl_update. cbn [mvw w_ctl w_v v_st]. change (su_e U') with e. change (su_sc U') with sc'. fold e sc. destruct (w_ctl w a) as [g [c | ] | c | f] eqn:Ea; cbn [settled_ctl] in K.
    - destruct K as (K1 & K2 & K3). unfold wc_update. rewrite K2. rewrite (wc_loop_moved (v_st (w_v w)) st'); [reflexivity | exact (dp_mass _ _ _ _ _ _ _ (gd_disp _ Gd)) | exact (dp_rigid _ _ _ _ _ _ _ (gd_disp _ Gd)) | exact K1 | intros b Hb; apply ground_not_tail; apply K3; exact Hb | exact Ms].
    - reflexivity.
    - reflexivity.
    - apply K; [reflexivity | reflexivity | exact Ms].
  Qed.
  Lemma add_ctl_moved c c' dt l : forall s, (forall a, In a l -> c' a dt = c a dt) -> add_controllers c' dt l (mvs s) = (mvs (fst (add_controllers c dt l s)), snd (add_controllers c dt l s)).
  Proof.
    induction l as [ | a l IH]; intros s H; cbn [add_controllers]; [reflexivity | ]. rewrite H by (left; reflexivity). destruct (c a dt) as [[f Z] | ]; [ | reflexivity].
    exact (IH (set_forces s (vplus (s_gforce s) f) (mminus (s_imp s) Z) (s_adm s)) (fun b Hb => H b (or_intror Hb))).
  Qed.
  Lemma ctl_moved w st' dt : good w -> moved_st w st' ->
    world_controllers U' dt (mvw st' w) = (mvw st' (fst (world_controllers U dt w)), snd (world_controllers U dt w)) /\ good (fst (world_controllers U dt w)) /\ moved_st (fst (world_controllers U dt w)) st'.
  Proof.
    intros Gd Ms. 
    assert (Q : update_controllers (su_linv U) (ctl_update U' (mvw st' w)) dt (mvs (w_s w)) = (mvs (fst (update_controllers (su_linv U) (ctl_update U w) dt (w_s w))), snd (update_controllers (su_linv U) (ctl_update U w) dt (w_s w)))).
    { unfold update_controllers. destruct (Rlt_dec 0 dt); [ | reflexivity]. cbv zeta. cbn [mvs set_qH s_heap s_dyn s_adm].
      match goal with |- context [add_controllers (ctl_update U w) dt ?l ?s] => set (s0 := s) end.
      match goal with |- context [add_controllers (ctl_update U' _) dt ?l ?s] => change s with (mvs s0) end.
      rewrite (add_ctl_moved (ctl_update U w) _ dt _ s0) by (intros a Ha; apply ctl_update_moved; assumption).
      destruct (add_controllers (ctl_update U w) dt _ s0) as [s1 [[] | x]]; cbn [fst snd]; [ | reflexivity]. cbn [mvs set_qH s_imp s_gforce]. destruct (su_linv U _ (s_imp s1)); reflexivity. }
    unfold world_controllers. change (su_linv U') with (su_linv U). change (w_s (mvw st' w)) with (mvs (w_s w)). rewrite Q.
    destruct (update_controllers_frame (su_linv U) (ctl_update U w) dt (w_s w)) as (f & Z & Y & Fr). destruct (update_controllers (su_linv U) (ctl_update U w) dt (w_s w)) as [s r]. cbn [fst snd] in *. subst s.
    split; [reflexivity | ]. split; [destruct Gd; constructor; assumption | exact Ms].
  Qed.
  (** *** World.update_constraints *)
  Lemma pose_moved st st' f : SE3 G -> (forall f, frame_body e f <> ground e -> bpose sc' f = bpose sc f) -> displaced_bodies e t G st st' -> grounded e st -> carried e sc sc' t G f ->
    frame_pose e sc' st' f = (let* P := frame_pose e sc st f in Ok (mm4 G P)) /\ frame_jac e sc' st' f = frame_jac e sc st f.
  Proof.
    intros Sg Hs Hd [Gp Gj] [B C]. destruct (Hd _ B) as (A1 & A2 & _). unfold frame_pose, frame_jac.
    destruct (Nat.eqb_spec (frame_body e f) (ground e)) as [Eg | Ng].
    - destruct C as [C | [Nf C]]; [contradiction | ]. rewrite A1, Eg, Gp. cbn [Model_Dyn.get rbind]. 
      assert (K : (let* A := iadjoint (bpose sc' f) in let* x := Model_Dyn.get (a_jac (st' (ground e))) in Ok (fun c => mv6 A (x c))) = (let* A := iadjoint (bpose sc f) in let* x := Model_Dyn.get (a_jac (st (ground e))) in Ok (fun c => mv6 A (x c)))).
      { rewrite Eg in A2. rewrite A2, Gj, C. assert (K := iadjoint_G G (bpose sc f) Sg). destruct (iadjoint (mm4 G (bpose sc f))); destruct (iadjoint (bpose sc f)); try contradiction K; cbn [rbind Model_Dyn.get]; [ | cbn in K; congruence]. f_equal. extensionality c. rewrite !mv6_zero6. reflexivity. }
      destruct f as [b | k | k]; [cbn [frame_body] in Eg; subst b; contradiction | | ]; (split; [rewrite C, !mm4_1_l; reflexivity | exact K]).
    - rewrite A1, A2, (Hs f Ng). split.
      + destruct (a_pose (st (frame_body e f))) as [P | ]; [ | reflexivity]. cbn [option_map Model_Dyn.get rbind]. destruct f; cbn [rbind]; [reflexivity | | ]; rewrite mm4_assoc; reflexivity.
      + destruct f; cbn [frame_body] in *; [rewrite A2 | | ]; reflexivity.
  Qed.
  Lemma scene_fair cs : Forall (fair_con e sc sc' t G) cs -> forall c0, fold_left (fun sc c => match c with CS x => with_frames sc (sf_m0 x) (sf_m1 x) (sf_H0 x) (sf_H1 x) | _ => sc end) cs c0 = c0.
  Proof. intros F. induction F as [ | c cs Hc F IH]; intros c0; [reflexivity | ]. cbn [fold_left]. destruct c; [apply IH | apply IH | contradiction]. Qed.
  Lemma cons_moved w st' dt : good w -> moved_st w st' ->
    world_constraints U' dt (mvw st' w) = (mvw st' (fst (world_constraints U dt w)), snd (world_constraints U dt w)) /\ good (fst (world_constraints U dt w)) /\ moved_st (fst (world_constraints U dt w)) st'.
  Proof.
    intros Gd [Ms Gr]. destruct (Gd) as [Rt D Fc Fk]. assert (Sg := dp_rigid _ _ _ _ _ _ _ D).
    set (E := con_env U w). set (E' := con_env U' (mvw st' w)).
    assert (Q1 : E = CE e sc (v_st (w_v w)) (s_q (w_s w)) (su_pinv U) (su_eigc U) (su_solve U)) by (unfold E, con_env, scene_of; rewrite (scene_fair _ Fc _); reflexivity).
    assert (Q2 : E' = CE e sc' st' (s_q (w_s w)) (su_pinv U) (su_eigc U) (su_solve U)) by (unfold E', con_env, scene_of; cbn [mvw w_v v_cs]; rewrite (scene_fair _ Fc _); reflexivity).
    assert (K : forall f0 f1, carried e sc sc' t G f0 -> carried e sc sc' t G f1 -> forall (A : Type) (k : m4 -> m4 -> res A), (forall X P, k (mm4 X (inv_ G)) (mm4 G P) = k X P) ->
        (let* H0 := frame_pose e sc' st' f0 in let* iH0 := inv H0 in let* H1 := frame_pose e sc' st' f1 in k iH0 H1) =
        (let* H0 := frame_pose e sc (v_st (w_v w)) f0 in let* iH0 := inv H0 in let* H1 := frame_pose e sc (v_st (w_v w)) f1 in k iH0 H1)).
    { intros f0 f1 C0 C1 A k Hk. destruct (pose_moved _ _ f0 Sg (dp_same _ _ _ _ _ _ _ D) Ms Gr C0) as [-> _]. destruct (pose_moved _ _ f1 Sg (dp_same _ _ _ _ _ _ _ D) Ms Gr C1) as [-> _].
      destruct (frame_pose e sc (v_st (w_v w)) f0) as [P0 | ]; [ | reflexivity]. cbn [rbind]. rewrite inv_G by exact Sg. destruct (inv P0) as [X | ]; [ | reflexivity]. cbn [rbind].
      destruct (frame_pose e sc (v_st (w_v w)) f1) as [P1 | ]; [ | reflexivity]. cbn [rbind]. apply Hk. }
    assert (Z : forall X P, mm4 (mm4 X (inv_ G)) (mm4 G P) = mm4 X P).
    { intros X P. rewrite <- mm4_assoc, (mm4_assoc (inv_ G) G P). rewrite (inv_l G Sg), mm4_1_l. reflexivity. }
    assert (Same : forall n, update_constraints (con_ops E') dt (1 / 10000) n (v_cs (w_v w)) (w_s w) = update_constraints (con_ops E) dt (1 / 10000) n (v_cs (w_v w)) (w_s w)).
    { intros n. apply (same_constraints (con_ops E) (con_ops E') (fair_con e sc sc' t G) dt); try reflexivity; [ | | | | exact Fc].
      - intros c Hc. destruct c as [x | x | x]; [ | | contradiction]; cbn [con_ops c_update].
        + rewrite Q1, Q2. reflexivity.
        + f_equal. unfold bs_update. rewrite Q1, Q2. cbn [ce_e ce_sc ce_st]. destruct Hc as [C0 C1]. apply (K (bs_f0 x) (bs_f1 x) C0 C1 ball (fun iH0 H1 => Ok (BS (bs_on x) (bs_f0 x) (bs_f1 x) (pos (mm4 iH0 H1)) (bs_force x)))). intros X P. rewrite Z. reflexivity.
      - intros c Hc. destruct c as [x | x | x]; [reflexivity | | contradiction]; cbn [con_ops c_jac]. unfold bs_jac. rewrite Q1, Q2. cbn [ce_e ce_sc ce_st]. destruct Hc as [C0 C1]. 
        assert (R : rel_jac e sc' st' (bs_f0 x) (bs_f1 x) = rel_jac e sc (v_st (w_v w)) (bs_f0 x) (bs_f1 x)); [ | rewrite R; reflexivity].
        unfold rel_jac. destruct (pose_moved _ _ (bs_f0 x) Sg (dp_same _ _ _ _ _ _ _ D) Ms Gr C0) as [_ J0]. destruct (pose_moved _ _ (bs_f1 x) Sg (dp_same _ _ _ _ _ _ _ D) Ms Gr C1) as [_ J1]. rewrite J0, J1.
        apply (K (bs_f0 x) (bs_f1 x) C0 C1 _ (fun iH0 H1 => let* Ad := adjoint (mm4 iH0 H1) in let* J1 := frame_jac e sc (v_st (w_v w)) (bs_f1 x) in let* J0 := frame_jac e sc (v_st (w_v w)) (bs_f0 x) in Ok (fun c => v6sub (mv6 Ad (J1 c)) (J0 c)))).
        intros X P. rewrite Z. reflexivity.
      - intros c c1 Ec Hc. destruct c as [x | x | x]; [ | | contradiction]; cbn [con_ops c_update] in Ec; [injection Ec as <-; exact I | ]. unfold bs_update in Ec. 
        destruct (frame_pose _ _ _ (bs_f0 x)); [ | discriminate]. cbn [rbind] in Ec. destruct (inv a); [ | discriminate]. cbn [rbind] in Ec. destruct (frame_pose _ _ _ (bs_f1 x)); [ | discriminate]. injection Ec as <-. exact Hc.
      - intros c v Y c1 df Ec Hc. destruct c as [x | x | x]; [ | | contradiction]; cbn [con_ops c_solve] in Ec; [destruct (jl_solve E x v Y dt); injection Ec as <- _; exact I | ]. injection Ec as <- _. exact Hc. }
    unfold world_constraints. fold E E'. cbn [mvw w_v v_cs v_st w_ctl]. change (w_s (mvw st' w)) with (mvs (w_s w)).
    assert (Us := uc_same (con_ops E') dt (1 / 10000) 1000 (v_cs (w_v w)) (w_s w) (mvs (w_s w)) eq_refl eq_refl eq_refl eq_refl eq_refl). rewrite Same in Us.
    destruct (update_constraints (con_ops E) dt (1 / 10000) 1000 (v_cs (w_v w)) (w_s w)) as [[[s1 l] v] | x] eqn:Eu; destruct (update_constraints (con_ops E') dt (1 / 10000) 1000 (v_cs (w_v w)) (mvs (w_s w))) as [[[s1' l'] v'] | x']; try (exfalso; exact Us).
    - destruct Us as (-> & f & -> & ->). cbn [fst snd]. split; [reflexivity | ]. split; [ | split; assumption]. constructor; try assumption. cbn [w_v v_cs].
      refine (keep_constraints (con_ops E) (fair_con e sc sc' t G) dt _ _ _ _ _ _ _ _ _ Fc Eu).
      + intros c c1 Ec Hc. destruct c as [x | x | x]; [ | | contradiction]; cbn [con_ops c_update] in Ec; [injection Ec as <-; exact I | ]. unfold bs_update in Ec. 
        destruct (frame_pose _ _ _ (bs_f0 x)); [ | discriminate]. cbn [rbind] in Ec. destruct (inv a); [ | discriminate]. cbn [rbind] in Ec. destruct (frame_pose _ _ _ (bs_f1 x)); [ | discriminate]. injection Ec as <-. exact Hc.
      + intros c v0 Y c1 df Ec Hc. destruct c as [x | x | x]; [ | | contradiction]; cbn [con_ops c_solve] in Ec; [destruct (jl_solve E x v0 Y dt); injection Ec as <- _; exact I | ]. injection Ec as <- _. exact Hc.
    - subst x'. cbn [fst snd]. split; [reflexivity | ]. split; [exact Gd | split; assumption].
  Qed.
  (** *** World.integrate *)
  Lemma int_joint_moved dt j s : (fr j = true -> s_ty s j = FreeJoint) -> integrate_joint dt j (mvs s) = (let* s1 := integrate_joint dt j s in Ok (mvs s1)).
  Proof.
    intros Hj. unfold integrate_joint. cbn [mvs set_qH s_heap s_ty s_qH s_q s_dyn s_gforce s_imp s_adm s_time]. destruct (jdof (s_heap s) j) as [[a b] | ]; [ | reflexivity]. cbn [rbind]. unfold mvs. cbn [s_heap s_ty s_qH s_q s_dyn s_gforce s_imp s_adm s_time set_qH].
    assert (Q : forall v, gposH (j_integrate (joints_of (set_qH s (placed fr G (s_qH s))) j) v dt) = (if fr j then mm4 G (gposH (j_integrate (joints_of s j) v dt)) else gposH (j_integrate (joints_of s j) v dt)) /\
        gpos (j_integrate (joints_of (set_qH s (placed fr G (s_qH s))) j) v dt) = gpos (j_integrate (joints_of s j) v dt)).
    { intros v. unfold joints_of, joint_state, j_integrate. cbn [set_qH s_heap s_ty s_qH s_q jt gposH gpos]. unfold placed. destruct (fr j).
      - rewrite (Hj eq_refl). cbn [gposH gpos]. split; [symmetry; apply mm4_assoc | reflexivity].
      - destruct (s_ty s j); cbn [gposH gpos]; split; reflexivity. }
    destruct (Q (fun i => nth i (read (arr (s_heap s)) (View (w_gvel (s_heap s)) a (b - a))) 0)) as [-> ->].
    assert (Z : forall X, upd (placed fr G (s_qH s)) j (if fr j then mm4 G X else X) = placed fr G (upd (s_qH s) j X)) by (intros X; extensionality i; unfold placed, upd; destruct (Nat.eqb_spec i j) as [-> | ]; reflexivity).
    rewrite Z. reflexivity.
  Qed.
  Lemma int_joint_ty dt j s s1 : integrate_joint dt j s = Ok s1 -> s_ty s1 = s_ty s /\ same_graph (s_heap s) (s_heap s1) /\ w_controllers (s_heap s1) = w_controllers (s_heap s).
  Proof. unfold integrate_joint. destruct (jdof (s_heap s) j) as [[a b] | ]; [ | discriminate]. intros [= <-]. cbn. repeat split. Qed.
  Lemma int_joints_moved dt js : forall s, (forall j, fr j = true -> s_ty s j = FreeJoint) ->
    integrate_joints dt js (mvs s) = (mvs (fst (integrate_joints dt js s)), snd (integrate_joints dt js s)) /\
    s_ty (fst (integrate_joints dt js s)) = s_ty s /\ same_graph (s_heap s) (s_heap (fst (integrate_joints dt js s))) /\ w_controllers (s_heap (fst (integrate_joints dt js s))) = w_controllers (s_heap s).
  Proof.
    induction js as [ | j js IH]; intros s Hj; [repeat split | ]. cbn [integrate_joints]. rewrite int_joint_moved by apply Hj. destruct (integrate_joint dt j s) as [s1 | ] eqn:E1; [ | repeat split]. cbn [rbind].
    destruct (int_joint_ty _ _ _ _ E1) as (T & (S1 & S2 & S3) & W1). destruct (IH s1) as (A & B & (C1 & C2 & C3) & D); [rewrite T; exact Hj | ]. split; [exact A | ]. split; [congruence | ]. split; [ | congruence].
    split; [intros b; rewrite C1; apply S1 | split; [intros b; rewrite C2; apply S2 | intros i; rewrite C3; apply S3]].
  Qed.
  Lemma int_moved w st' dt : good w -> moved_st w st' ->
    world_integrate U' dt (mvw st' w) = (mvw st' (fst (world_integrate U dt w)), snd (world_integrate U dt w)) /\ good (fst (world_integrate U dt w)) /\ moved_st (fst (world_integrate U dt w)) st'.
  Proof.
    intros Gd Ms. destruct (Gd) as [Rt D Fc Fk]. unfold world_integrate, integrate. change (w_s (mvw st' w)) with (mvs (w_s w)). change (su_e U') with e. change (su_fuel U') with (su_fuel U). fold e.
    assert (Same : forall w, set_s w (w_s w) = w) by (intros [[]]; reflexivity).
    assert (Fin : forall s, s_ty s = s_ty (w_s w) -> same_graph (hp w) (s_heap s) -> w_controllers (s_heap s) = w_controllers (hp w) -> good (set_s w s)).
    { intros s T Gs Hc. constructor; cbn [set_s w_s w_v v_s v_cs w_ctl].
      - exact (same_graph_rep e _ _ t Gs Rt).
      - rewrite T. exact (displaced_graph _ _ _ Gs D).
      - exact Fc.
      - rewrite Hc. exact Fk. }
    destruct (Rlt_dec 0 dt); [ | cbn [fst snd]; rewrite (Same w); split; [reflexivity | split; assumption]].
    change (next_gvel (mvs (w_s w)) dt (s_gforce (mvs (w_s w)))) with (next_gvel (w_s w) dt (s_gforce (w_s w))). change (s_heap (mvs (w_s w))) with (hp w). cbv zeta.
    set (h1 := write_world_gvel (hp w) (next_gvel (w_s w) dt (s_gforce (w_s w)))).
    set (s1 := WS h1 (s_ty (w_s w)) (s_qH (w_s w)) (s_q (w_s w)) (s_dyn (w_s w)) (s_gforce (w_s w)) (s_imp (w_s w)) (s_adm (w_s w)) (s_time (w_s w))).
    match goal with |- context [integrate_joints dt _ ?s] => lazymatch s with WS _ _ (s_qH (mvs _)) _ _ _ _ _ _ => change s with (mvs s1) end end.
    destruct (iterjoints e (su_fuel U) h1) as [js | ]; [ | cbn [fst snd]; split; [reflexivity | split; [apply Fin; repeat split | exact Ms]]].
    destruct (int_joints_moved dt js s1) as (A & B & C & E); [intros j Ej; exact (proj1 (dp_free _ _ _ _ _ _ _ D j Ej)) | ]. rewrite A. 
    destruct (integrate_joints dt js s1) as [s2 [[] | x]]; cbn [fst snd] in *.
    - split; [reflexivity | ]. split; [apply Fin; [exact B | exact C | exact E] | exact Ms].
    - split; [reflexivity | ]. split; [apply Fin; [exact B | exact C | exact E] | exact Ms].
  Qed.
  (** *** the loop *)
  Lemma loop_moved O tl ts : forall x x' st', good (sm_w x) -> sm_w x' = mvw st' (sm_w x) ->
    exists y' st1', sim_loop (interp U' O tl) [] ts x' = (y', snd (sim_loop (interp U O tl) [] ts x)) /\ sm_w y' = mvw st1' (sm_w (fst (sim_loop (interp U O tl) [] ts x))) /\
      (snd (sim_loop (interp U O tl) [] ts x) = Ok tt -> ts <> [] -> displaced_bodies e t G (v_st (w_v (sm_w (fst (sim_loop (interp U O tl) [] ts x))))) st1').
  Proof.
    induction ts as [ | t1 ts IH]; intros x x' st' Gd Ex; [exists x', st'; split; [reflexivity | split; [exact Ex | intros; contradiction]] | ].
    cbn [sim_loop map calls interp]. assert (Nw : now x' = now x) by (unfold now, w_time; rewrite Ex; reflexivity). rewrite Nw. set (dt := t1 - now x). cbv zeta. rewrite Ex.
    destruct (dyn_moved (sm_w x) st' Gd) as (s1 & E1 & G1 & M1). rewrite E1. destruct (world_dynamic U (sm_w x)) as [w1 [[] | z]]; cbn [fst snd bind_ sm_w set_w sm_names sm_obs] in *; [ | eexists _, s1; split; [reflexivity | split; [reflexivity | discriminate]]].
    specialize (M1 eq_refl). destruct (ctl_moved w1 s1 dt G1 M1) as (E2 & G2 & M2). rewrite E2. destruct (world_controllers U dt w1) as [w2 [[] | z]]; cbn [fst snd bind_ sm_w set_w sm_names sm_obs] in *; [ | eexists _, s1; split; [reflexivity | split; [reflexivity | discriminate]]].
    destruct (cons_moved w2 s1 dt G2 M2) as (E3 & G3 & M3). rewrite E3. destruct (world_constraints U dt w2) as [w3 [[] | z]]; cbn [fst snd bind_ sm_w set_w sm_names sm_obs] in *; [ | eexists _, s1; split; [reflexivity | split; [reflexivity | discriminate]]].
    destruct (int_moved w3 s1 dt G3 M3) as (E4 & G4 & M4). rewrite E4. destruct (world_integrate U dt w3) as [w4 [[] | z]]; cbn [fst snd bind_ sm_w set_w sm_names sm_obs] in *; [ | eexists _, s1; split; [reflexivity | split; [reflexivity | discriminate]]].
    match goal with |- context [sim_loop (interp U O tl) [] ts ?a] => set (x4 := a) end. match goal with |- context [sim_loop (interp U' O tl) [] ts ?a] => set (x4' := a) end. destruct (IH x4 x4' s1 G4 eq_refl) as (y' & st1' & E5 & E6 & M5).
    exists y', st1'. split; [exact E5 | ]. split; [exact E6 | ].
    intros Hr _. destruct ts as [ | t2 ts2]; [ | apply M5; [exact Hr | discriminate]]. cbn [sim_loop] in E5, E6 |- *. cbn [fst] in *. 
    injection E5 as <-. assert (Q : st1' = s1) by (apply (f_equal (fun p => v_st (w_v p))) in E6; cbn in E6; congruence). subst st1'. exact (proj1 M4).
  Qed.
End Run.
