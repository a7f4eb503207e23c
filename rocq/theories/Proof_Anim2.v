(** What the observers of a simulation see: the poses of the bodies at the current configuration. *)
From Coq Require Import Lra Lia.
From Verif Require Import Spec_Anim Spec_Step Spec_Dyn Proof_SE3 Proof_Linalg Proof_World Proof_World3 Proof_World4 Proof_Tree Proof_Step Proof_Sim Proof_Sim2 Proof_Sim3 Props_Dyn Props_Step Props_Draw.
Open Scope R_scope.

Section Current.
  Context (U : setup) (O : nat -> okind) (tl : list R) (t : tree) (h0 : @heap R) (ty0 : nat -> jtype).
  Hypothesis Hty : forall j, In j (joints t) -> jndof (su_e U) j = ndof_of (ty0 j).
  Hypothesis Hf : (height t < su_fuel U)%nat.
  Let I := interp U O tl.
  Definition alive (x : sim) : Prop := same_objects h0 (heap_of x) /\ live (su_e U) (heap_of x) t /\ s_ty (w_s (sm_w x)) = ty0.

  Lemma obs_alive c x x1 : obs_call c = true -> I c x = (x1, Ok tt) -> alive x -> alive x1.
  Proof. intros Oc E A. assert (W := proj1 (proj2 (proj2 (interp_frame _ _ _ _ _ _ _ E))) Oc). unfold alive, heap_of in *. now rewrite W. Qed.
  Lemma dyn_alive x x1 : I Dyn x = (x1, Ok tt) -> alive x -> alive x1 /\ (exists st dd, world_update_dynamic (su_e U) (su_sc U) (heap_of x1) (joints_of (w_s (sm_w x1))) (su_fuel U) st = Ok (v_st (w_v (sm_w x1)), dd)).
  Proof.
    intros E A. unfold I in E. cbn [interp] in E. unfold world_dynamic in E. destruct (world_update_dynamic _ _ _ _ _ _) as [(st, d) | ] eqn:Ud; [ | discriminate]. injection E as <-. split; [exact A | ]. eexists. eexists. exact Ud.
  Qed.
  (** the controllers and the constraints change the forces only *)
  Definition frozen (x x1 : sim) : Prop := s_heap (w_s (sm_w x1)) = s_heap (w_s (sm_w x)) /\ s_ty (w_s (sm_w x1)) = s_ty (w_s (sm_w x)) /\ joints_of (w_s (sm_w x1)) = joints_of (w_s (sm_w x)) /\ v_st (w_v (sm_w x1)) = v_st (w_v (sm_w x)).
  Lemma ctl_frozen dt x x1 : I (Ctl dt) x = (x1, Ok tt) -> frozen x x1.
  Proof.
    intros E. unfold I in E. cbn [interp] in E. unfold world_controllers in E. destruct (update_controllers_frame (su_linv U) (ctl_update U (sm_w x)) dt (w_s (sm_w x))) as (f & Z & Y & Fr).
    destruct (update_controllers _ _ _ _) as (s, r). cbn [fst] in Fr. subst s. injection E as <- _. repeat split.
  Qed.
  Lemma cons_frozen dt x x1 : I (Cons dt) x = (x1, Ok tt) -> frozen x x1.
  Proof.
    intros E. unfold I in E. cbn [interp] in E. unfold world_constraints in E. destruct (update_constraints _ _ _ _ _ _) as [((s, l), v) | ] eqn:Uc; [ | discriminate]. injection E as <-.
    unfold update_constraints in Uc. destruct (Rlt_dec 0 dt); [ | discriminate]. destruct (activate _ _ _ _) as [(l0, m) | ]; [ | discriminate]. cbn [rbind] in Uc. destruct (stack _ _ _); [ | discriminate]. cbn [rbind] in Uc. destruct (add_gforces _ _ _) in Uc; [ | discriminate]. cbn [rbind] in Uc. destruct (relax _ _ _ _ _ _ _ _ _ _) as [(l1, v1) | ]; [ | discriminate]. cbn [rbind] in Uc. destruct (add_gforces _ _ _) in Uc; [ | discriminate]. cbn [rbind] in Uc. injection Uc as <- _ _. repeat split.
  Qed.
  Lemma frozen_alive x x1 : frozen x x1 -> alive x -> alive x1.
  Proof. intros (A & B & _) (G & Lv & Ty). unfold alive, heap_of in *. now rewrite A, B. Qed.
  Lemma int_alive dt x x1 : I (Int dt) x = (x1, Ok tt) -> alive x -> alive x1.
  Proof.
    intros E (G & Lv & Ty). assert (Gr := interp_graph _ _ _ _ _ _ E). unfold I in E. cbn [interp] in E. unfold world_integrate in E. destruct (Rlt_dec 0 dt) as [P | P].
    - destruct (integrate_ok (su_e U) t dt (su_fuel U) (w_s (sm_w x)) Lv Hf P) as (s' & Es & L' & _ & _ & _ & _ & Ty' & _); [intros j Ij; rewrite Ty; now apply Hty | ]. rewrite Es in E. injection E as <-. split; [eapply same_objects_trans; eassumption | ]. split; [exact L' | ]. change (s_ty s' = ty0). congruence.
    - unfold integrate in E. destruct (Rlt_dec 0 dt); [contradiction | discriminate].
  Qed.
  Lemma any_alive c x x1 : c <> WInit -> I c x = (x1, Ok tt) -> alive x -> alive x1.
  Proof.
    intros N E A. destruct c; [congruence | .. ].
    - eapply obs_alive; [ | exact E | exact A]; reflexivity.
    - exact (proj1 (dyn_alive _ _ E A)).
    - exact (frozen_alive _ _ (ctl_frozen _ _ _ E) A).
    - exact (frozen_alive _ _ (cons_frozen _ _ _ E) A).
    - eapply obs_alive; [ | exact E | exact A]; reflexivity.
    - exact (int_alive _ _ _ E A).
    - eapply obs_alive; [ | exact E | exact A]; reflexivity.
  Qed.
  Lemma performed_alive x l y : performed I x l y -> (forall c r, In (c, r) l -> c <> WInit) -> alive x -> alive y.
  Proof.
    induction 1 as [x | x c x1 l y E P IH]; intros N A; [exact A | ]. apply IH; [intros c' r J; apply (N c' r); now right | ]. apply (any_alive c x x1); [apply (N c (now x)); now left | exact E | exact A].
  Qed.
End Current.

Lemma steps_no_init obs ts : forall t c r, In (c, r) (steps obs t ts) -> c <> WInit.
Proof.
  induction ts as [ | t' ts IH]; intros t c r J; cbn [steps] in J; [destruct J | ]. apply in_app_or in J. destruct J as [J | J]; [ | exact (IH _ _ _ J)]. unfold at_ in J. apply in_map_iff in J. destruct J as (c' & E & J). injection E as <- _.
  unfold step_calls in J. apply in_app_or in J. destruct J as [[<- | [<- | [<- | []]]] | J]; try discriminate. apply in_app_or in J. destruct J as [J | [<- | []]]; [ | discriminate]. apply in_map_iff in J. destruct J as (i & <- & _). discriminate.
Qed.

(** at each step of a simulation the observers see the bodies where update_dynamic puts them at the current configuration *)
Lemma step_current U O t0 ts obs x k v g0 t : let h := s_heap (w_s (sm_w x)) in
  reachable 0 (su_e U) g0 h -> rep (su_e U) h t -> root t = ground (su_e U) -> (height t < su_fuel U)%nat ->
  (forall j, In j (joints t) -> jndof (su_e U) j = ndof_of (s_ty (w_s (sm_w x)) j)) -> at_step U O t0 ts obs x k v ->
  same_objects h (heap_of v) /\ live (su_e U) (heap_of v) t /\ s_ty (w_s (sm_w v)) = s_ty (w_s (sm_w x)) /\ keeps (sm_names x) (sm_names v) /\
  exists st dd, world_update_dynamic (su_e U) (su_sc U) (heap_of v) (joints_of (w_s (sm_w v))) (su_fuel U) st = Ok (v_st (w_v (sm_w v)), dd).
Proof.
  intros h Rch Rt Er F Hty (tk & t' & _ & _ & _ & P). set (I := interp U O (t0 :: ts)) in P. set (ty0 := s_ty (w_s (sm_w x))) in *.
  assert (Kp : keeps (sm_names x) (sm_names v)).
  { assert (X : forall x l y, performed I x l y -> keeps (sm_names x) (sm_names y)). { induction 1 as [z | z c z1 l y E _ IH]; [apply keeps_refl | ]. eapply keeps_trans; [exact (proj1 (interp_frame _ _ _ _ _ _ _ E)) | exact IH]. } exact (X _ _ _ P). }
  destruct (C45_reachable _ _ _ Rch) as (t2 & Rp2 & Er2 & Hin). assert (t2 = t) as -> by (apply (rep_unique (su_e U) h); auto; congruence). destruct (Hin (su_fuel U) F) as (h' & Ei & Lv).
  unfold at_ in P at 1. cbn [map app] in P. fold (at_ t0 (map OInit obs)) in P. remember ((WInit, t0) :: at_ t0 (map OInit obs) ++ steps obs t0 (firstn k ts) ++ at_ tk [Dyn; Ctl (t' - tk); Cons (t' - tk)]) as l0 eqn:El.
  remember (set_w x (set_time (sm_w x) t0)) as x00 eqn:Ex0. destruct P as [ | x0 c x1 l y E P]; [discriminate | ]. injection El as -> _ ->. subst x0.
  assert (A1 : alive U t h ty0 x1).
  { assert (Gr := interp_graph _ _ _ _ _ _ E). split; [exact Gr | ]. unfold I in E. cbn [interp] in E. unfold world_init in E. change (s_heap (w_s (sm_w (set_w x (set_time (sm_w x) t0))))) with h in E. rewrite Ei in E.
    destruct (rmapM _ _); [ | discriminate]. destruct (ctl_inits _ _ _ _); [ | discriminate]. injection E as <-. split; [exact Lv | reflexivity]. }
  apply perf_inv_app in P. destruct P as (x2 & P1 & P). apply perf_inv_app in P. destruct P as (x3 & P2 & P3).
  assert (A3 : alive U t h ty0 x3).
  { apply (performed_alive U O (t0 :: ts) t h ty0 Hty F _ _ _ P2); [intros c r J; exact (steps_no_init _ _ _ _ _ J) | ]. apply (performed_alive U O (t0 :: ts) t h ty0 Hty F _ _ _ P1); [ | exact A1].
    intros c r J. unfold at_ in J. rewrite map_map in J. apply in_map_iff in J. destruct J as (i & E' & _). injection E' as <- _. discriminate. }
  unfold at_ in P3. cbn [map] in P3. inversion P3 as [ | ? ? xa ? ? Ea Pa]; subst. inversion Pa as [ | ? ? xb ? ? Eb Pb]; subst. inversion Pb as [ | ? ? xc ? ? Ec Pc]; subst. inversion Pc; subst.
  destruct (dyn_alive U O (t0 :: ts) t h ty0 _ _ Ea A3) as (Aa & st & dd & Ud). assert (Fb := ctl_frozen U O (t0 :: ts) _ _ _ Eb). assert (Fc := cons_frozen U O (t0 :: ts) _ _ _ Ec).
  assert (Av := frozen_alive U t h ty0 _ _ Fc (frozen_alive U t h ty0 _ _ Fb Aa)). destruct Av as (G & L & T). split; [exact G | ]. split; [exact L | ]. split; [exact T | ]. split; [exact Kp | ]. exists st, dd.
  destruct Fb as (B1 & _ & B2 & B3), Fc as (C1 & _ & C2 & C3). unfold heap_of in *. now rewrite C1, C2, C3, B1, B2, B3.
Qed.
