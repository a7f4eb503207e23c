(** Lemmas for interrupted simulations. *)
From Coq Require Import Lra Lia FunctionalExtensionality.
From Verif Require Import Spec_Resume Proof_World Proof_World2 Proof_World3 Proof_World4 Proof_Tree Proof_Dofs Proof_Step Proof_Sim Proof_Sim2 Proof_Sim3 Props_Dyn Props_Step.

Definition regraph (h : @heap R) a g w k := set_dofs h (jdof h) (w_ndof h) a g w k.
Definition hsame (h h' : @heap R) : Prop := exists a g w k, h' = regraph h a g w k.
Lemma hone_graph h h' : one_graph h h' -> hsame h h'.
Proof.
  intros (A & B & C & D & E & F & G & H & I0). exists (arr h'), (jgvel h'), (w_gvel h'), (next_arr h'). unfold regraph, set_dofs. destruct h'. cbn in *. congruence.
Qed.
Lemma graph_hsame h h' : hsame h h' -> one_graph h h'.
Proof. intros (a & g & w & k & ->). unfold one_graph. repeat split. Qed.

(** *** heaps that only differ by the contents of the world array *)
Definition keeps_views (h h' : @heap R) : Prop := exists l : list R, length l = length (world_gvel h) /\
  h' = set_dofs h (jdof h) (w_ndof h) (upd_arr (arr h) (w_gvel h) l) (jgvel h) (w_gvel h) (next_arr h).
Lemma kv_len (h : @heap R) (l : list R) x : length l = length (world_gvel h) -> length (upd_arr (arr h) (w_gvel h) l x) = length (arr h x).
Proof.
  intros L. unfold upd_arr. destruct (aid_eqb x (w_gvel h)) eqn:E; [ | reflexivity]. destruct (aid_eqb_spec x (w_gvel h)) as [-> | ]; [exact L | discriminate].
Qed.
Lemma kv_vinv e (h h' : @heap R) : keeps_views h h' -> vinv e h -> vinv e h'.
Proof.
  intros (l & L & ->) V. constructor; cbn [jgvel arr next_arr w_gvel set_dofs]; try apply V. intros j. rewrite kv_len by exact L. apply V.
Qed.
Lemma kv_live e h h' t : keeps_views h h' -> live e h t -> live e h' t.
Proof.
  intros (l & L & ->) V. apply live_set; auto. rewrite (kv_len h l _ L). apply V.
Qed.

(** *** update_dynamic reads the joints of the tree only *)
Lemma upd_dyn_same e sc h h' J J' t : hsame h h' -> rep e h t -> (forall j, In j (joints t) -> J' j = J j) ->
  forall fuel k st, update_dynamic e sc h' J' fuel (root t) k st = update_dynamic e sc h J fuel (root t) k st.
Proof.
  intros (a & g & w & kk & ->). induction t as [b ks IH] using tree_ind'. intros Rt Hj fuel k st. inversion Rt as [? ? Ec Fk]; subst. clear Rt.
  destruct fuel as [ | n]; [reflexivity | ]. cbn [update_dynamic root]. cbn [childrenjoints regraph set_dofs]. rewrite Ec. clear Ec.
  match goal with |- ?f _ _ = ?f' _ _ => set (lp' := f); set (lp := f') end.
  match goal with |- lp' _ ?s = _ => generalize s end. clear st. rewrite joints_eq in Hj.
  induction ks as [ | (j, u) ks IHk]; intros s; [reflexivity | ]. inversion IH as [ | ? ? IHu IHks]; subst. inversion Fk as [ | ? ? (Ed & Ru) Fks]; subst. cbn [fst snd] in *.
  cbn [map fst lp lp']. fold lp lp'. cbn [jframes regraph set_dofs].
  destruct Ed as ((f0 & f1 & Ef & _ & Er) & _). rewrite Ef.
  rewrite (Hj j) by (cbn; left; reflexivity).
  change (child_kin sc (regraph h a g w kk) j (J j) f0 f1 k) with (child_kin sc h j (J j) f0 f1 k).
  destruct (child_kin sc h j (J j) f0 f1 k) as [k' | ]; [ | reflexivity]. cbn [rbind]. rewrite Er.
  rewrite IHu; [ | exact Ru | intros i Hi; apply Hj; cbn; right; apply in_app_iff; left; exact Hi].
  destruct (update_dynamic e sc h J n (root u) k' s) as [s1 | ]; [ | reflexivity]. cbn [rbind].
  apply IHk; auto. intros i Hi. apply Hj. cbn. right. apply in_app_iff. right. exact Hi.
Qed.
Lemma iter_bodies_same e h h' : hsame h h' -> forall fuel b, iter_descendant_bodies e fuel h' b = iter_descendant_bodies e fuel h b.
Proof.
  intros (a & g & w & k & ->). induction fuel as [ | n IH]; intros b; [reflexivity | ]. cbn [iter_descendant_bodies].
  change (rmapM (child_body e (regraph h a g w k)) (childrenjoints (regraph h a g w k) b)) with (rmapM (child_body e h) (childrenjoints h b)).
  destruct (rmapM (child_body e h) (childrenjoints h b)) as [bs | ]; [ | reflexivity]. cbn [rbind]. apply rconcat_ext. intros c. rewrite IH. reflexivity.
Qed.

Lemma skipn_skipn' {A} (l : list A) a b : skipn b (skipn a l) = skipn (a + b) l.
Proof. revert l. induction a as [ | a IH]; intros l; [reflexivity | ]. destruct l as [ | x l]; [cbn; apply skipn_nil | apply IH]. Qed.
Definition W_ (w : world) (h : @heap R) : world :=
  let s := w_s w in W (WV (WS h (s_ty s) (s_qH s) (s_q s) wdyn0 vzero (s_imp s) (s_adm s) (s_time s)) (v_st (w_v w)) (v_cs (w_v w))) (w_ctl w).
(** *** a world that has been initialised *)
Section Run.
  Context (U : setup) (t : tree).
  Hypothesis Hf : (height t < su_fuel U)%nat.
  Notation hp w := (s_heap (w_s w)).
  Record settled (w : world) : Prop := {
    st_vinv : vinv (su_e U) (hp w);
    st_live : live (su_e U) (hp w) t;
    st_con : forall c, In c (v_cs (w_v w)) -> con_init (hp w) c = Ok c;
    st_ctl : forall a, In a (w_controllers (hp w)) -> ctl_init U (hp w) (w_ctl w a) = Ok (w_ctl w a) }.
  Lemma con_init_same h h' c : hsame h h' -> con_init h' c = con_init h c.
  Proof. intros (a & g & w & k & ->). reflexivity. Qed.
  Lemma ctl_init_same h h' c : hsame h h' -> ctl_init U h' c = ctl_init U h c.
  Proof.
    intros S. destruct c as [g c | c | f]; cbn [ctl_init]; [ | | reflexivity].
    - unfold wc_init. rewrite (iter_bodies_same _ _ _ S). reflexivity.
    - destruct S as (a & g & w & k & ->). reflexivity.
  Qed.
  Lemma con_init_idem h c c' : con_init h c = Ok c' -> con_init h c' = Ok c'.
  Proof.
    destruct c as [x | x | x]; cbn [con_init]; try (intros [= <-]; reflexivity).
    destruct (jdof h (jl_joint x)) as [(a, b) | ] eqn:E; [intros [= <-]; cbn [con_init jl_init jl_joint]; rewrite E; reflexivity | ]. unfold jl_init_lost. destruct (_ || _ || _) eqn:El; [ | discriminate]. intros [= <-]. cbn [con_init jl_joint]. rewrite E. unfold jl_init_lost. cbn [jl_nd jl_on jl_joint jl_min jl_max jl_prox jl_pos0 jl_force]. rewrite El. reflexivity.
  Qed.
  Lemma ctl_init_idem h c c' : ctl_init U h c = Ok c' -> ctl_init U h c' = Ok c'.
  Proof.
    destruct c as [g c | c | f]; cbn [ctl_init].
    - destruct (wc_init _ _ _ h g) as [x | ] eqn:E; [ | discriminate]. cbn. intros [= <-]. cbn [ctl_init]. rewrite E. reflexivity.
    - unfold pd_init. destruct (rconcat (dof_range h) (pd_joints c)) as [m | ] eqn:E; [ | discriminate]. cbn. intros [= <-]. cbn [ctl_init]. unfold pd_init. cbn [pd_joints]. rewrite E. reflexivity.
    - intros [= <-]. reflexivity.
  Qed.
  Lemma rmapM_in {A B} (f : A -> res B) l : forall m, rmapM f l = Ok m -> forall y, In y m -> exists x, In x l /\ f x = Ok y.
  Proof.
    induction l as [ | x l IH]; cbn; intros m E y Hy; [injection E as <-; destruct Hy | ]. destruct (f x) as [z | ] eqn:Ez; [ | discriminate]. cbn in E. destruct (rmapM f l) as [m' | ] eqn:Em; [ | discriminate]. injection E as <-.
    destruct Hy as [<- | Hy]; [exists x; auto | destruct (IH _ eq_refl y Hy) as (x' & H1 & H2); exists x'; auto].
  Qed.
  Lemma rmapM_id {A} (f : A -> res A) l : (forall x, In x l -> f x = Ok x) -> rmapM f l = Ok l.
  Proof. induction l as [ | x l IH]; intros H; [reflexivity | ]. cbn. rewrite H by (left; reflexivity). cbn. rewrite IH by (intros; apply H; right; assumption). reflexivity. Qed.
  Lemma ctl_inits_fix h l : forall k k', ctl_inits U h l k = Ok k' -> (forall a, In a l -> ctl_init U h (k' a) = Ok (k' a)) /\ (forall a, ctl_init U h (k a) = Ok (k a) -> ctl_init U h (k' a) = Ok (k' a)).
  Proof.
    induction l as [ | a l IH]; cbn [ctl_inits]; intros k k' E; [injection E as <-; split; [intros a [] | auto] | ].
    destruct (ctl_init U h (k a)) as [c | ] eqn:Ec; [ | discriminate]. cbn [rbind] in E. destruct (IH _ _ E) as [A B].
    assert (Ba : ctl_init U h (k' a) = Ok (k' a)) by (apply B; unfold upd; rewrite Nat.eqb_refl; exact (ctl_init_idem _ _ _ Ec)).
    split; [intros b [<- | Hb]; auto | ]. intros b Hb. apply B. unfold upd. destruct (Nat.eqb b a); [exact (ctl_init_idem _ _ _ Ec) | exact Hb].
  Qed.
  Lemma ctl_inits_id h l : forall k, (forall a, In a l -> ctl_init U h (k a) = Ok (k a)) -> ctl_inits U h l k = Ok k.
  Proof.
    induction l as [ | a l IH]; cbn [ctl_inits]; intros k H; [reflexivity | ]. rewrite H by (left; reflexivity). cbn [rbind].
    assert (E : upd k a (k a) = k) by (extensionality b; unfold upd; destruct (Nat.eqb_spec b a) as [-> | ]; reflexivity). rewrite E. apply IH. intros; apply H; right; assumption.
  Qed.
  (** World.init on a world built with the API *)
  Lemma init_settles w w1 : vinv (su_e U) (hp w) -> rep (su_e U) (hp w) t -> root t = ground (su_e U) -> NoDup (bodies t) -> world_init U w = (w1, Ok tt) -> settled w1.
  Proof.
    intros Vi Rt Er ND E. unfold world_init in E. 
    destruct (init_spec 0 (su_e U) (hp w) t (su_fuel U) Vi Rt Er ND Hf) as (h' & Ei & N & Sl & Out & W & Wg & Na & Ar). rewrite Ei in E.
    destruct (rmapM (con_init h') (v_cs (w_v w))) as [cs | ] eqn:Ec; [ | discriminate]. destruct (ctl_inits U h' (w_controllers h') (w_ctl w)) as [k | ] eqn:Ek; [ | discriminate]. injection E as <-.
    assert (V' : vinv (su_e U) h').
    { assert (X := init_vinv 0 (su_e U) (su_fuel U) (hp w) Vi). rewrite Ei in X. apply X. intros js Hj. unfold iterjoints in Hj. rewrite <- Er, (iter_joints_ok (su_e U) _ t Rt (su_fuel U) Hf) in Hj. injection Hj as <-. exact (rep_nodup_joints (su_e U) _ t Rt ND). }
    assert (S : exists d n a g x k, h' = set_dofs (hp w) d n a g x k).
    { unfold Model_World.init in Ei. destruct (iterjoints _ _ _); [ | discriminate]. destruct (assign_dofs _ _ _ _) as [n d]. destruct (copy_gvels _ _ _ _ _) as [[a1 g1] | ]; [ | discriminate]. injection Ei as <-. do 6 eexists. reflexivity. }
    constructor; cbn [w_s w_v v_s s_heap v_cs w_ctl].
    - exact V'.
    - split; [ | split].
      + split; [ | split; [exact Er | split; [exact ND | split; [exact N | intros l1 j l2 El; apply (Sl l1 j l2 El)]]]]. destruct S as (d & n & a & g & x & k' & ->). apply rep_set_dofs. exact Rt.
      + rewrite W, N. assert (L : forall js, length (concat (map (joint_gvel (hp w)) js)) = total_ndof (su_e U) js); [ | apply L].
        induction js as [ | j js IH]; [reflexivity | ]. cbn [map concat]. rewrite app_length, IH. unfold joint_gvel. rewrite length_read by apply Vi. rewrite (vi_len _ _ Vi j). reflexivity.
      + intros j s d Hj D. destruct (in_split _ _ Hj) as (l1 & l2 & El). destruct (Sl l1 j l2 El) as [D1 D2]. rewrite D in D1. injection D1 as -> ->. rewrite D2. f_equal. lia.
    - intros c Hc. destruct (rmapM_in _ _ _ Ec c Hc) as (c0 & _ & E0). exact (con_init_idem _ _ _ E0).
    - intros a Ha. exact (proj1 (ctl_inits_fix _ _ _ _ Ek) a Ha).
  Qed.

  (** *** World.init on a world already initialised *)
  Lemma live_whole h : vinv (su_e U) h -> live (su_e U) h t -> world_gvel h = concat (map (joint_gvel h) (joints t)).
  Proof.
    intros Vi ((Rt & Er & ND & Nd & Sl) & Ln & Vw).
    assert (G : forall l2 l1, joints t = l1 ++ l2 -> skipn (total_ndof (su_e U) l1) (world_gvel h) = concat (map (joint_gvel h) l2)).
    { induction l2 as [ | j l2 IH]; intros l1 El.
      - rewrite app_nil_r in El. subst l1. cbn. apply skipn_all2. rewrite Ln, Nd. lia.
      - cbn [map concat]. assert (Ij : In j (joints t)) by (rewrite El; apply in_app_iff; right; left; reflexivity).
        assert (D := Sl l1 j l2 El). assert (V := Vw j _ _ Ij D). 
        assert (Ej : joint_gvel h j = firstn (jndof (su_e U) j) (skipn (total_ndof (su_e U) l1) (world_gvel h))).
        { unfold joint_gvel, read. rewrite V. cbn [v_len v_start v_arr]. f_equal. lia. }
        rewrite Ej. rewrite <- (firstn_skipn (jndof (su_e U) j) (skipn (total_ndof (su_e U) l1) (world_gvel h))) at 1. f_equal.
        rewrite skipn_skipn'. rewrite <- (IH (l1 ++ [j])); [ | rewrite <- app_assoc; exact El]. f_equal. unfold total_ndof. rewrite map_app, list_sum_app. cbn. lia. }
    rewrite <- (G (joints t) [] eq_refl). reflexivity.
  Qed.
  Lemma hsame_refl h : hsame h h.
  Proof. exists (arr h), (jgvel h), (w_gvel h), (next_arr h). unfold regraph. destruct h; reflexivity. Qed.
  Lemma live_same h h' : live (su_e U) h t -> live (su_e U) h' t -> hsame h h' -> world_gvel h' = world_gvel h -> forall j, In j (joints t) -> joint_gvel h' j = joint_gvel h j.
  Proof.
    intros L L' (a & g & w & k & E) W j Ij. destruct (in_split _ _ Ij) as (l1 & l2 & El). assert (D := proj2 (proj2 (proj2 (proj2 (proj1 L)))) l1 j l2 El).
    assert (V := proj2 (proj2 L) j _ _ Ij D). assert (D' : jdof h' j = jdof h j) by (rewrite E; reflexivity). rewrite <- D' in D. assert (V' := proj2 (proj2 L') j _ _ Ij D).
    unfold joint_gvel, read. rewrite V, V'. cbn [v_len v_start v_arr]. change (arr h' (w_gvel h')) with (world_gvel h'). rewrite W. reflexivity.
  Qed.
  Definition close (w w' : world) : Prop := settled w /\ settled w' /\ hsame (hp w) (hp w') /\ world_gvel (hp w') = world_gvel (hp w) /\
    s_ty (w_s w') = s_ty (w_s w) /\ s_q (w_s w') = s_q (w_s w) /\ s_qH (w_s w') = s_qH (w_s w) /\ s_time (w_s w') = s_time (w_s w) /\
    v_st (w_v w') = v_st (w_v w) /\ v_cs (w_v w') = v_cs (w_v w) /\ w_ctl w' = w_ctl w.
  Lemma close_same w w' : close w w' -> same_world t w w'.
  Proof.
    intros (A & B & C & D & E & F & G & H & I0 & J & K). split; [ | exact K]. unfold alike. cbv zeta. split; [exact (graph_hsame _ _ C) | ]. split; [exact D | ]. split; [exact (live_same _ _ (st_live _ A) (st_live _ B) C D) | ]. auto 10.
  Qed.
  Lemma settled_init w : settled w -> exists w1, world_init U w = (w1, Ok tt) /\ close w w1.
  Proof.
    intros S. assert (Vi := st_vinv _ S). assert (Lv := st_live _ S). destruct (Lv) as ((Rt & Er & ND & Nd & Sl) & Ln & Vw).
    destruct (init_spec 0 (su_e U) (hp w) t (su_fuel U) Vi Rt Er ND Hf) as (h' & Ei & N & Sl' & Out & W & Wg & Na & Ar).
    assert (Hs : hsame (hp w) h').
    { assert (Hd : jdof h' = jdof (hp w)).
      { extensionality j. destruct (in_dec Nat.eq_dec j (joints t)) as [Ij | Nj]; [ | apply (Out j Nj)]. destruct (in_split _ _ Ij) as (l1 & l2 & El). rewrite (proj1 (Sl' l1 j l2 El)), (Sl l1 j l2 El). reflexivity. }
      unfold Model_World.init in Ei. destruct (iterjoints _ _ _); [ | discriminate]. destruct (assign_dofs _ _ _ _) as [n1 d1]. destruct (copy_gvels _ _ _ _ _) as [[a1 g1] | ]; [ | discriminate]. injection Ei as <-.
      cbn [jdof w_ndof set_dofs] in Hd, N. exists a1, g1, (AWorld (next_arr (hp w))), (Datatypes.S (next_arr (hp w))). unfold regraph. rewrite Hd, N, Nd. reflexivity. }
    assert (Ec : rmapM (con_init h') (v_cs (w_v w)) = Ok (v_cs (w_v w))) by (apply rmapM_id; intros c Hc; rewrite (con_init_same _ _ c Hs); apply S; exact Hc).
    assert (Hc : w_controllers h' = w_controllers (hp w)) by (destruct Hs as (? & ? & ? & ? & ->); reflexivity).
    assert (Ek : ctl_inits U h' (w_controllers h') (w_ctl w) = Ok (w_ctl w)) by (apply ctl_inits_id; intros a Ha; rewrite (ctl_init_same _ _ _ Hs); apply S; rewrite <- Hc; exact Ha).
    assert (E : world_init U w = (W_ w h', Ok tt)) by (unfold world_init; rewrite Ei, Ec, Ek; reflexivity).
    exists (W_ w h'). split; [exact E | ]. split; [exact S | ]. split; [exact (init_settles w _ Vi Rt Er ND E) | ]. split; [exact Hs | ]. split; [ | repeat split].
    change (world_gvel h' = world_gvel (hp w)). rewrite W. symmetry. exact (live_whole _ Vi Lv).
  Qed.
End Run.
