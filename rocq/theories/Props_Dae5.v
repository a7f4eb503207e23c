(** C81-C84: a concrete world meets the hypotheses; the defects of the collada drivers. *)
From Coq Require Import Lra Lia Permutation.
From Verif Require Import Spec_Dae Spec_Dyn Proof_SE3 Proof_Linalg Proof_Coll Props_Color Props_Color2 Proof_Draw Proof_Draw2 Props_Dyn Props_DynEx Props_Mass Props_Draw Props_Draw2 Props_Draw3.
From Verif Require Import Proof_Dae Proof_Dae2 Proof_Dae3 Proof_Dae4 Proof_Dae5 Props_Dae Props_Dae2 Props_Dae3 Props_Dae4.
Open Scope R_scope.

(** the world of C59 (an arm on a slider, a SubFrame that carries a box, a MovingSubFrame) with names *)
Definition dn_names (o : obj) : option string :=
  match o with OFrame (FBody 0) => Some "ground"%string | OFrame (FBody _) => Some "arm"%string | OFrame (FSub _) => Some "tip"%string | OFrame (FMov _) => Some "cam"%string | OShape _ => Some "box"%string | _ => None end.
Definition dn_S (nm : obj -> option string) (st : store) : dscene := DS dw_e nm dw_sc st (dw_J 2) (fun _ => true) inv_.
Definition dn_geo (s : nat) : geom := Box (V3 1 2 3).
Definition one_eigvals (M : m6) : list R := [1].
Definition one_eig (A : m3) : v3 * m3 := (V3 1 1 1, eye3).

Lemma eye6_eigvals : eigvals_of eye6 [1].
Proof.
  intros x. split.
  - intros [<- | []]. exists (V6 (V3 1 0 0) zero3). split; [intros E; injection E; lra | ]. unfold eye6. unf. f_equal; f_equal; ring.
  - intros ([[a b c] [d e f]] & N & E). left. unf. injection E as E1 E2 E3 E4 E5 E6.
    destruct (Req_dec x 1) as [-> | Nx]; [reflexivity | exfalso]. apply N.
    assert (Q : forall y, y = x * y -> y = 0). { intros y Ey. assert ((x - 1) * y = 0) by lra. apply Rmult_integral in H. destruct H; lra. }
    rewrite (Q a), (Q b), (Q c), (Q d), (Q e), (Q f) by lra. reflexivity.
Qed.
Lemma eye6_inertia : has_inertia one_eigvals one_eig eye6 1 zero3 eye3.
Proof.
  split; [unfold eye3; lin | ]. split; [unfold rigid_mass, eye6, eye3, zero3, skew; lin | ]. split.
  { replace eye6 with (diag6 1 1 1 1 1 1) by (unfold diag6, eye6; lin). apply diag_mass; lra. }
  split; [exact eye6_eigvals | ]. split; cbn [one_eig fst snd]; unfold diag3, eye3, zero3, skew; cbn; lin.
Qed.
Lemma dn_drawable nm : exists st cs, new_colors [] 1 = Ok cs /\ drawable_world (dn_S nm st) (fun _ _ => 1) dw_h dw_t 10 cs.
Proof.
  destruct (dw_state 2) as (st & Us & _). destruct (new_ok [] 1%nat ltac:(constructor)) as (cs & Ec & _). exists st, cs. split; [exact Ec | ].
  split; [exact dw_reachable | ]. split; [exact dw_ready | ]. split; [exact (dw_rigid 2) | ]. split; [cbn; lia | ]. split; [exists [], 1%nat; exact Ec | ].
  split; [exact (proj1 (dw_drawable st)) | ]. split; [reflexivity | ]. split; [exact inv4_rigid | ]. exists (fun _ => no_attr). exact Us.
Qed.
Lemma dn_writable nm st : nm (OFrame (FBody 0)) <> None -> nm (OFrame (FBody 1)) <> None -> writable one_eigvals one_eig (dn_S nm st) dn_geo dw_h dw_t (V3 0 1 0).
Proof.
  intros N0 N1. split; [right; left; reflexivity | ]. split; [intros s _; cbn; lra | ]. intros b (Ib & _). split; [exists 1, zero3, eye3; exact eye6_inertia | ]. cbn in Ib. destruct Ib as [<- | [<- | []]]; assumption.
Qed.
Lemma dn_distinct st : distinct_names true (dn_S dn_names st) dn_geo dw_h dw_t.
Proof.
  assert (L : forall x s, in_doc (dn_S dn_names st) dw_h dw_t x -> label true (dn_S dn_names st) dn_geo x = Some s ->
     (s = "arm" /\ x = TFrame (FBody 1) \/ s = "tip" /\ x = TFrame (FSub 0) \/ s = "cam" /\ x = TFrame (FMov 0) \/ s = "box" /\ x = TShape 0 \/ s = "ground.inertia" /\ x = TInertia 0 \/ s = "arm.inertia" /\ x = TInertia 1)%string).
  { intros [f | k | b] s J E.
    - destruct J as (J1 & J2 & J3). destruct f as [b | k | k].
      + cbn in J1, E. destruct J1 as [<- | [<- | []]]; [now destruct J3 | injection E as <-; auto 12].
      + cbn in J2, E. destruct J2 as [J2 | [J2 | []]]; try discriminate. injection J2 as <-. injection E as <-. auto 12.
      + cbn in J2, E. destruct J2 as [J2 | [J2 | []]]; try discriminate. injection J2 as <-. injection E as <-. auto 12.
    - destruct J as (J & _). cbn in J, E. destruct J as [<- | []]. injection E as <-. auto 12.
    - destruct J as (J & _). cbn in J. destruct J as [<- | [<- | []]]; cbn in E; injection E as <-; auto 12. }
  intros x y s Jx Jy Ex Ey _. apply (L _ _ Jx) in Ex. apply (L _ _ Jy) in Ey.
  destruct Ex as [(-> & ->) | [(-> & ->) | [(-> & ->) | [(-> & ->) | [(-> & ->) | (-> & ->)]]]]]; destruct Ey as [(Q & ->) | [(Q & ->) | [(Q & ->) | [(Q & ->) | [(Q & ->) | (Q & ->)]]]]]; first [reflexivity | discriminate Q].
Qed.
Lemma dn_body st nm b : In b (bodies dw_t) -> has_body (dn_S nm st) dw_t b.
Proof.
  intros Ib. split; [exact Ib | ]. cbn [dn_S ds_sc dw_sc b_mass]. unfold norm66. replace (sq3 (aa eye6) + sq3 (al eye6) + sq3 (la eye6) + sq3 (ll eye6)) with 6 by (unfold eye6, sq3; cbn; lra).
  apply Rlt_trans with 1; [lra | ]. rewrite <- sqrt_1 at 1. apply sqrt_lt_1; lra.
Qed.
(** the hypotheses of C81-C84 hold of this world, which has a shape, two bodies with inertia, a subframe off its body, and names *)
Example C81_witness : exists st cs, drawable_world (dn_S dn_names st) (fun _ _ => 1) dw_h dw_t 10 cs /\ writable one_eigvals one_eig (dn_S dn_names st) dn_geo dw_h dw_t (V3 0 1 0) /\ argsort_ok argsort0 /\
  distinct_names true (dn_S dn_names st) dn_geo dw_h dw_t /\ has_shape dw_e dw_h dw_t 0 /\ has_body (dn_S dn_names st) dw_t 1 /\ in_world dw_e dw_h dw_t (FSub 0) /\ 0 < norm3 (pos (sub_bpose dw_sc 0)).
Proof.
  destruct (dn_drawable dn_names) as (st & cs & _ & Dw). exists st, cs. split; [exact Dw | ]. split; [apply dn_writable; discriminate | ]. split; [apply argsort0_ok | ]. split; [apply dn_distinct | ].
  split; [split; cbn; auto | ]. split; [apply dn_body; cbn; auto | ]. split; [split; cbn; auto | ]. cbn. unfold norm3. unf. apply sqrt_lt_R0. lra.
Qed.

(** Finding: the Daenim driver gives an empty sid to every rigid_body, whatever the names of the bodies *)
Theorem C82_daenim_sid_refuted : forall argsort eigvals eig S geo flat g0 h t fuel up cs scale update, argsort_ok argsort -> drawable_world S g0 h t fuel cs ->
  writable eigvals eig S geo h t up ->
  exists D, dae_world argsort eigvals eig true S geo flat fuel h up cs scale update = Ok D /\ (forall r, In r (v_phys (da_drv D)) -> rb_sid r = ""%string) /\
    forall l, NoDup l -> (forall b, In b l <-> has_body S t b) -> length (v_phys (da_drv D)) = length l.
Proof.
  intros argsort eigvals eig S geo flat g0 h t fuel up cs scale update Ha Dw Wr.
  destruct (written argsort eigvals eig true S geo flat g0 h t fuel up cs scale update Ha Dw Wr) as (D & ED & _ & Ed & _).
  destruct (drawn S flat g0 h t fuel cs Dw) as (d & evs & Ed' & Ep & Ni & _ & _ & _ & _ & _ & Nb & Ib & _). rewrite Ed in Ed'. apply Ok_inj in Ed'. subst d.
  assert (Ph := phys_world argsort eigvals eig true S geo flat fuel h up cs scale update evs D Ep Ni ED). unfold phys_inv, phys_ok in Ph.
  exists D. split; [exact ED | ]. split.
  - intros r Hr. induction Ph as [ | b x l k Hx _ IH]; [destruct Hr | ]. destruct Hr as [-> | Hr]; [ | now apply IH]. unfold sid_of, rigid_of in Hx.
    destruct (principalframe _ _ _); [ | discriminate]. cbn [rbind] in Hx. destruct (transport _ _ _); [ | discriminate]. cbn [rbind] in Hx. destruct (rotzyx_angles _) as [((z, y), q) | ]; [ | discriminate]. cbn [rbind] in Hx. injection Hx as <-. reflexivity.
  - intros l Nl Il. assert (Lp : forall l k, Forall2 (fun b r => rigid_of eigvals eig (b_mass (ds_sc S) b) (sid_of true S b) = Ok r) l k -> length k = length l) by (induction 1; cbn; congruence). rewrite (Lp _ _ Ph).
    assert (Er : forall k, item_bodies (rev k) = rev (item_bodies k)).
    { unfold item_bodies. induction k as [ | (n, i) k IH]; cbn [rev flat_map]; [reflexivity | ]. rewrite flat_map_app, rev_app_distr, IH. cbn [flat_map]. rewrite app_nil_r. destruct i; reflexivity. }
    rewrite Er, rev_length. apply Permutation_length, NoDup_Permutation; [exact Nb | exact Nl | ]. intros b. rewrite Ib, Il. reflexivity.
Qed.
Print Assumptions C82_daenim_sid_refuted.

(** The vertical axis of the world, when it is x, y or z; finding: otherwise nothing is written (the code means to warn and take y) *)
Theorem C81_up : forall argsort eigvals eig daenim S geo flat fuel h up cs scale update D,
  dae_world argsort eigvals eig daenim S geo flat fuel h up cs scale update = Ok D -> up = match da_up D with X_UP => V3 1 0 0 | Y_UP => V3 0 1 0 | Z_UP => V3 0 0 1 end.
Proof.
  intros argsort eigvals eig daenim S geo flat fuel h up cs scale update D E. unfold dae_world in E. destruct (set_up_axis up) as [a | ] eqn:U; [ | discriminate]. cbn [rbind] in E.
  destruct (parse _ _ _) as [evs | ]; [ | discriminate]. cbn [rbind] in E.
  assert (Q : forall evs D0 D1, dae_events argsort eigvals eig daenim S geo flat evs D0 = Ok D1 -> da_up D1 = da_up D0).
  { clear. induction evs as [ | ev evs IH]; intros D0 D1 E; cbn [dae_events] in E; [now injection E as <- | ]. destruct (dae_event _ _ _ _ _ _ _ ev D0) as [D2 | ] eqn:E2; [ | discriminate]. cbn [rbind] in E. rewrite (IH _ _ E). unfold dae_event in E2.
    destruct (draw_event _ _ _ _); [ | discriminate]. cbn [rbind] in E2. destruct (number_nodes _ _ _ _). destruct (draw_items _ _ _ _ _ _ _ _ _) as [(its, v2) | ]; [ | discriminate]. cbn [rbind] in E2. injection E2 as <-. reflexivity. }
  rewrite (Q _ _ _ E). cbn [da_up]. unfold set_up_axis in U. destruct (v3eqb up (V3 1 0 0)) eqn:E0; [injection U as <-; now apply v3eqb_true | ]. destruct (v3eqb up (V3 0 1 0)) eqn:E1; [injection U as <-; now apply v3eqb_true | ]. destruct (v3eqb up (V3 0 0 1)) eqn:E2; [injection U as <-; now apply v3eqb_true | discriminate].
Qed.
Print Assumptions C81_up.
Theorem C81_up_refuted : forall argsort eigvals eig daenim S geo flat fuel h up cs scale update, up <> V3 1 0 0 -> up <> V3 0 1 0 -> up <> V3 0 0 1 ->
  dae_world argsort eigvals eig daenim S geo flat fuel h up cs scale update = Err TypeError.
Proof.
  intros argsort eigvals eig daenim S geo flat fuel h up cs scale update N0 N1 N2. unfold dae_world, set_up_axis.
  destruct (v3eqb up (V3 1 0 0)) eqn:E0; [apply v3eqb_true in E0; contradiction | ]. destruct (v3eqb up (V3 0 1 0)) eqn:E1; [apply v3eqb_true in E1; contradiction | ]. destruct (v3eqb up (V3 0 0 1)) eqn:E2; [apply v3eqb_true in E2; contradiction | ]. reflexivity.
Qed.
Print Assumptions C81_up_refuted.

(** Finding: a shape called "ground" gets the id of the ground node *)
Definition ground_named (o : obj) : option string := match o with OFrame (FBody 0) => Some "ground"%string | OFrame (FBody _) => Some "arm"%string | OShape _ => Some "ground"%string | _ => None end.
Theorem C84_ground_refuted : exists S g0 h t geo cs eigvals eig, drawable_world S g0 h t 10 cs /\ writable eigvals eig S geo h t (V3 0 1 0) /\
  forall argsort flat scale update, argsort_ok argsort ->
  exists D, dae_world argsort eigvals eig false S geo flat 10 h (V3 0 1 0) cs scale update = Ok D /\ node_id D 0 = Some "ground"%string /\ In "ground"%string (doc_ids D).
Proof.
  destruct (dn_drawable ground_named) as (st & cs & _ & Dw). exists (dn_S ground_named st), (fun _ _ => 1), dw_h, dw_t, dn_geo, cs, one_eigvals, one_eig. split; [exact Dw | ].
  assert (Wr : writable one_eigvals one_eig (dn_S ground_named st) dn_geo dw_h dw_t (V3 0 1 0)) by (apply dn_writable; discriminate). split; [exact Wr | ]. intros argsort flat scale update Ha.
  destruct (C84_ids argsort one_eigvals one_eig false (dn_S ground_named st) dn_geo flat _ dw_h dw_t 10 (V3 0 1 0) cs scale update Ha Dw Wr) as (D & ED & _ & _ & Ids).
  { assert (L : forall x s, in_doc (dn_S ground_named st) dw_h dw_t x -> label false (dn_S ground_named st) dn_geo x = Some s ->
      (s = "arm" /\ x = TFrame (FBody 1) \/ s = "ground" /\ x = TShape 0)%string).
    { intros [f | k | b] s J E.
      - destruct J as (J1 & J2 & J3). destruct f as [b | k | k]; cbn in J1, E; try discriminate. destruct J1 as [<- | [<- | []]]; [now destruct J3 | injection E as <-; auto].
      - destruct J as (J & _). cbn in J, E. destruct J as [<- | []]. injection E as <-. auto.
      - discriminate. }
    intros x y s Jx Jy Ex Ey _. apply (L _ _ Jx) in Ex. apply (L _ _ Jy) in Ey. destruct Ex as [(-> & ->) | (-> & ->)]; destruct Ey as [(Q & ->) | (Q & ->)]; first [reflexivity | discriminate Q]. }
  exists D. split; [exact ED | ]. split; [reflexivity | ]. apply Ids. exists (TShape 0). split; [split; cbn; auto | ]. split; [reflexivity | discriminate].
Qed.
Print Assumptions C84_ground_refuted.

(** Finding: the suffixes stop at _99.  More than 101 objects of the same name and the ids are no longer unique, whatever the rest of the world *)
Lemma try_in s used : forall k i cur, In cur (s :: map (suffixed s) (seq 0 i)) -> In (try_names s used i k cur) (s :: map (suffixed s) (seq 0 (i + k))).
Proof.
  induction k as [ | k IH]; intros i cur J; cbn [try_names]; [now rewrite Nat.add_0_r | ].
  assert (Q : In (suffixed s i) (s :: map (suffixed s) (seq 0 (Datatypes.S i)))) by (right; apply in_map, in_seq; lia). destruct (mem _ _).
  - replace (i + Datatypes.S k)%nat with (Datatypes.S i + k)%nat by lia. apply IH. exact Q.
  - right. apply in_map, in_seq. lia.
Qed.
Transparent new_name.
Lemma new_in s used : In (new_name s used) (s :: map (suffixed s) (seq 0 100)).
Proof. unfold new_name. destruct (mem _ _); [ | now left]. apply (try_in s used 100 0 s). now left. Qed.
Opaque new_name.
Lemma assign_same s l : s <> ""%string -> forall used ids u, assign l used = (ids, u) -> (101 < length (filter (fun o => match o with Some s' => String.eqb s s' | None => false end) l))%nat -> ~ NoDup (somes ids).
Proof.
  intros Ns used ids u E Lt Nd. pose (is := fun o : option string => match o with Some s' => String.eqb s s' | None => false end). change (fun o => match o with Some s' => String.eqb s s' | None => false end) with is in Lt.
  assert (X : exists k, (forall x, In x k -> In x (s :: map (suffixed s) (seq 0 100))) /\ length k = length (filter is l) /\ (NoDup (somes ids) -> NoDup k) /\ (forall x, In x k -> In x (somes ids))).
  { clear Nd Lt. revert used ids u E. induction l as [ | o l IH]; intros used ids u E; cbn [assign] in E; [injection E as <- <-; exists []; repeat split; [intros ? [] | constructor | intros ? []] | ].
    destruct (collada_id o used) as (i, u1) eqn:C. destruct (assign l u1) as (r, u2) eqn:A. injection E as <- <-. destruct (IH _ _ _ A) as (k & K1 & K2 & K3 & K4). cbn [filter]. change (i :: r) with ([i] ++ r). rewrite somes_app. destruct (is o) eqn:Io.
    - destruct o as [s' | ]; [ | discriminate]. cbn in Io. apply String.eqb_eq in Io. subst s'. unfold collada_id in C. destruct s as [ | c s]; [congruence | ]. injection C as <- <-. exists (new_name (String c s) used :: k). split; [intros x [<- | J]; [apply new_in | now apply K1] | ]. split; [cbn; now rewrite K2 | ]. split.
      + intros Nd. cbn in Nd. inversion Nd as [ | ? ? Na Nb]; subst. constructor; [intros J; apply Na; now apply K4 | now apply K3].
      + intros x [<- | J]; [now left | right; now apply K4].
    - exists k. split; [exact K1 | ]. split; [exact K2 | ]. split; [intros Nd; apply K3; apply Proof_Tree.NoDup_app_iff in Nd; tauto | intros x J; apply in_or_app; right; now apply K4]. }
  destruct X as (k & K1 & K2 & K3 & _). assert (Q := NoDup_incl_length (K3 Nd) K1). cbn [length] in Q. rewrite map_length, seq_length in Q. lia.
Qed.
(** Whatever the world, if more than 101 of its boxes, planes and cylinders share a name, then two nodes share an id *)
Theorem C84_ids_refuted : forall argsort eigvals eig daenim S geo flat g0 h t fuel up cs scale update s l, argsort_ok argsort -> drawable_world S g0 h t fuel cs ->
  writable eigvals eig S geo h t up -> s <> ""%string -> NoDup l -> (101 < length l)%nat -> (forall k, In k l -> has_shape (ds_e S) h t k /\ label daenim S geo (TShape k) = Some s) ->
  exists D, dae_world argsort eigvals eig daenim S geo flat fuel h up cs scale update = Ok D /\ ~ NoDup (doc_ids D).
Proof.
  intros argsort eigvals eig daenim S geo flat g0 h t fuel up cs scale update s l Ha Dw Wr Ns Nl Lt Sh.
  destruct (written argsort eigvals eig daenim S geo flat g0 h t fuel up cs scale update Ha Dw Wr) as (D & ED & In0 & Ed & _). exists D. split; [exact ED | ].
  destruct (drawn S flat g0 h t fuel cs Dw) as (d & evs & Ed' & _ & _ & Po & Fr & Nsh & Is & _ & Nb & Ib & _ & DI). rewrite Ed in Ed'. apply Ok_inj in Ed'. subst d.
  destruct In0 as (NL & IL & L & En & Ei & Et & Ej & _ & As & Pm).
  intros Nd. assert (PD : Permutation (doc_ids D) (somes (map snd L))).
  { unfold doc_ids. rewrite Ej, somes_inst, Ei. apply (Permutation_map snd) in Pm. apply somes_perm in Pm. rewrite Pm, map_app, somes_app, !map_map. cbn [snd]. reflexivity. }
  apply (Permutation_NoDup PD) in Nd. revert Nd. apply (assign_same s (map fst L) Ns [] _ _ As). pose (is := fun o : option string => match o with Some s' => String.eqb s s' | None => false end). change (fun o => match o with Some s' => String.eqb s s' | None => false end) with is.
  apply (Permutation_map fst) in Pm. assert (Fl : forall a b : list (option string), Permutation a b -> Permutation (filter is a) (filter is b)).
  { clear. induction 1 as [ | x a b _ IH | x y a | a b c _ IH1 _ IH2]; cbn; [constructor | destruct (is x); [now constructor | exact IH] | destruct (is x), (is y); try reflexivity; constructor | now transitivity (filter is b)]. }
  rewrite (Permutation_length (Fl _ _ Pm)), map_app, filter_app, app_length, !map_map. cbn [fst].
  assert (C : (length l <= length (filter is (map (fun z : nat * item * option dnode => item_name daenim S geo (snd (fst z))) IL)))%nat); [ | lia].
  assert (Em : map (fun z : nat * item * option dnode => item_name daenim S geo (snd (fst z))) IL = map (fun z : nat * item => item_name daenim S geo (snd z)) (d_items (da_draw D))) by (rewrite Et, map_map; reflexivity). rewrite Em. clear Em.
  assert (In1 : incl l (filter (fun k => is (label daenim S geo (TShape k))) (item_shapes (d_items (da_draw D))))).
  { intros k Hk. destruct (Sh k Hk) as (A & B). apply filter_In. split; [now apply Is | ]. rewrite B. cbn. apply String.eqb_refl. }
  apply (NoDup_incl_length Nl) in In1. eapply Nat.le_trans; [exact In1 | ]. clear. induction (d_items (da_draw D)) as [ | (n, i) its IH]; [cbn; lia | ]; unfold item_shapes in *; cbn [flat_map map filter snd]. rewrite filter_app, app_length.
  destruct i as [ | p c | b c | k c]; cbn [filter length app Nat.add]; cbn [item_name] in *.
  1-3: match goal with |- (_ <= length (if ?b then _ else _))%nat => destruct b end; cbn [length]; lia.
  change (label daenim S geo (TShape k)) with (match geo k with Sphere _ | Point => None | _ => ds_nm S (OShape k) end). destruct (is _); cbn [length]; lia.
Qed.
Print Assumptions C84_ids_refuted.

(** such a world exists: 102 boxes called "a" on the same frame *)
Definition cw_ops : list (@op R) := AddLink (FBody 0) 1 (FSub 0) :: Init :: map (fun k => Register (OShape k)) (seq 0 102).
Definition cw_h : @heap R := run 0 dw_e 10 cw_ops (fresh dw_e (fun _ _ => 1)).
Lemma run_registers l : forall h, reachable 0 dw_e (fun _ _ => 1) h -> reachable 0 dw_e (fun _ _ => 1) (run 0 dw_e 10 (map (fun k => Register (OShape k)) l) h).
Proof. induction l as [ | k l IH]; intros h Hr; cbn [map run fold_left]; [exact Hr | ]. apply IH. constructor; [exact Hr | exact Logic.I]. Qed.
Lemma cw_reachable : reachable 0 dw_e (fun _ _ => 1) cw_h.
Proof.
  unfold cw_h, cw_ops. change (run 0 dw_e 10 (?a :: ?b :: ?l) ?h) with (run 0 dw_e 10 l (fst (step 0 dw_e 10 (fst (step 0 dw_e 10 h a)) b))). apply run_registers.
  constructor; [ | exact Logic.I]. constructor; [constructor | ]. cbn [admissible]. intros B. cbn [frame_body] in B. inversion B as [ | ? ? ? ? ? Ij]; subst. cbn in Ij. contradiction.
Qed.
Lemma cw_ready : ready dw_e cw_h dw_t.
Proof. unfold dw_t. ch_ready. Qed.
Definition cw_names (o : obj) : option string := match o with OFrame (FBody 0) => Some "ground"%string | OFrame (FBody _) => Some "arm"%string | OShape _ => Some "a"%string | _ => None end.
Lemma cw_state : exists st, world_update_geometric dw_e dw_sc cw_h (dw_J 2) 10 (fun _ => no_attr) = Ok st.
Proof. destruct (C39_poses dw_e dw_sc cw_h dw_t (dw_J 2) 10 (fun _ => no_attr) cw_ready (dw_rigid 2) ltac:(cbn; lia)) as (sg & sd & dd & Ug & _). now exists sg. Qed.
Example C84_ids_witness : exists st cs, drawable_world (dn_S cw_names st) (fun _ _ => 1) cw_h dw_t 10 cs /\ writable one_eigvals one_eig (dn_S cw_names st) dn_geo cw_h dw_t (V3 0 1 0) /\
  exists l, NoDup l /\ (101 < length l)%nat /\ forall k, In k l -> has_shape dw_e cw_h dw_t k /\ label true (dn_S cw_names st) dn_geo (TShape k) = Some "a"%string.
Proof.
  destruct cw_state as (st & Us). destruct (new_ok [] 1%nat ltac:(constructor)) as (cs & Ec & _). exists st, cs. split; [ | split].
  - split; [exact cw_reachable | ]. split; [exact cw_ready | ]. split; [exact (dw_rigid 2) | ]. split; [cbn; lia | ]. split; [exists [], 1%nat; exact Ec | ].
    split; [intros j f0 k Ij; cbn in Ij; destruct Ij as [<- | []]; discriminate | ]. split; [reflexivity | ]. split; [exact inv4_rigid | ]. exists (fun _ => no_attr). exact Us.
  - split; [right; left; reflexivity | ]. split; [intros s _; cbn; lra | ]. intros b (Ib & _). split; [exists 1, zero3, eye3; exact eye6_inertia | ]. cbn in Ib. destruct Ib as [<- | [<- | []]]; discriminate.
  - exists (seq 0 102). split; [apply seq_NoDup | ]. split; [rewrite seq_length; lia | ]. intros k Hk. split; [ | reflexivity]. split; [ | right; left; reflexivity].
    replace (w_shapes cw_h) with (seq 0 102) by (symmetry; vm_compute; reflexivity). exact Hk.
Qed.
