(** C62: prefixes, witnesses; C66: optional elements. *)
From Coq Require Import Lra Lia Classical_Prop.
From Verif Require Import Spec_Urdf Spec_Dyn.
From Verif Require Import Proof_Linalg Proof_SE3 Proof_Tree Proof_World Proof_World2 Proof_World3 Proof_Register Proof_Dofs Proof_World4 Proof_Robots2 Props_Robots2 Proof_Urdf Proof_Urdf2 Proof_Urdf3 Props_Urdf Props_Urdf2.
Open Scope R_scope.

Lemma slen_app a b : String.length (a ++ b)%string = (String.length a + String.length b)%nat.
Proof. induction a; cbn; auto. Qed.
Lemma shortest (l : list string) : l <> [] -> exists x, In x l /\ forall y, In y l -> (String.length x <= String.length y)%nat.
Proof.
  induction l as [ | a l IH]; [congruence | intros _]. destruct l as [ | b l]; [exists a; split; [now left | intros y [<- | []]; lia] | ]. destruct (IH ltac:(discriminate)) as (x & Hx & Hm). destruct (Nat.le_gt_cases (String.length a) (String.length x)) as [L | L].
  - exists a. split; [now left | ]. intros y [<- | Hy]; [lia | ]. specialize (Hm y Hy). lia.
  - exists x. split; [now right | ]. intros y [<- | Hy]; [lia | auto].
Qed.

(** As soon as a prefix or a suffix is asked for, no robot can be loaded: the bodies are looked up by the bare names of their links, and
    the call ends with a KeyError whatever the robot and the names (in the middle of the work: the world has already changed). *)
Theorem C62_prefix_refuted : forall e g0 h eigvals argsort fuel I o rb h' cr r,
  reachable 0 e g0 h -> eigs_ok eigvals -> argsort_ok argsort -> unew I h e -> loadable rb -> (o_prefix o <> ""%string \/ o_suffix o <> ""%string) ->
  load_in_world e eigvals argsort fuel I o (Some rb) h = (h', cr, r) -> (forall c, In c cr -> uknown e h c) -> r = Err KeyError.
Proof.
  intros e g0 h eigvals argsort fuel I o rb h' cr r R Ev Ha (Ib & Iu & Iur & Fb & Fj & Fr) (T & Ll & Lj) Pn E Kn. unfold load_in_world in E.
  destruct (link_loop_ok e g0 eigvals I o Ev (r_links rb) 0 [] h [] R Ll) as (h1 & E1 & R1 & G1 & V1). cbn [app] in E1. rewrite E1 in E. set (d := dict_of I o 0 (r_links rb) []) in *.
  assert (Lg : forall n, (String.length n < String.length (decorate o n))%nat).
  { intros n. unfold decorate. rewrite !slen_app. assert (X : forall s, s <> ""%string -> (0 < String.length s)%nat) by (intros [ | c s]; cbn; [congruence | lia]). destruct Pn as [P | P]; apply X in P; lia. }
  destruct (tr_root rb T) as (rt & Rn). change (root_name rb rt) in Rn. assert (Gr := get_root_ok rb rt T Rn).
  destruct (shortest (map fst (r_links rb))) as (x & Ix & Mx); [intros Q; destruct Rn as (Rn & _); rewrite Q in Rn; destruct Rn | ].
  assert (Lx : lookup x d = Err KeyError).
  { apply lookup_none; [ | reflexivity]. intros n u Hn Q. specialize (Lg n). specialize (Mx n (in_map fst _ _ Hn)). rewrite Q in Lg. lia. }
  destruct (joint_loop e argsort I o d 0 (r_joints rb) h1 (links_cr I 0 (r_links rb))) as ((h2, c2), r2) eqn:E2.
  assert (Kn2 : forall y, In y c2 -> uknown e h y).
  { intros y Hy. apply Kn. destruct r2; [ | injection E as _ <- _; exact Hy]. destruct (root_step e fuel I o rb d h2) as ((h3, c3), r3). injection E as _ <- _. apply in_or_app. now left. }
  destruct (joint_loop_err e g0 argsort I o Ha d h h (fun b => exists m, b = ub I m) ltac:(intros b (m & ->); apply Fb)) with (l := r_joints rb) (k := 0%nat) (Lk0 := @nil link) (cr0 := links_cr I 0 (r_links rb)) (h := h1) (h2 := h2) (cr := c2) (r := r2) as [Q | (Q1 & Q2)].
  - intros y b H. apply dict_inv in H. destruct H as (m & n & u & _ & _ & ->). eauto.
  - intros y z b. apply (dict_inj I o rb Ib).
  - exact Fj.
  - exact Iu.
  - exact Lj.
  - apply T.
  - apply linked_all_nil; assumption.
  - intros y [].
  - exact E2.
  - exact Kn2.
  - subst r2. injection E as _ _ <-. reflexivity.
  - subst r2. assert (Ex : x = rt).
    { destruct (string_dec x rt) as [ | D]; [assumption | exfalso]. destruct (proj2 (proj2 Rn) x Ix D) as (n & j & Hj & Q). destruct (Q2 n j Hj) as (b & Hb). rewrite Q, Lx in Hb. discriminate. }
    assert (Er : root_step e fuel I o rb d h2 = (h2, [], Err KeyError)) by (unfold root_step; rewrite Gr; cbn [rbind]; rewrite <- Ex, Lx; reflexivity).
    rewrite Er in E. injection E as _ _ <-. reflexivity.
Qed.
Print Assumptions C62_prefix_refuted.

(** ** Optional elements *)
Lemma to_joint_err argsort j : uj_axis j = None \/ uj_kind j = Continuous \/ uj_kind j = Planar \/ ~ complete_pose (uj_origin j) \/
  ((uj_kind j = Revolute \/ uj_kind j = Prismatic) /\ exists w, uj_axis j = Some (AxWord w) /\ w <> "x"%string /\ w <> "X"%string) -> forall t, to_joint argsort j <> Ok t.
Proof.
  intros H t. unfold to_joint. assert (Ep : (exists E, to_pose (uj_origin j) = Err E) \/ complete_pose (uj_origin j)).
  { destruct (uj_origin j) as [[[v | ] [w | ]] | ]; cbn; try (left; eexists; reflexivity); right; auto; split; discriminate. }
  destruct Ep as [(x & ->) | Cp]; [discriminate | ]. destruct (to_pose (uj_origin j)); [ | discriminate]. cbn [rbind]. destruct (uj_axis j) as [ax | ]; [ | discriminate].
  destruct H as [H | [-> | [-> | [H | (K & w & Ew & N1 & N2)]]]]; [discriminate | destruct ax; discriminate | destruct ax; discriminate | contradiction | ]. injection Ew as ->. assert (A : along (AxWord w) "x" "X" (V3 1 0 0) = Err TypeError). { cbn [along]. destruct (String.eqb_spec w "x"); [contradiction | ]. destruct (String.eqb_spec w "X"); [contradiction | ]. reflexivity. }
  rewrite A. cbn [rbind]. destruct K as [-> | ->]; discriminate.
Qed.
Lemma joint_loop_inv e argsort I o d : forall l k h cr0 h2 cr u, joint_loop e argsort I o d k l h cr0 = (h2, cr, Ok u) -> forall n j, In (n, j) l -> (exists t, to_joint argsort j = Ok t) /\ (o_save_limits o = true -> uj_kind j = Revolute \/ uj_kind j = Prismatic -> uj_limits j <> None).
Proof.
  induction l as [ | (n0, j0) l IH]; intros k h cr0 h2 cr u E n j Hj; [destruct Hj | ]. cbn [joint_loop] in E. destruct (joint_step e argsort I o d k j0 h) as ((h1, c), [v | ]) eqn:Es; [ | discriminate].
  destruct Hj as [Q | Hj]; [injection Q as -> -> | exact (IH _ _ _ _ _ _ E n j Hj)]. unfold joint_step in Es. destruct (to_joint argsort j) as [t | ]; cbn [rbind] in Es; [ | discriminate]. split; [eauto | ]. intros Sv K Q.
  destruct (lookup (uj_parent j) d) as [p | ]; cbn [rbind] in Es; [ | discriminate]. destruct (lookup (uj_child j) d) as [b | ]; cbn [rbind] in Es; [ | discriminate]. destruct t as ((ty, H), Z). destruct (joint_frames I k p b H Z) as [((f0, f1), c1) | ]; cbn [rbind] in Es; [ | discriminate].
  destruct (add_link e _ h) as (h3, [w | ]); [ | discriminate]. unfold limits_step in Es. rewrite Sv, Q in Es. destruct K as [K | K]; rewrite K in Es; discriminate.
Qed.
Lemma link_loop_inv e eigvals I o : forall l i d h cr0 h2 cr u, link_loop e eigvals I o i l d h cr0 = (h2, cr, Ok u) -> forall n x, In (n, x) l ->
  (match ul_inertial x with Some y => complete_pose (ui_origin y) | None => True end) /\ match ul_collision x with Some (g, p) => g <> GMesh true /\ g <> GNone /\ complete_pose p | None => True end.
Proof.
  assert (Ep : forall p, (exists E, to_pose p = Err E) \/ complete_pose p). { intros [[[v | ] [w | ]] | ]; cbn; try (left; eexists; reflexivity); right; auto; split; discriminate. }
  induction l as [ | (n0, x0) l IH]; intros i d h cr0 h2 cr u E n x Hx; [destruct Hx | ]. cbn [link_loop] in E. destruct (link_step e eigvals I i x0 h) as ((h1, c), [v | ]) eqn:Es; [ | discriminate].
  destruct Hx as [Q | Hx]; [injection Q as -> -> | exact (IH _ _ _ _ _ _ _ E n x Hx)]. unfold link_step in Es. destruct (to_mass eigvals (ul_inertial x)) as [M | ] eqn:Em; [ | discriminate]. split.
  - destruct (ul_inertial x) as [y | ]; [ | exact Logic.I]. destruct (Ep (ui_origin y)) as [(z & Q) | ]; [ | assumption]. unfold to_mass in Em. rewrite Q in Em. discriminate.
  - destruct (ul_collision x) as [(g, p) | ]; [ | exact Logic.I]. destruct g as [[ | ] | | | | ]; [discriminate Es | ..]; (destruct (to_pose p) as [Hp | ] eqn:Tp; [ | discriminate Es]); try discriminate Es; (split; [discriminate | split; [discriminate | ]]);
    (destruct (Ep p) as [(z & Q) | Cp]; [rewrite Q in Tp; discriminate | exact Cp]).
Qed.
(** What the URDF format leaves optional is required here: a file with a joint without axis (even a fixed one), a continuous or planar
    joint, an axis written y or z, a revolute or prismatic joint without limits (when they are kept), or an origin giving only a
    position or only angles, a collision mesh with a scale, or a collision without geometry, is never loaded. *)
Theorem C66_optional_refuted : forall e eigvals argsort fuel I o rb h,
  ((exists n j, In (n, j) (r_joints rb) /\ (uj_axis j = None \/ uj_kind j = Continuous \/ uj_kind j = Planar \/ ~ complete_pose (uj_origin j) \/
      ((uj_kind j = Revolute \/ uj_kind j = Prismatic) /\ ((exists w, uj_axis j = Some (AxWord w) /\ w <> "x"%string /\ w <> "X"%string) \/ (o_save_limits o = true /\ uj_limits j = None))))) \/
   (exists n l, In (n, l) (r_links rb) /\ ((exists i, ul_inertial l = Some i /\ ~ complete_pose (ui_origin i)) \/ (exists g p, ul_collision l = Some (g, p) /\ (g = GMesh true \/ g = GNone \/ ~ complete_pose p))))) ->
  forall h' cr u, load_in_world e eigvals argsort fuel I o (Some rb) h <> (h', cr, Ok u).
Proof.
  intros e eigvals argsort fuel I o rb h H h' cr u E. unfold load_in_world in E. destruct (link_loop e eigvals I o 0 (r_links rb) [] h []) as ((h1, c1), [d | ]) eqn:E1; [ | discriminate]. destruct (joint_loop e argsort I o d 0 (r_joints rb) h1 c1) as ((h2, c2), [v | ]) eqn:E2; [ | discriminate]. clear E.
  destruct H as [(n & j & Hj & H) | (n & l & Hl & H)].
  - destruct (joint_loop_inv e argsort I o d _ _ _ _ _ _ _ E2 n j Hj) as ((t & Et) & Lm). destruct H as [H | [H | [H | [H | (K & [H | (Sv & H)])]]]]; try (eapply (to_joint_err argsort j); [ | exact Et]; tauto).
  - destruct (link_loop_inv e eigvals I o _ _ _ _ _ _ _ _ E1 n l Hl) as (A & B). destruct H as [(i & Ei & H) | (g & p & Eg & H)]; [rewrite Ei in A; auto | rewrite Eg in B; destruct B as (B1 & B2 & B3); destruct H as [H | [H | H]]; auto].
Qed.
Print Assumptions C66_optional_refuted.

(** ** Witnesses *)
Definition ur_I : uids := UIds S (fun i => 4 * i)%nat (fun i => i) S (fun k => 4 * k + 1)%nat (fun k => 4 * k + 2)%nat (fun k => k) 0 3.
Definition ur_body (rb : robot) (n : string) : nat := match lookup n (dict_of ur_I (Options None false "" "" false) 0 (r_links rb) []) with Ok b => b | _ => 0%nat end.
Definition ur_sub (rb : robot) (s : nat) : nat :=
  match (s mod 4)%nat with
  | 0%nat => S (s / 4)
  | 1%nat => match nth_error (r_joints rb) (s / 4) with Some (_, j) => ur_body rb (uj_parent j) | None => 0%nat end
  | 2%nat => match nth_error (r_joints rb) (s / 4) with Some (_, j) => ur_body rb (uj_child j) | None => 0%nat end
  | _ => 0%nat
  end.
Definition ur_e (rb : robot) (o : options) : env :=
  Env 0 (ur_sub rb) (fun _ => 0%nat) (fun s => FSub (4 * s)) (fun _ => [])
      (fun j => match j with 0%nat => if o_fixed_base o then 0%nat else 6%nat | S k => match nth_error (r_joints rb) k with Some (_, j) => udof j | None => 0%nat end end).
Lemma div4 k r : (r < 4)%nat -> ((4 * k + r) / 4 = k /\ (4 * k + r) mod 4 = r)%nat.
Proof. intros Hr. split; [symmetry; apply Nat.div_unique with r; lia | symmetry; apply Nat.mod_unique with k; lia]. Qed.
Lemma argsort_exists : exists argsort, argsort_ok argsort.
Proof.
  exists (fun u => if Rle_dec (vx u) (vy u) then (if Rle_dec (vy u) (vz u) then (0, 1, 2) else if Rle_dec (vx u) (vz u) then (0, 2, 1) else (2, 0, 1))
                   else (if Rle_dec (vx u) (vz u) then (1, 0, 2) else if Rle_dec (vy u) (vz u) then (1, 2, 0) else (2, 1, 0)))%nat.
  intros (x, y, z). cbn [vx vy vz]. destruct (Rle_dec x y), (Rle_dec y z), (Rle_dec x z); cbn [Props_Angles.is_argsort In axis vx vy vz]; split; try (split; lra); auto 10.
Qed.
Lemma ur_body_named rb o n b : o_prefix o = ""%string -> o_suffix o = ""%string -> loadable rb -> body_named rb ur_I n b -> ur_body rb n = b.
Proof.
  intros Pr Su L (i & l & E & ->). unfold ur_body. erewrite lookup_some; [reflexivity | | exact E | ].
  - rewrite (map_ext _ fst); [apply L | ]. intros (a, c). unfold decorate. cbn [o_prefix o_suffix fst append]. now induction a; cbn; f_equal.
  - unfold decorate. cbn [o_prefix o_suffix append]. clear. induction n; cbn; congruence.
Qed.

(** C62 is not vacuous: every loadable robot is loaded in a new world, with no prefix and no suffix, all the hypotheses being met. *)
Theorem C62_witness : forall rb o, loadable rb -> o_prefix o = ""%string -> o_suffix o = ""%string -> (forall H, o_H_init o = Some H -> SE3 H) ->
  let e := ur_e rb o in let g0 := fun _ _ => 0 in let h := fresh e g0 in
  exists eigvals argsort cr h' t', eigs_ok eigvals /\ argsort_ok argsort /\ reachable 0 e g0 h /\ unew ur_I h e /\ urdf_objects e ur_I o rb cr /\
    (forall c, In c cr -> uknown e h c) /\ load_in_world e eigvals argsort (S (S (length (r_links rb)))) ur_I o (Some rb) h = (h', cr, Ok tt) /\ ready e h' t' /\
    (forall b, In b (bodies t') <-> b = 0%nat \/ exists n, body_named rb ur_I n b) /\
    w_ndof h' = ((if o_fixed_base o then 0 else 6) + list_sum (map (fun x => udof (snd x)) (r_joints rb)))%nat.
Proof.
  intros rb o L Pr Su HI e g0 h. destruct eigs_exist as (eigvals & Ev). destruct argsort_exists as (argsort & Ha). assert (R : reachable 0 e g0 h) by constructor.
  assert (Un : unew ur_I h e).
  { split; [intros k l E; now injection E | ]. split; [intros k l E; now injection E | ]. split; [intros k; discriminate | ]. split; [intros k; split; [discriminate | split; reflexivity] | ]. split; reflexivity. }
  destruct (C62_load e g0 h eigvals argsort ur_I o rb R Ev Ha Un L Pr Su HI) as (t & cr & Rt & Er & Ob & X).
  assert (Rt0 : rep e h (Node 0 [])) by (constructor; [reflexivity | constructor]). assert (Q := rep_unique e h _ _ Rt Rt0 Er). subst t.
  assert (Rep : forall n, map (fun _ : nat => 0) (seq 0 n) = repeat 0 n) by (intros n; generalize 0%nat; induction n; intros; cbn; f_equal; auto).
  assert (Kn : forall c, In c cr -> uknown e h c).
  { intros [b M | u ty | s b H | s f g | c u lo up] Hc; cbn [uknown]; [exact Logic.I | | | | reflexivity].
    - assert (Q : jndof e u = ndof_of ty).
      { apply (uo_joint _ _ _ _ _ Ob) in Hc. destruct Hc as [(-> & ->) | (k & n & j & Ek & -> & ->)]; [unfold e; cbn; destruct (o_fixed_base o); reflexivity | ]. cbn. now rewrite Ek. }
      split; [exact Q | ]. rewrite <- Q, <- Rep. unfold joint_gvel, read, h. cbn [fresh arr jgvel v_arr v_start v_len skipn]. rewrite firstn_all2; [reflexivity | rewrite map_length, seq_length; lia].
    - apply (uo_sub _ _ _ _ _ Ob) in Hc. unfold e. cbn [sub_body ur_e]. unfold ur_sub. destruct Hc as [(i & n & l & g & p & _ & _ & -> & -> & _) | [(k & n & j & Ek & [(-> & Nb) | (-> & Nb)]) | (-> & -> & _)]]; cbn [ucf upf ukf uinit ur_I].
      + destruct (div4 i 0 ltac:(lia)) as (D1 & D2). rewrite Nat.add_0_r in D1, D2. rewrite D2, D1. reflexivity.
      + destruct (div4 k 1 ltac:(lia)) as (D1 & D2). rewrite D2, D1, Ek. now apply (ur_body_named rb o).
      + destruct (div4 k 2 ltac:(lia)) as (D1 & D2). rewrite D2, D1, Ek. now apply (ur_body_named rb o).
      + reflexivity.
    - apply (uo_shape _ _ _ _ _ Ob) in Hc. destruct Hc as (i & n & l & g' & p & _ & _ & _ & -> & -> & _). reflexivity. }
  destruct (X Kn (S (S (length (r_links rb)))) ltac:(cbn; lia)) as (h' & t' & E & _ & Rd & Bd & Nd & _). exists eigvals, argsort, cr, h', t'. do 8 (split; [assumption | ]). split; [ | exact Nd]. intros b. rewrite Bd. cbn [bodies In]. split; (intros [H | H]; [left | right; exact H]); [destruct H as [H | []]; auto | auto].
Qed.
Print Assumptions C62_witness.

(** a concrete robot: a base, an arm turning about a slanted axis, a hand sliding along x, written in any order *)
Definition ur_file : list element :=
  [EJointOf "wrist" (UJoint "arm" "hand" Prismatic (Some (AxVec (V3 1 0 0))) None (Some (Some (-1), Some 1)));
   ELinkOf "hand" (ULink None None);
   ELinkOf "base" (ULink (Some (UInertial 2 None 1 1 1 0 0 0)) (Some (GBox (V3 1 2 3), Some (UPose (Some (V3 0 0 1)) (Some (V3 0 0 0))))));
   EJointOf "shoulder" (UJoint "base" "arm" Revolute (Some (AxVec (V3 0 (3 / 5) (4 / 5)))) (Some (UPose (Some (V3 0 0 2)) (Some (V3 0 1 0)))) (Some (None, Some 3)));
   ELinkOf "arm" (ULink (Some (UInertial 0 None 0 2 3 0 0 0)) (Some (GMesh false, None)))].
Definition ur_rank (n : string) : nat := if String.eqb n "base" then 0 else if String.eqb n "arm" then 1 else 2.
Lemma ur_tree : tree_file ur_file.
Proof.
  constructor.
  - cbn. repeat constructor; cbn; intuition discriminate.
  - cbn. repeat constructor; cbn; intuition discriminate.
  - cbn [ur_file In]. intros n j H. repeat (destruct H as [H | H]; [try discriminate; injection H as <- <-; cbn [uj_parent]; eexists; repeat ((left; reflexivity) || right) | ]). destruct H.
  - cbn [ur_file In]. intros n j H. repeat (destruct H as [H | H]; [try discriminate; injection H as <- <-; cbn [uj_child]; eexists; repeat ((left; reflexivity) || right) | ]). destruct H.
  - cbn. repeat constructor; cbn; intuition discriminate.
  - exists ur_rank. cbn [ur_file In]. intros n j H. repeat (destruct H as [H | H]; [try discriminate; injection H as <- <-; cbn; lia | ]). destruct H.
  - exists "base"%string. eexists. split; [cbn [ur_file In]; right; right; left; reflexivity | ]. split.
    + cbn [ur_file In]. intros n j H. repeat (destruct H as [H | H]; [try discriminate; injection H as <- <-; cbn; discriminate | ]). destruct H.
    + cbn [ur_file In]. intros x u H D. repeat (destruct H as [H | H]; [try discriminate; injection H as <- <- | ]); [ | congruence | | destruct H]; do 2 eexists.
      * split; [left; reflexivity | reflexivity].
      * split; [right; right; right; left; reflexivity | reflexivity].
Qed.
Example C62_robot : loadable (parse_urdf ur_file).
Proof.
  destruct (C67_parse ur_file ur_tree) as (T & IL & IJ). split; [exact T | ]. split.
  - intros n l H. apply IL in H. cbn [ur_file In] in H. assert (P : forall a b c, 0 < a -> 0 < b -> 0 < c -> forall u, u <> zero3 -> 0 < dot3 u (mv (M3 a 0 0 0 b 0 0 0 c) u)).
    { intros a b c A B C (x, y, z) N. unfold dot3, mv. cbn. destruct (Req_dec x 0) as [-> | X]; [destruct (Req_dec y 0) as [-> | Y]; [destruct (Req_dec z 0) as [-> | Z]; [now elim N | ] | ] | ].
      - assert (0 < z * z) by nra. nra.
      - assert (0 < y * y) by nra. assert (0 <= z * z) by nra. nra.
      - assert (0 < x * x) by nra. assert (0 <= y * y) by nra. assert (0 <= z * z) by nra. assert (0 < a * (x * x)) by nra. assert (0 <= b * (y * y)) by nra. assert (0 <= c * (z * z)) by nra. lra. }
    assert (M : forall x, 0 < Rmax (1 / 1000000) x) by (intros x; assert (X := Rmax_l (1 / 1000000) x); lra).
    repeat (destruct H as [H | H]; [try discriminate; injection H as <- <-; split; cbn; auto | ]).
    + split; [discriminate | split; [discriminate | split; discriminate]].
    + split; [discriminate | split; [discriminate | exact Logic.I]].
    + destruct H.
  - intros n j H. apply IJ in H. cbn [ur_file In] in H. repeat (destruct H as [H | H]; [try discriminate; injection H as <- <- | ]); [ | | destruct H].
    + split; [exact Logic.I | ]. cbn. split; [discriminate | ]. eexists. split; [reflexivity | ]. split; [ | left; now left]. unfold norm3, dot3. cbn; transitivity (sqrt 1); [f_equal; lra | apply sqrt_1].
    + split; [split; discriminate | ]. cbn. split; [discriminate | ]. eexists. split; [reflexivity | ]. split; [unfold norm3, dot3; cbn; transitivity (sqrt 1); [f_equal; lra | apply sqrt_1] | ]. right. unfold allclose, allclose1. cbn [vx vy vz].
      assert (F : forall a b, b < a -> Rleb a b = false) by (intros a b Q; unfold Rleb; destruct (Rle_dec a b); [lra | reflexivity]).
      split; [rewrite (F (Rabs (0 - 1))); [reflexivity | ] | split; [rewrite (F (Rabs (3 / 5 - 1))) | rewrite (F (Rabs (3 / 5 - 0)))]; [ apply andb_false_r | | apply andb_false_r | ]].
      all: unfold Rabs; repeat destruct Rcase_abs; lra.
Qed.
Print Assumptions C62_robot.
