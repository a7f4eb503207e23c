(** C47, C61: gravity and the energy observer. *)
From Verif Require Import Spec_Ctl Proof_Tree Proof_World Proof_Dofs Proof_Linalg Proof_Deriv Proof_SE3 Proof_Joints Proof_Dyn Proof_Dyn2 Proof_Matrix Proof_Step Proof_Mass.
From Verif Require Import Props_World Props_Dyn Props_DynEx Props_Mass Props_Step Proof_Ctl.
From Coq Require Import Lra.

(** position in the ground frame of the point [c] of a body at pose [P] *)
Definition point_at (P : m4) (c : v3) : v3 := vadd (mv (rot P) c) (pos P).

Lemma point_deriv P s T c : dm4 P s (mm4 (P s) (hat T)) -> SE3 (P s) ->
  dv3 (fun u => point_at (P u) c) s (mv (rot (P s)) (vadd (cross (ang T) c) (lin T))).
Proof.
  intros (DR & Dp & _ & _) S. unfold point_at.
  assert (X := dv3_add s _ _ _ _ (dv3_mv s _ _ _ _ DR (dv3_const s c)) Dp). cbv beta in X.
  match type of X with dv3 _ _ ?d => replace (mv (rot (P s)) (vadd (cross (ang T) c) (lin T))) with d; [exact X | ] end.
  clear X DR Dp. generalize (P s). clear. generalize T c. lin.
Qed.
(** power of the weight of a rigid body *)
Lemma weight_power P T m c I0 g : SE3 P ->
  dot6 T (mv6 (rigid_mass m c I0) (mv6 (iadjoint_ P) (V6 zero3 g))) = m * dot3 g (mv (rot P) (vadd (cross (ang T) c) (lin T))).
Proof.
  intros _. replace (mv6 (iadjoint_ P) (V6 zero3 g)) with (V6 zero3 (mv (tr (rot P)) g)).
  - destruct P as [[r1 r2 r3 r4 r5 r6 r7 r8 r9] [p1 p2 p3] b h]. destruct T as [[a1 a2 a3] [l1 l2 l3]], c as [c1 c2 c3], g as [g1 g2 g3], I0.
    unfold rigid_mass. cbn [rot]. unf. ring.
  - destruct P as [[r1 r2 r3 r4 r5 r6 r7 r8 r9] [p1 p2 p3] b h], g as [g1 g2 g3]. unfold iadjoint_. unf. entries; ring.
Qed.

Lemma wc_loop_ok sc st g t (P : nat -> m4) (J : nat -> nat -> v6) bs : (forall b, In b bs -> In b (bodies t)) ->
  (forall b, In b (bodies t) -> SE3 (P b) /\ a_pose (st b) = Some (P b) /\ a_jac (st b) = Some (J b)) ->
  forall f, exists f', wc_loop sc st g bs f = Ok f' /\ (forall k, f' k = f k + sumlist (fun b => dot6 (J b k) (mv6 (b_mass sc b) (mv6 (iadjoint_ (P b)) g))) bs).
Proof.
  intros Inc H. induction bs as [ | b bs IH]; intros f.
  - exists f. split; [reflexivity | ]. intros k. cbn. ring.
  - destruct (H b (Inc b (or_introl eq_refl))) as (S & EP & EJ). cbn [wc_loop]. rewrite EP. cbn [Model_Dyn.get rbind]. rewrite iadjoint_ok by exact S. cbn [rbind]. rewrite EJ. cbn [Model_Dyn.get rbind].
    destruct (IH (fun x I => Inc x (or_intror I)) (fun k => f k + dot6 (J b k) (mv6 (b_mass sc b) (mv6 (iadjoint_ (P b)) g)))) as (f' & E & F).
    exists f'. split; [exact E | ]. intros k. rewrite F. cbn [sumlist]. ring.
Qed.
Lemma sumlist_swap {A} n (f : nat -> A -> R) l : sumR n (fun k => sumlist (f k) l) = sumlist (fun b => sumR n (fun k => f k b)) l.
Proof. induction l as [ | b l IH]; cbn [sumlist]; [apply sumR_zero; auto | ]. rewrite sumR_add, IH. reflexivity. Qed.
Lemma Dsumlist {A} (f : R -> A -> R) g s l : (forall x, In x l -> derivable_pt_lim (fun u => f u x) s (g x)) ->
  derivable_pt_lim (fun u => sumlist (f u) l) s (sumlist g l).
Proof.
  induction l as [ | x l IH]; intros H; cbn [sumlist]; [apply Dconst | ].
  apply (Dplus (fun u => f u x)); [apply H; now left | apply IH; intros; apply H; now right].
Qed.
Lemma sumlist_filter {A} (p : A -> bool) f l : (forall x, In x l -> p x = false -> f x = 0) -> sumlist f (filter p l) = sumlist f l.
Proof.
  induction l as [ | x l IH]; intros H; [reflexivity | ]. cbn [filter sumlist]. destruct (p x) eqn:E; cbn [sumlist].
  - rewrite IH; auto. intros y I. apply H. now right.
  - rewrite (H x (or_introl eq_refl) E), IH; [ring | ]. intros y I. apply H. now right.
Qed.
Lemma sumlist_scal {A} k (f : A -> R) l : sumlist (fun x => k * f x) l = k * sumlist f l.
Proof. induction l as [ | x l IH]; cbn [sumlist]; [ring | rewrite IH; ring]. Qed.

(** Rigid bodies of any mass, including massless ones: along every motion the controller delivers the
    power of the weights, i.e. minus the time derivative of the potential energy of the field
    [gravity * up]. *)
Theorem C47_weight_is_conservative : forall e sc h t f s fuel st (St : R -> store) (D : R -> wdyn) v gravity m c I0,
  ready e h t -> rigid_scene e sc t (f s) -> world_motion t f s -> (height t < fuel)%nat ->
  (forall u, world_update_dynamic e sc h (f u) fuel st = Ok (St u, D u)) -> world_velocity e h t (f s) v ->
  (forall b, In b (tl (bodies t)) -> b_mass sc b = rigid_mass (m b) (c b) (I0 b) /\ 0 <= m b) ->
  exists w gforce (P : R -> nat -> m4),
    wc_init e sc fuel h gravity = Ok w /\ wc_update sc (St s) w = Ok (gforce, mzero) /\
    (forall u b, In b (tl (bodies t)) -> a_pose (St u b) = Some (P u b) /\ SE3 (P u b)) /\
    let Ep u := sumlist (fun b => - (m b * gravity * dot3 (point_at (P u b) (c b)) world_up)) (tl (bodies t)) in
    derivable_pt_lim Ep s (- sumR (w_ndof h) (fun k => gforce k * v k)).
Proof.
  intros e sc h t f s fuel st St D v gravity m c I0 Rd Ri Mo F U Wv HM.
  set (g6 := V6 zero3 (vscal gravity world_up)).
  assert (Inb : forall b, In b (tl (bodies t)) -> In b (bodies t)) by (intros b I; destruct (bodies t); [destruct I | now right]).
  assert (HP : forall b, In b (bodies t) -> exists P T A, (forall u, a_pose (St u b) = Some (P u) /\ SE3 (P u)) /\ a_jac (St s b) = Some A /\
     T = sum6 (w_ndof h) (fun k => v6scal (v k) (A k)) /\ dm4 P s (mm4 (P s) (hat T))).
  { intros b Ib. destruct (C41_pose_derivative e sc h t f s fuel st St D Rd Ri Mo F U (FBody b) Ib) as (P & T & EP & ET & DP).
    destruct (C40_twist_is_jacobian_gvel e sc h t (f s) v fuel st Rd Ri F Wv) as (sd' & d' & U' & HT). rewrite U in U'. injection U' as <- <-.
    destruct (HT (FBody b) Ib) as (T' & A & ET' & EA & Q & _). rewrite ET in ET'. injection ET' as <-.
    exists P, T, A. split; [ | split; [ | split; [exact Q | exact DP]]].
    - intros u. destruct (C39_poses e sc h t (f u) fuel st Rd (rigid_motion e sc t f s u Ri Mo) F) as (sg & sd' & d' & _ & U' & HH & _). rewrite U in U'. injection U' as <- <-.
      destruct (HH (FBody b) Ib) as (H & SH & _ & EH & _ & EH'). cbn [frame_body] in EH. rewrite EH. rewrite EP in EH'. injection EH' as EH'. cbn [bpose] in EH'. rewrite mm4_1_r in EH'. rewrite EH'. auto.
    - cbn [frame_jac] in EA. destruct (a_jac (St s b)); [ | discriminate]. cbn in EA. congruence. }
  assert (PS : forall u b, In b (bodies t) -> exists P, a_pose (St u b) = Some P) by (intros u b Ib; destruct (HP b Ib) as (P & _ & _ & X & _); exists (P u); apply X).
  set (P := fun u b => match a_pose (St u b) with Some x => x | None => eye4 end).
  set (J := fun b => match a_jac (St s b) with Some x => x | None => fun _ => zero6 end).
  set (T := fun b => sum6 (w_ndof h) (fun k => v6scal (v k) (J b k))).
  assert (HP' : forall b, In b (bodies t) -> (forall u, a_pose (St u b) = Some (P u b) /\ SE3 (P u b)) /\ a_jac (St s b) = Some (J b) /\
     dm4 (fun u => P u b) s (mm4 (P s b) (hat (T b)))).
  { intros b Ib. destruct (HP b Ib) as (Pb & Tb & Ab & X & EA & Q & DP).
    assert (E : forall u, P u b = Pb u) by (intros u; unfold P; rewrite (proj1 (X u)); reflexivity).
    assert (EJ : J b = Ab) by (unfold J; rewrite EA; reflexivity). split; [intros u; rewrite E; apply X | ]. split; [rewrite EJ; exact EA | ].
    eapply dm4_ext; [exact E | ]. rewrite E. unfold T. rewrite EJ, <- Q. exact DP. }
  assert (Fd := proj1 (C09_descendants R e h t fuel (proj1 Rd) F)). rewrite (proj1 (proj2 Rd)) in Fd.
  set (pos_mass := fun b => existsb (fun x => Rltb 0 x) (list6 (b_mass sc b))).
  destruct (wc_loop_ok sc (St s) g6 t (P s) J (filter pos_mass (tl (bodies t)))) with (f := vzero) as (gf & El & Eg).
  { intros b I. apply filter_In in I. apply Inb, I. }
  { intros b Ib. destruct (HP' b Ib) as (X & EJ & _). split; [apply X | split; [apply X | exact EJ]]. }
  exists (WC (filter pos_mass (tl (bodies t))) g6 mzero), gf, P.
  split; [unfold wc_init; rewrite Fd; reflexivity | ]. split; [unfold wc_update; cbn [wc_dtwist wc_bodies wc_imp]; rewrite El; reflexivity | ].
  split; [intros u b Ib; apply (HP' b (Inb b Ib)) | ]. cbn zeta.
  assert (Es : sumR (w_ndof h) (fun k => gf k * v k) =
    sumlist (fun b => m b * dot3 (vscal gravity world_up) (mv (rot (P s b)) (vadd (cross (ang (T b)) (c b)) (lin (T b))))) (tl (bodies t))).
  { rewrite (sumR_ext _ _ (fun k => sumlist (fun b => v k * dot6 (J b k) (mv6 (b_mass sc b) (mv6 (iadjoint_ (P s b)) g6))) (filter pos_mass (tl (bodies t))))).
    2:{ intros k _. rewrite Eg, sumlist_scal. unfold vzero. ring. }
    rewrite sumlist_swap, sumlist_filter.
    - apply sumlist_ext. intros b Ib. rewrite sumR_dot6_l. fold (T b). destruct (HM b Ib) as [-> _]. apply weight_power. apply (HP' b (Inb b Ib)).
    - intros b Ib Z. rewrite sumR_dot6_l. fold (T b). destruct (HM b Ib) as [EM Pm]. rewrite EM. unfold g6. rewrite weight_power by apply (HP' b (Inb b Ib)).
      assert (m b = 0); [ | rewrite H; ring]. unfold pos_mass in Z. rewrite EM in Z.
      destruct (Rle_lt_or_eq_dec _ _ Pm) as [L | ]; [ | auto]. exfalso.
      assert (Y : existsb (fun x => Rltb 0 x) (list6 (rigid_mass (m b) (c b) (I0 b))) = true); [ | congruence].
      apply existsb_exists. exists (m00 (ll (rigid_mass (m b) (c b) (I0 b)))). split; [unfold list6, list3; rewrite !in_app_iff; right; right; right; now left | ].
      apply Rltb_true. cbn. lra. }
  rewrite Es. replace (- _) with (sumlist (fun b => - (m b * dot3 (vscal gravity world_up) (mv (rot (P s b)) (vadd (cross (ang (T b)) (c b)) (lin (T b)))))) (tl (bodies t))).
  2:{ clear. induction (tl (bodies t)) as [ | b l IH]; cbn [sumlist]; [ring | rewrite IH; ring]. }
  apply Dsumlist. intros b Ib. destruct (HP' b (Inb b Ib)) as (X & _ & DP).
  assert (Dp := point_deriv (fun u => P u b) s (T b) (c b) DP (proj2 (X s))). cbv beta in Dp.
  assert (Dd := dot3_deriv s _ _ _ _ Dp (dv3_const s world_up)). cbv beta in Dd.
  eapply dconv; [apply Dopp; apply (Dscal (m b * gravity)); exact Dd | ].
  generalize (mv (rot (P s b)) (vadd (cross (ang (T b)) (c b)) (lin (T b)))) (point_at (P s b) (c b)). clear. unfold world_up. intros [a1 a2 a3] [b1 b2 b3]. unf. ring.
Qed.
