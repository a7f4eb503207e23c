(** C64: the centre of mass. *)
From Verif Require Import Spec_CoM Proof_Tree Proof_World Proof_Dofs Proof_Linalg Proof_Deriv Proof_SE3 Proof_Joints Proof_Dyn Proof_Dyn2 Proof_Matrix Proof_Step Proof_Mass.
From Verif Require Import Props_World Props_Dyn Props_DynEx Props_Mass Props_Step Proof_Ctl Props_Weight Props_Energy.
From Coq Require Import Lra.

Lemma vadd_0_l u : vadd zero3 u = u. Proof. lin. Qed.
Lemma vadd_assoc u v w : vadd u (vadd v w) = vadd (vadd u v) w. Proof. lin. Qed.
Lemma vadd_comm u v : vadd u v = vadd v u. Proof. lin. Qed.
Lemma vscal_vadd k u v : vscal k (vadd u v) = vadd (vscal k u) (vscal k v). Proof. lin. Qed.
Lemma vscal_0 u : vscal 0 u = zero3. Proof. lin. Qed.
Lemma vscal_zero3 k : vscal k zero3 = zero3. Proof. lin. Qed.
Lemma vscal_vscal j k u : vscal j (vscal k u) = vscal (j * k) u. Proof. lin. Qed.
Lemma vscal_1 u : vscal 1 u = u. Proof. lin. Qed.
Lemma vsum_ext {A} (f g : A -> v3) l : (forall x, In x l -> f x = g x) -> vsum f l = vsum g l.
Proof. induction l as [ | x l IH]; intros H; [reflexivity | ]. cbn. rewrite (H x (or_introl eq_refl)). f_equal. apply IH. intros y Hy. apply H. now right. Qed.
Lemma vsum_scal {A} k (f : A -> v3) l : vsum (fun x => vscal k (f x)) l = vscal k (vsum f l).
Proof. induction l as [ | x l IH]; cbn; [symmetry; apply vscal_zero3 | ]. rewrite vscal_vadd. f_equal. exact IH. Qed.
Lemma vsum_add {A} (f g : A -> v3) l : vsum (fun x => vadd (f x) (g x)) l = vadd (vsum f l) (vsum g l).
Proof. induction l as [ | x l IH]; cbn; [symmetry; apply vadd_0_l | ]. change (vadd (vadd (f x) (g x)) (vsum (fun x => vadd (f x) (g x)) l) = vadd (vadd (f x) (vsum f l)) (vadd (g x) (vsum g l))). rewrite IH. generalize (f x) (g x) (vsum f l) (vsum g l). lin. Qed.
Lemma vsum_zero {A} (l : list A) : vsum (fun _ => zero3) l = zero3.
Proof. induction l as [ | x l IH]; [reflexivity | ]. cbn. fold (@vsum A). change (vadd zero3 (vsum (fun _ : A => zero3) l) = zero3). rewrite IH. apply vadd_0_l. Qed.
Lemma vsum_swap {A B} (f : A -> B -> v3) l m : vsum (fun a => vsum (f a) m) l = vsum (fun b => vsum (fun a => f a b) l) m.
Proof.
  induction l as [ | a l IH]; [symmetry; apply vsum_zero | ]. change (vadd (vsum (f a) m) (vsum (fun a => vsum (f a) m) l) = vsum (fun b => vadd (f a b) (vsum (fun a => f a b) l)) m). rewrite IH, vsum_add. reflexivity.
Qed.
Lemma dvsum {A} (f : R -> A -> v3) g s l : (forall x, In x l -> dv3 (fun u => f u x) s (g x)) -> dv3 (fun u => vsum (f u) l) s (vsum g l).
Proof.
  induction l as [ | x l IH]; intros H; [apply (dv3_const s zero3) | ].
  apply (dv3_add s (fun u => f u x) (fun u => vsum (f u) l)); [apply H; now left | apply IH; intros y Hy; apply H; now right].
Qed.
Lemma dv3_vscal k f d s : dv3 f s d -> dv3 (fun u => vscal k (f u)) s (vscal k d).
Proof. intros (A & B & C). repeat split; cbn; apply Dscal; assumption. Qed.

(** the adjoint used for the jacobian *)
Lemma com_adjoint P Hc : SE3 P -> SE3 Hc -> exists Ad, iadjoint (mm4 Hc (M4 (tr (rot (mm4 P Hc))) zero3 zero3 1)) = Ok Ad /\
  (forall x, ang (mv6 Ad x) = mv (rot P) (ang x)) /\ forall x, lin (mv6 Ad x) = mv (rot P) (vadd (lin x) (cross (ang x) (pos Hc))).
Proof.
  intros SP SH. assert (SP' := SP). assert (SH' := SH). destruct SP' as (RP & _). destruct SH' as (RH & BH & HH).
  assert (E : mm4 Hc (M4 (tr (rot (mm4 P Hc))) zero3 zero3 1) = M4 (tr (rot P)) (pos Hc) zero3 1).
  { assert (ER : rot (mm4 P Hc) = mm (rot P) (rot Hc)).
    { destruct P as [RR pp bb hh], Hc as [Rc rc bc hc]. cbn in BH, HH. subst. destruct RR, Rc, pp, rc, bb. cbn. unf. f_equal; ring. }
    rewrite ER, tr_mm. assert (Q : mm (rot Hc) (mm (tr (rot Hc)) (tr (rot P))) = tr (rot P)) by (rewrite mm_assoc, (SO3_r (rot Hc) RH), mm_1_l; reflexivity).
    destruct Hc as [Rc rc bc hc]. cbn [rot pos bot hom] in *. subst bc hc. rewrite <- Q at 2. generalize (mm (tr Rc) (tr (rot P))). intros X. destruct Rc, X, rc. unf. f_equal; [f_equal; ring | f_equal; ring | f_equal; ring | ring]. }
  rewrite E. assert (S : SE3 (M4 (tr (rot P)) (pos Hc) zero3 1)) by (split; [apply SO3_transpose; exact RP | split; reflexivity]).
  exists (iadjoint_ (M4 (tr (rot P)) (pos Hc) zero3 1)). split; [apply iadjoint_ok; exact S | ].
  assert (C : forall u v, cross (mv (rot P) u) (mv (rot P) v) = mv (rot P) (cross u v)) by (intros; apply SO3_cross; exact RP).
  unfold iadjoint_, adjoint_, inv_. cbn [rot pos]. rewrite tr_tr. generalize dependent (rot P). intros RR _ _ _ C. generalize (pos Hc). intros r. split; intros x.
  - destruct RR, x as [[] []], r. unf. f_equal; ring.
  - replace (mv RR (vadd (lin x) (cross (ang x) r))) with (vadd (mv RR (lin x)) (mv RR (cross (ang x) r))) by (destruct RR, x as [[] []], r; unf; f_equal; ring).
    rewrite <- C. destruct RR, x as [[] []], r. unf. f_equal; ring.
Qed.
Lemma com_loop_ok st (P : nat -> m4) (J dJ : nat -> nat -> v6) (T : nat -> v6) cd :
  (forall b H m, In (b, H, m) cd -> SE3 H /\ SE3 (P b) /\ a_pose (st b) = Some (P b) /\ a_jac (st b) = Some (J b) /\ a_twist (st b) = Some (T b) /\ a_djac (st b) = Some (dJ b)) ->
  forall a, exists a', com_loop true st cd a = Ok a' /\
    cm_pos a' = vadd (cm_pos a) (vsum (fun x => vscal (snd x) (point_at (P (fst (fst x))) (pos (snd (fst x))))) cd) /\
    (forall k, cm_jac a' k = vadd (cm_jac a k) (vsum (fun x => vscal (snd x) (mv (rot (P (fst (fst x)))) (vadd (lin (J (fst (fst x)) k)) (cross (ang (J (fst (fst x)) k)) (pos (snd (fst x))))))) cd)) /\
    (forall k, cm_djac a' k = vadd (cm_djac a k) (vsum (fun x => let b := fst (fst x) in let r := pos (snd (fst x)) in
        vscal (snd x) (mv (rot (P b)) (vadd (vadd (lin (dJ b k)) (cross (ang (dJ b k)) r)) (vadd (cross (ang (T b)) (lin (J b k))) (cross (cross (ang (T b)) (ang (J b k))) r))))) cd)).
Proof.
  induction cd as [ | [[b H] m] cd IH]; intros Hc a.
  - exists a. split; [reflexivity | ]. cbn. split; [ | split; intros k]; rewrite vadd_comm, vadd_0_l; reflexivity.
  - destruct (Hc b H m (or_introl eq_refl)) as (SH & SP & EP & EJ & ET & ED). destruct (com_adjoint (P b) H SP SH) as (Ad & EA & AA & AL).
    cbn [com_loop]. unfold com_step. rewrite EP. cbn [Model_Dyn.get rbind]. rewrite EA. cbn [rbind]. rewrite EJ, ET, ED. cbn [Model_Dyn.get rbind].
    match goal with |- context [com_loop true st cd ?a1] => destruct (IH (fun b' H' m' Hin => Hc b' H' m' (or_intror Hin)) a1) as (a' & E & E1 & E2 & E3) end.
    exists a'. split; [exact E | ]. cbn [cm_pos cm_jac cm_djac] in E1, E2, E3.
    split; [rewrite E1 | split; intros k; [rewrite E2 | rewrite E3]]; unfold vsum at 2; cbn [fold_right fst snd]; fold (@vsum (nat * m4 * R)).
    + rewrite <- vadd_assoc. f_equal. f_equal. f_equal. unfold point_at. destruct SH as (_ & BH & HH). clear - BH HH. destruct (P b) as [RR pp bb hh], H as [Rc rc bc hc]. cbn in BH, HH. subst. destruct RR, Rc, pp, rc, bb. unf. f_equal; ring.
    + rewrite <- vadd_assoc. f_equal. f_equal. rewrite AL. reflexivity.
    + rewrite <- vadd_assoc. f_equal. f_equal. f_equal.
      replace (lin (v6add (mv6 Ad (dJ b k)) (mv6 (mm6 Ad (adjacency (V6 (ang (T b)) zero3))) (J b k)))) with (vadd (lin (mv6 Ad (dJ b k))) (lin (mv6 Ad (mv6 (adjacency (V6 (ang (T b)) zero3)) (J b k))))).
      2:{ rewrite mv6_mm6. reflexivity. }
      rewrite !AL. replace (lin (mv6 (adjacency (V6 (ang (T b)) zero3)) (J b k))) with (cross (ang (T b)) (lin (J b k))) by (destruct (T b) as [[] []], (J b k) as [[] []]; unf; f_equal; ring).
      replace (ang (mv6 (adjacency (V6 (ang (T b)) zero3)) (J b k))) with (cross (ang (T b)) (ang (J b k))) by (destruct (T b) as [[] []], (J b k) as [[] []]; unf; f_equal; ring).
      generalize (rot (P b)) (lin (dJ b k)) (cross (ang (dJ b k)) (pos H)) (cross (ang (T b)) (lin (J b k))) (cross (cross (ang (T b)) (ang (J b k))) (pos H)). clear. lin.
Qed.
Lemma com_loop_false st (P : nat -> m4) cd : (forall b H m, In (b, H, m) cd -> SE3 H /\ a_pose (st b) = Some (P b)) ->
  forall a, exists a', com_loop false st cd a = Ok a' /\ cm_pos a' = vadd (cm_pos a) (vsum (fun x => vscal (snd x) (point_at (P (fst (fst x))) (pos (snd (fst x))))) cd).
Proof.
  induction cd as [ | [[b H] m] cd IH]; intros Hc a; [exists a; split; [reflexivity | cbn; rewrite vadd_comm, vadd_0_l; reflexivity] | ].
  destruct (Hc b H m (or_introl eq_refl)) as (SH & EP). cbn [com_loop]. unfold com_step. rewrite EP. cbn [Model_Dyn.get rbind].
  match goal with |- context [com_loop false st cd ?a1] => destruct (IH (fun b' H' m' Hin => Hc b' H' m' (or_intror Hin)) a1) as (a' & E & E1) end.
  exists a'. split; [exact E | ]. rewrite E1. cbn [cm_pos]. unfold vsum at 2; cbn [fold_right fst snd]; fold (@vsum (nat * m4 * R)).
  rewrite <- vadd_assoc. f_equal. f_equal. f_equal. unfold point_at. destruct SH as (_ & BH & HH). clear - BH HH. destruct (P b) as [RR pp bb hh], H as [Rc rc bc hc]. cbn in BH, HH. subst. destruct RR, Rc, pp, rc, bb. unf. f_equal; ring.
Qed.
(** [init]: the massless bodies are left out *)
Lemma com_init_ok eigvals eig sc bs m c I0 : com_bodies eigvals eig sc bs m c I0 -> exists cd, com_init eigvals eig sc bs = Ok cd /\
  com_total cd = sumlist m bs /\ (forall b H k, In (b, H, k) cd -> In b bs /\ SE3 H) /\
  forall F : nat -> v3 -> v3, vsum (fun x => vscal (snd x) (F (fst (fst x)) (pos (snd (fst x))))) cd = vsum (fun b => vscal (m b) (F b (c b))) bs.
Proof.
  intros Hb. assert (X : exists cd, com_init eigvals eig sc bs = Ok cd /\ sumlist snd cd = sumlist m bs /\ (forall b H k, In (b, H, k) cd -> In b bs /\ SE3 H) /\
    forall F : nat -> v3 -> v3, vsum (fun x => vscal (snd x) (F (fst (fst x)) (pos (snd (fst x))))) cd = vsum (fun b => vscal (m b) (F b (c b))) bs).
  - induction bs as [ | b bs IH]; [exists []; repeat split; intros; contradiction | ].
    destruct (IH (fun x Hx => Hb x (or_intror Hx))) as (cd & E & E1 & E2 & E3). clear IH. destruct (Hb b (or_introl eq_refl)) as (EM & Pm & So).
    assert (Em : m22 (ll (b_mass sc b)) = m b) by (rewrite EM; cbn; ring).
    unfold com_init in *. cbn [filter]. rewrite Em. destruct (Rltb 0 (m b)) eqn:L.
    + apply Rltb_true in L. destruct (So L) as (TI & Mm & Ev & Eg). cbn zeta in Eg. rewrite EM in Mm, Ev. destruct (C38_principalframe eigvals eig (m b) (c b) (I0 b) TI Mm Ev Eg) as (H & _ & _ & EH & SH & EP & _).
      assert (EH' : principalframe eigvals eig (b_mass sc b) = Ok H) by (rewrite EM; exact EH). cbn [com_scan]. rewrite EH', Em, E. cbn [rbind]. eexists. split; [reflexivity | ]. split; [cbn; rewrite E1; reflexivity | ]. split.
      * intros b' H' k [Q | Q]; [injection Q as <- <- <-; split; [now left | exact SH] | ]. destruct (E2 _ _ _ Q). split; [now right | assumption].
      * intros F. unfold vsum at 1 2. cbn [fold_right fst snd]. fold (@vsum (nat * m4 * R)). fold (@vsum nat). f_equal; [rewrite EP; reflexivity | apply E3].
    + apply Rltb_false in L. assert (m b = 0) as Z by lra. exists cd. split; [exact E | ]. split; [cbn; rewrite E1, Z; ring | ]. split.
      * intros b' H' k Q. destruct (E2 _ _ _ Q). split; [now right | assumption].
      * intros F. unfold vsum at 2. cbn [fold_right]. fold (@vsum nat). rewrite Z, vscal_0, vadd_0_l. apply E3.
  - destruct X as (cd & E & E1 & E2 & E3). exists cd. split; [exact E | ]. split; [ | auto]. rewrite <- E1. unfold com_total. clear. 
    assert (Q : forall z, fold_left (fun a x => a + snd x) cd z = z + sumlist snd cd); [ | rewrite Q; ring].
    induction cd as [ | x cd IH]; intros z; cbn [fold_left sumlist]; [ring | rewrite IH; ring].
Qed.

(** The position of the observer is the mass-weighted mean of the centres of mass of the bodies (massless bodies count for
    nothing), its jacobian applied to gvel is the velocity of that point; with the flag off the same position is computed. *)
Section CoM.
  Context (eigvals : m6 -> list R) (eig : m3 -> v3 * m3) (e : env) (sc : scene) (h : @heap R) (t : tree) (f : R -> nat -> jstate) (s : R) (fuel : nat) (st : store)
    (St : R -> store) (D : R -> wdyn) (v : nat -> R) (bs : list nat) (m : nat -> R) (c : nat -> v3) (I0 : nat -> m3).
  Hypothesis Rd : ready e h t.
  Hypothesis Ri : rigid_scene e sc t (f s).
  Hypothesis Mo : world_motion t f s.
  Hypothesis F : (height t < fuel)%nat.
  Hypothesis Up : forall u, world_update_dynamic e sc h (f u) fuel st = Ok (St u, D u).
  Hypothesis Hbs : forall b, In b bs -> In b (bodies t).
  Hypothesis Hm : com_bodies eigvals eig sc bs m c I0.
  Hypothesis Hp : 0 < sumlist m bs.

  Lemma com_facts : exists cd a P J dJ T, com_init eigvals eig sc bs = Ok cd /\
    (forall u, com_update true (St u) cd = Ok (a u)) /\ (forall u, exists a', com_update false (St u) cd = Ok a' /\ cm_pos a' = cm_pos (a u)) /\
    (forall u b, In b bs -> frame_pose e sc (St u) (FBody b) = Ok (P u b) /\ frame_jac e sc (St u) (FBody b) = Ok (J u b) /\ frame_djac e sc (St u) (FBody b) = Ok (dJ u b) /\ frame_twist e sc (St u) (FBody b) = Ok (T u b) /\ SE3 (P u b)) /\
    (forall u, cm_pos (a u) = vscal (/ sumlist m bs) (vsum (fun b => vscal (m b) (point_at (P u b) (c b))) bs)) /\
    (forall u k, cm_jac (a u) k = vscal (/ sumlist m bs) (vsum (fun b => vscal (m b) (mv (rot (P u b)) (vadd (lin (J u b k)) (cross (ang (J u b k)) (c b))))) bs)) /\
    (forall u k, cm_djac (a u) k = vscal (/ sumlist m bs) (vsum (fun b => vscal (m b) (mv (rot (P u b)) (vadd (vadd (lin (dJ u b k)) (cross (ang (dJ u b k)) (c b))) (vadd (cross (ang (T u b)) (lin (J u b k))) (cross (cross (ang (T u b)) (ang (J u b k))) (c b)))))) bs)).
  Proof.
    destruct (com_init_ok eigvals eig sc bs m c I0 Hm) as (cd & Ei & Et & Hin & Fs).
    set (K := fun u b => kin_at (St u) b).
    assert (HK : forall u b, In b bs -> St u b = attr (b_mass sc b) (K u b) /\ SE3 (k_pose (K u b))).
    { intros u b Ib. assert (Riu := rigid_motion e sc t f s u Ri Mo). destruct (path_of t b (Hbs b Ib)) as [ps Pb]. 
      destruct (world_ok e sc h t (f u) fuel st Rd Riu F) as (sd & d & Ed & Pd & _). rewrite Up in Ed. injection Ed as <- <-. assert (Q := Pd b ps Pb).
      assert (EK : K u b = kin_of sc h (f u) (map fst ps)) by (unfold K; eapply kin_at_attr; exact Q). rewrite EK. split; [exact Q | ].
      destruct (C39_poses e sc h t (f u) fuel st Rd Riu F) as (sg & sd' & d' & _ & Ed' & HH & _). rewrite Up in Ed'. injection Ed' as <- <-.
      destruct (HH (FBody b) (Hbs b Ib)) as (H & SH & _ & EH & _). cbn [frame_body] in EH. rewrite Q in EH. cbn in EH. injection EH as ->. exact SH. }
    assert (La : forall u, exists a, com_update true (St u) cd = Ok a /\ (exists a', com_update false (St u) cd = Ok a' /\ cm_pos a' = cm_pos a) /\
      cm_pos a = vscal (/ sumlist m bs) (vsum (fun b => vscal (m b) (point_at (k_pose (K u b)) (c b))) bs) /\
      (forall k, cm_jac a k = vscal (/ sumlist m bs) (vsum (fun b => vscal (m b) (mv (rot (k_pose (K u b))) (vadd (lin (k_jac (K u b) k)) (cross (ang (k_jac (K u b) k)) (c b))))) bs)) /\
      (forall k, cm_djac a k = vscal (/ sumlist m bs) (vsum (fun b => vscal (m b) (mv (rot (k_pose (K u b))) (vadd (vadd (lin (k_djac (K u b) k)) (cross (ang (k_djac (K u b) k)) (c b))) (vadd (cross (ang (k_twist (K u b))) (lin (k_jac (K u b) k))) (cross (cross (ang (k_twist (K u b))) (ang (k_jac (K u b) k))) (c b)))))) bs))).
    { intros u. 
      destruct (com_loop_ok (St u) (fun b => k_pose (K u b)) (fun b => k_jac (K u b)) (fun b => k_djac (K u b)) (fun b => k_twist (K u b)) cd) with (a := CoM zero3 (fun _ => zero3) (fun _ => zero3)) as (a & Ea & E1 & E2 & E3).
      { intros b H k Q. destruct (Hin b H k Q) as [Ib SH]. destruct (HK u b Ib) as [-> SP]. repeat split; auto; apply SH || apply SP. }
      destruct (com_loop_false (St u) (fun b => k_pose (K u b)) cd) with (a := CoM zero3 (fun _ => zero3) (fun _ => zero3)) as (a2 & Ea2 & E4).
      { intros b H k Q. destruct (Hin b H k Q) as [Ib SH]. destruct (HK u b Ib) as [-> SP]. split; [exact SH | reflexivity]. }
      unfold com_update. rewrite Ea, Ea2. cbn [rbind]. rewrite Et. destruct (Reqb (sumlist m bs) 0) eqn:Z; [apply Reqb_true in Z; lra | ].
      eexists. split; [reflexivity | ]. cbn [cm_pos cm_jac cm_djac]. split; [eexists; split; [reflexivity | cbn [cm_pos]; congruence] | ].
      cbn [cm_pos cm_jac cm_djac] in E1, E2, E3. split; [ | split].
      - rewrite E1, vadd_0_l. f_equal. apply (Fs (fun b r => point_at (k_pose (K u b)) r)).
      - intros k. rewrite E2, vadd_0_l. f_equal. apply (Fs (fun b r => mv (rot (k_pose (K u b))) (vadd (lin (k_jac (K u b) k)) (cross (ang (k_jac (K u b) k)) r)))).
      - intros k. rewrite E3, vadd_0_l. f_equal. apply (Fs (fun b r => mv (rot (k_pose (K u b))) (vadd (vadd (lin (k_djac (K u b) k)) (cross (ang (k_djac (K u b) k)) r)) (vadd (cross (ang (k_twist (K u b))) (lin (k_jac (K u b) k))) (cross (cross (ang (k_twist (K u b))) (ang (k_jac (K u b) k))) r))))). }
    exists cd, (fun u => match com_update true (St u) cd with Ok a => a | Err _ => CoM zero3 (fun _ => zero3) (fun _ => zero3) end),
      (fun u b => k_pose (K u b)), (fun u b => k_jac (K u b)), (fun u b => k_djac (K u b)), (fun u b => k_twist (K u b)).
    split; [exact Ei | ]. split; [intros u; destruct (La u) as (a & -> & _); reflexivity | ]. split; [intros u; destruct (La u) as (a & -> & X & _); exact X | ].
    split; [ | split; [intros u; destruct (La u) as (a & -> & _ & X & _); exact X | split; [intros u; destruct (La u) as (a & -> & _ & _ & X & _); exact X | intros u; destruct (La u) as (a & -> & _ & _ & _ & X); exact X]]].
    intros u b Ib. destruct (HK u b Ib) as [EA SP]. unfold frame_pose, frame_jac, frame_djac, frame_twist. cbn [frame_body]. rewrite EA. cbn [attr a_pose a_jac a_djac a_twist Model_Dyn.get rbind]. split; [reflexivity | ]. split; [reflexivity | ]. split; [reflexivity | ]. split; [reflexivity | exact SP].
  Qed.
End CoM.

(** the observer's position, jacobian: see Section CoM for the hypotheses *)
Theorem C64_position_jacobian : forall eigvals eig e sc h t f s fuel st (St : R -> store) (D : R -> wdyn) v bs m c I0,
  ready e h t -> rigid_scene e sc t (f s) -> world_motion t f s -> (height t < fuel)%nat ->
  (forall u, world_update_dynamic e sc h (f u) fuel st = Ok (St u, D u)) -> world_velocity e h t (f s) v ->
  (forall b, In b bs -> In b (bodies t)) -> com_bodies eigvals eig sc bs m c I0 -> 0 < sumlist m bs ->
  exists cd a, com_init eigvals eig sc bs = Ok cd /\
    (forall u, com_update true (St u) cd = Ok (a u) /\ exists a', com_update false (St u) cd = Ok a' /\ cm_pos a' = cm_pos (a u)) /\
    (forall u, exists P, (forall b, In b bs -> frame_pose e sc (St u) (FBody b) = Ok (P b)) /\
       vscal (sumlist m bs) (cm_pos (a u)) = vsum (fun b => vscal (m b) (point_at (P b) (c b))) bs) /\
    dv3 (fun u => cm_pos (a u)) s (vsum (fun k => vscal (v k) (cm_jac (a s) k)) (seq 0 (w_ndof h))).
Proof.
  intros eigvals eig e sc h t f s fuel st St D v bs m c I0 Rd Ri Mo F Up Wv Hbs Hm Hp.
  destruct (com_facts eigvals eig e sc h t f s fuel st St D bs m c I0 Rd Ri Mo F Up Hbs Hm Hp) as (cd & a & P & J & dJ & T & Ei & Eu & Ef & Hb & E1 & E2 & _).
  exists cd, a. split; [exact Ei | ]. split; [intros u; split; [apply Eu | apply Ef] | ]. split.
  - intros u. exists (P u). split; [intros b Ib; apply (Hb u b Ib) | ]. rewrite E1, vscal_vscal, Rinv_r, vscal_1 by lra. reflexivity.
  - eapply dv3_ext; [exact E1 | ].
    replace (vsum (fun k => vscal (v k) (cm_jac (a s) k)) (seq 0 (w_ndof h))) with
      (vscal (/ sumlist m bs) (vsum (fun b => vscal (m b) (vsum (fun k => vscal (v k) (mv (rot (P s b)) (vadd (lin (J s b k)) (cross (ang (J s b k)) (c b))))) (seq 0 (w_ndof h)))) bs)).
    2:{ rewrite (vsum_ext (fun k => vscal (v k) (cm_jac (a s) k)) (fun k => vscal (/ sumlist m bs) (vsum (fun b => vscal (m b) (vscal (v k) (mv (rot (P s b)) (vadd (lin (J s b k)) (cross (ang (J s b k)) (c b)))))) bs))).
        - rewrite vsum_scal. f_equal. rewrite (vsum_swap (fun k b => vscal (m b) (vscal (v k) (mv (rot (P s b)) (vadd (lin (J s b k)) (cross (ang (J s b k)) (c b))))))).
          apply vsum_ext. intros b _. rewrite vsum_scal. reflexivity.
        - intros k _. rewrite E2, vscal_vscal, Rmult_comm, <- vscal_vscal, <- vsum_scal. f_equal. apply vsum_ext. intros b _. rewrite !vscal_vscal. f_equal. ring. }
    apply dv3_vscal. apply dvsum. intros b Ib. apply dv3_vscal.
    destruct (C41_pose_derivative e sc h t f s fuel st St D Rd Ri Mo F Up (FBody b) (Hbs b Ib)) as (P' & T' & EP & ET & DP).
    destruct (C40_twist_is_jacobian_gvel e sc h t (f s) v fuel st Rd Ri F Wv) as (sd & d & Ed & HT). rewrite Up in Ed. injection Ed as <- <-.
    destruct (HT (FBody b) (Hbs b Ib)) as (T2 & A & ET2 & EA & Q & _). rewrite ET in ET2. injection ET2 as <-.
    assert (EP' : forall u, P u b = P' u) by (intros u; destruct (Hb u b Ib) as (X & _); rewrite EP in X; congruence).
    assert (EA' : J s b = A) by (destruct (Hb s b Ib) as (_ & X & _); rewrite EA in X; congruence).
    assert (SP : SE3 (P' s)) by (rewrite <- EP'; apply (Hb s b Ib)).
    eapply dv3_ext; [intros u; rewrite EP'; reflexivity | ].
    assert (X := point_deriv P' s T' (c b) DP SP). 
    match type of X with dv3 _ _ ?d => match goal with |- dv3 _ _ ?d' => replace d' with d; [exact X | ] end end.
    rewrite EP', EA', Q. clear. set (n := w_ndof h). clearbody n. generalize (rot (P' s)) (c b). intros RR r. 
    assert (Lr : forall n, vsum (fun k => vscal (v k) (mv RR (vadd (lin (A k)) (cross (ang (A k)) r)))) (seq 0 n) = mv RR (vadd (cross (ang (sum6 n (fun k => v6scal (v k) (A k)))) r) (lin (sum6 n (fun k => v6scal (v k) (A k)))))); [ | rewrite Lr; reflexivity].
    clear n. induction n as [ | n IH]; [destruct RR, r; cbn; unf; f_equal; ring | ].
    rewrite seq_S. cbn [sum6 plus].
    assert (Va : forall (g : nat -> v3) l x, vsum g (l ++ [x]) = vadd (vsum g l) (g x)).
    { intros g l x. unfold vsum. induction l as [ | y l IHl]; cbn [app fold_right]; [rewrite vadd_comm; reflexivity | rewrite IHl, vadd_assoc; reflexivity]. }
    rewrite Va, IH. generalize (sum6 n (fun k => v6scal (v k) (A k))) (A n) (v n). clear. intros X Y z. destruct RR, r, X as [[] []], Y as [[] []]. unf. f_equal; ring.
Qed.

(** the derivative of the jacobian of the observer: what it computes, plus an error *)
Theorem C79_djacobian_error : forall eigvals eig e sc h t f s fuel st (St : R -> store) (D : R -> wdyn) bs m c I0,
  ready e h t -> rigid_scene e sc t (f s) -> world_motion t f s -> (height t < fuel)%nat ->
  (forall u, world_update_dynamic e sc h (f u) fuel st = Ok (St u, D u)) ->
  (forall b, In b bs -> In b (bodies t)) -> com_bodies eigvals eig sc bs m c I0 -> 0 < sumlist m bs ->
  (forall b js, In b bs -> above t b js -> djac_safe (fun j => jt (f s j)) js) ->
  exists cd a P T J, com_init eigvals eig sc bs = Ok cd /\ (forall u, com_update true (St u) cd = Ok (a u)) /\
    (forall b, In b bs -> frame_pose e sc (St s) (FBody b) = Ok (P b) /\ frame_twist e sc (St s) (FBody b) = Ok (T b) /\ frame_jac e sc (St s) (FBody b) = Ok (J b)) /\
    forall k, let err := vscal (/ sumlist m bs) (vsum (fun b => vscal (m b) (mv (rot (P b)) (cross (ang (J b k)) (cross (ang (T b)) (c b))))) bs) in
      dv3 (fun u => cm_jac (a u) k) s (vadd (cm_djac (a s) k) err).
Proof.
  intros eigvals eig e sc h t f s fuel st St D bs m c I0 Rd Ri Mo F Up Hbs Hm Hp Sf.
  destruct (com_facts eigvals eig e sc h t f s fuel st St D bs m c I0 Rd Ri Mo F Up Hbs Hm Hp) as (cd & a & P & J & dJ & T & Ei & Eu & _ & Hb & _ & E2 & E3).
  exists cd, a, (P s), (T s), (J s). split; [exact Ei | ]. split; [exact Eu | ]. split; [intros b Ib; destruct (Hb s b Ib) as (X1 & X2 & _ & X3 & _); auto | ].
  intros k err. eapply dv3_ext; [intros u; apply E2 | ]. unfold err. rewrite E3, <- vscal_vadd, <- vsum_add. apply dv3_vscal. apply dvsum. intros b Ib. rewrite <- vscal_vadd. apply dv3_vscal.
  destruct (C41_pose_derivative e sc h t f s fuel st St D Rd Ri Mo F Up (FBody b) (Hbs b Ib)) as (P' & T' & EP & ET & DP).
  destruct (path_of t b (Hbs b Ib)) as [ps Pb]. assert (Ab : above t b (map fst ps)) by (exists ps; auto).
  destruct (C42_djacobian_partial e sc h t f s fuel st St D Rd Ri Mo F Up (FBody b) (map fst ps) Ab (Sf b _ Ib Ab)) as (A & dA & EA & EdA & DA).
  assert (EP' : forall u, P u b = P' u) by (intros u; destruct (Hb u b Ib) as (X & _); rewrite EP in X; congruence).
  assert (EA' : forall u, J u b = A u) by (intros u; destruct (Hb u b Ib) as (_ & X & _); rewrite EA in X; congruence).
  assert (EdA' : dJ s b = dA) by (destruct (Hb s b Ib) as (_ & _ & X & _); rewrite EdA in X; congruence).
  assert (ET' : T s b = T') by (destruct (Hb s b Ib) as (_ & _ & _ & X & _); rewrite ET in X; congruence).
  assert (SP : SE3 (P' s)) by (rewrite <- EP'; apply (Hb s b Ib)).
  destruct (DA k) as [Da Dl]. destruct DP as (DR & _).
  eapply dv3_ext; [intros u; rewrite EP', EA'; reflexivity | ]. rewrite EP', EA', EdA', ET'.
  assert (Dc : dv3 (fun u => cross (ang (A u k)) (c b)) s (cross (ang (dA k)) (c b))).
  { assert (X := dv3_mv s (fun _ => tr (skew (c b))) (fun u => ang (A u k)) zerom3 _ (dm3_const s _) Da). cbv beta in X.
    eapply dv3_ext; [ | eapply (fun d => eq_ind _ (fun d => dv3 _ s d) X d)]; [intros u; cbv beta; generalize (ang (A u k)) (c b); lin | generalize (ang (dA k)) (ang (A s k)) (c b); lin]. }
  assert (X := dv3_mv s _ _ _ _ DR (dv3_add s _ _ _ _ Dl Dc)). cbv beta in X.
  match type of X with dv3 _ _ ?d => match goal with |- dv3 _ _ ?d' => replace d' with d; [exact X | ] end end.
  clear X DR Da Dl Dc. destruct SP as (_ & BP & _). revert BP. generalize (P' s) T' (A s k) (dA k) (c b). clear. intros [[] [] bb hh] [[] []] [[] []] [[] []] []. cbn [bot]. intros ->. unf. f_equal; ring.
Qed.
(** right when the centres of mass are at the origins of the bodies *)
Theorem C79_djacobian_partial : forall eigvals eig e sc h t f s fuel st (St : R -> store) (D : R -> wdyn) bs m c I0,
  ready e h t -> rigid_scene e sc t (f s) -> world_motion t f s -> (height t < fuel)%nat ->
  (forall u, world_update_dynamic e sc h (f u) fuel st = Ok (St u, D u)) ->
  (forall b, In b bs -> In b (bodies t)) -> com_bodies eigvals eig sc bs m c I0 -> 0 < sumlist m bs ->
  (forall b js, In b bs -> above t b js -> djac_safe (fun j => jt (f s j)) js) ->
  (forall b, In b bs -> c b = zero3) ->
  exists cd a, com_init eigvals eig sc bs = Ok cd /\ (forall u, com_update true (St u) cd = Ok (a u)) /\
    forall k, dv3 (fun u => cm_jac (a u) k) s (cm_djac (a s) k).
Proof.
  intros eigvals eig e sc h t f s fuel st St D bs m c I0 Rd Ri Mo F Up Hbs Hm Hp Sf Z.
  destruct (C79_djacobian_error eigvals eig e sc h t f s fuel st St D bs m c I0 Rd Ri Mo F Up Hbs Hm Hp Sf) as (cd & a & P & T & J & Ei & Eu & _ & Dk).
  exists cd, a. split; [exact Ei | ]. split; [exact Eu | ]. intros k. assert (X := Dk k). cbn zeta in X.
  rewrite (vsum_ext _ (fun _ => zero3)), vsum_zero, vscal_zero3, vadd_comm, vadd_0_l in X; [exact X | ].
  intros b Ib. rewrite (Z b Ib). generalize (P b) (ang (J b k)) (ang (T b)) (m b). lin.
Qed.
