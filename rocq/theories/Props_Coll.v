(** C21, C22 (choice of the collision solver, enumeration of the contacts) and C54 (spheres). *)
From Verif Require Import Spec_Coll Proof_Linalg Proof_SE3 Proof_Exp Proof_Exp2 Props_Angles Proof_Coll.
From Verif Require Import Spec_World Proof_Register Props_World.
From Coq Require Import Lra.

(** ** C21 *)
(** The documented pairs: a solver is chosen in both orders, the same one, for the same two shapes and with the
    types it asks for. *)
Theorem C21_documented : forall g a b, documented (g a) (g b) ->
  exists p q sv, choose_solver g a b = Ok (p, sv) /\ choose_solver g b a = Ok (q, sv) /\
    same_pair p (a, b) /\ same_pair q (a, b) /\
    solver_types sv (g (fst p)) (g (snd p)) /\ solver_types sv (g (fst q)) (g (snd q)) /\
    (* the same order too, unless both are spheres *)
    (p = q \/ sv = sphere_sphere).
Proof.
  intros g a b D. unfold choose_solver, same_pair.
  destruct (g a) eqn:Ea, (g b) eqn:Eb; cbn in D; try contradiction; do 3 eexists; (split; [reflexivity | ]); (split; [reflexivity | ]);
    cbn [fst snd]; rewrite ?Ea, ?Eb; cbn; auto 12.
Qed.
(** Whatever is returned has the right types, and the pairs that are not documented, Point with Box apart, are refused in
    both orders. *)
Theorem C21_others : forall g a b,
  (forall p sv, choose_solver g a b = Ok (p, sv) -> same_pair p (a, b) /\ solver_types sv (g (fst p)) (g (snd p))) /\
  (~ documented (g a) (g b) -> (g a <> Point \/ forall he, g b <> Box he) -> ((forall he, g a <> Box he) \/ g b <> Point) ->
     choose_solver g a b = Err NotImplementedError /\ choose_solver g b a = Err NotImplementedError).
Proof.
  intros g a b. split.
  - intros p sv. unfold choose_solver, same_pair. destruct (g a) eqn:Ea, (g b) eqn:Eb; intros H; try discriminate; injection H as <- <-;
      cbn [fst snd]; rewrite ?Ea, ?Eb; cbn; auto.
  - intros D N1 N2. unfold choose_solver. destruct (g a) eqn:Ea, (g b) eqn:Eb; cbn in D; try (exfalso; exact (D Logic.I)); auto.
    + destruct N1 as [N | N]; [contradiction | ]. exfalso. apply (N half_extents). reflexivity.
    + destruct N2 as [N | N]; [ | contradiction]. exfalso. apply (N half_extents). reflexivity.
Qed.
(** The claim fails for Point and Box. *)
Theorem C21_point_box_refuted : forall g a b he, g a = Point -> g b = Box he ->
  choose_solver g a b = Err NotImplementedError /\ choose_solver g b a = Ok ((b, a), box_point).
Proof. intros g a b he Ea Eb. unfold choose_solver. rewrite Ea, Eb. auto. Qed.

(** ** C22 *)
Lemma contacts_of_ok e g s0 l : exists cs, contacts_of e g s0 l = Ok cs /\
  (forall p sv, In (p, sv) cs <-> exists s1, In s1 l /\ shape_body e s0 <> shape_body e s1 /\ choose_solver g s0 s1 = Ok (p, sv)) /\
  exists sub, cs = map (fun s1 => match choose_solver g s0 s1 with Ok c => c | Err _ => ((0, 0)%nat, sphere_sphere) end) sub /\ (NoDup l -> NoDup sub) /\
    forall s1, In s1 sub <-> In s1 l /\ shape_body e s0 <> shape_body e s1 /\ exists c, choose_solver g s0 s1 = Ok c.
Proof.
  induction l as [ | s1 l IH].
  - exists []. split; [reflexivity | ]. split; [intros p sv; split; [intros [] | intros (s & [] & _)] | ]. exists []. split; [reflexivity | ].
    split; [constructor | ]. intros s; split; [intros [] | intros ([] & _)].
  - destruct IH as (cs & E & H & sub & Es & Nd & Hs). cbn [contacts_of].
    assert (NX : forall x, choose_solver g s0 s1 = Err x -> x = NotImplementedError).
    { intros x. unfold choose_solver. destruct (g s0), (g s1); intros Q; try discriminate; injection Q as <-; reflexivity. }
    destruct (Nat.eqb_spec (shape_body e s0) (shape_body e s1)) as [Eb | Nb].
    + exists cs. split; [exact E | ]. split.
      * intros p sv. rewrite H. split; intros (s & I & N & C); exists s; [split; [now right | ]; auto | ].
        destruct I as [<- | I]; [contradiction | auto].
      * exists sub. split; [exact Es | ]. split; [intros N; inversion N; auto | ]. intros s. rewrite Hs. split; intros (I & N & C).
        -- split; [now right | auto].
        -- destruct I as [<- | I]; [contradiction | auto].
    + destruct (choose_solver g s0 s1) as [c | x] eqn:C.
      * rewrite E. cbn [rbind]. exists (c :: cs). split; [reflexivity | ]. split.
        -- intros p sv. cbn [In]. rewrite H. split.
           ++ intros [-> | (s & I & N & C')]; [exists s1; auto | exists s; auto].
           ++ intros (s & [<- | I] & N & C'); [left; congruence | right; exists s; auto].
        -- exists (s1 :: sub). split; [cbn [map]; rewrite C, Es; reflexivity | ]. split.
           ++ intros N. inversion N as [ | ? ? Ni N']; subst. constructor; [ | apply Nd; exact N']. intros I. apply Hs in I. tauto.
           ++ intros s. cbn [In]. rewrite Hs. split.
              ** intros [<- | (I & N & C')]; [split; [now left | split; [exact Nb | eexists; exact C]] | auto].
              ** intros ([<- | I] & N & C'); auto.
      * rewrite (NX x eq_refl). exists cs. split; [exact E | ]. split.
        -- intros p sv. rewrite H. split; intros (s & I & N & C'); exists s; [split; [now right | ]; auto | ].
           destruct I as [<- | I]; [congruence | auto].
        -- exists sub. split; [exact Es | ]. split; [intros N; inversion N; auto | ]. intros s. rewrite Hs. split; intros (I & N & C').
           ++ split; [now right | auto].
           ++ destruct I as [<- | I]; [destruct C' as [c' C']; congruence | auto].
Qed.
Lemma before_cons {A} (x : A) l a b : before (x :: l) a b <-> (x = a /\ In b l) \/ before l a b.
Proof.
  split.
  - intros (l1 & l2 & l3 & E). destruct l1 as [ | y l1]; injection E as <- E.
    + left. split; [reflexivity | ]. rewrite E. apply in_app_iff. right. now left.
    + right. exists l1, l2, l3. exact E.
  - intros [[<- I] | (l1 & l2 & l3 & E)].
    + apply in_split in I. destruct I as (l2 & l3 & ->). exists [], l2, l3. reflexivity.
    + exists (x :: l1), l2, l3. rewrite E. reflexivity.
Qed.
Lemma before_in {A} (l : list A) a b : before l a b -> In a l /\ In b l.
Proof. intros (l1 & l2 & l3 & ->). rewrite !in_app_iff. cbn. rewrite !in_app_iff. cbn. auto 8. Qed.
Lemma before_two {A} (l : list A) a b : (forall x y : A, {x = y} + {x <> y}) -> In a l -> In b l -> a <> b -> before l a b \/ before l b a.
Proof.
  intros dec Ia Ib N. induction l as [ | x l IH]; [destruct Ia | ]. rewrite !before_cons.
  destruct Ia as [-> | Ia], Ib as [-> | Ib]; [contradiction | auto | auto | ]. destruct (IH Ia Ib); auto.
Qed.
Lemma choose_pair g a b p sv : choose_solver g a b = Ok (p, sv) -> same_pair p (a, b).
Proof. intros H. exact (proj1 (proj1 (C21_others g a b) p sv H)). Qed.

Definition unordered_distinct (cs : list ((nat * nat) * solver)) : Prop :=
  forall l1 c l2 c' l3, cs = l1 ++ c :: l2 ++ c' :: l3 -> ~ same_pair (fst c) (fst c').
Lemma ud_app a b : unordered_distinct a -> unordered_distinct b -> (forall c c', In c a -> In c' b -> ~ same_pair (fst c) (fst c')) -> unordered_distinct (a ++ b).
Proof.
  intros Ha Hb Hab. revert Ha Hab. induction a as [ | x a IH]; intros Ha Hab; [exact Hb | ].
  intros l1 c l2 c' l3 E. destruct l1 as [ | y l1].
  - cbn in E. injection E as -> E.
    assert (I : In c' (a ++ b)) by (rewrite E; apply in_app_iff; right; now left). apply in_app_iff in I. destruct I as [I | I].
    + apply in_split in I. destruct I as (k1 & k2 & ->). apply (Ha [] c k1 c' k2). reflexivity.
    + apply Hab; [now left | exact I].
  - cbn in E. injection E as -> E. apply IH with (l1 := l1) (l2 := l2) (l3 := l3); auto.
    + intros m1 d m2 d' m3 Em. apply (Ha (y :: m1) d m2 d' m3). rewrite Em. reflexivity.
    + intros d d' I I'. apply Hab; [now right | exact I'].
Qed.

Lemma all_contacts_ok e g l : exists cs, all_contacts e g l = Ok cs /\
  (forall p sv, In (p, sv) cs <-> exists a b, before l a b /\ shape_body e a <> shape_body e b /\ choose_solver g a b = Ok (p, sv)) /\
  (NoDup l -> unordered_distinct cs).
Proof.
  induction l as [ | s0 l IH].
  - exists []. split; [reflexivity | ]. split; [ | intros _ [ | ? ?] ? ? ? ? E; discriminate]. intros p sv. split; [intros [] | ].
    intros (a & b & B & _). apply before_in in B. destruct B as [[] _].
  - destruct IH as (cs & E & H & Ud). destruct (contacts_of_ok e g s0 l) as (ds & E' & H' & sub & Es & Nd & Hs).
    cbn [all_contacts]. rewrite E', E. cbn [rbind]. exists (ds ++ cs). split; [reflexivity | ]. split.
    + intros p sv. rewrite in_app_iff, H, H'. split.
      * intros [(s1 & I & N & C) | (a & b & B & N & C)]; [exists s0, s1 | exists a, b]; rewrite before_cons; auto.
      * intros (a & b & B & N & C). rewrite before_cons in B. destruct B as [[<- I] | B]; [left; exists b; auto | right; exists a, b; auto].
    + intros N. inversion N as [ | ? ? Ni N']; subst. apply ud_app; [ | apply Ud; exact N' | ].
      * intros l1 c l2 c' l3 Ec. specialize (Nd N'). set (f := fun s1 => match choose_solver g s0 s1 with Ok c0 => c0 | Err _ => ((0, 0)%nat, sphere_sphere) end) in *.
        apply map_eq_app in Ec. destruct Ec as (m1 & m2 & -> & <- & Ec). apply map_eq_cons in Ec. destruct Ec as (x & m3 & -> & Ex & Ec).
        apply map_eq_app in Ec. destruct Ec as (m4 & m5 & -> & <- & Ec). apply map_eq_cons in Ec. destruct Ec as (y & m6 & -> & Ey & <-).
        assert (Ix : In x (m1 ++ x :: m4 ++ y :: m6)) by (apply in_app_iff; right; now left).
        assert (Iy : In y (m1 ++ x :: m4 ++ y :: m6)) by (apply in_app_iff; right; right; apply in_app_iff; right; now left).
        assert (Nxy : x <> y).
        { intros ->. apply NoDup_remove_2 in Nd. apply Nd. rewrite app_assoc. apply in_app_iff. right. now left. }
        apply Hs in Ix. apply Hs in Iy. destruct Ix as (Ix & _ & (cx & Cx)). destruct Iy as (Iy & _ & (cy & Cy)).
        unfold f in Ex, Ey. rewrite Cx in Ex. rewrite Cy in Ey. subst cx cy.
        destruct c as [p sv], c' as [p' sv']. apply choose_pair in Cx. apply choose_pair in Cy. cbn [fst].
        assert (Nx : s0 <> x) by (intros ->; contradiction). assert (Ny : s0 <> y) by (intros ->; contradiction).
        unfold same_pair in *. cbn [fst snd] in *. intros Q. destruct Cx, Cy, Q; subst; cbn [fst snd] in *; try congruence;
          match goal with Z : (_, _) = (_, _) |- _ => injection Z; intros; congruence end.
      * intros [p sv] [p' sv'] I I'. apply H' in I. apply H in I'. destruct I as (s1 & Il & _ & C). destruct I' as (a & b & B & _ & C').
        apply before_in in B. destruct B as [Ba Bb]. apply choose_pair in C. apply choose_pair in C'. cbn [fst].
        assert (Na : s0 <> a) by (intros ->; contradiction). assert (Nb : s0 <> b) by (intros ->; contradiction).
        unfold same_pair in *. cbn [fst snd] in *. intros Q. destruct C, C', Q; subst; cbn [fst snd] in *;
          match goal with Z : (_, _) = (_, _) |- _ => injection Z; intros; congruence end.
Qed.

(** In every world built with the API: the contacts never join two shapes of a body, no unordered pair of shapes gets two
    contacts, every contact has the shapes its solver asks for, and every documented pair of registered shapes on
    different bodies gets one. *)
Theorem C22_contacts : forall v0 e fuel init ops g, let h := run v0 e fuel ops (fresh e init) in
  exists cs, get_all_contacts e g h = Ok cs /\
    (forall p sv, In (p, sv) cs -> In (fst p) (w_shapes h) /\ In (snd p) (w_shapes h) /\
       shape_body e (fst p) <> shape_body e (snd p) /\ solver_types sv (g (fst p)) (g (snd p))) /\
    unordered_distinct cs /\
    (forall a b, In a (w_shapes h) -> In b (w_shapes h) -> shape_body e a <> shape_body e b -> documented (g a) (g b) ->
       exists p sv, In (p, sv) cs /\ same_pair p (a, b)).
Proof.
  intros v0 e fuel init ops g h. destruct (all_contacts_ok e g (w_shapes h)) as (cs & E & H & Ud). exists cs. split; [exact E | ]. split; [ | split].
  - intros p sv I. apply H in I. destruct I as (a & b & B & N & C). apply before_in in B. destruct B as [Ba Bb].
    destruct (proj1 (C21_others g a b) p sv C) as [Sp St]. destruct Sp as [-> | ->]; cbn [fst snd] in *; auto 6.
  - apply Ud. exact (proj1 (proj2 (C13_registered_once R v0 e init fuel ops []))).
  - intros a b Ia Ib N D. assert (Nab : a <> b) by (intros ->; contradiction).
    destruct (C21_documented g a b D) as (p & q & sv & C1 & C2 & P1 & P2 & _).
    destruct (before_two (w_shapes h) a b Nat.eq_dec Ia Ib Nab) as [B | B].
    + exists p, sv. split; [ | exact P1]. apply H. exists a, b. auto.
    + exists q, sv. split; [ | exact P2]. apply H. exists b, a. auto.
Qed.
(** ... but a Point and a Box on different bodies get one only if the Box was registered first *)
Definition pb_env : env := Env 0 (fun _ => 0%nat) (fun _ => 0%nat) FBody (fun _ => []) (fun _ => 1%nat).
Definition pb_ops (a b : nat) : list (@op R) := [AddLink (FBody 0) 1 (FBody 1); Register (OShape a); Register (OShape b); Init].
Theorem C22_point_box_refuted : forall v0 init he,
  let g s := if Nat.eqb s 0 then Box he else Point in
  let h1 := run v0 pb_env 10 (pb_ops 0 1) (fresh pb_env init) in
  let h2 := run v0 pb_env 10 (pb_ops 1 0) (fresh pb_env init) in
  w_shapes h1 = [0; 1]%nat /\ w_shapes h2 = [1; 0]%nat /\ shape_body pb_env 0 <> shape_body pb_env 1 /\
  get_all_contacts pb_env g h1 = Ok [((0, 1)%nat, box_point)] /\ get_all_contacts pb_env g h2 = Ok [].
Proof. intros. cbn. repeat split. discriminate. Qed.
(** two bodies, three shapes: the sphere touches the plane and the point, on other bodies *)
Example C21_C22_witness : let g s := match s with 0%nat => Plane (V3 0 1 0) 0 | 1%nat => Sphere 1 | _ => Point end in
  let e := Env 0 (fun _ => 0%nat) (fun _ => 0%nat) (fun s => FBody (match s with 3%nat => 1%nat | _ => s end)) (fun _ => []) (fun _ => 1%nat) in
  let h := run 0 e 10 [AddLink (FBody 0) 1 (FBody 1); AddLink (FBody 1) 2 (FBody 2); Register (OShape 2); Register (OShape 1); Register (OShape 0); Register (OShape 3); Init] (fresh e (fun _ _ => 0)) in
  documented (g 1%nat) (g 0%nat) /\
  get_all_contacts e g h = Ok [((1, 2), sphere_point); ((0, 2), plane_point); ((0, 1), plane_sphere); ((0, 3), plane_point)]%nat.
Proof. split; reflexivity. Qed.

(** ** C54 *)
Theorem C54_spheres : forall argsort p0 r0 p1 r1, argsort_ok argsort -> p0 <> p1 -> 0 <= r0 -> 0 <= r1 ->
  exists s F0 F1, sphere_sphere_ argsort p0 r0 p1 r1 = Ok (s, F0, F1) /\
    s = dist p0 p1 - r0 - r1 /\
    contact_frames F0 F1 (vscal (/ dist p0 p1) (vsub p1 p0)) s /\
    dist (pos F0) p0 = r0 /\ dist (pos F1) p1 = r1 /\
    (0 <= s -> gap_at (ball p0 r0) (ball p1 r1) s (pos F0) (pos F1)) /\
    (s <= 0 <-> exists x, ball p0 r0 x /\ ball p1 r1 x).
Proof.
  intros argsort p0 r0 p1 r1 Ha Np R0 R1. set (d := vsub p1 p0).
  assert (Nd : d <> zero3) by (intros Z; apply Np; unfold d in Z; destruct p0, p1; unf; injection Z as Z1 Z2 Z3; f_equal; lra).
  destruct (unit_ok d Nd) as (Eu & Nu & Ed). set (n := vdiv d (norm3 d)) in *.
  destruct (zaligned_ok argsort n Ha Nu) as (H & EH & SH & ZH & PH).
  assert (Dd : dist p0 p1 = norm3 d) by (rewrite dist_sym; reflexivity).
  assert (Pd : 0 < norm3 d) by (destruct (Rle_lt_or_eq_dec _ _ (norm3_pos d)) as [ | Z]; [assumption | exfalso; apply Nd, norm3_zero; auto]).
  set (s := norm3 d - r0 - r1).
  exists s, (set_pos H (vadd p0 (vscal r0 n))), (set_pos H (vadd (vadd p0 (vscal r0 n)) (vscal s n))).
  change (zaxis H) with (zcol_ H) in ZH.
  split; [unfold sphere_sphere_; fold d; rewrite Eu; cbn [rbind]; rewrite EH; cbn [rbind]; rewrite ZH; reflexivity | ].
  split; [rewrite Dd; reflexivity | ]. cbn [pos set_pos].
  assert (En : vscal (/ dist p0 p1) d = n) by (rewrite Dd; unfold n, vdiv; generalize (norm3 d); destruct d as [a b c]; intros k; unf; f_equal; unfold Rdiv; ring).
  rewrite En. split; [ | split; [ | split]].
  - split; [apply SE3_set_pos; exact SH | ]. split; [apply SE3_set_pos; exact SH | ]. split; [reflexivity | ]. split; [exact ZH | reflexivity].
  - rewrite dist_along by exact Nu. apply Rabs_right. lra.
  - replace (vadd (vadd p0 (vscal r0 n)) (vscal s n)) with (vadd p1 (vscal (- r1) n)).
    + rewrite dist_along by exact Nu. rewrite Rabs_Ropp. apply Rabs_right. lra.
    + replace p1 with (vadd p0 d) by (unfold d; lin). rewrite Ed at 1. unfold s. generalize (norm3 d) n. lin.
  - assert (E1 : vadd (vadd p0 (vscal r0 n)) (vscal s n) = vadd p1 (vscal (- r1) n)).
    { replace p1 with (vadd p0 d) by (unfold d; lin). rewrite Ed at 1. unfold s. generalize (norm3 d) n. lin. }
    assert (LB : forall x y, ball p0 r0 x -> ball p1 r1 y -> s <= dist x y).
    { intros x y Bx By. unfold ball in *. assert (T1 := dist_tri p0 x p1). assert (T2 := dist_tri x y p1). rewrite (dist_sym p0 x), Dd in T1. unfold s. lra. }
    split.
    + intros Sp. split; [unfold ball; rewrite dist_along, Rabs_right by (exact Nu || lra); lra | ].
      split; [rewrite E1; unfold ball; rewrite dist_along, Rabs_Ropp, Rabs_right by (exact Nu || lra); lra | ].
      split; [rewrite dist_sym, dist_along by exact Nu; apply Rabs_right; lra | exact LB].
    + split.
      * intros Sn. set (t := Rmax 0 (norm3 d - r1)). exists (vadd p0 (vscal t n)). unfold ball. rewrite dist_along by exact Nu.
        assert (T0 : 0 <= t) by apply Rmax_l. assert (T1 : norm3 d - r1 <= t) by apply Rmax_r.
        assert (T2 : t <= r0) by (apply Rmax_lub; unfold s in Sn; lra).
        assert (T3 : t <= norm3 d) by (apply Rmax_lub; lra).
        rewrite Rabs_right by lra. split; [exact T2 | ].
        replace p1 with (vadd p0 (vscal (norm3 d) n)) by (rewrite <- Ed; unfold d; lin). rewrite dist_along2 by exact Nu. rewrite Rabs_left1; lra.
      * intros (x & B0 & B1). assert (L := LB x x B0 B1). rewrite dist_0 in L. exact L.
Qed.
(** swapping the spheres swaps the contact points and reverses the normal *)
Theorem C54_swap : forall argsort p0 r0 p1 r1 s F0 F1, argsort_ok argsort -> 0 <= r0 -> 0 <= r1 ->
  sphere_sphere_ argsort p0 r0 p1 r1 = Ok (s, F0, F1) ->
  exists G0 G1, sphere_sphere_ argsort p1 r1 p0 r0 = Ok (s, G0, G1) /\ pos G0 = pos F1 /\ pos G1 = pos F0 /\ zaxis G0 = vneg (zaxis F0).
Proof.
  intros argsort p0 r0 p1 r1 s F0 F1 Ha R0 R1 E.
  assert (Np : p0 <> p1).
  { intros ->. unfold sphere_sphere_, unit_of in E. replace (vsub p1 p1) with zero3 in E by lin.
    rewrite norm_0 in E. rewrite (proj2 (Reqb_true 0 0) eq_refl) in E. discriminate. }
  destruct (C54_spheres argsort p0 r0 p1 r1 Ha Np R0 R1) as (s' & F0' & F1' & E' & Es & (S0 & S1 & _ & Z0 & P1) & _). rewrite E in E'. injection E' as <- <- <-.
  destruct (C54_spheres argsort p1 r1 p0 r0 Ha (fun Q => Np (eq_sym Q)) R1 R0) as (t & G0 & G1 & EG & Et & (T0 & T1 & _ & ZG & Q1) & _).
  assert (St : t = s) by (rewrite Es, Et, (dist_sym p1 p0); ring). rewrite St in *. exists G0, G1. split; [exact EG | ].
  assert (Nz : dist p0 p1 <> 0) by (intros Z; apply Np, dist_eq; exact Z).
  assert (Fp : pos F0 = vadd p0 (vscal r0 (zaxis F0)) /\ pos G0 = vadd p1 (vscal r1 (zaxis G0))).
  { assert (X : forall a r b r' u A B, sphere_sphere_ argsort a r b r' = Ok (u, A, B) -> pos A = vadd a (vscal r (zaxis A))).
    { intros a r b r' u A B. unfold sphere_sphere_. destruct (unit_of (vsub b a)); [ | discriminate]. cbn [rbind].
      destruct (zaligned_ argsort a0) as [H | ]; [ | discriminate]. cbn [rbind]. intros Q.
      apply (f_equal (fun x => match x with Ok y => snd (fst y) | Err _ => A end)) in Q. cbn [fst snd] in Q. rewrite <- Q. reflexivity. }
    split; eapply X; eassumption. }
  destruct Fp as [F0p G0p].
  assert (EZ : zaxis G0 = vneg (zaxis F0)) by (rewrite Z0, ZG, (dist_sym p1 p0); generalize (/ dist p0 p1); lin).
  assert (D1 : p1 = vadd p0 (vscal (dist p0 p1) (zaxis F0))).
  { rewrite Z0. clear -Nz. revert Nz. generalize (dist p0 p1). intros k Hk. destruct p0, p1. unf. f_equal; field; exact Hk. }
  split; [ | split; [ | exact EZ]].
  - rewrite P1, <- Z0, F0p, G0p, EZ, Es. rewrite D1 at 1. generalize (dist p0 p1) (zaxis F0). lin.
  - rewrite Q1, <- ZG, F0p, G0p, EZ, Es. rewrite D1 at 1. generalize (dist p0 p1) (zaxis F0). lin.
Qed.
(** coincident centres are refused *)
Theorem C54_coincident : forall argsort p r0 r1, sphere_sphere_ argsort p r0 p r1 = Err AssertionError.
Proof.
  intros. unfold sphere_sphere_, unit_of. replace (vsub p p) with zero3 by lin. rewrite norm_0, (proj2 (Reqb_true 0 0) eq_refl). reflexivity.
Qed.
