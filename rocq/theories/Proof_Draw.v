(** Invariant of the Drawer. *)
From Coq Require Import Lra Lia.
From Verif Require Import Spec_Draw Proof_SE3 Props_Color Props_Color2.
From Verif Require Import Proof_Linalg Proof_World Proof_World2 Proof_Register.
Open Scope R_scope.

Lemma frame_eqb_eq a b : frame_eqb a b = true <-> a = b.
Proof. destruct a, b; cbn; rewrite ?Nat.eqb_eq; split; intros H; try congruence; try discriminate; injection H; auto. Qed.
Lemma frame_eqb_neq a b : frame_eqb a b = false <-> a <> b.
Proof. rewrite <- frame_eqb_eq. destruct (frame_eqb a b); split; congruence. Qed.
Lemma frame_eqb_refl a : frame_eqb a a = true. Proof. now apply frame_eqb_eq. Qed.

Section D.
  Variables (S : dscene) (flat : bool) (L : frame -> nat -> frame -> Prop).
  Notation e := (ds_e S).
  Notation sc := (ds_sc S).
  Notation gnd := (FBody (ground e)).

  (** how the node of a frame hangs below the node of [pf] *)
  Definition placed (pf : frame) (x : node) : Prop :=
    (flat = false /\ exists j, L pf j (n_frame x) /\ n_const x = false /\ n_pose x = Model_Joints.pose (ds_J S j)) \/
    (flat = false /\ exists s, pf = FSub s /\ n_frame x = FBody (frame_body e pf) /\ n_const x = true /\ n_pose x = ds_inv S (bpose sc pf)) \/
    (exists s, n_frame x = FSub s /\ pf = FBody (sub_body e s) /\ n_const x = true /\ n_pose x = sub_bpose sc s) \/
    (exists m, n_frame x = FMov m /\ pf = (if flat then gnd else FBody (mov_body e m)) /\ n_const x = false /\ n_pose x = mov_bpose sc m) \/
    (flat = true /\ exists b, n_frame x = FBody b /\ pf = gnd /\ n_const x = false /\ a_pose (ds_st S b) = Some (n_pose x)).

  Record sinv (next : nat) (nodes : list (nat * node)) (fr : frame -> option nat) : Prop := {
    s0 : fr gnd = Some 0%nat;
    s1 : forall n x, In (n, x) nodes -> (0 < n < next)%nat /\ (n_parent x < n)%nat /\ fr (n_frame x) = Some n /\ exists pf, fr pf = Some (n_parent x) /\ placed pf x;
    s2 : forall f n, fr f = Some n -> (f = gnd /\ n = 0%nat) \/ exists x, In (n, x) nodes /\ n_frame x = f;
    s3 : NoDup (map fst nodes);
    s4 : (1 <= next)%nat
  }.
  Lemma sinv_ext next nodes fr fr' : (forall f, fr' f = fr f) -> sinv next nodes fr -> sinv next nodes fr'.
  Proof.
    intros E [A0 A1 A2 A3 A4]. constructor; auto.
    - now rewrite E.
    - intros n x H. rewrite E. destruct (A1 n x H) as (B1 & B2 & B3 & pf & B4 & B5). repeat (split; [assumption | ]). exists pf. rewrite E. auto.
    - intros f n H. rewrite E in H. auto.
  Qed.
  Lemma sinv_lt next nodes fr f n : sinv next nodes fr -> fr f = Some n -> (n < next)%nat.
  Proof. intros I H. destruct (s2 _ _ _ I f n H) as [(_ & ->) | (x & Ix & _)]; [assert (Q := s4 _ _ _ I); lia | ]. destruct (s1 _ _ _ I n x Ix). lia. Qed.
  Lemma sinv_add next nodes fr x pf p : sinv next nodes fr -> fr pf = Some p -> n_parent x = p -> placed pf x -> fr (n_frame x) = None ->
    sinv (Datatypes.S next) ((next, x) :: nodes) (fun g => if frame_eqb g (n_frame x) then Some next else fr g).
  Proof.
    intros I Hp Ep Pl Nf. assert (Lp := sinv_lt _ _ _ _ _ I Hp). assert (Nx : forall f n, fr f = Some n -> frame_eqb f (n_frame x) = false) by (intros f n Hf; apply frame_eqb_neq; intros ->; congruence).
    constructor.
    - rewrite (Nx _ _ (s0 _ _ _ I)). apply (s0 _ _ _ I).
    - intros n y [E | H].
      + injection E as <- <-. split; [assert (Q := s4 _ _ _ I); lia | ]. split; [lia | ]. split; [now rewrite frame_eqb_refl | ]. exists pf. rewrite (Nx _ _ Hp). subst p. auto.
      + destruct (s1 _ _ _ I n y H) as (B1 & B2 & B3 & pf' & B4 & B5). split; [lia | ]. split; [lia | ]. split; [rewrite (Nx _ _ B3); exact B3 | ]. exists pf'. rewrite (Nx _ _ B4). auto.
    - intros f n. destruct (frame_eqb f (n_frame x)) eqn:Ef.
      + apply frame_eqb_eq in Ef. intros E. injection E as <-. right. exists x. split; [now left | auto].
      + intros H. destruct (s2 _ _ _ I f n H) as [? | (y & Iy & Ey)]; [now left | right]. exists y. split; [now right | auto].
    - cbn [map fst]. constructor; [ | apply (s3 _ _ _ I)]. intros H. apply in_map_iff in H. destruct H as ((n, y) & E & H). cbn in E. subst n. destruct (s1 _ _ _ I _ _ H). lia.
    - assert (Q := s4 _ _ _ I). lia.
  Qed.

  (** the items and the colours *)
  Record iinv (nodes : list (nat * node)) (fr : frame -> option nat) (items : list (nat * item)) (cs : colors) : Prop := {
    i0 : all_valid cs;
    i1 : forall n s c, In (n, IShape s c) items -> fr (shape_frame e s) = Some n /\ lookup e (ds_nm S) (OShape s) cs = Some c;
    i2 : forall n b c, In (n, IInertia b c) items -> fr (FBody b) = Some n /\ lookup e (ds_nm S) (OFrame (FBody b)) cs = Some c;
    i3 : forall n p c, In (n, ILine p c) items -> exists m x, In (m, x) nodes /\ n_parent x = n /\ n_const x = true /\ p = pos (n_pose x)
  }.
  Lemma iinv_mono nodes fr items cs nodes' fr' : iinv nodes fr items cs -> (forall x, In x nodes -> In x nodes') -> (forall f n, fr f = Some n -> fr' f = Some n) -> iinv nodes' fr' items cs.
  Proof.
    intros [A0 A1 A2 A3] Hn Hf. constructor; auto.
    - intros n s c H. destruct (A1 n s c H). auto.
    - intros n s c H. destruct (A2 n s c H). auto.
    - intros n p c H. destruct (A3 n p c H) as (m & x & ? & ? & ? & ?). exists m, x. auto.
  Qed.
  Lemma color_step o b d : all_valid (d_colors d) -> of_body e o b -> exists c d1, draw_color S o d = Ok (c, d1) /\
    d_next d1 = d_next d /\ d_nodes d1 = d_nodes d /\ d_frames d1 = d_frames d /\ d_items d1 = d_items d /\ d_moving d1 = d_moving d /\
    all_valid (d_colors d1) /\ lookup e (ds_nm S) o (d_colors d1) = Some c /\
    (forall o' c', lookup e (ds_nm S) o' (d_colors d) = Some c' -> lookup e (ds_nm S) o' (d_colors d1) = Some c').
  Proof.
    intros V P. unfold draw_color. destruct (get_valid e (ds_nm S) o b _ V P) as (c & cs & G & _). rewrite G. cbn [rbind]. do 2 eexists. split; [reflexivity | ]. cbn.
    do 5 (split; [reflexivity | ]). split; [apply (step_valid e (ds_nm S) (GetColor o) (d_colors d)); [exact V | cbn [cstep]; rewrite G; reflexivity] | ]. split; [exact (get_settles _ _ _ _ _ _ G) | ].
    intros o' c' Lk. apply (step_lookup _ _ _ _ cs _ (GetColor o) Lk); [cbn [cstep]; rewrite G; reflexivity | discriminate].
  Qed.
  Lemma iinv_color nodes fr items cs cs' : iinv nodes fr items cs -> all_valid cs' -> (forall o' c', lookup e (ds_nm S) o' cs = Some c' -> lookup e (ds_nm S) o' cs' = Some c') -> iinv nodes fr items cs'.
  Proof.
    intros [A0 A1 A2 A3] V H. constructor; auto.
    - intros n s c Hi. destruct (A1 n s c Hi). auto.
    - intros n s c Hi. destruct (A2 n s c Hi). auto.
  Qed.
  Lemma iinv_item nodes fr items cs n i : iinv nodes fr items cs ->
    match i with IArrows => True | ILine p _ => exists m x, In (m, x) nodes /\ n_parent x = n /\ n_const x = true /\ p = pos (n_pose x)
    | IInertia b c => fr (FBody b) = Some n /\ lookup e (ds_nm S) (OFrame (FBody b)) cs = Some c
    | IShape s c => fr (shape_frame e s) = Some n /\ lookup e (ds_nm S) (OShape s) cs = Some c end -> iinv nodes fr ((n, i) :: items) cs.
  Proof.
    intros [A0 A1 A2 A3] H. constructor; auto.
    - intros m s c [E | Hi]; [injection E as -> ->; exact H | eauto].
    - intros m s c [E | Hi]; [injection E as -> ->; exact H | eauto].
    - intros m p c [E | Hi]; [injection E as -> ->; exact H | eauto].
  Qed.
  Definition dinv (d : draw) : Prop := sinv (d_next d) (d_nodes d) (d_frames d) /\ iinv (d_nodes d) (d_frames d) (d_items d) (d_colors d).
  (** a new frame *)
  Lemma add_step d pf p P k f c n d' : dinv d -> d_frames d pf = Some p -> placed pf (Nd p P k f) -> d_frames d f = None ->
    add_frame p P k f c d = (n, d') ->
    n = d_next d /\ dinv (set_frame f n d') /\ d_frames d' = d_frames d /\ d_colors d' = d_colors d /\ item_shapes (d_items d') = item_shapes (d_items d) /\ item_bodies (d_items d') = item_bodies (d_items d) /\ d_moving d' = d_moving d.
  Proof.
    intros (Hs & Hi) Hp Pl Nf E. unfold add_frame in E. set (b := k && Rltb 0 (norm3 (pos P))) in E. injection E as <- <-.
    assert (Hs' := sinv_add _ _ _ (Nd p P k f) pf p Hs Hp eq_refl Pl Nf).
    split; [reflexivity | ]. split; [ | destruct b; cbn; auto 10].
    assert (Hm : iinv ((d_next d, Nd p P k f) :: d_nodes d) (fun g => if frame_eqb g f then Some (d_next d) else d_frames d g) (d_items d) (d_colors d)).
    { apply (iinv_mono _ _ _ _ _ _ Hi); [intros; now right | ]. intros g m Hg. destruct (frame_eqb g f) eqn:Ef; [apply frame_eqb_eq in Ef; congruence | exact Hg]. }
    apply (iinv_item _ _ _ _ (d_next d) IArrows) in Hm; [ | exact Logic.I]. split.
    - destruct b; exact Hs'.
    - destruct b eqn:Eb; [ | exact Hm]. cbn. apply iinv_item; [exact Hm | ]. exists (d_next d), (Nd p P k f). split; [now left | ]. split; [reflexivity | ]. split; [ | reflexivity]. subst b. apply andb_true_iff in Eb. tauto.
  Qed.
End D.
