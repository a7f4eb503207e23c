(** Lemmas about one simulation step. *)
From Verif Require Import Spec_Step Proof_Tree Proof_World Proof_World2 Proof_World3 Proof_Dofs Proof_World4.
From Verif Require Import Proof_Dyn Proof_Dyn2 Proof_Matrix Props_Dyn.
From Coq Require Import Lra.

Lemma sumlist_ext {A} (f g : A -> R) l : (forall x, In x l -> f x = g x) -> sumlist f l = sumlist g l.
Proof. induction l as [ | x l IH]; intros E; cbn; auto. rewrite E, IH by (intros; try apply E; cbn; auto). reflexivity. Qed.
Lemma sumlist_app {A} (f : A -> R) l1 l2 : sumlist f (l1 ++ l2) = sumlist f l1 + sumlist f l2.
Proof. induction l1 as [ | x l IH]; cbn; lra. Qed.
Lemma sumlist_add {A} (f g : A -> R) l : sumlist (fun x => f x + g x) l = sumlist f l + sumlist g l.
Proof. induction l as [ | x l IH]; cbn; lra. Qed.

(** *** update_controllers *)
Lemma add_controllers_frame ctl dt l : forall s, exists f Z, fst (add_controllers ctl dt l s) = set_forces s f Z (s_adm s).
Proof.
  induction l as [ | a l IH]; intros s; cbn [add_controllers].
  - exists (s_gforce s), (s_imp s). destruct s; reflexivity.
  - destruct (ctl a dt) as [[f Z] | x].
    + destruct (IH (set_forces s (vplus (s_gforce s) f) (mminus (s_imp s) Z) (s_adm s))) as (f' & Z' & E). exists f', Z'. rewrite E. reflexivity.
    + exists (s_gforce s), (s_imp s). destruct s; reflexivity.
Qed.
Lemma add_controllers_ok ctl dt fa Za l : (forall a, In a l -> ctl a dt = Ok (fa a, Za a)) -> forall s,
  exists f Z, add_controllers ctl dt l s = (set_forces s f Z (s_adm s), Ok tt) /\
    (forall i, f i = s_gforce s i + sumlist (fun a => fa a i) l) /\
    (forall i j, Z i j = s_imp s i j - sumlist (fun a => Za a i j) l).
Proof.
  induction l as [ | a l IH]; intros H s; cbn [add_controllers].
  - exists (s_gforce s), (s_imp s). split; [destruct s; reflexivity | ]. cbn. split; intros; lra.
  - rewrite H by (cbn; auto). destruct (IH (fun b I => H b (or_intror I)) (set_forces s (vplus (s_gforce s) (fa a)) (mminus (s_imp s) (Za a)) (s_adm s))) as (f & Z & E & Ef & EZ).
    exists f, Z. split; [rewrite E; reflexivity | ]. cbn [s_gforce s_imp set_forces] in *. unfold vplus, mminus in *. cbn [sumlist]. split; intros.
    + rewrite Ef. lra. + rewrite EZ. lra.
Qed.

Lemma mvn_sumlist n (Za : nat -> mat) l v i : mvn n (fun i j => sumlist (fun a => Za a i j) l) v i = sumlist (fun a => mvn n (Za a) v i) l.
Proof.
  induction l as [ | a l IH]; cbn [sumlist].
  - apply sumR_zero. intros; lra.
  - rewrite <- IH. unfold mvn. rewrite <- sumR_add. apply sumR_ext. intros; lra.
Qed.

(** *** integrate *)
Lemma nth_map_seq (f : nat -> R) : forall n k a, (k < n)%nat -> nth k (map f (seq a n)) 0 = f (a + k)%nat.
Proof.
  induction n as [ | n IH]; intros k a L; [lia | ]. cbn. destruct k as [ | k].
  - f_equal. lia. - rewrite IH by lia. f_equal. lia.
Qed.
Lemma nth_read (a : aid -> list R) w s n i : (i < n)%nat -> nth i (read a (View w s n)) 0 = nth (s + i) (a w) 0.
Proof.
  intros L. unfold read. cbn [v_arr v_start v_len]. generalize (a w). intros x.
  revert x. induction s as [ | s IH]; intros x; cbn [skipn Nat.add].
  - revert i x L. induction n as [ | n IHn]; intros i x L; [lia | ]. destruct x as [ | y x]; [destruct i; reflexivity | ].
    cbn [firstn]. destruct i; cbn [nth]; auto. apply IHn. lia.
  - destruct x as [ | y x]; [rewrite firstn_nil; destruct i; reflexivity | ]. cbn [nth]. apply IH.
Qed.

Lemma aid_eqb_refl a : aid_eqb a a = true.
Proof. destruct a; cbn; apply Nat.eqb_refl. Qed.
Lemma gvel_written h v : veq (length (world_gvel h)) (gvel_vec (write_world_gvel h v)) v.
Proof.
  intros i L. unfold gvel_vec, world_gvel, write_world_gvel. cbn [arr w_gvel set_dofs]. unfold upd_arr. rewrite aid_eqb_refl.
  rewrite nth_map_seq by exact L. reflexivity.
Qed.

Lemma integrate_joints_ok dt js : NoDup js -> forall s, (forall j, In j js -> exists a b, jdof (s_heap s) j = Some (a, b) /\
    jgvel (s_heap s) j = View (w_gvel (s_heap s)) a (b - a)) ->
  exists s', integrate_joints dt js s = (s', Ok tt) /\
    (exists g, (forall j, g j = jgvel (s_heap s) j) /\
       s_heap s' = set_dofs (s_heap s) (jdof (s_heap s)) (w_ndof (s_heap s)) (arr (s_heap s)) g (w_gvel (s_heap s)) (next_arr (s_heap s))) /\
    s_ty s' = s_ty s /\ s_dyn s' = s_dyn s /\ s_gforce s' = s_gforce s /\ s_imp s' = s_imp s /\ s_adm s' = s_adm s /\ s_time s' = s_time s /\
    (forall j, ~ In j js -> s_q s' j = s_q s j /\ s_qH s' j = s_qH s j) /\
    (forall j, In j js -> let r := j_integrate (joints_of s j) (gvel (joints_of s j)) dt in s_q s' j = gpos r /\ s_qH s' j = gposH r).
Proof.
  induction js as [ | j js IH]; intros ND s H; cbn [integrate_joints].
  - exists s. split; [reflexivity | ]. split; [exists (jgvel (s_heap s)); split; [auto | destruct (s_heap s); reflexivity] | ].
    repeat (split; [reflexivity | ]). split; [auto | intros ? []].
  - inversion ND as [ | ? ? NI ND']; subst. destruct (H j (or_introl eq_refl)) as (a & b & D & G).
    unfold integrate_joint. cbv zeta. rewrite D.
    match goal with |- context [integrate_joints dt js (WS ?a1 ?a2 ?a3 ?a4 ?a5 ?a6 ?a7 ?a8 ?a9)] => set (s1 := WS a1 a2 a3 a4 a5 a6 a7 a8 a9) end.
    assert (Gj : forall k, jgvel (s_heap s1) k = jgvel (s_heap s) k).
    { intros k. unfold s1. cbn [s_heap jgvel set_dofs]. destruct (s_ty s j); try reflexivity;
      unfold upd; destruct (Nat.eqb_spec k j) as [-> | ]; auto. }
    destruct (IH ND' s1) as (s' & E & (g & Eg & Eh) & Ty & Dy & Fo & Im & Ad & Ti & Out & Inn).
    { intros k Ik. destruct (H k (or_intror Ik)) as (a' & b' & D' & G'). exists a', b'. split; [exact D' | ]. rewrite Gj. exact G'. }
    exists s'. split; [exact E | ]. split; [exists g; split; [intros k; rewrite Eg; apply Gj | rewrite Eh; reflexivity] | ].
    split; [rewrite Ty; reflexivity | ]. split; [rewrite Dy; reflexivity | ]. split; [rewrite Fo; reflexivity | ]. split; [rewrite Im; reflexivity | ].
    split; [rewrite Ad; reflexivity | ]. split; [rewrite Ti; reflexivity | ]. split.
    + intros k Nk. destruct (Out k) as [O1 O2]; [intros X; apply Nk; right; auto | ].
      rewrite O1, O2. unfold s1. cbn [s_q s_qH]. unfold upd. destruct (Nat.eqb_spec k j) as [-> | ]; [exfalso; apply Nk; left; auto | auto].
    + intros k [<- | Ik].
      * destruct (Out j NI) as [O1 O2]. cbn zeta. rewrite O1, O2. unfold s1. cbn [s_q s_qH]. unfold upd. rewrite Nat.eqb_refl.
        cbn [joints_of joint_state gvel]. unfold joint_gvel. rewrite G. split; reflexivity.
      * assert (k <> j) by (intros ->; contradiction). specialize (Inn k Ik). cbn zeta in *. destruct Inn as [I1 I2]. rewrite I1, I2.
        assert (Ej : joints_of s1 k = joints_of s k).
        { unfold joints_of, joint_state, joint_gvel. rewrite Gj. unfold s1. cbn [s_ty s_qH s_q s_heap arr set_dofs]. unfold upd.
          destruct (Nat.eqb_spec k j); [congruence | reflexivity]. }
        rewrite Ej. split; reflexivity.
Qed.

Lemma live_set e h t a g : live e h t -> (forall j, g j = jgvel h j) -> length (a (w_gvel h)) = w_ndof h ->
  live e (set_dofs h (jdof h) (w_ndof h) a g (w_gvel h) (next_arr h)) t.
Proof.
  intros ((Rp & Er & ND & Nd & Sl) & Ln & Vw) Eg La. split; [ | split].
  - split; [apply rep_set_dofs; auto | ]. repeat (split; auto).
  - exact La.
  - intros j s d I D. cbn [jgvel w_gvel set_dofs]. rewrite Eg. apply Vw; auto.
Qed.

Lemma live_joint_gvel e s t j a b : live e (s_heap s) t -> In j (joints t) -> jdof (s_heap s) j = Some (a, b) ->
  forall i, (i < b - a)%nat -> gvel (joints_of s j) i = gvel_vec (s_heap s) (a + i)%nat.
Proof.
  intros (_ & _ & V) I D i L. cbn [joints_of joint_state gvel]. unfold joint_gvel. rewrite (V j a b I D).
  rewrite nth_read by exact L. reflexivity.
Qed.

Lemma integrate_ok e t dt fuel s : live e (s_heap s) t -> (height t < fuel)%nat -> 0 < dt ->
  (forall j, In j (joints t) -> jndof e j = ndof_of (s_ty s j)) ->
  exists s', integrate e fuel dt s = (s', Ok tt) /\ live e (s_heap s') t /\
    veq (w_ndof (s_heap s)) (gvel_vec (s_heap s')) (next_gvel s dt (s_gforce s)) /\
    (forall j, In j (joints t) -> exists a, jdof (s_heap s) j = Some (a, a + jndof e j)%nat /\
        moved_by (joints_of s j) (joints_of s' j) (jndof e j) (fun i => gvel_vec (s_heap s') (a + i)%nat) dt) /\
    (forall j, ~ In j (joints t) -> s_q s' j = s_q s j /\ s_qH s' j = s_qH s j) /\
    w_ndof (s_heap s') = w_ndof (s_heap s) /\ s_ty s' = s_ty s /\ s_dyn s' = s_dyn s /\ s_gforce s' = s_gforce s /\ s_time s' = s_time s + dt.
Proof.
  intros Lv F P Hty. unfold integrate. destruct (Rlt_dec 0 dt) as [_ | ]; [ | lra].
  set (h1 := write_world_gvel _ _). set (s1 := WS h1 _ _ _ _ _ _ _ _).
  assert (L1 : live e h1 t).
  { apply live_set; auto. unfold upd_arr. rewrite aid_eqb_refl, map_length, seq_length. apply Lv. }
  destruct (L1) as ((Rp & Er & ND & Nd & Sl) & Ln & Vw).
  unfold iterjoints. rewrite <- Er, (iter_joints_ok e h1 t Rp fuel F).
  assert (NJ : NoDup (joints t)) by (eapply rep_nodup_joints; eauto).
  assert (Dj : forall j, In j (joints t) -> exists a, jdof h1 j = Some (a, a + jndof e j)%nat /\ jgvel h1 j = View (w_gvel h1) a (jndof e j)).
  { intros j Ij. destruct (in_split _ _ Ij) as (l1 & l2 & El). exists (total_ndof e l1). split; [apply (Sl l1 j l2 El) | ].
    rewrite (Vw j _ _ Ij (Sl l1 j l2 El)). f_equal. lia. }
  destruct (integrate_joints_ok dt (joints t) NJ s1) as (s' & E & (g & Eg & Eh) & Ty & Dy & Fo & Im & Ad & Ti & Out & Inn).
  { intros j Ij. destruct (Dj j Ij) as (a & D & G). exists a, (a + jndof e j)%nat. split; [exact D | ].
    change (s_heap s1) with h1. rewrite G. f_equal. lia. }
  rewrite E. eexists. split; [reflexivity | ]. cbn [s_heap s_ty s_qH s_q s_dyn s_gforce s_imp s_adm s_time].
  assert (L2 : live e (s_heap s') t) by (rewrite Eh; apply live_set; auto).
  assert (V2 : forall k, gvel_vec (s_heap s') k = gvel_vec h1 k) by (intros k; rewrite Eh; reflexivity).
  split; [exact L2 | ]. split.
  { intros i Li. rewrite V2. apply gvel_written. destruct Lv as (_ & -> & _). exact Li. }
  split.
  { intros j Ij. destruct (Dj j Ij) as (a & D & G). exists a. split; [exact D | ].
    assert (Jv : forall i, (i < jndof e j)%nat -> gvel (joints_of s1 j) i = gvel_vec (s_heap s') (a + i)%nat).
    { intros i Li. rewrite V2. apply (live_joint_gvel e s1 t j a (a + jndof e j)); auto. lia. }
    assert (Jw : forall i, (i < jndof e j)%nat -> nth i (joint_gvel (s_heap s') j) 0 = gvel_vec (s_heap s') (a + i)%nat).
    { intros i Li. apply (live_joint_gvel e s' t j a (a + jndof e j)); auto; [rewrite Eh; exact D | lia]. }
    destruct (Inn j Ij) as [Q1 Q2]. specialize (Hty j Ij).
    unfold moved_by. cbn [joints_of joint_state jt gposH gpos gvel s_heap s_ty s_q s_qH] in *. rewrite Q1, Q2, Ty. cbn [s_ty s1].
    split; [reflexivity | ]. split; [ | exact Jw].
    unfold j_integrate. cbn [jt joints_of joint_state s_ty s1].
    destruct (s_ty s j) eqn:K; cbn [ndof_of] in Hty; try (intros i Li; cbn [gpos]; f_equal; f_equal; apply (Jv i Li)).
    - cbn [gposH]. f_equal. f_equal. f_equal. unfold v6of.
      rewrite Hty in Jv. cbn [joints_of joint_state gvel] in Jv. rewrite !Jv by lia. reflexivity.
    - intros i Li. lia. }
  split; [intros j Nj; apply Out; exact Nj | ]. split; [rewrite Eh; reflexivity | ]. rewrite Ty, Dy, Fo, Ti. repeat split; reflexivity.
Qed.
