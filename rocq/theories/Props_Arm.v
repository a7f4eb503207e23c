(** C71: the planar arm. *)
From Coq Require Import Lra Lia.
From Verif Require Import Spec_Arm.
From Verif Require Import Proof_Linalg Proof_SE3 Proof_Tree Proof_World Proof_World4 Proof_World3 Props_Dyn Proof_Dyn2 Props_Mass Proof_Robots2 Props_Robots2 Proof_Build Proof_Build2 Proof_Build3 Proof_Human36 Props_Human36 Props_Human36_2 Props_Checks.
Open Scope R_scope.

(** the mass matrix of a rod *)
Definition rod_mass (l m : R) : m6 :=
  rigid_mass m (V3 0 (l / 2) 0) (diag3 (V3 (m / 3 * ((l / 2) ^ 2 + (l / 20) ^ 2) + m * (l / 2) ^ 2) (m / 3 * ((l / 20) ^ 2 + (l / 20) ^ 2)) (m / 3 * ((l / 20) ^ 2 + (l / 2) ^ 2) + m * (l / 2) ^ 2))).
Lemma sq_pos x : x <> 0 -> 0 < x ^ 2.
Proof. intros N. rewrite <- Rsqr_pow2. now apply Rsqr_pos_lt. Qed.
Lemma box_of l m : l <> 0 -> 0 < m -> mass_of m (box (rod_box l) m).
Proof. intros Hl Hm. assert (P := sq_pos l Hl). unfold box, rod_box. cbn [vx vy vz]. apply diag_mass; try lra; apply Rmult_lt_0_compat; try lra; assert (X : (l / 20) ^ 2 = l ^ 2 / 400) by field; assert (Y : (l / 2) ^ 2 = l ^ 2 / 4) by field; rewrite ?X, ?Y; lra. Qed.
Lemma rod_ok eigvals l m : eigs_ok eigvals -> l <> 0 -> 0 < m -> transport eigvals (box (rod_box l) m) (transl 0 (- l / 2) 0) = Ok (rod_mass l m) /\ mass_of m (rod_mass l m).
Proof.
  intros Ev Hl Hm. assert (Mm := box_of l m Hl Hm). assert (SH : SE3 (transl 0 (- l / 2) 0)) by apply transl_SE3.
  assert (EM : mm6 (tr6 (adjoint_ (transl 0 (- l / 2) 0))) (mm6 (box (rod_box l) m) (adjoint_ (transl 0 (- l / 2) 0))) = rod_mass l m).
  { unfold transl, rod_mass, rod_box, box, diag6, rigid_mass, diag3. clear. unf. entries; field. }
  assert (Mm' := transport_mass _ _ _ Mm SH). rewrite EM in Mm'. split; [ | exact Mm']. rewrite (transport_eq _ _ _ _ Mm (Ev _ (proj1 Mm)) SH), EM. reflexivity.
Qed.
Lemma rod_accept eigvals l m : eigs_ok eigvals -> l <> 0 -> 0 < m -> ismassmatrix eigvals (rod_mass l m) true = true.
Proof. intros Ev Hl Hm. destruct (rod_ok eigvals l m Ev Hl Hm) as (_ & Mm). apply accepts_semi. apply (accepts eigvals m); [exact Mm | apply Ev, Mm]. Qed.
(** the rods that are refused *)
Lemma rod_bad eigvals l m : eigs_ok eigvals -> l = 0 \/ m <= 0 -> transport eigvals (box (rod_box l) m) (transl 0 (- l / 2) 0) = Err AssertionError.
Proof.
  intros Ev Hb. set (M := box (rod_box l) m). assert (Sy : sym6 M) by (apply tr_sym6; unfold M, box, diag6; lin). assert (Ll : ll M = mscal m eye3) by (unfold M, box, diag6; cbn [ll]; clear; unf; entries; ring).
  destruct (C70_definite eigvals m M (Ev M Sy) Sy Ll) as (X & _). unfold transport. destruct (ismassmatrix eigvals M false) eqn:Q; [ | reflexivity]. exfalso. assert (P := proj1 X eq_refl). clear X Q.
  destruct Hb as [-> | Hm].
  - specialize (P (V6 (V3 1 0 0) zero3)). unfold M, box, rod_box, diag6 in P. revert P. clear. unf. intros P. assert (0 < 0); [ | lra]. eapply Rlt_le_trans; [apply P | ]; [intros E; injection E; lra | ]. apply Req_le. field.
  - specialize (P (V6 zero3 (V3 1 0 0))). unfold M, box, rod_box, diag6 in P. revert P Hm. clear. unf. intros P Hm. assert (0 < m); [ | lra]. eapply Rlt_le_trans; [apply P | ]; [intros E; injection E; lra | ]. apply Req_le. field.
Qed.

(** the calls of a successful construction *)
Section C.
  Variables (e : env) (I : bids) (p : string).
  Definition rod_cmds (ws : bool) (k : nat) (n : string) (l m : R) : list cmd :=
    MkBody (xb I k) (Some n) (rod_mass l m) :: (if ws then [MkSub (xs I (3 + k)) (xb I k) None (transl 0 (l / 2) 0); MkShape (xh I k) None (FSub (xs I (3 + k))) (ShBox (rod_box l)); Reg (OShape (xh I k))] else []).
  Definition arm_tail (l0 l1 l2 : R) : list cmd :=
    [MkJoint (xj I 0) (Some (p ++ "Shoulder")%string) RzJoint; Link (FBody (ground e)) (xj I 0) (FBody (xb I 0)); MkSub (xs I 0) (xb I 0) (Some (p ++ "ElbowBaseFrame")%string) (transl 0 l0 0);
     MkJoint (xj I 1) (Some (p ++ "Elbow")%string) RzJoint; Link (FSub (xs I 0)) (xj I 1) (FBody (xb I 1)); MkSub (xs I 1) (xb I 1) (Some (p ++ "WristBaseFrame")%string) (transl 0 l1 0);
     MkJoint (xj I 2) (Some (p ++ "Wrist")%string) RzJoint; Link (FSub (xs I 1)) (xj I 2) (FBody (xb I 2)); MkSub (xs I 2) (xb I 2) (Some (p ++ "EndEffector")%string) (transl 0 l2 0); Reg (OFrame (FSub (xs I 2)))].
  Definition arm_cmds (ws : bool) (l0 l1 l2 m0 m1 m2 : R) : list cmd :=
    rod_cmds ws 0 (p ++ "Arm") l0 m0 ++ rod_cmds ws 1 (p ++ "Forearm") l1 m1 ++ rod_cmds ws 2 (p ++ "Hand") l2 m2 ++ arm_tail l0 l1 l2.
  Lemma tail_in k c ws l0 l1 l2 m0 m1 m2 : nth_error (arm_tail l0 l1 l2) k = Some c -> In c (arm_cmds ws l0 l1 l2 m0 m1 m2).
  Proof. intros H. apply nth_error_In in H. unfold arm_cmds. rewrite !in_app_iff. tauto. Qed.
  Lemma rod_in ws l0 l1 l2 m0 m1 m2 : incl (rod_cmds ws 0 (p ++ "Arm") l0 m0) (arm_cmds ws l0 l1 l2 m0 m1 m2) /\ incl (rod_cmds ws 1 (p ++ "Forearm") l1 m1) (arm_cmds ws l0 l1 l2 m0 m1 m2) /\ incl (rod_cmds ws 2 (p ++ "Hand") l2 m2) (arm_cmds ws l0 l1 l2 m0 m1 m2).
  Proof. unfold arm_cmds. split; [ | split]; intros c H; rewrite !in_app_iff; tauto. Qed.
  Lemma arm_cases ws l0 l1 l2 m0 m1 m2 c : In c (arm_cmds ws l0 l1 l2 m0 m1 m2) -> (exists k n l m, (k < 3)%nat /\ In c (rod_cmds ws k n l m)) \/ In c (arm_tail l0 l1 l2).
  Proof. unfold arm_cmds. rewrite !in_app_iff. intros [H | [H | [H | H]]]; [left; exists 0%nat | left; exists 1%nat | left; exists 2%nat | now right]; do 3 eexists; (split; [ | exact H]); lia. Qed.
  Lemma create_ok eigvals ws k n l m : eigs_ok eigvals -> l <> 0 -> 0 < m -> create_body eigvals I ws k n l m = (rod_cmds ws k n l m, Ok (xb I k)).
  Proof. intros Ev Hl Hm. unfold create_body. change (V3 (l / 20) (l / 2) (l / 20)) with (rod_box l). rewrite (proj1 (rod_ok eigvals l m Ev Hl Hm)). destruct ws; reflexivity. Qed.
  Lemma create_bad eigvals ws k n l m : eigs_ok eigvals -> l = 0 \/ m <= 0 -> create_body eigvals I ws k n l m = ([], Err AssertionError).
  Proof. intros Ev Hb. unfold create_body. change (V3 (l / 20) (l / 2) (l / 20)) with (rod_box l). rewrite (rod_bad eigvals l m Ev Hb). reflexivity. Qed.
  Lemma sbind_lift {A B} (a : A) (f : A -> scr B) : sbind (slift (Ok a)) f = f a.
  Proof. unfold sbind. cbn. now destruct (f a). Qed.
  Lemma sbind_ok {A B} c (a : A) (f : A -> scr B) : sbind (c, Ok a) f = (c ++ fst (f a), snd (f a)).
  Proof. reflexivity. Qed.
  Lemma sbind_err {A B} c x (f : A -> scr B) : sbind (c, Err x) f = (c, Err x).
  Proof. reflexivity. Qed.
  Lemma script_arm eigvals ws l0 l1 l2 ls m0 m1 m2 ms : eigs_ok eigvals -> l0 <> 0 -> l1 <> 0 -> l2 <> 0 -> 0 < m0 -> 0 < m1 -> 0 < m2 ->
    simplearm_script e eigvals I p (l0 :: l1 :: l2 :: ls) (m0 :: m1 :: m2 :: ms) ws = (arm_cmds ws l0 l1 l2 m0 m1 m2 ++ [WInit], Ok tt).
  Proof.
    intros Ev A0 A1 A2 B0 B1 B2. unfold simplearm_script, item. cbn [nth_error].
    do 2 (rewrite sbind_lift; cbv beta). rewrite (create_ok eigvals ws 0 _ l0 m0 Ev A0 B0), sbind_ok. cbv beta.
    do 2 (rewrite sbind_lift; cbv beta). rewrite (create_ok eigvals ws 1 _ l1 m1 Ev A1 B1), sbind_ok. cbv beta.
    do 2 (rewrite sbind_lift; cbv beta). rewrite (create_ok eigvals ws 2 _ l2 m2 Ev A2 B2), sbind_ok. cbv beta.
    cbn [fst snd]. unfold arm_cmds. rewrite <- !app_assoc. reflexivity.
  Qed.
  Lemma arm_links ws l0 l1 l2 m0 m1 m2 : links_in (arm_cmds ws l0 l1 l2 m0 m1 m2) = [(FBody (ground e), xj I 0, FBody (xb I 0)); (FSub (xs I 0), xj I 1, FBody (xb I 1)); (FSub (xs I 1), xj I 2, FBody (xb I 2))].
  Proof. destruct ws; reflexivity. Qed.
  Lemma arm_pass eigvals ws l0 l1 l2 m0 m1 m2 : eigs_ok eigvals -> l0 <> 0 -> l1 <> 0 -> l2 <> 0 -> 0 < m0 -> 0 < m1 -> 0 < m2 -> Forall (passes eigvals) (arm_cmds ws l0 l1 l2 m0 m1 m2).
  Proof.
    intros Ev A0 A1 A2 B0 B1 B2. unfold arm_cmds, rod_cmds. destruct ws; cbn [app]; repeat (apply Forall_cons; [cbn [passes]; first [exact Logic.I | apply transl_SE3 | now apply rod_accept] | ]); apply Forall_nil.
  Qed.
End C.

Section B.
  Variables (e : env) (I : bids) (p : string) (ws : bool) (l0 l1 l2 m0 m1 m2 : R).
  Notation cs := (arm_cmds e I p ws l0 l1 l2 m0 m1 m2).
  Lemma arm_sub0 h : (forall c, In c cs -> made e h c) -> sub_body e (xs I 0) = xb I 0.
  Proof. intros Mk. apply (Mk (MkSub (xs I 0) (xb I 0) (Some (p ++ "ElbowBaseFrame")%string) (transl 0 l0 0))). now apply (tail_in e I p 2). Qed.
  Lemma arm_sub1 h : (forall c, In c cs -> made e h c) -> sub_body e (xs I 1) = xb I 1.
  Proof. intros Mk. apply (Mk (MkSub (xs I 1) (xb I 1) (Some (p ++ "WristBaseFrame")%string) (transl 0 l1 0))). now apply (tail_in e I p 5). Qed.
  Lemma arm_sub2 h : (forall c, In c cs -> made e h c) -> sub_body e (xs I 2) = xb I 2.
  Proof. intros Mk. apply (Mk (MkSub (xs I 2) (xb I 2) (Some (p ++ "EndEffector")%string) (transl 0 l2 0))). now apply (tail_in e I p 8). Qed.
  Lemma build_arm g0 h0 eigvals t fuel : reachable 0 e g0 h0 -> eigs_ok eigvals -> new_ids I h0 e -> l0 <> 0 -> l1 <> 0 -> l2 <> 0 -> 0 < m0 -> 0 < m1 -> 0 < m2 -> (forall c, In c cs -> made e h0 c) -> rep e h0 t -> root t = ground e -> (length (bodies t) + 3 < fuel)%nat ->
    exists h' t', exec_all e eigvals fuel (cs ++ [WInit]) h0 = (h', Ok tt) /\ reachable 0 e g0 h' /\ ready e h' t' /\ (height t' < fuel)%nat /\
      (forall b, In b (bodies t') <-> In b (bodies t) \/ In b (map (xb I) (seq 0 3))) /\ Permutation (joints t') (joints t ++ map (xj I) (seq 0 3)) /\
      w_ndof h' = (total_ndof e (joints t) + total_ndof e (map (xj I) (seq 0 3)))%nat /\
      (forall l, In l (links_in cs) -> jframes h' (l_joint l) = Some (fst (fst l), snd l)) /\
      (forall j, ~ In j (map (xj I) (seq 0 3)) -> jframes h' j = jframes h0 j) /\
      (forall j, joint_gvel h' j = joint_gvel h0 j) /\
      reg_le h0 h' /\ (forall x, In (Reg x) cs -> registered h' x).
  Proof.
    intros R Ev Ni A0 A1 A2 B0 B1 B2 Mk Rt Er Fu. assert (Ej : map l_joint (links_in cs) = map (xj I) (seq 0 3)) by (rewrite arm_links; reflexivity). assert (Et : map (l_to e) (links_in cs) = map (xb I) (seq 0 3)) by (rewrite arm_links; reflexivity). rewrite <- Ej.
    assert (S0 := arm_sub0 h0 Mk). assert (S1 := arm_sub1 h0 Mk).
    assert (X : forall l, In l (links_in cs) -> exists k, (k < 3)%nat /\ l_to e l = xb I k /\ (exists j, l_joint l = xj I j) /\ (l_from e l = ground e \/ exists i, (i < k)%nat /\ l_from e l = xb I i)).
    { intros l Hl. rewrite arm_links in Hl. destruct Hl as [<- | [<- | [<- | []]]]; [exists 0%nat | exists 1%nat | exists 2%nat]; (split; [lia | ]); (split; [reflexivity | ]); (split; [eexists; reflexivity | ]); unfold l_from; cbn [fst snd frame_body]; rewrite ?S0, ?S1; [now left | right; exists 0%nat; split; [lia | reflexivity] | right; exists 1%nat; split; [lia | reflexivity]]. }
    apply (build_ok e g0 eigvals h0 (map (xb I) (seq 0 3)) (rank_of I 3) (bs_new e h0 I 3 Ni) cs t R Rt Er (bs_nodup e h0 I 3 Ni)).
    - now apply arm_pass.
    - apply idx_fits; [exact Ni | exact X | rewrite Et; apply bs_nodup with (e := e) (h0 := h0); exact Ni | rewrite Ej; apply NoDup_map_inj; [apply Ni | apply seq_NoDup]].
    - intros l Hl. destruct (X l Hl) as (k & Hk & _ & _ & [Q | (i & Hi & Q)]); [now right | left]. rewrite Q. apply in_map. apply in_seq. lia.
    - intros b Hb. now rewrite Et.
    - rewrite map_length, seq_length. exact Fu.
  Qed.
End B.

Lemma new_not_old e g0 h I t k : reachable 0 e g0 h -> new_ids I h e -> rep e h t -> root t = ground e -> ~ In (xb I k) (bodies t).
Proof.
  intros R Ni Rt Er Hin. rewrite bodies_tail in Hin. destruct Ni as (_ & _ & N). destruct (N k) as (N1 & N2 & _). destruct Hin as [Q | Hin]; [congruence | ].
  destruct (rep_edge_body e h t (xb I k) Rt Hin) as (q & j & (_ & P) & _). congruence.
Qed.
Lemma new_bodies_length e g0 h I t t' n : reachable 0 e g0 h -> new_ids I h e -> rep e h t -> root t = ground e -> NoDup (bodies t') -> (forall b, In b (bodies t') <-> In b (bodies t) \/ In b (map (xb I) (seq 0 n))) -> length (bodies t') = (length (bodies t) + n)%nat.
Proof.
  intros R Ni Rt Er N' Bd. assert (Pb : Permutation (bodies t') (bodies t ++ map (xb I) (seq 0 n))).
  { apply NoDup_Permutation; [exact N' | | intros b; rewrite in_app_iff; apply Bd]. apply NoDup_app_iff. split; [ | split; [eapply bs_nodup; exact Ni | ]].
    - destruct (world_iterators e h (reachable_forest 0 e g0 h R)) as (t1 & Rt1 & Er1 & ND & _). now rewrite (rep_unique e h _ _ Rt Rt1 ltac:(congruence)).
    - intros x H1 H2. apply in_map_iff in H2. destruct H2 as (k & <- & _). exact (new_not_old e g0 h I t k R Ni Rt Er H1). }
  rewrite (Permutation_length Pb), app_length, map_length, seq_length. reflexivity.
Qed.
Lemma old_joint e h I t j n : new_ids I h e -> rep e h t -> In j (joints t) -> ~ In j (map (xj I) (seq 0 n)).
Proof.
  intros Ni Rt Hj Q. apply in_map_iff in Q. destruct Q as (k & <- & _). destruct Ni as (_ & _ & N). destruct (N k) as (_ & _ & _ & Z). destruct (rep_joint_edge e h t _ Rt Hj) as (q & c & ((f0 & f1 & Ef & _) & _) & _). congruence.
Qed.

Theorem C71_arm : forall e g0 h eigvals I p l0 l1 l2 ls m0 m1 m2 ms ws t,
  reachable 0 e g0 h -> eigs_ok eigvals -> new_ids I h e -> l0 <> 0 -> l1 <> 0 -> l2 <> 0 -> 0 < m0 -> 0 < m1 -> 0 < m2 -> rep e h t -> root t = ground e ->
  exists cs, simplearm_script e eigvals I p (l0 :: l1 :: l2 :: ls) (m0 :: m1 :: m2 :: ms) ws = (cs, Ok tt) /\
    ((forall c, In c cs -> made e h c) -> forall fuel, (length (bodies t) + 3 < fuel)%nat ->
     exists h' t', add_simplearm e eigvals I fuel p (l0 :: l1 :: l2 :: ls) (m0 :: m1 :: m2 :: ms) ws h = (h', Ok tt) /\ reachable 0 e g0 h' /\ ready e h' t' /\ (height t' < fuel)%nat /\
       w_ndof h' = (total_ndof e (joints t) + 3)%nat /\ length (bodies t') = (length (bodies t) + 3)%nat /\
       (forall b, In b (bodies t') <-> In b (bodies t) \/ exists n, In n (map snd arm_chain) /\ body_called cs p n b) /\
       (forall jn from to, In (jn, from, to) arm_chain -> exists j f0 b, joint_called cs p jn j /\ In j (joints t') /\ jndof e j = 1%nat /\
          jframes h' j = Some (f0, FBody b) /\ body_called cs p to b /\ match from with None => frame_body e f0 = ground e | Some n => body_called cs p n (frame_body e f0) end) /\
       length (joints t') = (length (joints t) + 3)%nat /\
       (forall j, In j (joints t) -> In j (joints t') /\ jframes h' j = jframes h j) /\ (forall j, joint_gvel h' j = joint_gvel h j) /\ reg_le h h' /\
       (exists s, tag_called cs p "EndEffector" s /\ registered h' (OFrame (FSub s))) /\
       (* the rods, their masses and their shapes *)
       (forall n l m, In (n, l, m) [("Arm", l0, m0); ("Forearm", l1, m1); ("Hand", l2, m2)]%string -> exists b M I0, In (MkBody b (Some (p ++ n)%string) M) cs /\
          M = rigid_mass m (V3 0 (l / 2) 0) I0 /\ mass_of m M /\ madd I0 (mscal m (mm (skew (V3 0 (l / 2) 0)) (skew (V3 0 (l / 2) 0)))) = aa (box (rod_box l) m) /\
          if ws then exists s x, In (MkSub s b None (transl 0 (l / 2) 0)) cs /\ In (MkShape x None (FSub s) (ShBox (rod_box l))) cs /\ registered h' (OShape x)
          else forall s k f g, ~ In (MkShape s k f g) cs)).
Proof.
  intros e g0 h eigvals I p l0 l1 l2 ls m0 m1 m2 ms ws t R Ev Ni A0 A1 A2 B0 B1 B2 Rt Er. set (C := arm_cmds e I p ws l0 l1 l2 m0 m1 m2).
  assert (Es := script_arm e I p eigvals ws l0 l1 l2 ls m0 m1 m2 ms Ev A0 A1 A2 B0 B1 B2). fold C in Es. exists (C ++ [WInit]). split; [exact Es | ]. intros Mk fuel Fu.
  assert (Mk' : forall c, In c C -> made e h c) by (intros c Hc; apply Mk, in_or_app; now left).
  destruct (build_arm e I p ws l0 l1 l2 m0 m1 m2 g0 h eigvals t fuel R Ev Ni A0 A1 A2 B0 B1 B2 Mk' Rt Er Fu) as (h' & t' & E & R' & Rd & Hf & Bd & Pm & Nd & Jf & Jo & Gv & Rl & Rg). fold C in E, Jf, Rg.
  exists h', t'. split; [unfold add_simplearm, run_scr; rewrite Es; cbn [fst snd]; now rewrite E | ]. split; [exact R' | ]. split; [exact Rd | ]. split; [exact Hf | ].
  assert (Jd : forall k, (k < 3)%nat -> jndof e (xj I k) = 1%nat).
  { intros k Hk. destruct k as [ | [ | [ | ]]]; [apply (Mk' (MkJoint (xj I 0) (Some (p ++ "Shoulder")%string) RzJoint)) | apply (Mk' (MkJoint (xj I 1) (Some (p ++ "Elbow")%string) RzJoint)) | apply (Mk' (MkJoint (xj I 2) (Some (p ++ "Wrist")%string) RzJoint)) | lia]; [apply (tail_in e I p 0) | apply (tail_in e I p 3) | apply (tail_in e I p 6)]; reflexivity. }
  split; [rewrite Nd; f_equal; unfold total_ndof; cbn [seq map list_sum fold_right]; rewrite !Jd by lia; reflexivity | ].
  split; [eapply new_bodies_length; [exact R | exact Ni | exact Rt | exact Er | apply Rd | exact Bd] | ].
  assert (Bc : forall k n, nth_error (map snd arm_chain) k = Some n -> body_called (C ++ [WInit]) p n (xb I k)).
  { intros k n Hn. destruct (rod_in e I p ws l0 l1 l2 m0 m1 m2) as (X0 & X1 & X2). destruct k as [ | [ | [ | k]]]; [ | | | destruct k; discriminate Hn]; cbn in Hn; injection Hn as <-; eexists; apply in_or_app; left; [apply X0 | apply X1 | apply X2]; left; reflexivity. }
  split.
  { intros b. rewrite Bd. apply or_iff_compat_l. split.
    - intros H. apply in_map_iff in H. destruct H as (k & <- & Hk). apply in_seq in Hk. destruct (nth_error (map snd arm_chain) k) as [n | ] eqn:Q; [ | apply nth_error_None in Q; cbn in Q; lia]. exists n. split; [eapply nth_error_In; eauto | now apply Bc].
    - intros (n & _ & M & H). apply in_snoc in H; [ | discriminate]. apply arm_cases in H. destruct H as [(k & n' & l & m & Hk & H) | H].
      + unfold rod_cmds in H. destruct H as [H | H]; [injection H as <- _ _; apply in_map, in_seq; lia | ]. exfalso. destruct ws; [ | destruct H]. destruct H as [H | [H | [H | []]]]; discriminate H.
      + exfalso. unfold arm_tail in H. cbn [In] in H. repeat (destruct H as [H | H]; [discriminate H | ]). destruct H. }
  assert (Jin : forall k, (k < 3)%nat -> In (xj I k) (joints t')) by (intros k Hk; eapply Permutation_in; [symmetry; exact Pm | ]; apply in_or_app; right; apply in_map, in_seq; lia).
  assert (S0 := arm_sub0 e I p ws l0 l1 l2 m0 m1 m2 h Mk'). assert (S1 := arm_sub1 e I p ws l0 l1 l2 m0 m1 m2 h Mk').
  split.
  { unfold C in Jf. rewrite arm_links in Jf. intros jn from to H. destruct H as [H | [H | [H | []]]]; injection H as <- <- <-.
    - exists (xj I 0), (FBody (ground e)), (xb I 0). split; [eexists; apply in_or_app; left; apply (tail_in e I p 0); reflexivity | ]. split; [apply Jin; lia | ]. split; [apply Jd; lia | ]. split; [apply (Jf (FBody (ground e), xj I 0%nat, FBody (xb I 0%nat))); now left | ]. split; [now apply Bc | reflexivity].
    - exists (xj I 1), (FSub (xs I 0)), (xb I 1). split; [eexists; apply in_or_app; left; apply (tail_in e I p 3); reflexivity | ]. split; [apply Jin; lia | ]. split; [apply Jd; lia | ]. split; [apply (Jf (FSub (xs I 0%nat), xj I 1%nat, FBody (xb I 1%nat))); right; now left | ]. split; [now apply Bc | cbn [frame_body]; rewrite S0; now apply Bc].
    - exists (xj I 2), (FSub (xs I 1)), (xb I 2). split; [eexists; apply in_or_app; left; apply (tail_in e I p 6); reflexivity | ]. split; [apply Jin; lia | ]. split; [apply Jd; lia | ]. split; [apply (Jf (FSub (xs I 1%nat), xj I 2%nat, FBody (xb I 2%nat))); right; right; now left | ]. split; [now apply Bc | cbn [frame_body]; rewrite S1; now apply Bc]. }
  split; [rewrite (Permutation_length Pm), app_length, map_length, seq_length; reflexivity | ].
  split; [intros j Hj; split; [eapply Permutation_in; [symmetry; exact Pm | ]; apply in_or_app; now left | apply Jo; eapply old_joint; eassumption] | ].
  split; [exact Gv | ]. split; [exact Rl | ].
  split; [exists (xs I 2); split; [do 2 eexists; apply in_or_app; left; apply (tail_in e I p 8); reflexivity | apply Rg; apply (tail_in e I p 9); reflexivity] | ].
  intros n l m H.
  assert (Hp : l <> 0 /\ 0 < m) by (destruct H as [H | [H | [H | []]]]; injection H as _ <- <-; auto). destruct Hp as (Hl & Hm).
  assert (Hb : exists k, incl (rod_cmds I ws k (p ++ n) l m) C).
  { destruct H as [H | [H | [H | []]]]; injection H as <- <- <-; [exists 0%nat | exists 1%nat | exists 2%nat]; apply rod_in. }
  destruct Hb as (k & Hk). exists (xb I k), (rod_mass l m). eexists. split; [apply in_or_app; left; apply Hk; now left | ]. split; [reflexivity | ]. split; [apply (rod_ok eigvals l m Ev Hl Hm) | ]. split.
  - unfold box, rod_box, diag6, diag3. cbn [aa vx vy vz]. clear. unf. entries; field.
  - destruct ws.
    + exists (xs I (3 + k)), (xh I k). split; [apply in_or_app; left; apply Hk; right; now left | ]. split; [apply in_or_app; left; apply Hk; right; right; now left | apply Rg, Hk; right; right; right; now left].
    + intros s k' f g Hin. apply in_snoc in Hin; [ | discriminate]. apply arm_cases in Hin. destruct Hin as [(k0 & n' & l' & m' & _ & [H0 | []]) | H0]; [discriminate H0 | ]. unfold arm_tail in H0. cbn [In] in H0. repeat (destruct H0 as [H0 | H0]; [discriminate H0 | ]). destruct H0.
Qed.
Print Assumptions C71_arm.
