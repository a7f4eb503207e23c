(** C60: the snake robot. *)
From Coq Require Import Lra Lia.
From Verif Require Import Spec_Robots.
From Verif Require Import Spec_Dyn Proof_Linalg Proof_SE3 Proof_Tree Proof_World Proof_World2 Proof_World3 Proof_Register Proof_Dofs Proof_World4 Props_Mass Props_Dyn Props_Draw Proof_Robots Proof_Robots2 Proof_Robots3.
Open Scope R_scope.

(** the segments of [add_snake(w, n, lengths, masses, gpos, gvel)], with the defaults of its signature *)
Definition snake_segs (n : nat) (lengths masses gpos gvel : option (list R)) : list (R * R * R * R) :=
  segs_of (or_default lengths (1 / 2) n) (or_default masses 2 n) (or_default gpos 0 n) (or_default gvel 0 n).
(** [n] values are given, lengths and masses are positive, there is a segment if the snake is free *)
Definition snake_args (n : nat) (lengths masses gpos gvel : option (list R)) (is_fixed : bool) : Prop :=
  length (or_default lengths (1 / 2) n) = n /\ length (or_default masses 2 n) = n /\ length (or_default gpos 0 n) = n /\ length (or_default gvel 0 n) = n /\
  (is_fixed = false -> (0 < n)%nat) /\ (forall l, In l (or_default lengths (1 / 2) n) -> 0 < l) /\ (forall m, In m (or_default masses 2 n) -> 0 < m).

Lemma jt_in_parts I : forall k segs cr, snake_parts I k segs cr -> forall i, (i < length segs)%nat -> exists l m q v M, nth_error segs i = Some (l, m, q, v) /\
  In (CBody (nb I (k + i)) M) cr /\ In (CJoint (nj I (k + i)) RzJoint [q] [v]) cr /\ In (CSub (ns I (k + i)) (nb I (k + i)) (transl 0 l 0)) cr.
Proof.
  induction 1 as [k | k len mass q dq segs cr Sp IH]; intros i Hi; cbn [length] in Hi; [lia | ]. destruct i as [ | i].
  - rewrite Nat.add_0_r. exists len, mass, q, dq. eexists. split; [reflexivity | ]. split; [now left | ]. split; [right; now left | right; right; now left].
  - destruct (IH i ltac:(lia)) as (l & m & q' & v & M & E & A & B & C). rewrite <- plus_n_Sm. exists l, m, q', v, M. cbn in *. split; [exact E | ]. split; [now do 3 right | ]. split; now do 3 right.
Qed.

Lemma planar_snoc : forall s a x y q l, planar a x y (s ++ [(q, l)]) = let '(a', x', y') := planar a x y s in (a' + q, x' - l * sin (a' + q), y' + l * cos (a' + q)).
Proof. induction s as [ | (q', l') s IH]; intros; cbn [planar app]; [reflexivity | apply IH]. Qed.
Lemma planar_pose_snoc s q l : planar_pose (planar 0 0 0 (s ++ [(q, l)])) = mm4 (mm4 (planar_pose (planar 0 0 0 s)) (rotz q)) (transl 0 l 0).
Proof.
  rewrite planar_snoc. destruct (planar 0 0 0 s) as ((a, x), y). unfold planar_pose, rotz, transl. clear. rewrite sin_plus, cos_plus. unf. entries; ring.
Qed.
Lemma planar_pose_nil : planar_pose (planar 0 0 0 []) = eye4.
Proof. cbn [planar planar_pose]. rewrite sin_0, cos_0. unf. entries; ring. Qed.
Lemma posture_length I J : forall ls k, length (posture I J k ls) = length ls.
Proof. induction ls; intros; cbn; auto. Qed.
Lemma posture_firstn I J : forall ls k i, (i < length ls)%nat -> firstn (S i) (posture I J k ls) = firstn i (posture I J k ls) ++ [(gpos (J (nj I (k + i))) 0%nat, nth i ls 0)].
Proof.
  induction ls as [ | l ls IH]; intros k i Hi; cbn [length] in Hi; [lia | ]. destruct i as [ | i]; [cbn; now rewrite Nat.add_0_r | ].
  cbn [posture]. rewrite !firstn_cons, (IH (S k) i ltac:(lia)), <- plus_n_Sm. reflexivity.
Qed.
Lemma segs_nth ls ms qs vs i l m q v : length ms = length ls -> length qs = length ls -> length vs = length ls -> nth_error (segs_of ls ms qs vs) i = Some (l, m, q, v) -> l = nth i ls 0 /\ q = nth i qs 0.
Proof.
  intros A B C E. assert (Hi : (i < length (segs_of ls ms qs vs))%nat) by (apply nth_error_Some; congruence). rewrite (segs_length ls ms qs vs (length ls)) in Hi by auto.
  apply nth_error_nth with (d := (0, 0, 0, 0)) in E. unfold segs_of in E. rewrite !combine_nth in E by (rewrite ?combine_length; lia). injection E as E1 E2 E3 E4. auto.
Qed.

Lemma parts_values e h I : forall k segs cr, snake_parts I k segs cr -> (forall c, In c cr -> known_as e h c) ->
  total_ndof e (map (nj I) (seq k (length segs))) = length segs /\ concat (map (joint_gvel h) (map (nj I) (seq k (length segs)))) = map snd segs.
Proof.
  induction 1 as [k | k len mass q dq segs cr Sp IH]; intros Kn; [split; reflexivity | ]. cbn [length seq map concat]. destruct IH as (I1 & I2); [intros c Hc; apply Kn; now do 3 right | ].
  destruct (Kn (CJoint (nj I k) RzJoint [q] [dq]) ltac:(right; now left)) as (K1 & K2). cbn [ndof_of] in K1. rewrite K2, I2. split; [ | reflexivity]. unfold total_ndof, list_sum in *. cbn [map fold_right]. rewrite K1, I1. lia.
Qed.
Lemma map_snd_segs ls ms qs vs : length ms = length ls -> length qs = length ls -> length vs = length ls -> map snd (segs_of ls ms qs vs) = vs.
Proof.
  unfold segs_of. revert ms qs vs. induction ls as [ | l ls IH]; intros [ | m ms] [ | q qs] [ | v vs]; cbn; try lia; try discriminate; [reflexivity | ]. intros. f_equal. apply IH; lia.
Qed.

(** [add_snake] succeeds and creates exactly the expected objects; the snake hangs from the ground as one chain of joints, after
    what was already there; its joints come last in the dofs and add n (6 + n) of them; each hinge is attached to the end of the
    previous segment; the velocities of the old and new joints are kept; the end frames are known to the world. *)
Theorem C60_snake : forall e g0 h eigvals I n lengths masses gpos gvel fx,
  reachable 0 e g0 h -> eigs_ok eigvals -> new_objects I h e -> snake_args n lengths masses gpos gvel fx ->
  exists ks cr, rep e h (Node (ground e) ks) /\ snake_objects I fx (snake_segs n lengths masses gpos gvel) cr /\
  ((forall c, In c cr -> known_as e h c) -> forall fuel, (height (Node (ground e) ks) < fuel)%nat -> (snake_size fx n < fuel)%nat ->
   let t' := Node (ground e) (ks ++ chain (segments I 0 (snake_size fx n))) in
   exists h', add_snake e eigvals fuel I n lengths masses gpos gvel fx h = (h', cr, Ok tt) /\ reachable 0 e g0 h' /\ ready e h' t' /\
     w_ndof h' = (total_ndof e (joints (Node (ground e) ks)) + (if fx then 0 else 6) + n)%nat /\
     (fx = false -> jframes h' (nj I 0) = Some (FBody (ground e), FBody (nb I 0))) /\
     (forall i, (first_hinge fx <= i < snake_size fx n)%nat -> jframes h' (nj I i) = Some (hinge_frame I (first_hinge fx) (snake_root e I fx) i, FBody (nb I i))) /\
     (forall j, (forall i, j <> nj I i) -> jframes h' j = jframes h j) /\
     (forall j, joint_gvel h' j = joint_gvel h j) /\
     world_gvel h' = concat (map (joint_gvel h) (joints (Node (ground e) ks))) ++ (if fx then [] else [0; 0; 0; 0; 0; 0]) ++ or_default gvel 0 n /\
     (forall i, (first_hinge fx <= i < snake_size fx n)%nat -> known h' (FSub (ns I i)))).
Proof.
  intros e g0 h eigvals I n lengths masses gpos gvel fx R Ev No (A1 & A2 & A3 & A4 & A5 & A6 & A7).
  destruct (world_iterators e h (reachable_forest 0 e g0 h R)) as (t & Rt & Er & ND & _). destruct t as (b, ks). cbn [root] in Er. subst b. set (segs := snake_segs n lengths masses gpos gvel).
  assert (Hlen : length segs = n) by (now apply segs_length).
  assert (Hc : exists cr, snake_objects I fx segs cr).
  { destruct fx; [apply parts_exist | ]. destruct (parts_exist I segs 1) as (cr' & Sp). destruct segs as [ | (((l, m), q), v) segs'] eqn:Es; [specialize (A5 eq_refl); cbn in Hlen; lia | ].
    eexists. exists l, m, q, v, segs', cr'. split; [reflexivity | ]. split; [exact Sp | reflexivity]. }
  destruct Hc as (cr & So). exists ks, cr. split; [exact Rt | ]. split; [exact So | ]. intros Kn fuel F1 F2 t'.
  destruct (snake_ok e g0 eigvals I Ev h ks fuel n lengths masses gpos gvel fx cr R Rt ND A1 A2 A3 A4 A5 A6 A7 No F1 F2 So Kn) as (h' & E & R' & Rd & B1 & B2 & B3 & B4 & B5 & B6).
  exists h'. split; [exact E | ]. split; [exact R' | ]. split; [exact Rd | ].
  assert (V : total_ndof e (map (nj I) (seq 0 (snake_size fx n))) = ((if fx then 0 else 6) + n)%nat /\ concat (map (joint_gvel h) (map (nj I) (seq 0 (snake_size fx n)))) = (if fx then [] else [0; 0; 0; 0; 0; 0]) ++ or_default gvel 0 n).
  { assert (Es : map snd segs = or_default gvel 0 n) by (apply map_snd_segs; congruence). destruct fx; cbn [snake_objects snake_size] in *.
    - destruct (parts_values e h I 0 segs cr So Kn) as (V1 & V2). rewrite Hlen in V1, V2. rewrite V1, V2, Es. split; reflexivity.
    - destruct So as (l & m & q & v & segs' & cr' & _ & Sp & ->). destruct (parts_values e h I 1 segs cr' Sp ltac:(intros c Hc; apply Kn; now do 2 right)) as (V1 & V2). rewrite Hlen in V1, V2.
      destruct (Kn (CJoint (nj I 0) FreeJoint [] [0; 0; 0; 0; 0; 0]) ltac:(right; now left)) as (K1 & K2). cbn [ndof_of] in K1. cbn [seq map concat]. rewrite V2, K2, Es. split; [ | reflexivity]. unfold total_ndof, list_sum in *. cbn [map fold_right]. rewrite K1, V1. reflexivity. }
  destruct V as (V1 & V2). split; [rewrite (proj1 (proj2 (proj2 (proj2 Rd)))), joints_app_chain, segments_joints, total_app, V1; lia | ].
  repeat (split; [assumption | ]). split; [rewrite B5, joints_app_chain, segments_joints, map_app, concat_app, V2; reflexivity | exact B6].
Qed.
Print Assumptions C60_snake.

Lemma objects_det I fx segs cr cr' : snake_objects I fx segs cr -> snake_objects I fx segs cr' -> cr = cr'.
Proof.
  destruct fx; cbn [snake_objects]; [apply parts_det | ]. intros (l & m & q & v & s & c & E & Sp & ->) (l' & m' & q' & v' & s' & c' & E' & Sp' & ->). rewrite E in E'. injection E' as -> -> -> -> ->. now rewrite (parts_det I 1 _ _ _ Sp Sp').
Qed.

(** In every configuration the end of each segment lies where the plane geometry of the chain says, seen from the ground or from
    the free base; whatever else the world contains. *)
Theorem C60_position : forall e g0 h eigvals I n lengths masses gpos gvel fx cr fuel ks,
  reachable 0 e g0 h -> eigs_ok eigvals -> new_objects I h e -> snake_args n lengths masses gpos gvel fx -> rep e h (Node (ground e) ks) ->
  (height (Node (ground e) ks) < fuel)%nat -> (snake_size fx n < fuel)%nat ->
  snake_objects I fx (snake_segs n lengths masses gpos gvel) cr -> (forall c, In c cr -> known_as e h c) ->
  let ls := or_default lengths (1 / 2) n in let k := first_hinge fx in
  exists h', add_snake e eigvals fuel I n lengths masses gpos gvel fx h = (h', cr, Ok tt) /\
  forall sc J st, rigid_scene e sc (Node (ground e) (ks ++ chain (segments I 0 (snake_size fx n)))) J -> (forall c, In c cr -> built_as sc J c) ->
  exists sg, world_update_geometric e sc h' J fuel st = Ok sg /\
    forall i, (i < n)%nat -> frame_pose e sc sg (FSub (ns I (k + i))) =
      Ok (mm4 (if fx then eye4 else gposH (J (nj I 0))) (planar_pose (planar 0 0 0 (firstn (S i) (posture I J k ls))))).
Proof.
  intros e g0 h eigvals I n lengths masses gpos gvel fx cr fuel ks R Ev No Ar Rt F1 F2 So Kn ls k.
  destruct (C60_snake e g0 h eigvals I n lengths masses gpos gvel fx R Ev No Ar) as (ks1 & cr1 & Rt1 & So1 & X). assert (Q := rep_unique e h _ _ Rt Rt1 eq_refl). injection Q as <-.
  rewrite (objects_det _ _ _ _ _ So1 So) in X. clear cr1 So1. destruct (X Kn fuel F1 F2) as (h' & E & R' & Rd & _ & B1 & B2 & _). clear X. exists h'. split; [exact E | ]. intros sc J st Ri Bu.
  destruct (C39_poses e sc h' _ J fuel st Rd Ri ltac:(rewrite height_app_chain; unfold segments; rewrite map_length, seq_length; lia)) as (sg & sd & d & Eg & _ & P1 & P2 & P3 & _). exists sg. split; [exact Eg | ].
  set (segs := snake_segs n lengths masses gpos gvel) in *. destruct Ar as (A1 & A2 & A3 & A4 & A5 & A6 & A7). assert (A1' := A1). fold ls in A1. assert (Hlen : length segs = n) by (now apply segs_length).
  assert (Sp : exists cr', snake_parts I k segs cr' /\ forall c, In c cr' -> In c cr).
  { destruct fx; cbn [snake_objects] in So; [exists cr; auto | ]. destruct So as (l & m & q & v & segs' & cr' & _ & Sp & ->). exists cr'. split; [exact Sp | intros c Hc; now do 2 right]. }
  destruct Sp as (cr' & Sp & Ic). set (B := if fx then eye4 else gposH (J (nj I 0))).

  (* the root of the chain *)
  assert (Root : frame_pose e sc sg (snake_root e I fx) = Ok B).
  { destruct fx; cbn [snake_root snake_size first_hinge] in *.
    - unfold frame_pose. cbn [frame_body]. rewrite P2. reflexivity.
    - destruct (P3 (nj I 0) _ _ (hinge_in I (ground e) ks (S n) 0 ltac:(lia)) (B1 eq_refl)) as (G0 & G1 & _ & _ & Q0 & Q1 & Q2). unfold frame_pose in Q0. cbn [frame_body] in Q0. rewrite P2 in Q0. cbn in Q0. apply Ok_inj in Q0. rewrite Q1, Q2, <- Q0, eye_l. unfold B.
      assert (T : jt (J (nj I 0)) = FreeJoint). { destruct So as (l & m & q & v & segs' & cr2 & _ & _ & ->). exact (Bu (CJoint (nj I 0) FreeJoint [] [0; 0; 0; 0; 0; 0]) ltac:(right; now left)). }
      unfold Model_Joints.pose. now rewrite T. }
  (* the hinges, one after the other *)
  assert (G : forall i, (i <= n)%nat -> frame_pose e sc sg (hinge_frame I k (snake_root e I fx) (k + i)) = Ok (mm4 B (planar_pose (planar 0 0 0 (firstn i (posture I J k ls)))))).
  { induction i as [ | i IH]; intros Hi.
    - rewrite Nat.add_0_r. unfold hinge_frame. rewrite Nat.eqb_refl. cbn [firstn]. rewrite planar_pose_nil, eye_r. exact Root.
    - specialize (IH ltac:(lia)). destruct (jt_in_parts I k segs cr' Sp i ltac:(lia)) as (l & m & q & v & M & En & _ & C2 & C3). apply segs_nth in En; [ | congruence ..]. destruct En as (-> & _). fold ls in C3.
      assert (T := Bu _ (Ic _ C2)). assert (Hs := Bu _ (Ic _ C3)). assert (Sb := Kn _ (Ic _ C3)). cbn [built_as known_as] in T, Hs, Sb.
      assert (Hr : (first_hinge fx <= k + i < snake_size fx n)%nat) by (unfold k; destruct fx; cbn; lia).
      destruct (P3 _ _ _ (hinge_in I (ground e) ks (snake_size fx n) (k + i) (proj2 Hr)) (B2 _ Hr)) as (G0 & G1 & _ & Ib & Q0 & Q1 & Q2). fold k in Q0. rewrite IH in Q0. apply Ok_inj in Q0.
      unfold Model_Joints.pose in Q2. rewrite T in Q2. replace (hinge_frame I k (snake_root e I fx) (k + S i)) with (FSub (ns I (k + i))) by (unfold hinge_frame; destruct (Nat.eqb_spec (k + S i) k); [lia | ]; f_equal; f_equal; lia).
      destruct (P1 (FBody (nb I (k + i))) Ib) as (H & _ & _ & _ & Q3 & _). rewrite Q1 in Q3. cbn [bpose] in Q3. rewrite eye_r in Q3. apply Ok_inj in Q3.
      assert (Ib' : In (frame_body e (FSub (ns I (k + i)))) (bodies (Node (ground e) (ks ++ chain (segments I 0 (snake_size fx n)))))) by (cbn [frame_body] in *; now rewrite Sb).
      destruct (P1 _ Ib') as (H' & _ & Q4 & _ & Q5 & _). destruct (P1 (FBody (nb I (k + i))) Ib) as (H2 & _ & Q6 & _ & Q7 & _). cbn [frame_body] in Q4, Q6. rewrite Sb, Q6 in Q4. injection Q4 as <-. rewrite Q1 in Q7. cbn [bpose] in Q7. rewrite eye_r in Q7. apply Ok_inj in Q7.
      rewrite Q5. cbn [bpose]. rewrite Hs, <- Q7, Q2, <- Q0, (posture_firstn I J ls k i ltac:(lia)), planar_pose_snoc. now rewrite <- !mm4_assoc. }
  intros i Hi. rewrite <- (G (S i) ltac:(lia)). f_equal. unfold hinge_frame. destruct (Nat.eqb_spec (k + S i) k); [lia | ]. f_equal. f_equal. lia.
Qed.
Print Assumptions C60_position.

Lemma planar_straight : forall ls y, planar 0 0 y (map (fun l => (0, l)) ls) = (0, 0, y + fold_right Rplus 0 ls).
Proof.
  induction ls as [ | l ls IH]; intros y; cbn [planar map fold_right]; [f_equal; ring | ]. rewrite Rplus_0_l, sin_0, cos_0, Rmult_0_r, Rminus_0_r, Rmult_1_r, IH. f_equal. ring.
Qed.
Lemma parts_posture I J : forall k ls ms qs vs cr, length ms = length ls -> length qs = length ls -> length vs = length ls ->
  snake_parts I k (segs_of ls ms qs vs) cr -> (forall c, In c cr -> starts_as J c) -> posture I J k ls = combine qs ls.
Proof.
  intros k ls. revert k. unfold segs_of. induction ls as [ | l ls IH]; intros k [ | m ms] [ | q qs] [ | v vs] cr; cbn [length combine posture]; intros A B C Sp St; try lia; [reflexivity | ]. inversion Sp; subst. f_equal.
  - f_equal. destruct (St (CJoint (nj I k) RzJoint [q] [v]) ltac:(right; now left)) as (_ & X). exact (X 0%nat ltac:(cbn; lia)).
  - eapply (IH (S k) ms qs vs); try lia; [eassumption | ]. intros c Hc. apply St. now do 3 right.
Qed.

(** A snake that has just been created, with the default positions, is straight along y: the end of the i-th segment is at (0, l_1 + ... + l_i, 0)
    without rotation.  With given positions the segments make these angles. *)
Theorem C60_end : forall e g0 h eigvals I n lengths masses gpos gvel fx cr fuel ks,
  reachable 0 e g0 h -> eigs_ok eigvals -> new_objects I h e -> snake_args n lengths masses gpos gvel fx -> rep e h (Node (ground e) ks) ->
  (height (Node (ground e) ks) < fuel)%nat -> (snake_size fx n < fuel)%nat ->
  snake_objects I fx (snake_segs n lengths masses gpos gvel) cr -> (forall c, In c cr -> known_as e h c) ->
  let ls := or_default lengths (1 / 2) n in
  exists h', add_snake e eigvals fuel I n lengths masses gpos gvel fx h = (h', cr, Ok tt) /\
  forall sc J st, rigid_scene e sc (Node (ground e) (ks ++ chain (segments I 0 (snake_size fx n)))) J -> (forall c, In c cr -> built_as sc J c /\ starts_as J c) ->
  exists sg, world_update_geometric e sc h' J fuel st = Ok sg /\
    forall i, (i < n)%nat ->
      frame_pose e sc sg (FSub (ns I (first_hinge fx + i))) = Ok (planar_pose (planar 0 0 0 (firstn (S i) (combine (or_default gpos 0 n) ls)))) /\
      (gpos = None -> frame_pose e sc sg (FSub (ns I (first_hinge fx + i))) = Ok (transl 0 (fold_right Rplus 0 (firstn (S i) ls)) 0)).
Proof.
  intros e g0 h eigvals I n lengths masses gpos gvel fx cr fuel ks R Ev No Ar Rt F1 F2 So Kn ls.
  destruct (C60_position e g0 h eigvals I n lengths masses gpos gvel fx cr fuel ks R Ev No Ar Rt F1 F2 So Kn) as (h' & E & X). exists h'. split; [exact E | ]. intros sc J st Ri Bs.
  destruct (X sc J st Ri (fun c Hc => proj1 (Bs c Hc))) as (sg & Eg & P). exists sg. split; [exact Eg | ]. destruct Ar as (A1 & A2 & A3 & A4 & _).
  assert (Po : posture I J (first_hinge fx) ls = combine (or_default gpos 0 n) ls).
  { unfold snake_segs in So. destruct fx; cbn [snake_objects first_hinge] in *.
    - apply (parts_posture I J 0 ls _ _ _ cr) in So; auto; try (unfold ls; congruence). intros c Hc. exact (proj2 (Bs c Hc)).
    - destruct So as (l & m & q & v & segs' & cr' & _ & Sp & ->). apply (parts_posture I J 1 ls _ _ _ cr') in Sp; auto; try (unfold ls; congruence). intros c Hc. apply Bs. now do 2 right. }
  assert (Ba : (if fx then eye4 else gposH (J (nj I 0))) = eye4).
  { destruct fx; [reflexivity | ]. destruct So as (l & m & q & v & segs' & cr' & _ & Sp & ->). destruct (Bs (CJoint (nj I 0) FreeJoint [] [0; 0; 0; 0; 0; 0]) ltac:(right; now left)) as (_ & (Y & _)). now apply Y. }
  assert (P' : forall i, (i < n)%nat -> frame_pose e sc sg (FSub (ns I (first_hinge fx + i))) = Ok (planar_pose (planar 0 0 0 (firstn (S i) (combine (or_default gpos 0 n) ls))))).
  { intros i Hi. rewrite (P i Hi). fold ls. now rewrite Po, Ba, eye_l. }
  intros i Hi. split; [exact (P' i Hi) | ]. intros ->. rewrite (P' i Hi). f_equal. cbn [or_default].
  assert (Z : firstn (S i) (combine (repeat 0 n) ls) = map (fun l => (0, l)) (firstn (S i) ls)).
  { rewrite <- firstn_map. f_equal. assert (Hl : length ls = n) by exact A1. clearbody ls. clear - Hl. revert n Hl. induction ls as [ | l ls IH]; intros [ | n] Hl; cbn in *; try discriminate; [reflexivity | ]. f_equal. apply IH. lia. }
  rewrite Z, planar_straight, Rplus_0_l. unfold planar_pose, transl. rewrite sin_0, cos_0. unf. entries; ring.
Qed.
Print Assumptions C60_end.

(** A list of the wrong size is refused, and a free snake without segments; the world is left unchanged. *)
Theorem C60_rejects : forall e eigvals fuel I n lengths masses gpos gvel fx h,
  ((exists l x, In x [lengths; masses; gpos; gvel] /\ x = Some l /\ length l <> n) ->
     add_snake e eigvals fuel I n lengths masses gpos gvel fx h = (h, [], Err AssertionError)) /\
  add_snake e eigvals fuel I 0 None None None None false h = (h, [], Err IndexError).
Proof.
  intros. split; [ | reflexivity]. intros (l & x & Hx & -> & Hl). unfold add_snake.
  assert (Sz : forall y d, sized n y d = Err AssertionError \/ exists r, sized n y d = Ok r) by (intros y d; unfold sized; destruct (n =? _)%nat; eauto).
  assert (Bad : forall d, sized n (Some l) d = Err AssertionError) by (intros d; unfold sized; assert (Nl : (n =? length l)%nat = false) by (apply Nat.eqb_neq; auto); now rewrite Nl).
  destruct (Sz lengths (1 / 2)) as [E1 | (r1 & E1)]; rewrite E1; [reflexivity | ]. destruct (Sz masses 2) as [E2 | (r2 & E2)]; rewrite E2; [reflexivity | ].
  destruct (Sz gpos 0) as [E3 | (r3 & E3)]; rewrite E3; [reflexivity | ]. destruct (Sz gvel 0) as [E4 | (r4 & E4)]; rewrite E4; [reflexivity | ].
  exfalso. destruct Hx as [-> | [-> | [-> | [-> | []]]]]; rewrite Bad in *; discriminate.
Qed.
Print Assumptions C60_rejects.
