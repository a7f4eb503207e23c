(** The recursion of update_geometric/update_dynamic, solved along paths. *)
From Verif Require Import Spec_Dyn Proof_Tree.
From Verif Require Import Proof_Linalg Proof_Deriv Proof_SE3 Proof_Joints.

(** the child's quantities, without exceptions *)
Definition rel_ (sc : scene) (s : jstate) (f0 f1 : frame) : m4 :=
  mm4 (bpose sc f0) (mm4 (pose s) (inv_ (bpose sc f1))).
Definition stepk (sc : scene) (h : @heap R) (s : jstate) (d : nat * nat) (f0 f1 : frame) (k : kin) : kin :=
  let H := rel_ sc s f0 f1 in
  let Acn := adjoint_ (bpose sc f1) in
  let dA := mm6 Acn (mm6 (mm6 (iadjoint_ (pose s)) (adjacency (v6neg (mv6 (iadjoint_ (pose s)) (twist s)))))
                         (adjoint_ (inv_ (bpose sc f0)))) in
  Kin (mm4 (k_pose k) H)
      (fun c => v6add (mv6 (iadjoint_ H) (k_jac k c)) (slice_col (fst d) (snd d) (fun i => mv6 Acn (jacobian s i)) c))
      (fun c => v6add (v6add (mv6 dA (k_jac k c)) (mv6 (iadjoint_ H) (k_djac k c)))
                      (slice_col (fst d) (snd d) (fun i => mv6 Acn (djacobian s i)) c))
      (v6add (mv6 (iadjoint_ H) (k_twist k)) (mv6 Acn (twist s))).
(** through joint [j] of heap [h] *)
Definition stepj (sc : scene) (h : @heap R) (J : nat -> jstate) (j : nat) (k : kin) : kin :=
  match jframes h j, jdof h j with
  | Some (f0, f1), Some d => stepk sc h (J j) d f0 f1 k
  | _, _ => k
  end.
Definition posej (sc : scene) (h : @heap R) (J : nat -> jstate) (j : nat) (p : m4) : m4 :=
  match jframes h j with Some (f0, f1) => mm4 p (rel_ sc (J j) f0 f1) | _ => p end.
Definition kin0 := Kin eye4 (fun _ => zero6) (fun _ => zero6) zero6.
Definition kin_of sc h J (js : list nat) : kin := fold_right (stepj sc h J) kin0 js.
Definition attr (m : m6) (k : kin) : bodyattr :=
  BA (Some (k_pose k)) (Some (k_jac k)) (Some (k_djac k)) (Some (k_twist k)) (Some (body_nle m (k_twist k))).

Lemma rel_SE3 sc s f0 f1 : (forall f, SE3 (bpose sc f)) -> valid_joint s -> SE3 (rel_ sc s f0 f1).
Proof. intros B V. apply SE3_mm4; [apply B | apply SE3_mm4; [apply pose_SE3; auto | apply SE3_inv, B]]. Qed.
Lemma rel_pose_ok sc s f0 f1 : (forall f, SE3 (bpose sc f)) -> rel_pose sc s f0 f1 = Ok (rel_ sc s f0 f1).
Proof. intros B. unfold rel_pose. rewrite inv_ok by apply B. reflexivity. Qed.

Lemma child_kin_ok sc h j s f0 f1 d0 d1 k : (forall f, SE3 (bpose sc f)) -> valid_joint s ->
  jdof h j = Some (d0, d1) -> (d1 <= w_ndof h)%nat ->
  child_kin sc h j s f0 f1 k = Ok (stepk sc h s (d0, d1) f0 f1 k).
Proof.
  intros B V D L. unfold child_kin. rewrite rel_pose_ok by auto. cbn [rbind].
  rewrite iadjoint_ok by (apply rel_SE3; auto). cbn [rbind]. rewrite adjoint_ok by apply B. cbn [rbind].
  rewrite inv_ok by apply B. cbn [rbind]. rewrite adjoint_ok by apply SE3_inv, B. cbn [rbind].
  rewrite idadjoint_ok by auto. cbn [rbind]. rewrite D. apply Nat.leb_le in L. rewrite L. reflexivity.
Qed.

Lemma path_in t x ps : path t x ps -> In x (bodies t) /\ forall j, In j (map fst ps) -> In j (joints t).
Proof.
  induction 1 as [b ks | b ks j s x ps I P [IH1 IH2]]; [split; [left; auto | intros j []] | ].
  split; [rewrite bodies_eq; right; apply in_flat_map; exists (j, s); auto | ].
  intros i Hi. rewrite joints_eq. apply in_flat_map. exists (j, s). split; auto.
  rewrite map_app, in_app_iff in Hi. destruct Hi as [Hi | [<- | []]]; [right; auto | left; auto].
Qed.

(** generic depth-first update, of which both methods are instances *)
Section Walk.
  Context {K A : Type} (e : env) (h : @heap R) (next : nat -> frame -> frame -> K -> res K) (set : nat -> K -> A -> A) (step : nat -> K -> K).
  Fixpoint walk (fuel : nat) (b : nat) (k : K) (st : nat -> A) {struct fuel} : res (nat -> A) :=
    match fuel with
    | O => Err RecursionError
    | S n =>
        let st0 := upd st b (set b k (st b)) in
        (fix loop (js : list nat) (st : nat -> A) : res (nat -> A) :=
           match js with
           | [] => Ok st
           | j :: js' =>
               match jframes h j with
               | None => Err AttributeError
               | Some (f0, f1) =>
                   let* k' := next j f0 f1 k in
                   let* st1 := walk n (frame_body e f1) k' st in
                   loop js' st1
               end
           end) (childrenjoints h b) st0
    end.

  Lemma walk_ok t : rep e h t -> NoDup (bodies t) -> (forall j f0 f1 k, In j (joints t) -> jframes h j = Some (f0, f1) -> next j f0 f1 k = Ok (step j k)) ->
    forall fuel k st, (height t < fuel)%nat ->
    exists st', walk fuel (root t) k st = Ok st' /\
      (forall x ps, path t x ps -> st' x = set x (fold_right step k (map fst ps)) (st x)) /\
      (forall x, ~ In x (bodies t) -> st' x = st x).
  Proof.
    induction t as [b ks IH] using tree_ind'. intros R ND NX fuel k st F.
    inversion R as [b' ks' C E]; subst b' ks'. cbn [root] in *.
    rewrite bodies_eq in ND. inversion ND as [ | b' l NB ND']; subst b' l.
    destruct fuel as [ | n]; [lia | ]. cbn [walk]. rewrite C.
    set (st0 := upd st b (set b k (st b))).
    (* the loop over the children *)
    assert (L : forall ks, Forall (fun jt => forall (R : rep e h (snd jt)), NoDup (bodies (snd jt)) ->
                  (forall j f0 f1 k, In j (joints (snd jt)) -> jframes h j = Some (f0, f1) -> next j f0 f1 k = Ok (step j k)) ->
                  forall fuel k st, (height (snd jt) < fuel)%nat -> exists st', walk fuel (root (snd jt)) k st = Ok st' /\
                     (forall x ps, path (snd jt) x ps -> st' x = set x (fold_right step k (map fst ps)) (st x)) /\
                     (forall x, ~ In x (bodies (snd jt)) -> st' x = st x)) ks ->
        Forall (fun jt => edge e h b (fst jt) (root (snd jt)) /\ rep e h (snd jt)) ks ->
        NoDup (flat_map (fun jt => bodies (snd jt)) ks) ->
        (forall j s, In (j, s) ks -> (height s < n)%nat /\ forall i f0 f1 k, In i (j :: joints s) -> jframes h i = Some (f0, f1) -> next i f0 f1 k = Ok (step i k)) ->
        forall st, exists st',
        (fix loop (js : list nat) (st : nat -> A) : res (nat -> A) :=
           match js with
           | [] => Ok st
           | j :: js' =>
               match jframes h j with
               | None => Err AttributeError
               | Some (f0, f1) =>
                   let* k' := next j f0 f1 k in
                   let* st1 := walk n (frame_body e f1) k' st in
                   loop js' st1
               end
           end) (map fst ks) st = Ok st' /\
        (forall j s x ps, In (j, s) ks -> path s x ps -> st' x = set x (fold_right step (step j k) (map fst ps)) (st x)) /\
        (forall x, ~ In x (flat_map (fun jt => bodies (snd jt)) ks) -> st' x = st x)).
    { clear. induction ks as [ | [j s] ks IHk]; intros H1 H2 ND NX st.
      - exists st. split; [reflexivity | split; [intros j s x ps [] | auto]].
      - inversion H1 as [ | x l Hs Hk]; subst x l. inversion H2 as [ | x l [Ed Rs] Rk]; subst x l. cbn [fst snd] in *.
        cbn [flat_map snd] in ND. apply NoDup_app_iff in ND. destruct ND as (N1 & N2 & N3).
        destruct (NX j s (or_introl eq_refl)) as [Hh Hn].
        destruct Ed as [(f0 & f1 & Ef & _ & E1) _].
        destruct (Hs Rs N1) with (fuel := n) (k := step j k) (st := st) as (st1 & W & P & Q); auto.
        { intros; apply Hn; auto. right; auto. }
        destruct (IHk Hk Rk N2) with (st := st1) as (st2 & W2 & P2 & Q2).
        { intros; apply NX; right; auto. }
        exists st2. cbn [map fst]. rewrite Ef, (Hn j f0 f1 k) by (auto; left; auto). cbn [rbind]. rewrite E1, W. cbn [rbind].
        split; [exact W2 | ]. split.
        + intros j' s' x ps [Eq | I] Pa.
          * inversion Eq; subst j' s'. rewrite Q2; [auto | ]. intros X. apply (N3 x); auto. eapply path_in; eauto.
          * rewrite (P2 _ _ _ _ I Pa). f_equal. apply Q. intros X. apply (N3 x); auto.
            apply in_flat_map. exists (j', s'). split; auto. eapply path_in; eauto.
        + intros x X. cbn [flat_map snd] in X. rewrite in_app_iff in X. rewrite Q2, Q; auto. }
    destruct (L ks) with (st := st0) as (st' & W & P & Q); auto.
    - intros j s I. split.
      + assert (X := height_kid b ks j s I). lia.
      + intros i f0 f1 k' Hi Ei. apply NX; auto. rewrite joints_eq. apply in_flat_map. exists (j, s). split; auto.
    - exists st'. split; [exact W | ]. split.
      + intros x ps Pa. inversion Pa as [b' ks' | b' ks' j s x' ps' I Pa']; subst.
        * rewrite Q by auto. unfold st0, upd. rewrite Nat.eqb_refl. reflexivity.
        * rewrite (P _ _ _ _ I Pa'), map_app, fold_right_app. cbn [map fst fold_right]. f_equal.
          unfold st0, upd. destruct (Nat.eqb_spec x b) as [-> | ]; auto. exfalso. apply NB.
          apply in_flat_map. exists (j, s). split; auto. eapply path_in; eauto.
      + intros x X. rewrite bodies_eq in X. cbn [In] in X. rewrite Q by tauto. unfold st0, upd.
        destruct (Nat.eqb_spec x b); auto. subst; tauto.
  Qed.
End Walk.

Lemma update_geometric_walk e sc h J fuel : forall b p st, update_geometric e sc h J fuel b p st =
  walk e h (fun j f0 f1 => child_pose sc (J j) f0 f1) (fun _ p a => BA (Some p) (a_jac a) (a_djac a) (a_twist a) (a_nle a)) fuel b p st.
Proof.
  induction fuel as [ | n IH]; intros b p st; [reflexivity | ]. cbn [update_geometric walk].
  generalize (upd st b (BA (Some p) (a_jac (st b)) (a_djac (st b)) (a_twist (st b)) (a_nle (st b)))), (childrenjoints h b).
  intros st0 js. revert st0. induction js as [ | j js IHj]; intros st0; [reflexivity | ].
  destruct (jframes h j) as [[f0 f1] | ]; [ | reflexivity]. destruct (child_pose _ _ _ _ _); [ | reflexivity]. cbn [rbind].
  rewrite IH. destruct (walk _ _ _ _ _ _ _ _); [apply IHj | reflexivity].
Qed.
Lemma update_dynamic_walk e sc h J fuel : forall b k st, update_dynamic e sc h J fuel b k st =
  walk e h (fun j f0 f1 => child_kin sc h j (J j) f0 f1) (fun b k _ => attr (b_mass sc b) k) fuel b k st.
Proof.
  induction fuel as [ | n IH]; intros b k st; [reflexivity | ]. cbn [update_dynamic walk]. fold (attr (b_mass sc b) k).
  generalize (upd st b (attr (b_mass sc b) k)), (childrenjoints h b).
  intros st0 js. revert st0. induction js as [ | j js IHj]; intros st0; [reflexivity | ].
  destruct (jframes h j) as [[f0 f1] | ]; [ | reflexivity]. destruct (child_kin _ _ _ _ _ _ _); [ | reflexivity]. cbn [rbind].
  rewrite IH. destruct (walk _ _ _ _ _ _ _ _); [apply IHj | reflexivity].
Qed.

Lemma ready_dof e h t j : ready e h t -> In j (joints t) ->
  exists s, jdof h j = Some (s, s + jndof e j)%nat /\ (s + jndof e j <= w_ndof h)%nat.
Proof.
  intros (_ & _ & _ & W & D) I. apply in_split in I. destruct I as (l1 & l2 & E).
  exists (total_ndof e l1). split; [eapply D; eauto | ]. rewrite W, E. unfold total_ndof.
  rewrite map_app, list_sum_app. cbn [map list_sum fold_right]. unfold list_sum. cbn [fold_right]. lia.
Qed.

(** the ground is the root: every other body of the tree has a parent edge *)
Lemma geometric_ok e sc h t J fuel st : ready e h t -> rigid_scene e sc t J -> (height t < fuel)%nat ->
  exists st', world_update_geometric e sc h J fuel st = Ok st' /\
    (forall x ps, path t x ps -> st' x = BA (Some (fold_right (posej sc h J) eye4 (map fst ps)))
        (a_jac (st x)) (a_djac (st x)) (a_twist (st x)) (a_nle (st x))) /\
    (forall x, ~ In x (bodies t) -> st' x = st x).
Proof.
  intros (R & E & ND & _) [B V] F. unfold world_update_geometric. rewrite update_geometric_walk, <- E.
  apply (walk_ok e h (fun j f0 f1 => child_pose sc (J j) f0 f1) (fun _ p a => BA (Some p) (a_jac a) (a_djac a) (a_twist a) (a_nle a)) (posej sc h J) t R ND); auto. intros j f0 f1 k I Ej. unfold child_pose. rewrite rel_pose_ok by auto. cbn [rbind].
  unfold posej. rewrite Ej. reflexivity.
Qed.
Lemma dynamic_ok e sc h t J fuel st : ready e h t -> rigid_scene e sc t J -> (height t < fuel)%nat ->
  exists st', update_dynamic e sc h J fuel (ground e) kin0 st = Ok st' /\
    (forall x ps, path t x ps -> st' x = attr (b_mass sc x) (kin_of sc h J (map fst ps))) /\
    (forall x, ~ In x (bodies t) -> st' x = st x).
Proof.
  intros Rd [B V] F. destruct (Rd) as (R & E & ND & _). rewrite update_dynamic_walk, <- E.
  apply (walk_ok e h (fun j f0 f1 => child_kin sc h j (J j) f0 f1) (fun b k _ => attr (b_mass sc b) k) (stepj sc h J) t R ND); auto. intros j f0 f1 k I Ej. destruct (ready_dof _ _ _ _ Rd I) as (s & D & L).
  rewrite (child_kin_ok _ _ _ _ _ _ s (s + jndof e j)); auto; [ | apply V; auto].
  unfold stepj. rewrite Ej, D. reflexivity.
Qed.

(** sum over a list of bodies *)
Fixpoint suml (f : nat -> R) (l : list nat) : R := match l with [] => 0 | x :: l' => f x + suml f l' end.
Lemma accumulate_ok sc st K : forall bs d, (forall b, In b bs -> st b = attr (b_mass sc b) (K b)) ->
  exists d', accumulate sc st bs d = Ok d' /\
   (forall k l, d_mass d' k l = d_mass d k l + suml (fun b => congr (k_jac (K b)) (b_mass sc b) (k_jac (K b)) k l) bs) /\
   (forall k l, d_visc d' k l = d_visc d k l + suml (fun b => congr (k_jac (K b)) (b_visc sc b) (k_jac (K b)) k l) bs) /\
   (forall k l, d_nle d' k l = d_nle d k l + suml (fun b => dot6 (k_jac (K b) k)
        (v6add (mv6 (b_mass sc b) (k_djac (K b) l)) (mv6 (body_nle (b_mass sc b) (k_twist (K b))) (k_jac (K b) l)))) bs).
Proof.
  induction bs as [ | b bs IH]; intros d H; cbn [accumulate suml].
  - exists d. repeat split; intros; ring.
  - rewrite (H b) by (left; auto). cbn [attr a_jac a_djac a_nle]. set (d1 := WD _ _ _).
    destruct (IH d1) as (d' & A & M & B & N); [intros; apply H; right; auto | ].
    exists d'. split; [exact A | ]. repeat split; intros; rewrite ?M, ?B, ?N; cbn [d1 d_mass d_visc d_nle]; ring.
Qed.
Lemma path_joint e (h : @heap R) t : rep e h t -> forall j, In j (joints t) ->
  exists f0 f1 ps, jframes h j = Some (f0, f1) /\ path t (frame_body e f0) ps /\
                   path t (frame_body e f1) ((j, frame_body e f0) :: ps).
Proof.
  induction t as [b ks IH] using tree_ind'. intros R j I. inversion R as [b' ks' C E]; subst b' ks'.
  rewrite joints_eq in I. apply in_flat_map in I. destruct I as ([i s] & Ii & Ij).
  rewrite Forall_forall in E, IH. destruct (E _ Ii) as [[(f0 & f1 & Ef & E0 & E1) _] Rs]. cbn [fst snd] in *.
  destruct Ij as [<- | Ij].
  - exists f0, f1, []. split; auto. rewrite E0, E1. split; [constructor | ].
    apply (path_step b ks i s (root s) []); auto. destruct s; constructor.
  - destruct (IH _ Ii Rs j Ij) as (g0 & g1 & ps & Eg & P0 & P1). cbn [snd] in *.
    exists g0, g1, (ps ++ [(i, b)]). split; auto. split; [econstructor; eauto | ].
    apply (path_step b ks i s _ (_ :: ps)); auto.
Qed.
Lemma path_of t x : In x (bodies t) -> exists ps, path t x ps.
Proof.
  induction t as [b ks IH] using tree_ind'. intros I. rewrite bodies_eq in I. destruct I as [<- | I]; [exists []; constructor | ].
  apply in_flat_map in I. destruct I as ([j s] & Ii & Ix). rewrite Forall_forall in IH. destruct (IH _ Ii Ix) as [ps P].
  exists (ps ++ [(j, b)]). econstructor; eauto.
Qed.
Lemma path_tail t x j p ps : path t x ((j, p) :: ps) -> path t p ps.
Proof.
  remember ((j, p) :: ps) as l eqn:E. intros P. revert ps E. induction P as [b ks | b ks i s x qs I P IH]; intros ps E; [discriminate | ].
  destruct qs as [ | [i' p'] qs]; cbn [app] in E; injection E as -> -> E; subst; [constructor | ].
  econstructor; eauto.
Qed.
Lemma path_root_nil t : path t (root t) [].
Proof. destruct t; constructor. Qed.

(** poses of update_dynamic and update_geometric agree, and are rigid *)
Lemma kin_pose sc h J js : (forall j, In j js -> jdof h j <> None) ->
  k_pose (kin_of sc h J js) = fold_right (posej sc h J) eye4 js.
Proof.
  induction js as [ | j js IH]; intros D; [reflexivity | ]. cbn [kin_of fold_right]. unfold stepj at 1, posej at 1.
  destruct (jframes h j) as [[f0 f1] | ]; [ | apply IH; intros; apply D; right; auto].
  destruct (jdof h j) as [d | ] eqn:Ed; [ | contradiction (D j (or_introl eq_refl))].
  cbn [stepk k_pose]. f_equal. apply IH; intros; apply D; right; auto.
Qed.
Lemma posej_SE3 sc h J js : (forall f, SE3 (bpose sc f)) -> (forall j, In j js -> valid_joint (J j)) ->
  SE3 (fold_right (posej sc h J) eye4 js).
Proof.
  intros B. induction js as [ | j js IH]; intros V; [apply SE3_eye | ]. cbn [fold_right]. unfold posej at 1.
  assert (S : SE3 (fold_right (posej sc h J) eye4 js)) by (apply IH; intros; apply V; right; auto).
  destruct (jframes h j) as [[f0 f1] | ]; [ | exact S]. apply SE3_mm4; auto. apply rel_SE3; auto. apply V; left; auto.
Qed.

(** ** Sums *)
Lemma sum6_ext n f g : (forall i, (i < n)%nat -> f i = g i) -> sum6 n f = sum6 n g.
Proof. induction n as [ | n IH]; intros H; cbn [sum6]; [auto | ]. rewrite IH, H by auto. reflexivity. Qed.
Lemma sum6_add n f g : sum6 n (fun i => v6add (f i) (g i)) = v6add (sum6 n f) (sum6 n g).
Proof. induction n as [ | n IH]; cbn [sum6]; [lin | ]. rewrite IH. generalize (sum6 n f), (sum6 n g), (f n), (g n). lin. Qed.
Lemma sum6_zero n f : (forall i, (i < n)%nat -> f i = zero6) -> sum6 n f = zero6.
Proof. induction n as [ | n IH]; intros H; cbn [sum6]; [auto | ]. rewrite IH, H by auto. lin. Qed.
Lemma sum6_mv6 A n f : sum6 n (fun i => mv6 A (f i)) = mv6 A (sum6 n f).
Proof. induction n as [ | n IH]; cbn [sum6]; [symmetry; apply mv6_zero6 | ]. rewrite IH, mv6_add. reflexivity. Qed.
Lemma sum6_split n m f : sum6 (n + m) f = v6add (sum6 n f) (sum6 m (fun i => f (n + i)%nat)).
Proof.
  induction m as [ | m IH]; [rewrite Nat.add_0_r; cbn [sum6]; rewrite v6add_0_r; auto | ].
  rewrite Nat.add_succ_r. cbn [sum6]. rewrite IH, v6add_assoc. reflexivity.
Qed.
Lemma sum6_slice N s m (v : nat -> R) f : (s + m <= N)%nat ->
  sum6 N (fun c => v6scal (v c) (slice_col s (s + m) f c)) = sum6 m (fun i => v6scal (v (s + i)%nat) (f i)).
Proof.
  intros L. replace N with (s + m + (N - (s + m)))%nat by lia. rewrite !sum6_split.
  rewrite (sum6_zero s), v6add_0_l. 2: { intros i H. unfold slice_col. replace (s <=? i)%nat with false by (symmetry; apply Nat.leb_gt; lia). apply v6scal_zero6. }
  rewrite (sum6_zero (N - (s + m))), v6add_0_r.
  2: { intros i H. unfold slice_col. replace (s + m + i <? s + m)%nat with false by (symmetry; apply Nat.ltb_ge; lia). rewrite andb_false_r. apply v6scal_zero6. }
  apply sum6_ext. intros i H. unfold slice_col.
  replace (s <=? s + i)%nat with true by (symmetry; apply Nat.leb_le; lia).
  replace (s + i <? s + m)%nat with true by (symmetry; apply Nat.ltb_lt; lia). cbn [andb]. do 2 f_equal. lia.
Qed.

(** twist = jacobian * gvel *)
Lemma kin_twist e sc h t J v : ready e h t -> rigid_scene e sc t J -> world_velocity e h t J v ->
  forall js, (forall j, In j js -> In j (joints t)) ->
  k_twist (kin_of sc h J js) = sum6 (w_ndof h) (fun c => v6scal (v c) (k_jac (kin_of sc h J js) c)).
Proof.
  intros Rd [B V] Wv. induction js as [ | j js IH]; intros I.
  - cbn [kin_of fold_right kin0 k_twist k_jac]. symmetry. apply sum6_zero. intros; apply v6scal_zero6.
  - assert (Ij := I j (or_introl eq_refl)). destruct (ready_dof _ _ _ _ Rd Ij) as (s & D & L).
    destruct (path_joint e h t (proj1 Rd) j Ij) as (f0 & f1 & _ & Ef & _).
    cbn [kin_of fold_right]. fold (kin_of sc h J js). unfold stepj. rewrite Ef, D. cbn [stepk k_twist k_jac fst snd].
    rewrite IH by (intros; apply I; right; auto).
    rewrite <- sum6_mv6.
    rewrite (sum6_ext (w_ndof h) (fun c => v6scal (v c) (v6add _ _)) (fun c => v6add (mv6 (iadjoint_ (rel_ sc (J j) f0 f1)) (v6scal (v c) (k_jac (kin_of sc h J js) c)))
       (v6scal (v c) (slice_col s (s + jndof e j) (fun i => mv6 (adjoint_ (bpose sc f1)) (jacobian (J j) i)) c)))).
    2: { intros c _. rewrite v6scal_add, mv6_scal. reflexivity. }
    rewrite sum6_add. f_equal. rewrite sum6_slice by auto.
    rewrite twist_sum, <- sum6_mv6. destruct (V j Ij) as [_ <-]. apply sum6_ext. intros i Hi.
    rewrite (Wv j s _ Ij D i Hi), mv6_scal. reflexivity.
Qed.
(** columns of joints that are not above the body are zero *)
Lemma kin_columns e sc h t J : ready e h t -> forall js c, (forall j, In j js -> In j (joints t)) ->
  (forall j s d, In j js -> jdof h j = Some (s, d) -> ~ (s <= c < d)%nat) ->
  k_jac (kin_of sc h J js) c = zero6 /\ k_djac (kin_of sc h J js) c = zero6.
Proof.
  intros Rd. induction js as [ | j js IH]; intros c I N; [split; reflexivity | ].
  assert (Ij := I j (or_introl eq_refl)). destruct (ready_dof _ _ _ _ Rd Ij) as (s & D & L).
  destruct (path_joint e h t (proj1 Rd) j Ij) as (f0 & f1 & _ & Ef & _).
  cbn [kin_of fold_right]. fold (kin_of sc h J js). unfold stepj. rewrite Ef, D. cbn [stepk k_djac k_jac fst snd].
  destruct (IH c) as [-> ->]; [intros; apply I; right; auto | intros; eapply N; eauto; right; auto | ].
  rewrite !mv6_zero6. assert (X := N j s _ (or_introl eq_refl) D).
  replace (slice_col s (s + jndof e j) (fun i => mv6 (adjoint_ (bpose sc f1)) (jacobian (J j) i)) c) with zero6.
  replace (slice_col s (s + jndof e j) (fun i => mv6 (adjoint_ (bpose sc f1)) (djacobian (J j) i)) c) with zero6.
  split; lin.
  all: unfold slice_col; destruct (Nat.leb_spec s c), (Nat.ltb_spec c (s + jndof e j)); cbn [andb]; auto; lia.
Qed.
