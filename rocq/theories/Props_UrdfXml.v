(** C94: what is read from an URDF document. *)
From Coq Require Import Ascii.
From Verif Require Export Spec_UrdfXml.
Open Scope R_scope.

Lemma is_space_iff c : is_space c = true <-> blank c.
Proof.
  unfold is_space, blank. cbn [In]. rewrite !Bool.orb_true_iff, !Bool.andb_true_iff, !Nat.leb_le, !Nat.eqb_eq. lia.
Qed.
Lemma is_space_false c : is_space c = false <-> ~ blank c.
Proof. rewrite <- is_space_iff. destruct (is_space c); split; congruence. Qed.
Lemma split_aux_word : forall s w ws, split_aux s = (w, ws) -> exists r, s = (w ++ r)%string /\ all_chars (fun c => ~ blank c) w /\ (r = ""%string \/ exists c r', r = String c r' /\ blank c) /\ spells r ws.
Proof.
  induction s as [ | c s IH]; intros w ws E; cbn in E.
  - injection E as <- <-. exists ""%string. cbn. split; [reflexivity | split; [exact Logic.I | split; [now left | constructor]]].
  - destruct (split_aux s) as (w1, ws1). destruct (IH _ _ eq_refl) as (r & -> & Nw & Br & Sp). destruct (is_space c) eqn:Ec; injection E as <- <-.
    + apply is_space_iff in Ec. exists (String c (w1 ++ r)). split; [reflexivity | split; [exact Logic.I | split; [right; eauto | ]]]. constructor; [exact Ec | ].
      destruct w1 as [ | c1 w1]; [exact Sp | ]. cbn [push]. constructor; [split; [discriminate | exact Nw] | exact Br | exact Sp].
    + apply is_space_false in Ec. exists r. split; [reflexivity | ]. split; [split; assumption | auto].
Qed.
Lemma split_spells s : spells s (split s).
Proof.
  unfold split. destruct (split_aux s) as (w, ws) eqn:E. apply split_aux_word in E. destruct E as (r & -> & Nw & Br & Sp).
  destruct w as [ | c w]; [exact Sp | ]. cbn [push]. constructor; [split; [discriminate | exact Nw] | exact Br | exact Sp].
Qed.
Lemma split_blank c s : blank c -> split (String c s) = split s.
Proof. intros B. apply is_space_iff in B. unfold split. cbn. destruct (split_aux s) as (w, ws). rewrite B. reflexivity. Qed.
Lemma split_aux_app w s : all_chars (fun c => ~ blank c) w -> split_aux (w ++ s) = ((w ++ fst (split_aux s))%string, snd (split_aux s)).
Proof.
  induction w as [ | c w IH]; intros N; cbn; [now destruct (split_aux s) | ]. destruct N as (N1 & N2). rewrite (IH N2). apply is_space_false in N1. rewrite N1. reflexivity.
Qed.
Lemma app_nil_s w : (w ++ "")%string = w.
Proof. induction w; cbn; congruence. Qed.
Lemma split_word w s : word w -> (s = ""%string \/ exists c s', s = String c s' /\ blank c) -> split (w ++ s) = w :: split s.
Proof.
  intros (N0 & N) B. unfold split. rewrite (split_aux_app w s N). destruct B as [-> | (c & s' & -> & B)].
  - cbn. rewrite app_nil_s. destruct w; [now elim N0 | reflexivity].
  - apply is_space_iff in B. cbn [split_aux]. destruct (split_aux s') as (v, vs). rewrite B. cbn [fst snd]. rewrite app_nil_s. destruct w; [now elim N0 | reflexivity].
Qed.
(** [split] gives the words of the text *)
Lemma spells_split s ws : spells s ws <-> split s = ws.
Proof.
  split; [ | intros <-; apply split_spells]. induction 1 as [ | c s ws B _ IH | w s ws Hw B _ IH]; [reflexivity | now rewrite split_blank | rewrite split_word; congruence].
Qed.

(** ** Texts and comments are ignored *)
Lemma xchildren_app a b : xchildren (a ++ b) = xchildren a ++ xchildren b.
Proof. apply filter_app. Qed.
Lemma foldM_app {A B} (f : B -> A -> res B) l1 : forall l2 b, foldM f (l1 ++ l2) b = (let* b1 := foldM f l1 b in foldM f l2 b1).
Proof. induction l1 as [ | a l1 IH]; intros l2 b; cbn; [reflexivity | ]. destruct (f b a); cbn; [apply IH | reflexivity]. Qed.
Lemma fold_elements {B} (f : B -> xnode -> res B) : (forall b n, match n with XElem m a k => f b n = f b (XElem m a (elements k)) | _ => True end) ->
  forall k b, foldM f (xchildren (elements k)) b = foldM f (xchildren k) b.
Proof.
  intros Hf. induction k as [ | n k IH]; intros b; [reflexivity | ]. unfold elements. cbn [flat_map]. fold (elements k). rewrite xchildren_app, foldM_app.
  destruct n as [m a kk | | | ]; cbn.
  - assert (X := Hf b (XElem m a kk)). cbn in X. rewrite X. unfold elements. destruct (f b (XElem m a (flat_map bare kk))); cbn; [apply IH | reflexivity].
  - apply IH.
  - apply IH.
  - destruct (f b XOther); cbn; [apply IH | reflexivity].
Qed.
Lemma first_child k : hd_error (xchildren k) = first_node k.
Proof. induction k as [ | [m a kk | | | ] k IH]; cbn; auto. Qed.
Lemma first_elements k : first_node (elements k) = match first_node k with Some (XElem m a kk) => Some (XElem m a (elements kk)) | x => x end.
Proof. induction k as [ | [m a kk | | | ] k IH]; cbn; auto. Qed.
Section R.
  Variable num : string -> option R.
  Lemma geometry_elements k : parse_geometry num (elements k) = parse_geometry num k.
  Proof.
    unfold parse_geometry. assert (A := first_child k). assert (B := first_child (elements k)). rewrite first_elements, <- A in B. clear A.
    destruct (xchildren k) as [ | [m a kk | | | ] l], (xchildren (elements k)) as [ | [m' a' kk' | | | ] l']; cbn in B; try discriminate B; try reflexivity. injection B as -> -> _. reflexivity.
  Qed.
  Ltac steps := let m := fresh "m" in let n := fresh "n" in intros ? n; destruct n as [m ? ? | | | ]; try exact Logic.I; cbn [collision_step material_step visual_step inertial_step link_reads joint_reads robot_reads]; repeat (destruct (String.eqb m _)); try reflexivity.
  Lemma collision_elements k : parse_collision num (elements k) = parse_collision num k.
  Proof. unfold parse_collision. apply fold_elements. steps. now rewrite geometry_elements. Qed.
  Lemma material_elements a k : parse_material num a (elements k) = parse_material num a k.
  Proof. unfold parse_material. apply fold_elements. steps. Qed.
  Lemma visual_elements k : parse_visual num (elements k) = parse_visual num k.
  Proof. unfold parse_visual. apply fold_elements. steps; [now rewrite geometry_elements | now rewrite material_elements]. Qed.
  Lemma inertial_elements k : parse_inertial num (elements k) = parse_inertial num k.
  Proof. unfold parse_inertial. apply fold_elements. steps. Qed.
  Lemma link_elements a k : parse_link num a (elements k) = parse_link num a k.
  Proof. unfold parse_link. apply fold_elements. steps; [now rewrite visual_elements | now rewrite collision_elements | now rewrite inertial_elements]. Qed.
  Lemma joint_elements a k : parse_joint num a (elements k) = parse_joint num a k.
  Proof. unfold parse_joint. apply fold_elements. intros [nm pa ch ty ax og li dy sa ca mi] n. destruct n as [m a' k' | | | ]; try exact Logic.I. reflexivity. Qed.
  Lemma document_elements d : parse_document num (elements d) = parse_document num d.
  Proof.
    unfold parse_document. assert (A := first_child d). assert (B := first_child (elements d)). rewrite first_elements, <- A in B. clear A.
    destruct (xchildren d) as [ | [m a kk | | | ] l], (xchildren (elements d)) as [ | [m' a' kk' | | | ] l']; cbn in B; try discriminate B; try reflexivity. injection B as -> -> ->.
    apply fold_elements. steps; [now rewrite joint_elements | now rewrite link_elements | now rewrite material_elements].
  Qed.
End R.
(** Texts and comments (indentation among them) never change what is read from a document, at any depth. *)
Theorem C94_texts : forall num d d', elements d = elements d' -> parse_document num d = parse_document num d'.
Proof. intros num d d' E. rewrite <- (document_elements num d), <- (document_elements num d'), E. reflexivity. Qed.
Print Assumptions C94_texts.

(** ** The contents *)
Lemma Ok_eq {A} (x y : A) : Ok x = Ok y -> x = y.
Proof. congruence. Qed.
Ltac ok E := match type of E with
  | (let* x := ?r in _) = Ok _ => let v := fresh x in let Q := fresh "Q" in destruct r as [v | ] eqn:Q; cbn [rbind] in E; [ | discriminate E]
  | Ok _ = Ok _ => apply Ok_eq in E
  end.
Lemma mapM_ok {A B} (f : A -> res B) : forall l r, mapM f l = Ok r -> Forall2 (fun a b => f a = Ok b) l r.
Proof. induction l as [ | a l IH]; intros r E; cbn in E; repeat ok E; subst r; constructor; auto. Qed.
Lemma called_app n a b : called n (a ++ b) = called n a ++ called n b.
Proof. apply flat_map_app. Qed.
Lemma last_app {A} (l : list A) x : last_opt (l ++ [x]) = Some x.
Proof. unfold last_opt. rewrite rev_app_distr. reflexivity. Qed.
Lemma called_last n k m a kk : last_opt (called n (k ++ [XElem m a kk])) = if String.eqb m n then Some (a, kk) else last_opt (called n k).
Proof. rewrite called_app. cbn. destruct (String.eqb m n); [apply last_app | now rewrite !app_nil_r]. Qed.
Lemma called_none n k x : match x with XElem _ _ _ => False | _ => True end -> called n (k ++ [x]) = called n k.
Proof. intros H. rewrite called_app. destruct x; [destruct H | ..]; apply app_nil_r. Qed.
(** a loop over the children, one more child *)
Lemma loop_ind {B} (f : B -> xnode -> res B) (P : list xnode -> B -> Prop) b0 :
  P [] b0 -> (forall k b x, match x with XElem _ _ _ => False | _ => True end -> P k b -> P (k ++ [x]) b) -> (forall b, f b XOther = Ok b) ->
  (forall k b m a kk b', P k b -> f b (XElem m a kk) = Ok b' -> P (k ++ [XElem m a kk]) b') ->
  forall k b, foldM f (xchildren k) b0 = Ok b -> P k b.
Proof.
  intros H0 Ht Ho He k. induction k as [ | x k IH] using rev_ind; intros b E; [cbn in E; ok E; now subst b | ].
  rewrite xchildren_app, foldM_app in E. ok E. specialize (IH _ eq_refl). destruct x as [m a kk | | | ]; cbn in E.
  - ok E. ok E. subst b. eauto.
  - ok E. subst b. now apply Ht.
  - ok E. subst b. now apply Ht.
  - rewrite Ho in E. cbn in E. ok E. subst b. now apply Ht.
Qed.
Section C.
  Variable num : string -> option R.
  Lemma float_ok s x : float num s = Ok x -> number num s x.
  Proof. unfold float, number. destruct (num s); intros E; [ok E; congruence | discriminate]. Qed.
  Lemma floats_ok s l : floats num s = Ok l -> numbers num s l.
  Proof. intros E. exists (split s). split; [apply split_spells | ]. apply mapM_ok in E. induction E; constructor; auto. now apply float_ok. Qed.
  Lemma optfloat_ok n a r : optfloat num n a = Ok r -> opt_rel (number num) (xattr n a) r.
  Proof. unfold optfloat. destruct (xattr n a); intros E; repeat ok E; subst r; cbn; [now apply float_ok | exact Logic.I]. Qed.
  Lemma optfloats_ok n a r : optfloats num n a = Ok r -> opt_rel (numbers num) (xattr n a) r.
  Proof. unfold optfloats. destruct (xattr n a); intros E; repeat ok E; subst r; cbn; [now apply floats_ok | exact Logic.I]. Qed.
  Lemma pose_ok a k p : parse_pose num a = Ok p -> pose_says num (a, k) p.
  Proof. intros E. unfold parse_pose in E. repeat ok E. subst p. split; cbn; now apply optfloats_ok. Qed.
  Lemma first_hd k : first_node k = hd_error (xchildren k).
  Proof. symmetry. apply first_child. Qed.
  Lemma geometry_ok a k g : parse_geometry num k = Ok g -> geometry_says num (Some (a, k)) g.
  Proof.
    unfold parse_geometry, geometry_says. rewrite first_hd. intros E. destruct (xchildren k) as [ | n l]; [discriminate | ]. exists n. split; [reflexivity | ]. destruct n as [m b kk | | | ]; try (ok E; subst g; reflexivity).
    destruct (String.eqb m "box") eqn:M1; [apply String.eqb_eq in M1; subst m | destruct (String.eqb m "cylinder") eqn:M2; [apply String.eqb_eq in M2; subst m | destruct (String.eqb m "sphere") eqn:M3; [apply String.eqb_eq in M3; subst m | destruct (String.eqb m "mesh") eqn:M4; [apply String.eqb_eq in M4; subst m | ]]]]; cbn [shape_says].
    - ok E. unfold parse_box in Q. ok Q. apply floats_ok in Q0. destruct d as [ | x [ | y [ | z r]]]; try discriminate Q. ok Q. subst g0. ok E. subst g. exists x, y, z, r. auto.
    - ok E. unfold parse_cylinder in Q. ok Q. ok Q. ok Q. apply float_ok in Q0, Q1. subst g0. ok E. subst g. eauto.
    - ok E. unfold parse_sphere in Q. ok Q. ok Q. apply float_ok in Q0. subst g0. ok E. subst g. eauto.
    - ok E. unfold parse_mesh in Q. destruct (String.eqb (xget "scale" b) "") eqn:Es.
      + apply String.eqb_eq in Es. ok Q. subst g0. ok E. subst g. exists None. auto.
      + apply String.eqb_neq in Es. ok Q. ok Q. apply floats_ok in Q0. subst g0. ok E. subst g. eexists. split; [reflexivity | ]. right. eauto.
    - ok E. subst g. apply String.eqb_neq in M1, M2, M3, M4. unfold shape_says.
      repeat (match goal with |- context [match ?x with _ => _ end] => destruct x end; try congruence).
  Qed.
  Lemma says_kids {A} (P : option (list (string * string) * list xnode) -> A -> Prop) n k x b : match x with XElem _ _ _ => False | _ => True end -> P (last_opt (called n k)) b -> P (last_opt (called n (k ++ [x]))) b.
  Proof. intros H. now rewrite (called_none n k x H). Qed.
  Ltac cases m E := repeat (match type of E with context [String.eqb m ?s] => let M := fresh "M" in destruct (String.eqb m s) eqn:M; [apply String.eqb_eq in M; subst m | ] end).
  Ltac fin := rewrite ?called_last; repeat match goal with M : String.eqb _ _ = false |- _ => rewrite M end; cbn [String.eqb Ascii.eqb Bool.eqb opt_rel fst snd]; try tauto; try assumption; try reflexivity.
  Lemma collision_ok a k c : parse_collision num k = Ok c -> collision_says num (a, k) c.
  Proof.
    unfold parse_collision. revert k c. apply (loop_ind _ (fun k c => collision_says num (a, k) c)).
    - split; reflexivity || exact Logic.I.
    - intros k b x Hx (P1 & P2). unfold collision_says. cbn [snd] in *. rewrite !called_none by exact Hx. now split.
    - reflexivity.
    - intros k b m a1 kk b' (P1 & P2) E. cbn [fst snd] in *. unfold collision_says. cbn [collision_step] in E. cases m E; repeat ok E; subst b'; cbn [fst snd c_geometry c_origin] in *; fin.
      + split; [now apply geometry_ok | exact P2].
      + split; [exact P1 | now apply pose_ok].
  Qed.
  Lemma color_ok a k c : parse_color num a = Ok c -> color_says num (a, k) c.
  Proof. unfold parse_color. intros E. ok E. apply floats_ok in Q. destruct l as [ | r [ | g [ | b [ | al [ | ]]]]]; try discriminate E. ok E. subst c. exact Q. Qed.
  Lemma material_ok a k m : parse_material num a k = Ok m -> material_says num (a, k) m.
  Proof.
    unfold parse_material. revert k m. apply (loop_ind _ (fun k m => material_says num (a, k) m)).
    - repeat split.
    - intros k b x Hx (P1 & P2 & P3). unfold material_says. cbn [fst snd] in *. rewrite !called_none by exact Hx. auto.
    - reflexivity.
    - intros k b m a1 kk b' (P1 & P2 & P3) E. cbn [fst snd] in *. unfold material_says. cbn [material_step] in E. cases m E; repeat ok E; subst b'; cbn [fst snd m_name m_color m_texture] in *; fin.
      split; [exact P1 | split; [now apply color_ok | exact P3]].
  Qed.
  Lemma visual_ok a k v : parse_visual num k = Ok v -> visual_says num (a, k) v.
  Proof.
    unfold parse_visual. revert k v. apply (loop_ind _ (fun k v => visual_says num (a, k) v)).
    - repeat split.
    - intros k b x Hx (P1 & P2 & P3). unfold visual_says. cbn [fst snd] in *. rewrite !called_none by exact Hx. auto.
    - reflexivity.
    - intros k b m a1 kk b' (P1 & P2 & P3) E. cbn [fst snd] in *. unfold visual_says. cbn [visual_step] in E. cases m E; repeat ok E; subst b'; cbn [fst snd v_geometry v_material v_origin] in *; fin.
      + split; [now apply geometry_ok | auto].
      + split; [exact P1 | split; [now apply pose_ok | exact P3]].
      + split; [exact P1 | split; [exact P2 | now apply material_ok]].
  Qed.
  Lemma inertial_ok a k i : parse_inertial num k = Ok i -> inertial_says num (a, k) i.
  Proof.
    unfold parse_inertial. revert k i. apply (loop_ind _ (fun k i => inertial_says num (a, k) i)).
    - repeat split.
    - intros k b x Hx (P1 & P2 & P3). unfold inertial_says. cbn [fst snd] in *. rewrite !called_none by exact Hx. auto.
    - reflexivity.
    - intros k b m a1 kk b' (P1 & P2 & P3) E. cbn [fst snd] in *. unfold inertial_says. cbn [inertial_step] in E. cases m E; repeat ok E; subst b'; cbn [fst snd i_mass i_xx i_xy i_xz i_yy i_yz i_zz i_origin] in *; fin.
      + split; [exact P1 | ]. split; [ | exact P3]. repeat split; now apply float_ok.
      + split; [now apply float_ok | auto].
      + split; [exact P1 | split; [exact P2 | now apply pose_ok]].
  Qed.
  Lemma link_ok a k l : parse_link num a k = Ok l -> link_says num (a, k) l.
  Proof.
    unfold parse_link. revert k l. apply (loop_ind _ (fun k l => link_says num (a, k) l)).
    - repeat split.
    - intros k b x Hx (P1 & P2 & P3). unfold link_says. cbn [fst snd] in *. rewrite !called_none by exact Hx. auto.
    - reflexivity.
    - intros k b m a1 kk b' (P1 & P2 & P3 & P4) E. cbn [fst snd] in *. unfold link_says. cbn [link_reads] in E. cases m E; repeat ok E; subst b'; cbn [fst snd l_name l_visual l_collision l_inertial] in *; fin.
      + split; [exact P1 | split; [now apply visual_ok | auto]].
      + split; [exact P1 | split; [exact P2 | split; [now apply collision_ok | exact P4]]].
      + split; [exact P1 | split; [exact P2 | split; [exact P3 | now apply inertial_ok]]].
  Qed.
  Lemma joint_ok a k j : parse_joint num a k = Ok j -> joint_says num (a, k) j.
  Proof.
    unfold parse_joint. revert k j. apply (loop_ind _ (fun k j => joint_says num (a, k) j)).
    - repeat split.
    - intros k b x Hx P. unfold joint_says in *. cbn [fst snd] in *. rewrite !called_none by exact Hx. exact P.
    - intros []; reflexivity.
    - intros k b m a1 kk b' P E. unfold joint_says in *. cbn [fst snd] in *. destruct b as [nm pa ch ty ax og li dy sa ca mi]. cbn [joint_reads] in E.
      cases m E; repeat ok E; subst b'; cbn [fst snd j_name j_parent j_child j_type j_axis j_origin j_limits j_dynamics j_safety j_calibration j_mimic] in *; fin; destruct P as (P1 & P2 & P3 & P4 & P5 & P6 & P7 & P8 & P9 & P10 & P11); repeat match goal with |- _ /\ _ => split end; try assumption; try reflexivity.
      + now apply pose_ok.
      + unfold parse_limit in Q. repeat ok Q; subst. split; [now apply float_ok | split; [now apply float_ok | split; now apply optfloat_ok]].
      + unfold parse_safety in Q. repeat ok Q; subst. split; [now apply float_ok | split; [now apply optfloat_ok | split; now apply optfloat_ok]].
      + unfold parse_calib in Q. repeat ok Q; subst. now apply optfloat_ok.
      + unfold parse_calib in Q. repeat ok Q; subst. now apply optfloat_ok.
      + unfold parse_mimic in Q. repeat ok Q; subst. reflexivity.
      + unfold parse_mimic in Q. repeat ok Q; subst. now apply optfloat_ok.
      + unfold parse_mimic in Q. repeat ok Q; subst. now apply optfloat_ok.
  Qed.
End C.
