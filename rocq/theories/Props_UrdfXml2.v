(** C94, continued: the whole document. *)
From Coq Require Import Ascii.
From Verif Require Export Props_UrdfXml.
Open Scope R_scope.

Definition build (n : string) (es : list xelement) : urdf := fold_left (fun u x => add_xelement x u) es (Urdf n [] [] [] [] []).
Lemma build_app n es x : build n (es ++ [x]) = add_xelement x (build n es).
Proof. unfold build. rewrite fold_left_app. reflexivity. Qed.
Lemma build_fields n es : u_name (build n es) = n /\ u_elements (build n es) = es.
Proof. induction es as [ | x es (IH1 & IH2)] using rev_ind; [split; reflexivity | ]. rewrite build_app. destruct (build n es) as [a b c d f g]. cbn in IH1, IH2. subst a b. destruct x; split; reflexivity. Qed.
Lemma in_dset {A} k (v : A) d n w : In (n, w) (dset k v d) <-> (n = k /\ w = v) \/ (n <> k /\ In (n, w) d).
Proof.
  unfold dset. cbn [In]. rewrite filter_In. cbn [fst]. rewrite Bool.negb_true_iff, String.eqb_neq. split.
  - intros [E | (H & N)]; [injection E as <- <-; now left | right; split; [congruence | exact H]].
  - intros [(-> & ->) | (N & H)]; [now left | right; split; [exact H | congruence]].
Qed.
Lemma nodup_dset {A} k (v : A) d : NoDup (map fst d) -> NoDup (map fst (dset k v d)).
Proof.
  intros N. unfold dset. cbn [map fst]. constructor.
  - rewrite in_map_iff. intros ((m, w) & E & H). cbn in E. subst m. apply filter_In in H. cbn [fst] in H. rewrite String.eqb_refl in H. now destruct H.
  - clear - N. induction d as [ | (m, w) d IH]; [constructor | ]. cbn [filter fst]. cbn in N. apply NoDup_cons_iff in N. destruct N as (N1 & N2). destruct (negb (String.eqb k m)); [ | auto]. cbn. constructor; [ | auto].
    intros H. apply N1. apply in_map_iff in H. destruct H as (x & E & H). apply filter_In in H. apply in_map_iff. exists x. tauto.
Qed.
Lemma oeqb_eq a b : oeqb a b = true <-> a = b.
Proof. destruct a, b; cbn; try (split; congruence). rewrite String.eqb_eq. split; congruence. Qed.
Lemma oeqb_neq a b : oeqb a b = false <-> a <> b.
Proof. rewrite <- oeqb_eq. destruct (oeqb a b); split; congruence. Qed.
Lemma in_oset {A} k (v : A) d n w : In (n, w) (oset k v d) <-> (n = k /\ w = v) \/ (n <> k /\ In (n, w) d).
Proof.
  unfold oset. cbn [In]. rewrite filter_In. cbn [fst]. rewrite Bool.negb_true_iff, oeqb_neq. split.
  - intros [E | (H & N)]; [injection E as <- <-; now left | right; split; [congruence | exact H]].
  - intros [(-> & ->) | (N & H)]; [now left | right; split; [exact H | congruence]].
Qed.
Lemma nodup_oset {A} k (v : A) d : NoDup (map fst d) -> NoDup (map fst (oset k v d)).
Proof.
  intros N. unfold oset. cbn [map fst]. constructor.
  - rewrite in_map_iff. intros ((m, w) & E & H). cbn in E. subst m. apply filter_In in H. cbn [fst] in H. assert (X : oeqb k k = true) by now apply oeqb_eq. rewrite X in H. now destruct H.
  - clear - N. induction d as [ | (m, w) d IH]; [constructor | ]. cbn [filter fst]. cbn in N. apply NoDup_cons_iff in N. destruct N as (N1 & N2). destruct (negb (oeqb k m)); [ | auto]. cbn. constructor; [ | auto].
    intros H. apply N1. apply in_map_iff in H. destruct H as (x & E & H). apply filter_In in H. apply in_map_iff. exists x. tauto.
Qed.
Lemma last_such_app P es x : last_such P (es ++ [x]) = if P x then Some x else last_such P es.
Proof. unfold last_such. rewrite rev_app_distr. reflexivity. Qed.
Lemma build_links n es : NoDup (map fst (u_links (build n es))) /\ forall k l, In (k, l) (u_links (build n es)) <-> last_such (fun x => match x with ELink l => String.eqb (l_name l) k | _ => false end) es = Some (ELink l).
Proof.
  induction es as [ | x es (N & IH)] using rev_ind; [split; [constructor | intros k l; split; [intros [] | discriminate]] | ]. rewrite build_app. destruct (build n es) as [a b c d f g]. cbn [u_links] in *.
  destruct x as [l | j | m]; cbn [add_xelement u_links]; (split; [try apply nodup_dset; assumption | ]); intros k l'; rewrite last_such_app.
  - rewrite in_dset. destruct (String.eqb_spec (l_name l) k) as [<- | D]; [split; [intros [(_ & ->) | (Z & _)]; congruence | intros E; left; split; congruence] | rewrite <- IH; split; [intros [(Z & _) | (_ & Z)]; congruence | intros Z; right; split; congruence]].
  - apply IH.
  - apply IH.
Qed.
Lemma build_joints n es : NoDup (map fst (u_joints (build n es))) /\ forall k l, In (k, l) (u_joints (build n es)) <-> last_such (fun x => match x with EJoint l => String.eqb (j_name l) k | _ => false end) es = Some (EJoint l).
Proof.
  induction es as [ | x es (N & IH)] using rev_ind; [split; [constructor | intros k l; split; [intros [] | discriminate]] | ]. rewrite build_app. destruct (build n es) as [a b c d f g]. cbn [u_joints] in *.
  destruct x as [l | l | l]; cbn [add_xelement u_joints]; (split; [try apply nodup_dset; assumption | ]); intros k l'; rewrite last_such_app.
  - apply IH.
  - rewrite in_dset. destruct (String.eqb_spec (j_name l) k) as [<- | D]; [split; [intros [(_ & ->) | (Z & _)]; congruence | intros E; left; split; congruence] | rewrite <- IH; split; [intros [(Z & _) | (_ & Z)]; congruence | intros Z; right; split; congruence]].
  - apply IH.
Qed.
Lemma build_materials n es : NoDup (map fst (u_materials (build n es))) /\ forall k l, In (k, l) (u_materials (build n es)) <-> last_such (fun x => match x with EMaterial l => if option_eq_dec (m_name l) k then true else false | _ => false end) es = Some (EMaterial l).
Proof.
  induction es as [ | x es (N & IH)] using rev_ind; [split; [constructor | intros k l; split; [intros [] | discriminate]] | ]. rewrite build_app. destruct (build n es) as [a b c d f g]. cbn [u_materials] in *.
  destruct x as [l | l | l]; cbn [add_xelement u_materials]; (split; [try apply nodup_oset; assumption | ]); intros k l'; rewrite last_such_app.
  - apply IH.
  - apply IH.
  - rewrite in_oset. destruct (option_eq_dec (m_name l) k) as [<- | D]; [split; [intros [(_ & ->) | (Z & _)]; congruence | intros E; left; split; congruence] | rewrite <- IH; split; [intros [(Z & _) | (_ & Z)]; congruence | intros Z; right; split; congruence]].
Qed.
Lemma build_map n es : NoDup (map fst (u_parent_map (build n es))) /\ forall c k p, In (c, (k, p)) (u_parent_map (build n es)) <-> exists j, j_name j = k /\ j_parent j = p /\
  last_such (fun x => match x with EJoint j => if option_eq_dec (j_child j) c then true else false | _ => false end) es = Some (EJoint j).
Proof.
  induction es as [ | x es (N & IH)] using rev_ind; [split; [constructor | intros c k p; split; [intros [] | intros (j & _ & _ & E); discriminate E]] | ]. rewrite build_app. destruct (build n es) as [a b f d m g]. cbn [u_parent_map] in *.
  destruct x as [l | l | l]; cbn [add_xelement u_parent_map]; (split; [try apply nodup_oset; assumption | ]); intros c k p; setoid_rewrite last_such_app.
  - apply IH.
  - rewrite in_oset. destruct (option_eq_dec (j_child l) c) as [<- | D].
    + split; [intros [(_ & Z) | (Z & _)]; [injection Z as -> ->; exists l; auto | congruence] | intros (j & <- & <- & E); injection E as ->; now left].
    + rewrite <- IH. split; [intros [(Z & _) | (_ & Z)]; [congruence | exact Z] | intros Z; right; split; [congruence | exact Z]].
  - apply IH.
Qed.
(** the elements read, in order *)
Lemma robot_loop num n : forall k u, foldM (robot_reads num) (xchildren k) (Urdf n [] [] [] [] []) = Ok u -> exists es, u = build n es /\ Forall2 (element_says num) (robot_nodes k) es.
Proof.
  intros k u E. revert k u E. apply (loop_ind _ (fun k u => exists es, u = build n es /\ Forall2 (element_says num) (robot_nodes k) es)).
  - exists []. split; [reflexivity | constructor].
  - intros k b x Hx (es & -> & F). exists es. split; [reflexivity | ]. unfold robot_nodes. rewrite filter_app. fold (robot_nodes k). destruct x; [destruct Hx | ..]; cbn; now rewrite app_nil_r.
  - reflexivity.
  - intros k b m a kk b' (es & -> & F) E. cbn [robot_reads] in E. unfold robot_nodes. rewrite filter_app. fold (robot_nodes k). cbn [filter].
    destruct (String.eqb m "joint") eqn:M1; [apply String.eqb_eq in M1; subst m | destruct (String.eqb m "link") eqn:M2; [apply String.eqb_eq in M2; subst m | destruct (String.eqb m "material") eqn:M3; [apply String.eqb_eq in M3; subst m | ]]]; cbn.
    + ok E. ok E. subst b'. exists (es ++ [EJoint j]). rewrite build_app. split; [reflexivity | ]. apply Forall2_app; [exact F | constructor; [ | constructor]]. split; [reflexivity | now apply joint_ok].
    + ok E. ok E. subst b'. exists (es ++ [ELink l]). rewrite build_app. split; [reflexivity | ]. apply Forall2_app; [exact F | constructor; [ | constructor]]. split; [reflexivity | now apply link_ok].
    + ok E. ok E. subst b'. exists (es ++ [EMaterial m]). rewrite build_app. split; [reflexivity | ]. apply Forall2_app; [exact F | constructor; [ | constructor]]. split; [reflexivity | now apply material_ok].
    + ok E. subst b'. exists es. rewrite app_nil_r. auto.
Qed.
Lemma parse_build num d u : parse_document num d = Ok u -> exists m a k es, first_node d = Some (XElem m a k) /\ u = build (xget "name" a) es /\ Forall2 (element_says num) (robot_nodes k) es.
Proof.
  unfold parse_document. rewrite first_hd. intros E. destruct (xchildren d) as [ | [m a k | | | ] l]; try discriminate E. apply robot_loop in E. destruct E as (es & -> & F). exists m, a, k, es. auto.
Qed.
(** What a document is read as: the robot has the name of its first element, and the links, joints and materials it contains, in order,
    with the numbers and texts of their attributes; what is absent is None (or zero); in each element the last child of each name
    counts, and unknown children do not. *)
Theorem C94_contents : forall num d u, parse_document num d = Ok u -> robot_says num d u.
Proof.
  intros num d u E. apply parse_build in E. destruct E as (m & a & k & es & F & -> & El). destruct (build_fields (xget "name" a) es) as (N & Es). constructor.
  - exists m, a, k. rewrite N, Es. auto.
  - rewrite Es. apply build_links.
  - rewrite Es. apply build_joints.
  - rewrite Es. apply build_materials.
  - rewrite Es. apply build_map.
Qed.
Print Assumptions C94_contents.
