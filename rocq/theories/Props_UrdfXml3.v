(** C94, continued: which documents are read. *)
From Coq Require Import Ascii.
From Verif Require Export Props_UrdfXml2.
Open Scope R_scope.

Definition oks {A} (r : res A) : Prop := exists x, r = Ok x.
Lemma oks_bind {A B} (r : res A) (f : A -> res B) (P : Prop) : (forall x, oks (f x) <-> P) -> oks (let* x := r in f x) <-> oks r /\ P.
Proof.
  intros H. destruct r as [x | e]; cbn.
  - rewrite H. split; [intros Hp; split; [exists x; reflexivity | exact Hp] | tauto].
  - split; [intros (y & E); discriminate E | intros ((y & E) & _); discriminate E].
Qed.
Lemma oks_map {A B} (r : res A) (f : A -> B) : oks (let* x := r in Ok (f x)) <-> oks r.
Proof. destruct r; cbn; (split; intros (y & E); [discriminate E || (eexists; reflexivity) | discriminate E || (eexists; reflexivity)]). Qed.
Lemma oks_Ok {A} (x : A) : oks (Ok x) <-> True.
Proof. split; [auto | intros _; exists x; reflexivity]. Qed.
Lemma foldM_oks {A B} (f : B -> A -> res B) (P : A -> Prop) : (forall b a, oks (f b a) <-> P a) -> forall l b, oks (foldM f l b) <-> Forall P l.
Proof.
  intros H. induction l as [ | a l IH]; intros b; cbn; [split; [constructor | intros _; eexists; reflexivity] | ].
  rewrite (oks_bind _ _ (Forall P l)) by (intros; apply IH). rewrite H, Forall_cons_iff. reflexivity.
Qed.
Lemma mapM_oks {A B} (f : A -> res B) l : oks (mapM f l) <-> Forall (fun a => oks (f a)) l.
Proof.
  induction l as [ | a l IH]; cbn; [split; [constructor | intros _; eexists; reflexivity] | ].
  rewrite (oks_bind _ _ (oks (mapM f l))) by (intros; apply oks_map). now rewrite IH, Forall_cons_iff.
Qed.
Definition when (n : string) (P : list (string * string) * list xnode -> Prop) (x : xnode) : Prop := match x with XElem m a k => m = n -> P (a, k) | _ => True end.
Lemma called_when n P k : Forall P (called n k) <-> Forall (when n P) (xchildren k).
Proof.
  induction k as [ | x k IH]; [split; constructor | ]. unfold called. cbn [flat_map]. fold (called n k). rewrite Forall_app, IH. destruct x as [m a kk | | | ]; cbn [xchildren filter].
  - fold (xchildren k). rewrite (Forall_cons_iff _ (XElem m a kk)). cbn [when]. destruct (String.eqb_spec m n) as [-> | D]; [rewrite Forall_cons_iff; split; [intros ((H & _) & H'); auto | intros (H & H'); split; [split; [now apply H | constructor] | exact H']] | split; [intros (_ & H); split; [congruence | exact H] | intros (_ & H); split; [constructor | exact H]]].
  - split; [tauto | intros H; split; [constructor | exact H]].
  - split; [tauto | intros H; split; [constructor | exact H]].
  - fold (xchildren k). rewrite Forall_cons_iff. cbn [when]. split; [tauto | intros (_ & H); split; [constructor | exact H]].
Qed.
Lemma Forall_and2 {A} (P Q : A -> Prop) l : Forall P l /\ Forall Q l <-> Forall (fun x => P x /\ Q x) l.
Proof. rewrite !Forall_forall. firstorder. Qed.
Section C.
  Variable num : string -> option R.
  Lemma float_oks s : oks (float num s) <-> exists x, number num s x.
  Proof. unfold float, number. destruct (num s); split; intros (y & E); try discriminate E; eexists; reflexivity. Qed.
  Lemma floats_oks s : oks (floats num s) <-> exists l, numbers num s l.
  Proof.
    split; [intros (l & E); exists l; now apply floats_ok | intros (l & ws & Sp & F)]. apply spells_split in Sp. unfold floats. rewrite Sp. apply mapM_oks. clear Sp. induction F as [ | w x ws' l' H F IH]; constructor; [ | exact IH].
    apply float_oks. eauto.
  Qed.
  Lemma float_to s x : number num s x -> float num s = Ok x.
  Proof. unfold float, number. intros ->. reflexivity. Qed.
  Lemma floats_to s l : numbers num s l -> floats num s = Ok l.
  Proof. intros (ws & Sp & F). apply spells_split in Sp. unfold floats. rewrite Sp. clear Sp. induction F as [ | w x ws' l' H F IH]; [reflexivity | ]. cbn [mapM]. rewrite (float_to _ _ H), IH. reflexivity. Qed.
  Lemma optfloat_oks n a : oks (optfloat num n a) <-> forall s, xattr n a = Some s -> exists x, number num s x.
  Proof. unfold optfloat. destruct (xattr n a) as [s | ]; [rewrite oks_map, float_oks; split; [intros H s' E; injection E as <-; exact H | auto] | rewrite oks_Ok; split; [discriminate | auto]]. Qed.
  Lemma pose_oks a k : oks (parse_pose num a) <-> ok_pose num (a, k).
  Proof.
    split; [intros (p & E); exists p; now apply pose_ok | ]. intros (p & P1 & P2). cbn [fst] in *. unfold parse_pose, optfloats. destruct (xattr "xyz" a), (p_position p); try contradiction P1; cbn [rbind] in *; try rewrite (floats_to _ _ P1); cbn [rbind];
    destruct (xattr "rpy" a), (p_rotation p); try contradiction P2; cbn [rbind] in *; try rewrite (floats_to _ _ P2); eexists; reflexivity.
  Qed.
  Lemma geometry_oks a k : oks (parse_geometry num k) <-> ok_geometry num (a, k).
  Proof.
    split; [intros (g & E); exists g; now apply geometry_ok | ]. intros (g & n & F & Sy). rewrite first_hd in F. unfold parse_geometry. destruct (xchildren k) as [ | n' l]; [discriminate F | ]. cbn in F. injection F as ->. destruct n as [m b kk | | | ]; try (eexists; reflexivity).
    destruct (String.eqb m "box") eqn:M1; [apply String.eqb_eq in M1; subst m | destruct (String.eqb m "cylinder") eqn:M2; [apply String.eqb_eq in M2; subst m | destruct (String.eqb m "sphere") eqn:M3; [apply String.eqb_eq in M3; subst m | destruct (String.eqb m "mesh") eqn:M4; [apply String.eqb_eq in M4; subst m | ]]]]; cbn [shape_says] in Sy.
    - destruct Sy as (x & y & z & r & H & _). unfold parse_box. rewrite (floats_to _ _ H). eexists; reflexivity.
    - destruct Sy as (r & h & H1 & H2 & _). unfold parse_cylinder. rewrite (float_to _ _ H1), (float_to _ _ H2). eexists; reflexivity.
    - destruct Sy as (r & H & _). unfold parse_sphere. rewrite (float_to _ _ H). eexists; reflexivity.
    - destruct Sy as (sc & _ & H). unfold parse_mesh. destruct (String.eqb_spec (xget "scale" b) "") as [Es | Es]; [eexists; reflexivity | ]. destruct H as [(H & _) | (_ & r & _ & H)]; [congruence | ]. rewrite (floats_to _ _ H). eexists; reflexivity.
    - eexists; reflexivity.
  Qed.
  Lemma color_oks a k : oks (parse_color num a) <-> ok_color num (a, k).
  Proof. split; [intros (c & E); exists c; now apply color_ok | ]. intros ((((r, g), b), al) & H). cbn in H. unfold parse_color. rewrite (floats_to _ _ H). eexists; reflexivity. Qed.
  Ltac cs m := repeat (match goal with |- context [String.eqb m ?s] => destruct (String.eqb_spec m s) as [? | ?]; [subst m | ] end).
  Ltac wh := cbn [when]; split; [intros; repeat match goal with |- _ /\ _ => split end; intros; try discriminate; try congruence; try assumption | intros HH; try (apply HH; reflexivity)].
  Lemma collision_oks a k : oks (parse_collision num k) <-> ok_collision num (a, k).
  Proof.
    unfold parse_collision, ok_collision. cbn [snd]. rewrite !called_when, Forall_and2. apply foldM_oks. intros b [m a1 kk | | | ]; try (cbn; split; [tauto | intros; eexists; reflexivity]). cbn [collision_step]. cs m.
    - rewrite oks_map, (geometry_oks a1). wh.
    - rewrite oks_map, (pose_oks a1 kk). wh.
    - rewrite oks_Ok. wh. exact Logic.I.
  Qed.
  Lemma material_oks a k : oks (parse_material num a k) <-> ok_material num (a, k).
  Proof.
    unfold parse_material, ok_material. cbn [snd]. rewrite !called_when. apply foldM_oks. intros b [m a1 kk | | | ]; try (cbn; split; [tauto | intros; eexists; reflexivity]). cbn [material_step]. cs m.
    - rewrite oks_map, (color_oks a1 kk). wh.
    - rewrite oks_Ok. wh. exact Logic.I.
    - rewrite oks_Ok. wh. exact Logic.I.
  Qed.
  Lemma visual_oks a k : oks (parse_visual num k) <-> ok_visual num (a, k).
  Proof.
    unfold parse_visual, ok_visual. cbn [snd]. rewrite !called_when, !Forall_and2. apply foldM_oks. intros b [m a1 kk | | | ]; try (cbn; split; [tauto | intros; eexists; reflexivity]). cbn [visual_step]. cs m.
    - rewrite oks_map, (geometry_oks a1). wh.
    - rewrite oks_map, (pose_oks a1 kk). wh.
    - rewrite oks_map, material_oks. wh.
    - rewrite oks_Ok. wh. exact Logic.I.
  Qed.
  Lemma inertial_oks a k : oks (parse_inertial num k) <-> ok_inertial num (a, k).
  Proof.
    unfold parse_inertial, ok_inertial. cbn [snd]. rewrite !called_when, !Forall_and2. apply foldM_oks. intros b [m a1 kk | | | ]; try (cbn; split; [tauto | intros; eexists; reflexivity]). cbn [inertial_step]. cs m.
    - split.
      + intros (y & E). do 6 ok E. cbn [when]. split; [intros; discriminate | split; [ | intros; discriminate]]. intros _ n Hn. cbn [In fst] in *.
        repeat (destruct Hn as [<- | Hn]; [match goal with Hq : float num (xget ?s _) = Ok ?v |- exists x, number num (xget ?s _) x => exists v; now apply float_ok end | ]). destruct Hn.
      + intros (_ & H & _). specialize (H eq_refl). cbn [fst] in H.
        destruct (H "ixx"%string ltac:(cbn; tauto)) as (x1 & H1), (H "ixy"%string ltac:(cbn; tauto)) as (x2 & H2), (H "ixz"%string ltac:(cbn; tauto)) as (x3 & H3), (H "iyy"%string ltac:(cbn; tauto)) as (x4 & H4), (H "iyz"%string ltac:(cbn; tauto)) as (x5 & H5), (H "izz"%string ltac:(cbn; tauto)) as (x6 & H6).
        cbn [fst] in *. rewrite (float_to _ _ H1), (float_to _ _ H2), (float_to _ _ H3), (float_to _ _ H4), (float_to _ _ H5), (float_to _ _ H6). eexists; reflexivity.
    - rewrite oks_map, float_oks. wh. destruct HH as (HH & _). exact (HH eq_refl).
    - rewrite oks_map, (pose_oks a1 kk). wh.
    - rewrite oks_Ok. wh. exact Logic.I.
  Qed.
  Lemma link_oks a k : oks (parse_link num a k) <-> ok_link num (a, k).
  Proof.
    unfold parse_link, ok_link. cbn [snd]. rewrite !called_when, !Forall_and2. apply foldM_oks. intros b [m a1 kk | | | ]; try (cbn; split; [tauto | intros; eexists; reflexivity]). cbn [link_reads]. cs m.
    - rewrite oks_map, (visual_oks a1). wh.
    - rewrite oks_map, (collision_oks a1). wh.
    - rewrite oks_map, (inertial_oks a1). wh.
    - rewrite oks_Ok. wh. exact Logic.I.
  Qed.
  Lemma opt_num s o : opt_rel (number num) s o -> forall t, s = Some t -> exists x, number num t x.
  Proof. intros H t ->. destruct o; [eauto | destruct H]. Qed.
  Lemma limit_oks a k : oks (parse_limit num a) <-> ok_limit num (a, k).
  Proof.
    split.
    - intros (x & E). unfold parse_limit in E. repeat ok E. exists x. subst x. split; [now apply float_ok | split; [now apply float_ok | split; now apply optfloat_ok]].
    - intros (x & H1 & H2 & H3 & H4). cbn [fst] in *. unfold parse_limit. rewrite (float_to _ _ H1), (float_to _ _ H2). cbn [rbind].
      assert (A := proj2 (optfloat_oks _ _) (opt_num _ _ H3)). assert (B := proj2 (optfloat_oks _ _) (opt_num _ _ H4)). destruct A as (y & ->), B as (z & ->). eexists; reflexivity.
  Qed.
  Lemma safety_oks a k : oks (parse_safety num a) <-> ok_safety num (a, k).
  Proof.
    split.
    - intros (x & E). unfold parse_safety in E. repeat ok E. exists x. subst x. split; [now apply float_ok | split; [now apply optfloat_ok | split; now apply optfloat_ok]].
    - intros (x & H1 & H2 & H3 & H4). cbn [fst] in *. unfold parse_safety. rewrite (float_to _ _ H1). cbn [rbind].
      assert (A := proj2 (optfloat_oks _ _) (opt_num _ _ H3)). assert (B := proj2 (optfloat_oks _ _) (opt_num _ _ H4)). assert (C := proj2 (optfloat_oks _ _) (opt_num _ _ H2)). destruct A as (y & ->), B as (z & ->), C as (t & ->). eexists; reflexivity.
  Qed.
  Lemma two_oks {A} (f : option R -> option R -> A) n1 n2 a k : oks (let* x := optfloat num n1 a in let* y := optfloat num n2 a in Ok (f x y)) <-> ok_numbers num [n1; n2] (a, k).
  Proof.
    split.
    - intros (x & E). repeat ok E. intros n t [<- | [<- | []]] Et; cbn [fst] in Et; eapply opt_num; [eapply optfloat_ok; exact Q | exact Et | eapply optfloat_ok; exact Q0 | exact Et].
    - intros H. destruct (proj2 (optfloat_oks n1 a)) as (x & ->); [intros t Et; apply (H n1 t); [now left | exact Et] | ]. destruct (proj2 (optfloat_oks n2 a)) as (y & ->); [intros t Et; apply (H n2 t); [right; now left | exact Et] | ]. eexists; reflexivity.
  Qed.
  Lemma joint_oks a k : oks (parse_joint num a k) <-> ok_joint num (a, k).
  Proof.
    unfold parse_joint, ok_joint. cbn [snd]. rewrite !called_when, !Forall_and2. apply foldM_oks. intros [nm pa ch ty ax og li dy sa ca mi] [m a1 kk | | | ]; try (cbn; split; [tauto | intros; eexists; reflexivity]). cbn [joint_reads]. cs m; rewrite ?oks_map, ?oks_Ok.
    - wh. exact Logic.I.
    - wh. exact Logic.I.
    - wh. exact Logic.I.
    - rewrite (pose_oks a1 kk). wh.
    - rewrite (limit_oks a1 kk). wh.
    - wh. exact Logic.I.
    - rewrite (safety_oks a1 kk). wh.
    - unfold parse_calib. rewrite (two_oks _ _ _ _ kk). wh.
    - unfold parse_mimic. rewrite (two_oks _ _ _ _ kk). wh.
    - wh. exact Logic.I.
  Qed.
End C.
(** A document is read exactly when its first node is an element and every link, joint and material in it is well formed, with all that
    is in them, the repeated elements and those that do not count at the end included. *)
Theorem C94_readable : forall num d, (exists u, parse_document num d = Ok u) <-> ok_document num d.
Proof.
  intros num d. unfold parse_document, ok_document. rewrite first_hd. destruct (xchildren d) as [ | [m a k | | | ] l]; cbn [hd_error].
  - split; [intros (u & E); discriminate E | intros (m & a & k & E & _); discriminate E].
  - transitivity (Forall (ok_link num) (called "link" k) /\ Forall (ok_joint num) (called "joint" k) /\ Forall (ok_material num) (called "material" k)).
    + rewrite !called_when, !Forall_and2. apply foldM_oks. intros b [m' a1 kk | | | ]; try (cbn; split; [tauto | intros; eexists; reflexivity]). cbn [robot_reads].
      repeat (match goal with |- context [String.eqb m' ?s] => destruct (String.eqb_spec m' s) as [? | ?]; [subst m' | ] end); rewrite ?oks_map, ?oks_Ok, ?joint_oks, ?link_oks, ?material_oks; cbn [when]; (split; [intros; repeat match goal with |- _ /\ _ => split end; intros; try discriminate; try congruence; try assumption | intros HH; try (apply HH; reflexivity)]). exact Logic.I.
    + split; [intros H; exists m, a, k; split; [reflexivity | exact H] | intros (m' & a' & k' & E & H); injection E as <- <- <-; exact H].
  - split; [intros (u & E); discriminate E | intros (m & a & k & E & _); discriminate E].
  - split; [intros (u & E); discriminate E | intros (m & a & k & E & _); discriminate E].
  - split; [intros (u & E); discriminate E | intros (m & a & k & E & _); discriminate E].
Qed.
Print Assumptions C94_readable.

(** A robot whose document starts with a document type or a processing instruction (a style sheet) is not read, though the rest is well formed. *)
Theorem C94_prolog_refuted : forall num d, ok_document num d -> parse_document num (XOther :: d) = Err AttributeError.
Proof. reflexivity. Qed.
Print Assumptions C94_prolog_refuted.
(** Of several collision (or visual) elements in a link, which the format allows, only the last one is kept: here two spheres. *)
Theorem C94_several_refuted : forall num r1 r2 x1 x2, number num r1 x1 -> number num r2 x2 -> x1 <> x2 ->
  let sphere r := XElem "geometry" [] [XElem "sphere" [("radius"%string, r)] []] in
  exists u l, parse_document num [XElem "robot" [] [XElem "link" [("name", "arm")]%string
      [XElem "collision" [] [sphere r1]; XElem "collision" [] [sphere r2]; XElem "visual" [] [sphere r1]; XElem "visual" [] [sphere r2]]]] = Ok u /\
    u_elements u = [ELink l] /\ u_links u = [("arm"%string, l)] /\ l_collision l = Some (XCollision (Some (XSphere x2)) None) /\ l_visual l = Some (XVisual (Some (XSphere x2)) None None).
Proof.
  intros num r1 r2 x1 x2 H1 H2 _ sphere. exists (build "" [ELink (XLink "arm" (Some (XVisual (Some (XSphere x2)) None None)) None (Some (XCollision (Some (XSphere x2)) None)))]). eexists. split; [ | cbn; auto]. cbn.
  unfold parse_sphere, xget. cbn [xattr String.eqb Ascii.eqb Bool.eqb]. rewrite (float_to num _ _ H1), (float_to num _ _ H2). reflexivity.
Qed.
Print Assumptions C94_several_refuted.

(** ** A witness: a document with texts, comments, a repeated element and an unknown one *)
Definition xm_num (s : string) : option R :=
  if String.eqb s "0" then Some 0 else if String.eqb s "1" then Some 1 else if String.eqb s "-1" then Some (-1) else if String.eqb s "2" then Some 2 else None.
Definition xm_doc : list xnode :=
  [XComment; XText; XElem "robot" [("name", "crane")]%string
    [XText; XElem "material" [("name", "grey")]%string [XElem "color" [("rgba", "1 1 1  2")]%string []]; XComment;
     XElem "link" [("name", "base")]%string
       [XElem "inertial" [] [XElem "mass" [("value", "2")]%string []; XElem "mass" [("value", "1")]%string []; XElem "inertia" [("ixx", "1"); ("ixy", "0"); ("ixz", "0"); ("iyy", "1"); ("iyz", "0"); ("izz", "1")]%string []];
        XElem "collision" [] [XElem "geometry" [] [XText; XElem "box" [("size", " 1 2 1 ")]%string []]; XElem "origin" [("xyz", "0 0 1"); ("rpy", "0 0 0")]%string []]; XElem "sensor" [] []];
     XElem "link" [("name", "arm")]%string [XText];
     XElem "joint" [("name", "shoulder"); ("type", "revolute")]%string
       [XElem "parent" [("link", "base")]%string []; XText; XElem "child" [("link", "arm")]%string []; XElem "axis" [("xyz", "0 1 0")]%string [];
        XElem "origin" [("xyz", "0 0 1"); ("rpy", "0 0 0")]%string []; XElem "limit" [("effort", "1"); ("velocity", "1"); ("lower", "-1"); ("upper", "1")]%string []];
     XElem "transmission" [] [XOther]; XText]].
Definition xm_urdf : urdf := build "crane"
  [EMaterial (XMaterial (Some "grey"%string) (Some (1, 1, 1, 2)) None);
   ELink (XLink "base" None (Some (XInertial 1 0 0 1 0 1 1 None)) (Some (XCollision (Some (XBox (Some (1, 2, 1)))) (Some (XPose (Some [0; 0; 1]) (Some [0; 0; 0]))))));
   ELink (XLink "arm" None None None);
   EJoint (XJoint "shoulder" (Some "base"%string) (Some "arm"%string) "revolute" (Some "0 1 0"%string) (Some (XPose (Some [0; 0; 1]) (Some [0; 0; 0]))) (Some (XLimit 1 1 (Some (-1)) (Some 1))) None None None None)].
Theorem C94_witness : parse_document xm_num xm_doc = Ok xm_urdf /\ ok_document xm_num xm_doc /\ robot_says xm_num xm_doc xm_urdf /\ elements xm_doc <> xm_doc.
Proof.
  assert (E : parse_document xm_num xm_doc = Ok xm_urdf) by reflexivity. split; [exact E | ]. split; [apply C94_readable; exists xm_urdf; exact E | ]. split; [now apply C94_contents | discriminate].
Qed.
Print Assumptions C94_witness.
