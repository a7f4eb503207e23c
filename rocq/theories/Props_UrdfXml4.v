(** C95: writing a robot and reading it again. *)
From Coq Require Import Ascii.
From Verif Require Export Props_UrdfXml3.
Open Scope R_scope.

Lemma is_ascii_iff s : is_ascii s = true <-> plain_text s.
Proof. induction s as [ | c s IH]; [cbn; tauto | ]. cbn [is_ascii plain_text all_chars]. rewrite Bool.andb_true_iff, Nat.ltb_lt, IH. reflexivity. Qed.
Lemma set_text_plain n v a : opt_all plain_text v -> set_text n v a = Ok (match v with None => a | Some s => a ++ [(n, s)] end).
Proof. destruct v as [s | ]; [ | reflexivity]. cbn. intros H. apply is_ascii_iff in H. now rewrite H. Qed.
Section P.
  Variables (num : string -> option R) (pf : R -> string) (rd : R -> R).
  Hypothesis Pr : printing num pf rd.
  Lemma float_pf x : float num (pf x) = Ok (rd x).
  Proof. apply float_to. apply Pr. Qed.
  Lemma spells_join l : spells (join (map pf l)) (map pf l).
  Proof.
    induction l as [ | x l IH]; [constructor | ]. cbn [map]. destruct (map pf l) as [ | w ws] eqn:E.
    - rewrite <- (app_nil_s (join [pf x])). cbn [join]. constructor; [apply Pr | now left | constructor].
    - cbn [join]. constructor; [apply Pr | right; do 2 eexists; split; [reflexivity | ]; unfold blank; cbn; tauto | ]. constructor; [unfold blank; cbn; tauto | exact IH].
  Qed.
  Lemma floats_pf l : floats num (join (map pf l)) = Ok (map rd l).
  Proof. apply floats_to. exists (map pf l). split; [apply spells_join | ]. induction l; constructor; [apply Pr | assumption]. Qed.
  Ltac go := cbn -[float floats join map]; rewrite ?float_pf, ?floats_pf; cbn -[float floats join map]; try reflexivity.
  Lemma pose_again p : exists a, pose_xml pf p = Ok (XElem "origin" a []) /\ parse_pose num a = Ok (again_pose rd p).
  Proof.
    destruct p as [[xs | ] [rs | ]]; eexists; (split; [reflexivity | ]); unfold parse_pose, optfloats, again_pose; go.
  Qed.
  Lemma join_nonempty x l : String.eqb (join (map pf (x :: l))) "" = false.
  Proof.
    assert (W : pf x <> ""%string) by apply Pr. apply String.eqb_neq. cbn [map]. destruct (map pf l) as [ | w ws]; cbn [join]; [exact W | ]. destruct (pf x); [now elim W | discriminate].
  Qed.
  Lemma geometry_again g : plain_geom g -> exists n, geometry_xml pf g = Ok (XElem "geometry" [] [n]) /\ parse_geometry num [n] = Ok (Some (again_geom rd g)).
  Proof.
    destruct g as [[((x, y), z) | ] | r l | r | f s]; intros H.
    - eexists. split; [reflexivity | ]. unfold parse_geometry. cbn -[floats join map]. unfold parse_box, xget. cbn -[floats join map]. rewrite floats_pf. reflexivity.
    - now elim H.
    - eexists. split; [reflexivity | ]. unfold parse_geometry. cbn -[float]. unfold parse_cylinder, xget. cbn -[float]. rewrite !float_pf. reflexivity.
    - eexists. split; [reflexivity | ]. unfold parse_geometry. cbn -[float]. unfold parse_sphere, xget. cbn -[float]. rewrite !float_pf. reflexivity.
    - unfold geometry_xml. rewrite (set_text_plain _ _ _ H). eexists. split; [reflexivity | ]. unfold parse_geometry. cbn -[floats join map parse_mesh]. unfold parse_mesh, xget. destruct f as [f | ], s as [[ | x l] | ]; cbn -[floats join map String.eqb]; try reflexivity.
      all: cbn -[floats join map]; rewrite (join_nonempty x l), floats_pf; reflexivity.
  Qed.
  (** the kids of an element, in order *)
  Lemma kid_fold {A B} (f : A -> res xnode) (step : B -> xnode -> res B) (o : option A) (b b' : B) :
    (forall x, o = Some x -> exists m a k, f x = Ok (XElem m a k) /\ step b (XElem m a k) = Ok b') -> (o = None -> b' = b) ->
    exists ks, add_kid f o = Ok ks /\ foldM step (xchildren ks) b = Ok b'.
  Proof.
    intros H1 H2. destruct o as [x | ].
    - destruct (H1 x eq_refl) as (m & a & k & E1 & E2). exists [XElem m a k]. cbn [add_kid]. rewrite E1. split; [reflexivity | ]. cbn. rewrite E2. reflexivity.
    - exists []. rewrite (H2 eq_refl). split; reflexivity.
  Qed.
  Lemma collision_again c : opt_all plain_geom (c_geometry c) -> exists k, collision_xml pf c = Ok (XElem "collision" [] k) /\ parse_collision num k = Ok (again_collision rd c).
  Proof.
    intros H. destruct c as [g o]. cbn [c_geometry] in H. unfold collision_xml, again_collision, parse_collision. cbn [c_geometry c_origin].
    destruct (kid_fold (geometry_xml pf) (collision_step num) g (XCollision None None) (XCollision (option_map (again_geom rd) g) None)) as (kg & Eg & Fg).
    { intros x ->. destruct (geometry_again x H) as (n & E1 & E2). exists "geometry"%string, [], [n]. split; [exact E1 | ]. cbn -[parse_geometry]. rewrite E2. reflexivity. }
    { intros ->. reflexivity. }
    destruct (kid_fold (pose_xml pf) (collision_step num) o (XCollision (option_map (again_geom rd) g) None) (XCollision (option_map (again_geom rd) g) (option_map (again_pose rd) o))) as (ko & Eo & Fo).
    { intros x ->. destruct (pose_again x) as (a & E1 & E2). exists "origin"%string, a, []. split; [exact E1 | ]. cbn -[parse_pose]. rewrite E2. reflexivity. }
    { intros ->. reflexivity. }
    rewrite Eg, Eo. eexists. split; [reflexivity | ]. rewrite xchildren_app, foldM_app, Fg. cbn [rbind]. exact Fo.
  Qed.
  Lemma material_again m : plain_material m -> exists a k, material_xml pf m = Ok (XElem "material" a k) /\ parse_material num a k = Ok (again_material rd m).
  Proof.
    destruct m as [n c t]. intros H. unfold plain_material in H. cbn [m_name] in H. unfold material_xml. cbn [m_name m_color m_texture]. rewrite (set_text_plain _ _ _ H). destruct c as [(((r, g), b), al) | ]; cbn [add_kid color_xml rbind]; eexists; eexists; (split; [reflexivity | ]); unfold parse_material, again_material; cbn [m_name m_color m_texture option_map];
    destruct n as [n | ], t as [t | ]; cbn -[parse_color join map]; try reflexivity; unfold parse_color, xget; cbn -[floats join map]; rewrite (floats_pf [r; g; b; al]); reflexivity.
  Qed.
  Lemma visual_again v : opt_all plain_geom (v_geometry v) /\ opt_all plain_material (v_material v) -> exists k, visual_xml pf v = Ok (XElem "visual" [] k) /\ parse_visual num k = Ok (again_visual rd v).
  Proof.
    intros (H & Hm). destruct v as [g m o]. cbn [v_geometry v_material] in H, Hm. unfold visual_xml, again_visual, parse_visual. cbn [v_geometry v_origin v_material].
    destruct (kid_fold (geometry_xml pf) (visual_step num) g (XVisual None None None) (XVisual (option_map (again_geom rd) g) None None)) as (kg & Eg & Fg).
    { intros x ->. destruct (geometry_again x H) as (n & E1 & E2). exists "geometry"%string, [], [n]. split; [exact E1 | ]. cbn -[parse_geometry]. rewrite E2. reflexivity. }
    { intros ->. reflexivity. }
    destruct (kid_fold (pose_xml pf) (visual_step num) o (XVisual (option_map (again_geom rd) g) None None) (XVisual (option_map (again_geom rd) g) None (option_map (again_pose rd) o))) as (ko & Eo & Fo).
    { intros x ->. destruct (pose_again x) as (a & E1 & E2). exists "origin"%string, a, []. split; [exact E1 | ]. cbn -[parse_pose]. rewrite E2. reflexivity. }
    { intros ->. reflexivity. }
    destruct (kid_fold (material_xml pf) (visual_step num) m (XVisual (option_map (again_geom rd) g) None (option_map (again_pose rd) o)) (XVisual (option_map (again_geom rd) g) (option_map (again_material rd) m) (option_map (again_pose rd) o))) as (km & Em & Fm).
    { intros x ->. destruct (material_again x Hm) as (a & k & E1 & E2). exists "material"%string, a, k. split; [exact E1 | ]. cbn -[parse_material]. rewrite E2. reflexivity. }
    { intros ->. reflexivity. }
    rewrite Eg, Eo, Em. eexists. split; [reflexivity | ]. rewrite !xchildren_app, foldM_app, Fg. cbn [rbind]. rewrite foldM_app, Fo. cbn [rbind]. exact Fm.
  Qed.
  Lemma inertial_again i : exists k, inertial_xml pf i = Ok (XElem "inertial" [] k) /\ parse_inertial num k = Ok (again_inertial rd i).
  Proof.
    destruct i as [xx xy xz yy yz zz m o]. unfold inertial_xml. cbn [i_xx i_xy i_xz i_yy i_yz i_zz i_mass i_origin].
    destruct (kid_fold (pose_xml pf) (inertial_step num) o (XInertial (rd xx) (rd xy) (rd xz) (rd yy) (rd yz) (rd zz) (rd m) None) (again_inertial rd (XInertial xx xy xz yy yz zz m o))) as (ko & Eo & Fo).
    { intros x ->. destruct (pose_again x) as (a & E1 & E2). exists "origin"%string, a, []. split; [exact E1 | ]. cbn -[parse_pose]. rewrite E2. reflexivity. }
    { intros ->. reflexivity. }
    rewrite Eo. eexists. split; [reflexivity | ]. unfold parse_inertial, xget. cbn -[float xchildren foldM]. cbn [xchildren filter]. fold (xchildren ko). cbn [foldM]. unfold inertial_step at 1, xget. cbn -[float xchildren foldM]. rewrite float_pf. cbn -[float xchildren foldM]. unfold xget. cbn -[float xchildren foldM]. rewrite !float_pf. exact Fo.
  Qed.
  Lemma link_again l : plain_link l -> exists a k, link_xml pf l = Ok (XElem "link" a k) /\ parse_link num a k = Ok (again_link rd l).
  Proof.
    intros (Hv & Hc). destruct l as [n v i c]. cbn [l_visual l_collision] in *. unfold link_xml. cbn [l_name l_visual l_inertial l_collision].
    destruct (kid_fold (visual_xml pf) (link_reads num) v (XLink n None None None) (XLink n (option_map (again_visual rd) v) None None)) as (kv & Ev & Fv).
    { intros x ->. destruct (visual_again x Hv) as (k & E1 & E2). exists "visual"%string, [], k. split; [exact E1 | ]. cbn -[parse_visual]. rewrite E2. reflexivity. }
    { intros ->. reflexivity. }
    destruct (kid_fold (collision_xml pf) (link_reads num) c (XLink n (option_map (again_visual rd) v) None None) (XLink n (option_map (again_visual rd) v) None (option_map (again_collision rd) c))) as (kc & Ec & Fc).
    { intros x ->. destruct (collision_again x Hc) as (k & E1 & E2). exists "collision"%string, [], k. split; [exact E1 | ]. cbn -[parse_collision]. rewrite E2. reflexivity. }
    { intros ->. reflexivity. }
    destruct (kid_fold (inertial_xml pf) (link_reads num) i (XLink n (option_map (again_visual rd) v) None (option_map (again_collision rd) c)) (again_link rd (XLink n v i c))) as (ki & Ei & Fi).
    { intros x ->. destruct (inertial_again x) as (k & E1 & E2). exists "inertial"%string, [], k. split; [exact E1 | ]. cbn -[parse_inertial]. rewrite E2. reflexivity. }
    { intros ->. reflexivity. }
    rewrite Ev, Ec, Ei. do 2 eexists. split; [reflexivity | ]. unfold parse_link. rewrite !xchildren_app, foldM_app. change (xget "name" [("name"%string, n)]) with n. rewrite Fv. cbn [rbind]. rewrite foldM_app, Fc. cbn [rbind]. exact Fi.
  Qed.
  Lemma limit_again x : exists a, limit_xml pf x = Ok (XElem "limit" a []) /\ parse_limit num a = Ok (again_limit rd x).
  Proof. destruct x as [e v [l | ] [u | ]]; eexists; (split; [reflexivity | ]); unfold parse_limit, optfloat, xget, again_limit; go. Qed.
  Lemma safety_again x : exists a, safety_xml pf x = Ok (XElem "safety_controller" a []) /\ parse_safety num a = Ok (again_safety rd x).
  Proof. destruct x as [v [p | ] [l | ] [u | ]]; eexists; (split; [reflexivity | ]); unfold parse_safety, optfloat, xget, again_safety; go. Qed.
  Lemma calib_again x : exists a, calib_xml pf x = Ok (XElem "calibration" a []) /\ parse_calib num a = Ok (again_calib rd x).
  Proof. destruct x as [[r | ] [f | ]]; eexists; (split; [reflexivity | ]); unfold parse_calib, optfloat, again_calib; go. Qed.
  Lemma dynamics_again d : opt_all plain_text (d_damping d) /\ opt_all plain_text (d_friction d) -> exists a, dynamics_xml d = Ok (XElem "dynamics" a []) /\ parse_dynamics a = d.
  Proof.
    intros (H1 & H2). destruct d as [d f]. unfold dynamics_xml. cbn [d_damping d_friction] in *. rewrite (set_text_plain _ _ _ H1). cbn [rbind]. rewrite (set_text_plain _ _ _ H2). eexists. split; [reflexivity | ]. destruct d, f; reflexivity.
  Qed.
  Lemma joint_again j : plain_joint j -> exists a k, joint_xml pf j = Ok (XElem "joint" a k) /\ parse_joint num a k = Ok (again_joint rd j).
  Proof.
    destruct j as [n p c t ax og li dy sa ca mi]. intros (H1 & H2 & H3 & H4 & H5 & H6). cbn [j_name j_type j_parent j_child j_axis j_dynamics] in *. unfold joint_xml. cbn [j_name j_parent j_child j_type j_axis j_origin j_limits j_dynamics j_safety j_calibration j_mimic].
    rewrite (set_text_plain "name" (Some n) [] H1). cbn [rbind]. rewrite (set_text_plain "type" (Some t) _ H2). cbn [rbind]. unfold short. rewrite (set_text_plain _ _ _ H3), (set_text_plain _ _ _ H4). cbn [rbind].
    set (J o a l d s k := XJoint n (Some (text_of p)) (Some (text_of c)) t a o l d s k None).
    destruct (kid_fold (pose_xml pf) (joint_reads num) og (J None None None None None None) (J (option_map (again_pose rd) og) None None None None None)) as (ko & Eo & Fo).
    { intros x ->. destruct (pose_again x) as (a & E1 & E2). exists "origin"%string, a, []. split; [exact E1 | ]. unfold J. cbn -[parse_pose]. rewrite E2. reflexivity. }
    { intros ->. reflexivity. }
    assert (X : exists ka, match ax with None => Ok [] | Some _ => let* x := (let* a := set_text "xyz" ax [] in Ok (XElem "axis" a [])) in Ok [x] end = Ok ka /\
       foldM (joint_reads num) (xchildren ka) (J (option_map (again_pose rd) og) None None None None None) = Ok (J (option_map (again_pose rd) og) ax None None None None)).
    { destruct ax as [s | ]; [ | exists []; split; reflexivity]. rewrite (set_text_plain _ (Some s) _ H5). eexists. split; reflexivity. }
    destruct X as (ka & Ea & Fa).
    destruct (kid_fold (limit_xml pf) (joint_reads num) li (J (option_map (again_pose rd) og) ax None None None None) (J (option_map (again_pose rd) og) ax (option_map (again_limit rd) li) None None None)) as (kl & El & Fl).
    { intros x ->. destruct (limit_again x) as (a & E1 & E2). exists "limit"%string, a, []. split; [exact E1 | ]. unfold J. cbn -[parse_limit]. rewrite E2. reflexivity. }
    { intros ->. reflexivity. }
    destruct (kid_fold dynamics_xml (joint_reads num) dy (J (option_map (again_pose rd) og) ax (option_map (again_limit rd) li) None None None) (J (option_map (again_pose rd) og) ax (option_map (again_limit rd) li) dy None None)) as (kd & Ed & Fd).
    { intros x ->. destruct (dynamics_again x H6) as (a & E1 & E2). exists "dynamics"%string, a, []. split; [exact E1 | ]. unfold J. cbn -[parse_dynamics]. rewrite E2. reflexivity. }
    { intros ->. reflexivity. }
    destruct (kid_fold (safety_xml pf) (joint_reads num) sa (J (option_map (again_pose rd) og) ax (option_map (again_limit rd) li) dy None None) (J (option_map (again_pose rd) og) ax (option_map (again_limit rd) li) dy (option_map (again_safety rd) sa) None)) as (ks & Es & Fs).
    { intros x ->. destruct (safety_again x) as (a & E1 & E2). exists "safety_controller"%string, a, []. split; [exact E1 | ]. unfold J. cbn -[parse_safety]. rewrite E2. reflexivity. }
    { intros ->. reflexivity. }
    destruct (kid_fold (calib_xml pf) (joint_reads num) ca (J (option_map (again_pose rd) og) ax (option_map (again_limit rd) li) dy (option_map (again_safety rd) sa) None) (J (option_map (again_pose rd) og) ax (option_map (again_limit rd) li) dy (option_map (again_safety rd) sa) (option_map (again_calib rd) ca))) as (kc & Ec & Fc).
    { intros x ->. destruct (calib_again x) as (a & E1 & E2). exists "calibration"%string, a, []. split; [exact E1 | ]. unfold J. cbn -[parse_calib]. rewrite E2. reflexivity. }
    { intros ->. reflexivity. }
    rewrite Eo. cbn [rbind]. rewrite Ea. cbn [rbind]. rewrite El, Ed, Es, Ec. do 2 eexists. split; [reflexivity | ]. unfold parse_joint.
    change (XElem "parent" (match p with None => [] | Some s => [] ++ [("link"%string, s)] end) [] :: XElem "child" (match c with None => [] | Some s => [] ++ [("link"%string, s)] end) [] :: ko ++ ka ++ kl ++ kd ++ ks ++ kc)
      with ([XElem "parent" (match p with None => [] | Some s => [] ++ [("link"%string, s)] end) []; XElem "child" (match c with None => [] | Some s => [] ++ [("link"%string, s)] end) []] ++ ko ++ ka ++ kl ++ kd ++ ks ++ kc).
    rewrite !xchildren_app, foldM_app.
    assert (F0 : foldM (joint_reads num) (xchildren [XElem "parent" (match p with None => [] | Some s => [] ++ [("link"%string, s)] end) []; XElem "child" (match c with None => [] | Some s => [] ++ [("link"%string, s)] end) []])
       (XJoint (xget "name" (([] ++ [("name"%string, n)]) ++ [("type"%string, t)])) None None (xget "type" (([] ++ [("name"%string, n)]) ++ [("type"%string, t)])) None None None None None None None) = Ok (J None None None None None None)).
    { destruct p, c; reflexivity. }
    rewrite F0. cbn [rbind]. rewrite foldM_app, Fo. cbn [rbind]. rewrite foldM_app, Fa. cbn [rbind]. rewrite foldM_app, Fl. cbn [rbind]. rewrite foldM_app, Fd. cbn [rbind]. rewrite foldM_app, Fs. cbn [rbind]. rewrite Fc. reflexivity.
  Qed.
  Lemma elements_again es : Forall plain es -> exists ks, mapM (element_xml pf) es = Ok ks /\ forall u, foldM (robot_reads num) (xchildren ks) u = Ok (fold_left (fun u x => add_xelement x u) (map (again rd) es) u).
  Proof.
    induction 1 as [ | x es Hx _ (ks & E & F)]; [exists []; split; reflexivity | ]. cbn [mapM]. rewrite E.
    assert (X : exists m a k, element_xml pf x = Ok (XElem m a k) /\ forall u, robot_reads num u (XElem m a k) = Ok (add_xelement (again rd x) u)).
    { destruct x as [l | j | m]; cbn [element_xml].
      - destruct (link_again l Hx) as (a & k & E1 & E2). exists "link"%string, a, k. split; [exact E1 | ]. intros u. cbn -[parse_link]. rewrite E2. reflexivity.
      - destruct (joint_again j Hx) as (a & k & E1 & E2). exists "joint"%string, a, k. split; [exact E1 | ]. intros u. cbn -[parse_joint]. rewrite E2. reflexivity.
      - destruct (material_again m Hx) as (a & k & E1 & E2). exists "material"%string, a, k. split; [exact E1 | ]. intros u. cbn -[parse_material]. rewrite E2. reflexivity. }
    destruct X as (m & a & k & E1 & E2). rewrite E1. eexists. split; [reflexivity | ]. intros u. cbn [xchildren filter]. fold (xchildren ks). cbn [foldM]. rewrite E2. cbn [rbind map fold_left]. apply F.
  Qed.
End P.
(** Writing a robot whose texts are ASCII (numbers being printed as words that can be read) always succeeds, and what is read from the
    document, whatever texts and comments are put between its elements, is the same robot: same name, same elements in the same order,
    each number as it was printed. *)
Theorem C95_again : forall num pf rd u, printing num pf rd -> Forall plain (u_elements u) ->
  exists x, to_document pf u = Ok x /\ forall d, elements d = elements [x] -> exists u', parse_document num d = Ok u' /\ u_name u' = u_name u /\ u_elements u' = map (again rd) (u_elements u).
Proof.
  intros num pf rd u Pr Pl. unfold to_document. destruct (elements_again num pf rd Pr _ Pl) as (ks & E & F). rewrite E. eexists. split; [reflexivity | ]. intros d Hd.
  exists (build (u_name u) (map (again rd) (u_elements u))). split; [ | apply build_fields]. rewrite (C94_texts num _ _ Hd). unfold parse_document. cbn [xchildren filter]. rewrite F. reflexivity.
Qed.
Print Assumptions C95_again.
Lemma made_build u : made u -> u = build (u_name u) (u_elements u).
Proof.
  induction 1 as [ | u x _ IH]; [reflexivity | ]. assert (E : u_name (add_xelement x u) = u_name u /\ u_elements (add_xelement x u) = u_elements u ++ [x]) by (destruct x, u; split; reflexivity). destruct E as (-> & ->). rewrite build_app. congruence.
Qed.
Lemma build_made n es : made (build n es).
Proof. induction es as [ | x es IH] using rev_ind; [constructor | rewrite build_app; now constructor]. Qed.
Lemma again_same (rd : R -> R) x : (forall r, In r (numbers_of x) -> rd r = r) -> full x -> again rd x = x.
Proof.
  assert (Hl : forall l, (forall r, In r l -> rd r = r) -> map rd l = l) by (induction l as [ | y l IH]; intros H; cbn; [reflexivity | rewrite (H y (or_introl eq_refl)), IH; [reflexivity | intros r Hr; apply H; now right]]).
  assert (Hol : forall o, (forall r, In r (olist o) -> rd r = r) -> option_map (map rd) o = o) by (intros [l | ] H; cbn; [now rewrite Hl | reflexivity]).
  assert (Hon : forall o, (forall r, In r (onum o) -> rd r = r) -> option_map rd o = o) by (intros [y | ] H; cbn; [rewrite H; [reflexivity | now left] | reflexivity]).
  assert (Hp : forall p, (forall r, In r (pose_numbers p) -> rd r = r) -> option_map (again_pose rd) p = p).
  { intros [[p q] | ] H; [ | reflexivity]. cbn in *. unfold again_pose. cbn. rewrite !Hol; [reflexivity | intros; apply H; apply in_or_app; auto .. ]. }
  assert (Hg : forall g, opt_all full_geom g -> (forall r, In r (geom_numbers g) -> rd r = r) -> option_map (again_geom rd) g = g).
  { intros [[[((a, b), c) | ] | a b | a | f s] | ] F H; cbn in *; try reflexivity; try (rewrite !H; [reflexivity | tauto ..]). destruct F as (H1 & H2). destruct f as [f | ]; [ | now elim H1]. destruct s as [[ | y s] | ]; [now elim H2 | | reflexivity]. cbn [option_map text_of olist] in *. now rewrite Hl. }
  assert (Hm : forall m, (forall r, In r (material_numbers m) -> rd r = r) -> option_map (again_material rd) m = m).
  { intros [[n [(((a, b), c), d) | ] t] | ] H; cbn in *; unfold again_material; cbn; try reflexivity. rewrite !H; [reflexivity | tauto ..]. }
  destruct x as [l | j | m]; cbn [full again numbers_of]; intros Hr H.
  - destruct l as [n v i c], H as (Hv & Hc). cbn [l_visual l_collision l_inertial] in *. unfold again_link. cbn [l_name l_visual l_inertial l_collision].
    assert (Ev : option_map (again_visual rd) v = v). { destruct v as [[g m o] | ]; [ | reflexivity]. cbn in *. unfold again_visual. cbn. rewrite Hg, Hm, Hp; [reflexivity | intros; apply Hr; rewrite !in_app_iff; auto .. | exact Hv | intros; apply Hr; rewrite !in_app_iff; auto]. }
    assert (Ec : option_map (again_collision rd) c = c). { destruct c as [[g o] | ]; [ | reflexivity]. cbn in *. unfold again_collision. cbn. rewrite Hg, Hp; [reflexivity | intros; apply Hr; rewrite !in_app_iff; auto 10 .. | exact Hc | intros; apply Hr; rewrite !in_app_iff; auto]. }
    assert (Ei : option_map (again_inertial rd) i = i). { destruct i as [[xx xy xz yy yz zz m o] | ]; [ | reflexivity]. cbn in *. unfold again_inertial. cbn. rewrite Hp; [ | intros; apply Hr; rewrite !in_app_iff; cbn; auto 15]. rewrite !Hr; [reflexivity | rewrite !in_app_iff; cbn; auto 15 ..]. }
    rewrite Ev, Ec, Ei. reflexivity.
  - destruct j as [n p c t ax og li dy sa ca mi], H as (H1 & H2 & H3). cbn in *. subst mi. unfold again_joint. cbn. destruct p as [p | ]; [ | now elim H1]. destruct c as [c | ]; [ | now elim H2]. cbn [text_of].
    rewrite Hp by (intros; apply Hr; rewrite !in_app_iff; auto).
    assert (El : option_map (again_limit rd) li = li). { destruct li as [[e v lo up] | ]; [ | reflexivity]. cbn in *. unfold again_limit. cbn. rewrite !Hon; [ | intros; apply Hr; rewrite !in_app_iff; cbn; rewrite !in_app_iff; auto 15 ..]. rewrite !Hr; [reflexivity | rewrite !in_app_iff; cbn; auto 15 ..]. }
    assert (Es : option_map (again_safety rd) sa = sa). { destruct sa as [[v po lo up] | ]; [ | reflexivity]. cbn in *. unfold again_safety. cbn. rewrite !Hon; [ | intros; apply Hr; rewrite !in_app_iff; cbn; rewrite !in_app_iff; auto 15 ..]. rewrite !Hr; [reflexivity | rewrite !in_app_iff; cbn; auto 15 ..]. }
    assert (Ec : option_map (again_calib rd) ca = ca). { destruct ca as [[r f] | ]; [ | reflexivity]. cbn in *. unfold again_calib. cbn. rewrite !Hon; [reflexivity | intros; apply Hr; rewrite !in_app_iff; auto 15 ..]. }
    rewrite El, Es, Ec. reflexivity.
  - assert (E := Hm (Some m) Hr). cbn in E. injection E as ->. reflexivity.
Qed.
(** A robot with ASCII texts made of links, joints with a parent, a child and no mimic, and materials, whose numbers are printed exactly, is
    read again exactly as it was, dictionaries included. *)
Theorem C95_same : forall num pf rd u, printing num pf rd -> (forall x r, In x (u_elements u) -> In r (numbers_of x) -> rd r = r) ->
  made u -> Forall plain (u_elements u) -> Forall full (u_elements u) ->
  exists x, to_document pf u = Ok x /\ forall d, elements d = elements [x] -> parse_document num d = Ok u.
Proof.
  intros num pf rd u Pr Ex Md Pl Fu. unfold to_document. destruct (elements_again num pf _ Pr _ Pl) as (ks & E & F). rewrite E. eexists. split; [reflexivity | ]. intros d Hd.
  rewrite (C94_texts num _ _ Hd). unfold parse_document. cbn [xchildren filter]. rewrite F. f_equal. rewrite (made_build u Md) at 3. unfold build. change (xget "name" [("name"%string, u_name u)]) with (u_name u).
  replace (map (again rd) (u_elements u)) with (u_elements u); [reflexivity | ]. clear - Fu Ex. induction Fu as [ | x es Hx _ IH]; [reflexivity | ]. cbn [map]. rewrite <- IH; [ | intros y r Hy; apply Ex; now right]. f_equal. symmetry. apply again_same; [ | exact Hx]. intros r. apply Ex. now left.
Qed.
Print Assumptions C95_same.
(** A document that is read gives a robot made this way. *)
Theorem C95_read : forall num d u, parse_document num d = Ok u -> made u.
Proof. intros num d u E. apply parse_build in E. destruct E as (m & a & k & es & _ & -> & _). apply build_made. Qed.

(** What is lost: a joint that mimics another one does not after the robot is written and read again; a joint without a parent gets one
    with an empty name; *)
Theorem C95_mimic_refuted : forall num pf rd u j, printing num pf rd -> Forall plain (u_elements u) -> In (EJoint j) (u_elements u) -> j_mimic j <> None \/ j_parent j = None ->
  exists x u', to_document pf u = Ok x /\ parse_document num [x] = Ok u' /\ u_elements u' <> u_elements u /\ Forall (fun e => match e with EJoint j => j_mimic j = None /\ j_parent j <> None | _ => True end) (u_elements u').
Proof.
  intros num pf rd u j Pr Pl Hj H. destruct (C95_again num pf rd u Pr Pl) as (x & E & X). destruct (X [x] eq_refl) as (u' & E' & _ & Es). exists x, u'. split; [exact E | ]. split; [exact E' | ].
  assert (F : Forall (fun e => match e with EJoint j => j_mimic j = None /\ j_parent j <> None | _ => True end) (u_elements u')).
  { rewrite Es. apply Forall_forall. intros e He. apply in_map_iff in He. destruct He as (e0 & <- & _). destruct e0; cbn; auto. split; [reflexivity | discriminate]. }
  split; [ | exact F]. intros Q. rewrite Q in F. rewrite Forall_forall in F. destruct (F _ Hj) as (F1 & F2). destruct H; contradiction.
Qed.
Print Assumptions C95_mimic_refuted.
(** a robot with a joint whose name, type, parent, child or axis is not ASCII cannot be written (UnicodeEncodeError), although it was read. *)
Lemma writes_err {A} (r : res A) (f : A -> res xnode) : (forall e, r = Err e -> e = ValueError) -> (forall a e, f a = Err e -> e = ValueError) -> forall e, (let* a := r in f a) = Err e -> e = ValueError.
Proof. intros H1 H2 e. destruct r; cbn; [apply H2 | intros E; injection E as <-; now apply H1]. Qed.
Lemma set_text_err n v a e : set_text n v a = Err e -> e = ValueError.
Proof. destruct v as [s | ]; cbn; [destruct (is_ascii s) | ]; congruence. Qed.
Lemma add_kid_err {A} (f : A -> res xnode) o e : (forall x e, f x = Err e -> e = ValueError) -> add_kid f o = Err e -> e = ValueError.
Proof. intros H. destruct o as [x | ]; cbn; [ | discriminate]. destruct (f x) eqn:E; cbn; [discriminate | ]. intros Q. injection Q as <-. eauto. Qed.
Ltac we := repeat (apply writes_err; [ | intros ? ]); try (intros ? ; discriminate); try apply set_text_err.
Lemma geometry_err pf g e : geometry_xml pf g = Err e -> e = ValueError.
Proof. unfold geometry_xml. revert e. apply writes_err; [ | discriminate]. intros e. destruct g; try discriminate. revert e. apply writes_err; [apply set_text_err | discriminate]. Qed.
Lemma pose_err pf p e : pose_xml pf p = Err e -> e = ValueError.
Proof. discriminate. Qed.
Lemma bind_err {A B} (r : res A) (f : A -> res B) : (forall e, r = Err e -> e = ValueError) -> (forall a e, f a = Err e -> e = ValueError) -> forall e, (let* a := r in f a) = Err e -> e = ValueError.
Proof. intros H1 H2 e. destruct r; cbn; [apply H2 | intros E; injection E as <-; now apply H1]. Qed.
Lemma material_err pf m e : material_xml pf m = Err e -> e = ValueError.
Proof. unfold material_xml. revert e. apply bind_err; [apply set_text_err | ]. intros ?. apply bind_err; [ | discriminate]. intros e. apply add_kid_err. intros [[[? ?] ?] ?] ? E. discriminate E. Qed.
Lemma link_err pf l e : link_xml pf l = Err e -> e = ValueError.
Proof.
  unfold link_xml. revert e. apply bind_err; [intros e; apply add_kid_err; clear e | intros ?; apply bind_err; [intros e; apply add_kid_err; clear e | intros ?; apply bind_err; [intros e; apply add_kid_err; clear e | discriminate]]].
  - intros v. unfold visual_xml. apply bind_err; [intros e; apply add_kid_err, geometry_err | intros ?]. apply bind_err; [intros e; apply add_kid_err, pose_err | intros ?]. apply bind_err; [intros e; apply add_kid_err, material_err | discriminate].
  - intros c. unfold collision_xml. apply bind_err; [intros e; apply add_kid_err, geometry_err | intros ?]. apply bind_err; [intros e; apply add_kid_err, pose_err | discriminate].
  - intros i. unfold inertial_xml. apply bind_err; [intros e; apply add_kid_err, pose_err | discriminate].
Qed.
Lemma joint_err pf j e : joint_xml pf j = Err e -> e = ValueError.
Proof.
  unfold joint_xml, short. revert e. apply bind_err; [apply set_text_err | intros ?]. apply bind_err; [apply set_text_err | intros ?]. apply bind_err; [apply bind_err; [apply set_text_err | discriminate] | intros ?]. apply bind_err; [apply bind_err; [apply set_text_err | discriminate] | intros ?].
  apply bind_err; [intros e; apply add_kid_err, pose_err | intros ?]. apply bind_err; [destruct (j_axis j); [ | discriminate]; apply bind_err; [apply bind_err; [apply set_text_err | discriminate] | discriminate] | intros ?].
  apply bind_err; [intros e; apply add_kid_err; discriminate | intros ?]. apply bind_err; [intros e; apply add_kid_err; intros d; unfold dynamics_xml; apply bind_err; [apply set_text_err | intros ?; apply bind_err; [apply set_text_err | discriminate]] | intros ?].
  apply bind_err; [intros e; apply add_kid_err; discriminate | intros ?]. apply bind_err; [intros e; apply add_kid_err; discriminate | discriminate].
Qed.
Lemma set_text_not n s a : ~ plain_text s -> set_text n (Some s) a = Err ValueError.
Proof. intros H. cbn. destruct (is_ascii s) eqn:E; [apply is_ascii_iff in E; contradiction | reflexivity]. Qed.
Lemma set_text_ok m v a0 b0 : set_text m v a0 = Ok b0 -> opt_all plain_text v.
Proof. destruct v as [s | ]; cbn; [destruct (is_ascii s) eqn:Es; [intros _; now apply is_ascii_iff | discriminate] | auto]. Qed.
Theorem C95_ascii_refuted : forall pf u j, In (EJoint j) (u_elements u) ->
  ~ plain_text (j_name j) \/ ~ plain_text (j_type j) \/ ~ opt_all plain_text (j_parent j) \/ ~ opt_all plain_text (j_child j) \/ ~ opt_all plain_text (j_axis j) ->
  to_document pf u = Err ValueError.
Proof.
  intros pf u j Hj H. unfold to_document. assert (E : mapM (element_xml pf) (u_elements u) = Err ValueError); [ | now rewrite E].
  assert (Ej : forall n, joint_xml pf j <> Ok n).
  { intros n E. unfold joint_xml, short in E. repeat match type of E with (let* x := set_text ?m ?v ?a in _) = _ => let Q := fresh "Q" in destruct (set_text m v a) as [? | ] eqn:Q; cbn [rbind] in E; [ | discriminate E] end.
    destruct (set_text "link" (j_parent j) []) as [ | ] eqn:Q1; cbn [rbind] in E; [ | discriminate E]. destruct (set_text "link" (j_child j) []) as [ | ] eqn:Q2; cbn [rbind] in E; [ | discriminate E]. ok E. ok E.
    assert (Pa : opt_all plain_text (j_axis j)) by (destruct (j_axis j); [ | exact Logic.I]; destruct (set_text "xyz" (Some s) []) eqn:Q5; [apply set_text_ok in Q5; exact Q5 | discriminate]).
    repeat match goal with Q : set_text _ _ _ = Ok _ |- _ => apply set_text_ok in Q end. cbn in *. tauto. }
  induction (u_elements u) as [ | x es IH]; [destruct Hj | ]. cbn [mapM]. destruct Hj as [-> | Hj].
  - cbn [element_xml]. destruct (joint_xml pf j) as [n | e] eqn:E; [now elim (Ej n) | apply joint_err in E; now subst e].
  - rewrite (IH Hj). destruct (element_xml pf x) as [n | e] eqn:E; [reflexivity | ]. cbn. f_equal. destruct x; cbn in E; [now apply link_err in E | now apply joint_err in E | now apply material_err in E].
Qed.
Print Assumptions C95_ascii_refuted.

(** The robot of the C94 witness, printed with words for 0, 1, -1 and 2, is read again as it was. *)
Definition xm_pf (x : R) : string := if Req_EM_T x 0 then "0" else if Req_EM_T x 1 then "1" else if Req_EM_T x (-1) then "-1" else "2".
Definition xm_rd (x : R) : R := if Req_EM_T x 0 then 0 else if Req_EM_T x 1 then 1 else if Req_EM_T x (-1) then -1 else 2.
Lemma xm_printing : printing xm_num xm_pf xm_rd.
Proof.
  intros x. unfold xm_pf, xm_rd. repeat destruct Req_EM_T; (split; [split; [discriminate | ] | reflexivity]); cbn; unfold blank; cbn; intuition discriminate.
Qed.
Theorem C95_witness : printing xm_num xm_pf xm_rd /\ made xm_urdf /\ Forall plain (u_elements xm_urdf) /\ Forall full (u_elements xm_urdf) /\
  (forall x r, In x (u_elements xm_urdf) -> In r (numbers_of x) -> xm_rd r = r) /\
  exists x, to_document xm_pf xm_urdf = Ok x /\ parse_document xm_num [XText; x; XText] = Ok xm_urdf.
Proof.
  assert (Md : made xm_urdf) by apply build_made.
  assert (Pt : forall s, is_ascii s = true -> plain_text s) by (intros s; apply is_ascii_iff).
  assert (Pl : Forall plain (u_elements xm_urdf)). { change (u_elements xm_urdf) with (u_elements xm_urdf). unfold xm_urdf. rewrite (proj2 (build_fields _ _)). repeat constructor; cbn; try discriminate; try exact Logic.I; try (apply Pt; reflexivity); repeat split; try (apply Pt; reflexivity); try discriminate; lia. }
  assert (Fu : Forall full (u_elements xm_urdf)) by (unfold xm_urdf; rewrite (proj2 (build_fields _ _)); repeat constructor; cbn; discriminate).
  assert (Ex : forall x r, In x (u_elements xm_urdf) -> In r (numbers_of x) -> xm_rd r = r).
  { unfold xm_urdf. rewrite (proj2 (build_fields _ _)). intros x r Hx Hr. cbn [In] in Hx. repeat (destruct Hx as [<- | Hx]; [cbn in Hr; repeat (destruct Hr as [<- | Hr]; [unfold xm_rd; repeat destruct Req_EM_T; lra | ]); destruct Hr | ]). destruct Hx. }
  split; [exact xm_printing | ]. split; [exact Md | ]. split; [exact Pl | ]. split; [exact Fu | ]. split; [exact Ex | ].
  destruct (C95_same xm_num xm_pf xm_rd xm_urdf xm_printing Ex Md Pl Fu) as (x & E & H). exists x. split; [exact E | ]. apply H. unfold elements. cbn. now rewrite app_nil_r.
Qed.
Print Assumptions C95_witness.
