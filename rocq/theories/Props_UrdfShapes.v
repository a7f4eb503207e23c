(** C96, C97: the shapes and the limits of an URDF robot. *)
From Verif Require Export Spec_UrdfShapes Proof_Linalg Proof_Coll Proof_Dae Proof_Urdf Props_UrdfXml4 Props_Urdf3.
Open Scope R_scope.

Lemma sapp a b c : ((a ++ b) ++ c)%string = (a ++ b ++ c)%string.
Proof. induction a; cbn; congruence. Qed.
Definition whole (o : option xpose) : Prop := match o with None => True | Some p => (exists x y z, p_position p = Some [x; y; z]) /\ (exists a b c, p_rotation p = Some [a; b; c]) end.
Lemma pose_three o : whole o -> exists H, to_pose (option_map pose_of o) = Ok H /\ origin_says o H /\ SE3 H.
Proof.
  intros W. destruct (to_pose_ok (option_map pose_of o)) as (E & S).
  - destruct o as [[p r] | ]; [ | exact Logic.I]. destruct W as ((x & y & z & E1) & (a & b & c & E2)). cbn in *. subst p r. split; discriminate.
  - eexists. split; [exact E | ]. split; [ | exact S]. destruct o as [[p r] | ]; [ | reflexivity]. destruct W as ((x & y & z & E1) & (a & b & c & E2)). cbn in E1, E2. subst p r. exists x, y, z, a, b, c. auto.
Qed.
Lemma pose_not o : ~ whole o -> to_pose (option_map pose_of o) = Err TypeError.
Proof.
  intros W. destruct o as [[p r] | ]; [ | now elim W]. cbn in *. destruct (three p) as [v | ] eqn:E1; [ | reflexivity]. destruct (three r) as [w | ] eqn:E2; [ | reflexivity]. elim W.
  destruct p as [[ | x [ | y [ | z [ | ]]]] | ]; try discriminate E1. destruct r as [[ | x' [ | y' [ | z' [ | ]]]] | ]; try discriminate E2. split; eauto 10.
Qed.
Lemma origin_SE3 o H : origin_says o H -> SE3 H.
Proof.
  intros Hs. assert (W : whole o). { destruct o as [p | ]; [ | exact Logic.I]. destruct Hs as (x & y & z & a & b & c & E1 & E2 & _). split; eauto. }
  destruct (pose_three o W) as (H' & _ & Hs' & Se). destruct o as [p | ]; cbn in Hs, Hs'; [ | congruence]. destruct Hs as (x & y & z & a & b & c & E1 & E2 & E3), Hs' as (x' & y' & z' & a' & b' & c' & E1' & E2' & E3'). rewrite E1 in E1'. rewrite E2 in E2'. injection E1' as <- <- <-. injection E2' as <- <- <-. congruence.
Qed.
Section S.
  Variables (load : string -> res urdf) (dirname : string -> string) (simple : string).
  Lemma item_ok c dir n g o : shape_ok (g, o) -> exists i, item_of simple c (dir ++ "/") n g o = Ok i /\ item_says c dir simple (n, (g, o)) i.
  Proof.
    intros (G & O). cbn [fst snd] in *. destruct (pose_three o O) as (H & E & Os & _). unfold item_of.
    destruct g as [[[((x, y), z) | ] | r l | r | [f | ] [s | ]] | ]; cbn in G; try (destruct G as (G1 & G2); congruence); try (exfalso; exact G); try congruence; cbn [shape_of rbind]; rewrite E; cbn [rbind]; eexists; (split; [reflexivity | ]); (split; [reflexivity | ]); (split; [ | exact Os]); cbn; repeat split; try apply sapp.
  Qed.
  Lemma item_bad c dir n g o : (g = None \/ (exists f l, g = Some (XMesh f (Some l))) \/ (exists s, g = Some (XMesh None s)) \/ ~ whole o) -> exists e, item_of simple c dir n g o = Err e.
  Proof.
    unfold item_of. intros [-> | [(f & l & ->) | [(s & ->) | W]]].
    - cbn [shape_of rbind]. destruct (to_pose _); eexists; reflexivity.
    - eexists; reflexivity.
    - destruct s; [eexists; reflexivity | ]. cbn [shape_of rbind]. destruct (to_pose _); eexists; reflexivity.
    - rewrite (pose_not o W). destruct (shape_of simple g); eexists; reflexivity.
  Qed.
  Definition parts (part : xlink -> option (option xgeom * option xpose)) (l : list (string * xlink)) : list (string * (option xgeom * option xpose)) :=
    flat_map (fun x => match part (snd x) with Some p => [(fst x, p)] | None => [] end) l.
  Lemma items_ok c dir part l : Forall (fun x => shape_ok (snd x)) (parts part l) -> exists is, items_loop simple c (dir ++ "/") part l = Ok is /\ Forall2 (item_says c dir simple) (parts part l) is.
  Proof.
    induction l as [ | (n, x) l IH]; [intros _; exists []; split; [reflexivity | constructor] | ]. unfold parts. cbn [flat_map fst snd items_loop]. fold (parts part l). destruct (part x) as [(g, o) | ]; [ | exact IH].
    intros F. apply Forall_cons_iff in F. destruct F as (F1 & F2). destruct (item_ok c dir n g o F1) as (i & E & Sy). destruct (IH F2) as (is & E2 & F). rewrite E. cbn [rbind]. rewrite E2. exists (i :: is). split; [reflexivity | constructor; assumption].
  Qed.
  Lemma items_bad c dir part l x : In x (parts part l) -> (fst (snd x) = None \/ (exists f s, fst (snd x) = Some (XMesh f (Some s))) \/ (exists s, fst (snd x) = Some (XMesh None s)) \/ ~ whole (snd (snd x))) -> exists e, items_loop simple c dir part l = Err e.
  Proof.
    intros Hx B. induction l as [ | (n, y) l IH]; [destruct Hx | ]. unfold parts in Hx. cbn [flat_map fst snd] in Hx. fold (parts part l) in Hx. cbn [items_loop]. destruct (part y) as [(g, o) | ]; [ | exact (IH Hx)].
    destruct Hx as [<- | Hx]; [destruct (item_bad c dir n g o B) as (e & E); rewrite E; eexists; reflexivity | ]. destruct (IH Hx) as (e & E). rewrite E. destruct (item_of simple c dir n g o); eexists; reflexivity.
  Qed.
End S.
Lemma parts_visual u : parts visual_part (u_links u) = visuals u.
Proof. unfold parts, visuals, visual_part. apply flat_map_ext. intros (n, [m [v | ] i c]); reflexivity. Qed.
Lemma parts_collision u : parts collision_part (u_links u) = collisions u.
Proof. unfold parts, collisions, collision_part. apply flat_map_ext. intros (n, [m v i [c | ]]); reflexivity. Qed.
(** get_visual_shapes and get_collision_shapes, on a converter made with a file: one item per link with a visual (a collision), in the
    frame of the link (its name with the prefix and the suffix), at the origin of the element, with the mesh and the scale of its geometry. *)
Theorem C96_shapes : forall load dirname simple f prefix suffix u c, load f = Ok u -> new_converter load (Some f) prefix suffix = Ok c ->
  (Forall (fun x => shape_ok (snd x)) (visuals u) -> exists is, get_visual_shapes dirname simple c = Ok is /\ Forall2 (item_says (Conv (Some f) (Some u) prefix suffix) (dirname f) simple) (visuals u) is) /\
  (Forall (fun x => shape_ok (snd x)) (collisions u) -> exists is, get_collision_shapes dirname simple c = Ok is /\ Forall2 (item_says (Conv (Some f) (Some u) prefix suffix) (dirname f) simple) (collisions u) is).
Proof.
  intros load dirname simple f prefix suffix u c L E. unfold new_converter, parseURDF in E. cbn in E. rewrite L in E. cbn in E. injection E as <-. rewrite <- parts_visual, <- parts_collision. split; intros F; apply (items_ok simple _ _ _ _ F).
Qed.
Print Assumptions C96_shapes.
(** What is drawn of a sphere or a cylinder when the item is added to the node of its link, lying at [P]: the solid of the file. *)
Lemma covers_mat P H s g x : covers P (DN None [TMat H; TScale s] g None None) x <-> covers (mm4 P H) (DN None [TScale s] g None None) x.
Proof. unfold covers. cbn [dn_mesh dn_tfs tfs_mat fold_right tf_mat]. rewrite mm4_assoc. reflexivity. Qed.
Lemma mesh_inj simple a b : (simple ++ a)%string = (simple ++ b)%string -> a = b.
Proof. induction simple; cbn; [auto | intros E; injection E; auto]. Qed.
Theorem C96_drawn : forall c dir simple n g o i m N P, item_says c dir simple (n, (Some g, o)) i -> mesh_named simple (vi_mesh i) m -> item_node m i = Some N -> SE3 P ->
  (exists r, g = XSphere r /\ 0 <= r) \/ (exists r l, g = XCylinder r l /\ 0 <= r /\ 0 <= l) -> forall x, covers P N x <-> solid_of g (mm4 P (vi_transform i)) x.
Proof.
  intros c dir simple n g o i m N P (_ & M & Os) Mn In_ SP Hg x. assert (SH := origin_SE3 _ _ Os). cbn [fst snd] in *. unfold item_node in In_.
  destruct Hg as [(r & -> & Hr) | (r & l & -> & Hr & Hl)]; cbn in M; destruct M as (_ & M1 & M2); rewrite M2 in In_; cbn in In_; injection In_ as <-; rewrite M1 in Mn; rewrite covers_mat.
  - assert (m = MSphere) by (destruct Mn as [(E & ->) | [(E & ->) | (E & ->)]]; try reflexivity; apply mesh_inj in E; discriminate E). subst m. apply sphere_covers; auto. now apply SE3_mm4.
  - assert (m = MCylinder) by (destruct Mn as [(E & ->) | [(E & ->) | (E & ->)]]; try reflexivity; apply mesh_inj in E; discriminate E). subst m. apply cylinder_covers; auto.
Qed.
Print Assumptions C96_drawn.
(** A box is drawn twice as large as it is (the cube of simple_shapes.dae has half side 1, and the scale is the full sides): its corner of
    coordinates the full sides is covered, and is not a point of the box. *)
Theorem C96_box_refuted : forall c dir simple n a b d o i N P, item_says c dir simple (n, (Some (XBox (Some (a, b, d))), o)) i -> item_node MBox i = Some N -> SE3 P -> 0 < a -> 0 < b -> 0 < d ->
  (forall x, covers P N x <-> in_box (mm4 P (vi_transform i)) (V3 a b d) x) /\
  covers P N (ground_of (mm4 P (vi_transform i)) (V3 a b d)) /\ ~ solid_of (XBox (Some (a, b, d))) (mm4 P (vi_transform i)) (ground_of (mm4 P (vi_transform i)) (V3 a b d)).
Proof.
  intros c dir simple n a b d o i N P (_ & M & Os) In_ SP A B D. assert (SH := origin_SE3 _ _ Os). cbn [fst snd] in *. cbn in M. destruct M as (_ & _ & M2). unfold item_node in In_. rewrite M2 in In_. cbn in In_. injection In_ as <-.
  assert (X : forall x, covers P (DN None [TMat (vi_transform i); TScale (V3 a b d)] MBox None None) x <-> in_box (mm4 P (vi_transform i)) (V3 a b d) x) by (intros x; rewrite covers_mat; apply box_covers; cbn; auto; lra).
  split; [exact X | ]. split; [apply X; exists (V3 a b d); cbn; rewrite !Rabs_pos_eq by lra; repeat split; lra | ].
  intros (u & E & Ux & _). cbn in Ux. assert (S := SE3_mm4 _ _ SP SH). assert (u = V3 a b d). { symmetry. revert E. apply ground_inj. exact S. } subst u. cbn in Ux. rewrite Rabs_pos_eq in Ux by lra. lra.
Qed.
Print Assumptions C96_box_refuted.
(** One link with a visual whose geometry is unknown or absent, or a mesh with a scale, or whose origin gives only a position, and nothing is obtained for the whole robot. *)
Theorem C96_optional_refuted : forall load dirname simple f prefix suffix u c x, load f = Ok u -> new_converter load (Some f) prefix suffix = Ok c -> In x (visuals u) ->
  fst (snd x) = None \/ (exists m s, fst (snd x) = Some (XMesh m (Some s))) \/ (exists p, snd (snd x) = Some p /\ (p_position p = None \/ p_rotation p = None)) ->
  exists e, get_visual_shapes dirname simple c = Err e.
Proof.
  intros load dirname simple f prefix suffix u c x L E Hx B. unfold new_converter, parseURDF in E. cbn in E. rewrite L in E. cbn in E. injection E as <-. rewrite <- parts_visual in Hx. apply (items_bad simple _ _ _ _ x Hx). destruct B as [B | [B | (p & Ep & B)]]; [auto | auto | right; right; right].
  rewrite Ep. intros ((x1 & y & z & E1) & (a & b & d & E2)). destruct B; congruence.
Qed.
Print Assumptions C96_optional_refuted.
(** parseURDF does not keep the name of its file: a converter made without a file gives no shape, and one made with another file looks for the
    meshes in the directory of this other file. *)
Theorem C96_file_refuted : forall load dirname simple f f0 prefix suffix u u0 c c0 c1, load f = Ok u -> load f0 = Ok u0 -> new_converter load None prefix suffix = Ok c -> parseURDF load f c = Ok c1 ->
  (get_visual_shapes dirname simple c1 = Err AttributeError /\ get_collision_shapes dirname simple c1 = Err AttributeError) /\
  (new_converter load (Some f0) prefix suffix = Ok c0 -> forall c2, parseURDF load f c0 = Ok c2 -> Forall (fun x => shape_ok (snd x)) (visuals u) ->
   exists is, get_visual_shapes dirname simple c2 = Ok is /\ Forall2 (item_says (Conv (Some f0) (Some u) prefix suffix) (dirname f0) simple) (visuals u) is).
Proof.
  intros load dirname simple f f0 prefix suffix u u0 c c0 c1 L L0 E E1. cbn in E. injection E as <-. unfold parseURDF in E1. rewrite L in E1. cbn in E1. injection E1 as <-. split; [split; reflexivity | ].
  intros E0 c2 E2 F. unfold new_converter, parseURDF in E0. cbn in E0. rewrite L0 in E0. cbn in E0. injection E0 as <-. unfold parseURDF in E2. rewrite L in E2. cbn in E2. injection E2 as <-. rewrite <- parts_visual in *. apply (items_ok simple _ _ _ _ F).
Qed.
Print Assumptions C96_file_refuted.

(** A file with a sphere, a cylinder and a box. *)
Definition sh_doc : list xnode :=
  [XElem "robot" [("name", "crane")]%string
    [XElem "link" [("name", "base")]%string
       [XElem "visual" [] [XElem "geometry" [] [XElem "sphere" [("radius", "2")]%string []]; XElem "origin" [("xyz", "0 0 1"); ("rpy", "0 1 0")]%string []];
        XElem "collision" [] [XElem "geometry" [] [XElem "box" [("size", "1 2 1")]%string []]]];
     XElem "link" [("name", "bare")]%string [];
     XElem "link" [("name", "arm")]%string [XElem "visual" [] [XElem "geometry" [] [XElem "cylinder" [("radius", "1"); ("length", "2")]%string []]]];
     XElem "link" [("name", "hand")]%string [XElem "visual" [] [XElem "geometry" [] [XElem "mesh" [("filename", "meshes/hand.dae")]%string []]]]]].
Theorem C96_witness : exists u c i1 i2 i3 i4, parse_document xm_num sh_doc = Ok u /\ new_converter (fun _ => parse_document xm_num sh_doc) (Some "robots/crane.urdf"%string) "left_" "" = Ok c /\
  Forall (fun x => shape_ok (snd x)) (visuals u) /\ Forall (fun x => shape_ok (snd x)) (collisions u) /\
  get_visual_shapes (fun _ => "robots"%string) "simple_shapes.dae" c = Ok [i1; i2; i3] /\ get_collision_shapes (fun _ => "robots"%string) "simple_shapes.dae" c = Ok [i4] /\
  (vi_frame i3 = "left_base" /\ vi_mesh i3 = "simple_shapes.dae#simple_sphere_node")%string /\ vi_scale i3 = SNum 2 /\ (vi_frame i1 = "left_hand" /\ vi_mesh i1 = "robots/meshes/hand.dae")%string /\
  vi_scale i2 = SList [1; 1; 2] /\ vi_transform i2 = eye4 /\ vi_scale i4 = SList [1; 2; 1] /\ vi_frame i4 = "left_base"%string.
Proof.
  do 6 eexists. split; [reflexivity | ]. split; [reflexivity | ].
  split. { repeat constructor; cbn; try discriminate; repeat eexists. } split. { repeat constructor; cbn; try discriminate. }
  split; [reflexivity | ]. split; [reflexivity | ]. repeat match goal with |- _ /\ _ => split end; reflexivity.
Qed.
Print Assumptions C96_witness.
