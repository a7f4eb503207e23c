(** C98, continued: a whole file of shapes; refutations; a concrete case. *)
From Coq Require Import Ascii Lia.
From Verif Require Export Props_AddShapes.
From Verif Require Import Proof_Linalg.
Open Scope R_scope.

(** add_shapes_to_dae with the name of a file: each node of this file that has the id of a node of the scene is added to it, with its own transforms. *)
Theorem C98_file : forall (G : Type) load (d : cdoc G) path src keys, well_formed d -> distinct (d_scene d) -> load path = Ok src -> Forall simple_node src -> distinct src ->
  (forall s, In s keys <-> In s (flat_map ids (d_scene d))) ->
  (forall k g g', occurs load d [path] k g -> occurs load d [path] k g' -> g = g') ->
  (forall s, In s keys -> find_node G (good_id (path ++ ".." ++ s)) (d_nodes d) = None) ->
  (forall s t, In s keys -> In t keys -> good_id (path ++ ".." ++ s) = good_id (path ++ ".." ++ t) -> s = t) ->
  exists d', add_file G load path keys d = Ok d' /\ well_formed d' /\
    forall M g, displays d' M g <-> displays d M g \/ exists s P r n, frame_at (d_scene d) s P /\ In r src /\ named_node s r n /\ holds P n M g.
Proof.
  intros G load d0 path src keys Wf Ds Lo Si Di Ks Ag Nw Un. unfold add_file. rewrite Lo. cbn [rbind].
  set (libs := fun c : cnode G => exists s tfs kids, In s keys /\ last_node G s src = Some (CN (Some s) tfs kids) /\ c = CN (Some (good_id (path ++ ".." ++ s)%string)) tfs kids).
  assert (St : forall l, incl l keys -> forall d, inv (occurs load d0 [path]) libs d0 d -> exists d', foldM (add_named G path src) l d = Ok d' /\ inv (occurs load d0 [path]) libs d0 d' /\
    forall M g, contents d' M g <-> contents d M g \/ exists s, In s l /\ exists P r n, frame_at (d_scene d0) s P /\ In r src /\ named_node s r n /\ holds P n M g).
  { induction l as [ | s l IH]; intros Sub d Iv; cbn [foldM].
    { exists d. split; [reflexivity | ]. split; [exact Iv | ]. intros M g. split; [auto | intros [X | (i & [] & _)]; exact X]. }
    assert (Hs : In s keys) by (apply Sub; now left).
    assert (Step : exists d1, add_named G path src d s = Ok d1 /\ inv (occurs load d0 [path]) libs d0 d1 /\ forall M g, contents d1 M g <-> contents d M g \/ exists P r n, frame_at (d_scene d0) s P /\ In r src /\ named_node s r n /\ holds P n M g).
    { unfold add_named. assert (Sp := last_node_spec src s Si Di). destruct (last_node G s src) as [m | ] eqn:E.
      - destruct (proj1 (Sp m) eq_refl) as (r & Hr & Hm). assert (Sr : simple_node r) by (rewrite Forall_forall in Si; auto). destruct (named_simple _ _ _ Hm Sr) as (Sm & tfs & kids & Em). subst m.
        eexists. split; [reflexivity | ]. destruct (attach_step (occurs load d0 [path]) libs d0 d s [] (CN (Some (good_id (path ++ ".." ++ s)%string)) tfs kids) Iv Ag Ds) as (I1 & C1).
        + exists s, tfs, kids. auto.
        + eexists. split; [reflexivity | auto].
        + intros c' (t & tfs' & kids' & Ht & Et & ->) Q. cbn in Q. injection Q as Q. assert (Z : t = s) by (apply Un; auto; unfold good_id in *; cbn; congruence). subst t. rewrite E in Et. injection Et as <- <-. reflexivity.
        + exact Sm.
        + intros q g Hq. right. exists path, src, r. split; [now left | ]. split; [exact Lo | ]. split; [exact Hr | ]. exact (named_geoms _ _ _ Hm _ Hq).
        + split; [exact I1 | ]. intros M g. rewrite C1. cbn [tfs_mat fold_right]. split; (intros [Y | Y]; [now left | right]).
          * destruct Y as (P & HP & Hh). exists P, r, (CN (Some s) tfs kids). rewrite mm4_1_r in Hh. repeat split; auto. apply holds_node_iff in Hh. now apply holds_node_iff.
          * destruct Y as (P & r' & n & HP & Hr' & Hn & Hh). assert (Q : Some (CN (Some s) tfs kids) = Some n) by (apply Sp; eauto). injection Q as <-. exists P. split; [exact HP | ]. rewrite mm4_1_r. apply holds_node_iff in Hh. now apply holds_node_iff.
      - exists d. split; [reflexivity | ]. split; [exact Iv | ]. intros M g. split; [auto | ]. intros [Y | (P & r & n & _ & Hr & Hn & _)]; [exact Y | ]. assert (Q : None = Some n) by (apply Sp; eauto). discriminate Q. }
    destruct Step as (d1 & E1 & I1 & C1). rewrite E1. cbn [rbind]. destruct (IH (fun x Hx => Sub x (or_intror Hx)) d1 I1) as (d' & E' & I' & C'). exists d'. split; [exact E' | ]. split; [exact I' | ].
    intros M g. rewrite C', C1, ex_cons. tauto. }
  destruct (St keys (incl_refl _) d0) as (d' & E & I' & C).
  - split; auto; [reflexivity | ]. intros k g Hk. now left.
  - exists d'. split; [exact E | ]. split; [exact (in_res _ _ _ _ I') | ]. intros M g. rewrite !displays_contents by (auto; exact (in_res _ _ _ _ I')). rewrite C. split; (intros [X | X]; [now left | right]).
    + destruct X as (s & _ & P & r & n & X). exists s, P, r, n. exact X.
    + destruct X as (s & P & r & n & X). exists s. split; [apply Ks, frame_id; exists P; tauto | ]. exists P, r, n. exact X.
Qed.
Print Assumptions C98_file.

(** ** What goes wrong *)
(** An item given by a dict with a scale and no transform: AttributeError, nothing is written. *)
Theorem C98_scale_refuted : forall (G : Type) load (d : cdoc G) f m s P c, frame_at (d_scene d) f P -> child_of G load m = Ok (Some c) ->
  add_item G load d (Item f m (dict_args None (Some s))) = Err AttributeError.
Proof.
  intros G load d f m s P c HP E. unfold add_item. cbn [it_frame it_mesh it_args dict_args app tfs_of].
  assert (Fs := add_in_some f (CN None [] [] : cnode G) (d_scene d) eq_refl void_stands0). destruct (add_in G f (CN None [] []) (d_scene d)) as [l | ]; [rewrite E; reflexivity | ].
  exfalso. assert (X : In f (flat_map ids (d_scene d))) by (apply frame_id; eauto). apply Fs in X. destruct X as (l & X). discriminate X.
Qed.
Print Assumptions C98_scale_refuted.
(** Two frames at [A] and [B], two files that hold one geometry each, the first [true], the second [false]. *)
Definition two (A B : m4) : cdoc bool := Doc [CN (Some "a"%string) [TMat A] []; CN (Some "b"%string) [TMat B] []] [] [].
Definition two_files (f g : string) (n1 n2 : cnode bool) (s : string) : res (list (cnode bool)) := if String.eqb s f then Ok [n1] else if String.eqb s g then Ok [n2] else Err ValueError.
Ltac show_inv := repeat match goal with
  | H : shows _ _ _ (CN _ _ _) _ _ |- _ => inversion H; clear H; subst
  | H : shows _ _ _ (CI _) _ _ |- _ => inversion H; clear H; subst
  | H : shows _ _ _ (CG _ _) _ _ |- _ => inversion H; clear H; subst
  | H : In _ [] |- _ => destruct H
  | H : In _ (_ :: _) |- _ => destruct H as [H | H]; [subst | ]
  end.
Ltac opt_inv := repeat match goal with H : Some _ = Some _ |- _ => first [discriminate H | injection H as <- | clear H] end.
Ltac compute_doc := match goal with |- exists d', ?a = Ok d' /\ _ => let r := eval vm_compute in a in match r with Ok ?d => exists d; split; [vm_compute; reflexivity | ] end end.
Ltac nothing := do 6 (show_inv; cbn in *; opt_inv; try discriminate).
Lemma two_wf A B : well_formed (two A B) /\ distinct (d_scene (two A B)).
Proof. split; [repeat constructor | ]. unfold distinct. cbn. repeat constructor; cbn; intuition discriminate. Qed.
(** All the contents of the first file are displayed twice and those of the second never, since both shapes get the empty id. *)
Theorem C98_whole_refuted : forall A B, let load := two_files "ball.dae" "cube.dae" (CG "ball" true) (CG "cube" false) in
  exists d', add_items bool load [Item "a" "ball.dae" []; Item "b" "cube.dae" []] (two A B) = Ok d' /\ displays d' A true /\ displays d' B true /\ forall M, ~ displays d' M false.
Proof.
  intros A B load. subst load. compute_doc. split; [ | split].
  - exists (CN (Some "a"%string) [TMat A] [CN None [] [CI (CN (Some ""%string) [] [CG "ball" true])]]). split; [now left | ]. econstructor; [now left | ]. cbn [tfs_mat fold_right tf_mat]. econstructor; [now left | ]. econstructor; [reflexivity | reflexivity | ]. econstructor; [now left | ].
    cbn [tfs_mat fold_right]. rewrite mm4_1_l, !mm4_1_r. constructor. reflexivity.
  - exists (CN (Some "b"%string) [TMat B] [CN None [] [CI (CN (Some ""%string) [] [CG "cube" false])]]). split; [right; now left | ]. econstructor; [now left | ]. cbn [tfs_mat fold_right tf_mat]. econstructor; [now left | ]. econstructor; [reflexivity | reflexivity | ]. econstructor; [now left | ].
    cbn [tfs_mat fold_right]. rewrite mm4_1_l, !mm4_1_r. constructor. reflexivity.
  - intros M (n & Hn & Hs). cbn in Hn. destruct Hn as [<- | [<- | []]]; nothing.
Qed.
Print Assumptions C98_whole_refuted.
(** Two files whose geometries have the same id (as two exports of one program): the second one is displayed as the first. *)
Theorem C98_geometry_refuted : forall A B, let load := two_files "ball.dae" "cube.dae" (CN (Some "node"%string) [] [CG "mesh" true]) (CN (Some "node"%string) [] [CG "mesh" false]) in
  exists d', add_items bool load [Item "a" "ball.dae#node" []; Item "b" "cube.dae#node" []] (two A B) = Ok d' /\ displays d' A true /\ displays d' B true /\ forall M, ~ displays d' M false.
Proof.
  intros A B load. subst load. compute_doc. split; [ | split].
  - eexists. split; [left; reflexivity | ]. econstructor; [now left | ]. cbn [tfs_mat fold_right tf_mat]. econstructor; [now left | ]. econstructor; [reflexivity | reflexivity | ]. econstructor; [now left | ].
    cbn [tfs_mat fold_right]. rewrite mm4_1_l, !mm4_1_r. constructor. reflexivity.
  - eexists. split; [right; left; reflexivity | ]. econstructor; [now left | ]. cbn [tfs_mat fold_right tf_mat]. econstructor; [now left | ]. econstructor; [reflexivity | reflexivity | ]. econstructor; [now left | ].
    cbn [tfs_mat fold_right]. rewrite mm4_1_l, !mm4_1_r. constructor. reflexivity.
  - intros M (n & Hn & Hs). cbn in Hn. destruct Hn as [<- | [<- | []]]; nothing.
Qed.
Print Assumptions C98_geometry_refuted.
(** Two files whose names differ by a slash and an underscore. *)
Theorem C98_name_refuted : forall A B, let load := two_files "left/arm.dae" "left_arm.dae" (CN (Some "node"%string) [] [CG "ball" true]) (CN (Some "node"%string) [] [CG "cube" false]) in
  exists d', add_items bool load [Item "a" "left/arm.dae#node" []; Item "b" "left_arm.dae#node" []] (two A B) = Ok d' /\ displays d' B true /\ forall M, ~ displays d' M false.
Proof.
  intros A B load. subst load. compute_doc. split.
  - eexists. split; [right; left; reflexivity | ]. econstructor; [now left | ]. cbn [tfs_mat fold_right tf_mat]. econstructor; [now left | ]. econstructor; [reflexivity | reflexivity | ]. econstructor; [now left | ].
    cbn [tfs_mat fold_right]. rewrite mm4_1_l, !mm4_1_r. constructor. reflexivity.
  - intros M (n & Hn & Hs). cbn in Hn. destruct Hn as [<- | [<- | []]]; nothing.
Qed.
Print Assumptions C98_name_refuted.
(** A file of shapes with an instance of a node of its library, as add_shapes_to_dae itself writes: the instance is copied, the node is not. *)
Theorem C98_instance_refuted : forall A B, let load := two_files "arm.dae" "cube.dae" (CN (Some "node"%string) [] [CI (CN (Some "part"%string) [] [CG "ball" true])]) (CG "cube" false) in
  exists d', add_items bool load [Item "a" "arm.dae#node" []] (two A B) = Ok d' /\ (forall M g, ~ displays d' M g) /\ ~ well_formed d'.
Proof.
  intros A B load. subst load. compute_doc. split.
  - intros M g (n & Hn & Hs). cbn in Hn. destruct Hn as [<- | [<- | []]]; nothing.
  - intros W. unfold well_formed in W. cbn in W. apply Forall_inv in W. cbn in W. destruct W as (((_ & (((s & E & F) & _) & _)) & _) & _). injection E as <-. discriminate F.
Qed.
Print Assumptions C98_instance_refuted.
(** A scene with nested frames, a ball used twice with different scales and a part of another file; the hypotheses of C98_items and C98_file hold. *)
Definition ns_doc (A B C : m4) : cdoc bool :=
  Doc [CN (Some "a"%string) [TMat A] [CG "own" true; CN (Some "b"%string) [TMat B] []]; CN None [TMat C] [CI (CN (Some "node_old"%string) [] [CG "own" true])]]
      [CN (Some "node_old"%string) [] [CG "own" true]] [("own"%string, true)].
Definition ns_load : string -> res (list (cnode bool)) := two_files "ball.dae" "robot/cube.dae" (CN (Some "ball_node"%string) [TScale (V3 2 2 2)] [CG "ball" true]) (CN None [] [CN (Some "b"%string) [] [CG "cube" false]]).
Definition ns_items (H : m4) : list item :=
  [Item "b" "ball.dae#ball_node" (dict_args (Some H) (Some (SNum 3))); Item "b" "robot/cube.dae#b" []; Item "a" "ball.dae#ball_node" (dict_args (Some H) None); Item "none" "ball.dae" []].
Lemma ns_occurs A B C files k g g' : occurs ns_load (ns_doc A B C) files k g -> occurs ns_load (ns_doc A B C) files k g' -> g = g'.
Proof.
  assert (X : forall g, occurs ns_load (ns_doc A B C) files k g -> ((k = "own" /\ g = true) \/ (k = "ball" /\ g = true) \/ (k = "cube" /\ g = false))%string).
  { intros b [H | (f & src & n & _ & E & Hn & Hg)]; [cbn in H; destruct H as [H | []]; injection H as <- <-; auto | ]. unfold ns_load, two_files in E.
    destruct (String.eqb f "ball.dae"); [injection E as <-; destruct Hn as [<- | []]; cbn in Hg; destruct Hg as [Q | []]; injection Q as <- <-; auto | ].
    destruct (String.eqb f "robot/cube.dae"); [injection E as <-; destruct Hn as [<- | []]; cbn in Hg; destruct Hg as [Q | []]; injection Q as <- <-; auto | discriminate]. }
  intros H H'. apply X in H, H'. intuition (subst; congruence).
Qed.
Lemma ns_files f : f = "ball.dae"%string \/ f = "robot/cube.dae"%string -> usable ns_load f.
Proof.
  unfold usable, ns_load, two_files, distinct. intros [-> | ->]; eexists; (split; [reflexivity | ]); (split; [repeat constructor | ]); cbn; repeat constructor; cbn; intuition discriminate.
Qed.
Theorem C98_witness : forall A B C H, let d := ns_doc A B C in
  (well_formed d /\ distinct (d_scene d)) /\
  ((forall i, In i (ns_items H) -> usable ns_load (file_of i) /\ exists K, args_pose (it_args i) K) /\
   (forall k g g', occurs ns_load d (map file_of (ns_items H)) k g -> occurs ns_load d (map file_of (ns_items H)) k g' -> g = g') /\
   (forall i, In i (ns_items H) -> find_node bool (lib_id (it_mesh i)) (d_nodes d) = None) /\
   (forall i j, In i (ns_items H) -> In j (ns_items H) -> lib_id (it_mesh i) = lib_id (it_mesh j) -> partition (it_mesh i) = partition (it_mesh j))) /\
  (forall s, In s ["b"; "a"]%string <-> In s (flat_map ids (d_scene d))) /\
  (forall s t, In s ["b"; "a"]%string -> In t ["b"; "a"]%string -> good_id ("robot/cube.dae" ++ ".." ++ s) = good_id ("robot/cube.dae" ++ ".." ++ t) -> s = t) /\
  exists d', add_items bool ns_load (ns_items H) d = Ok d' /\ displays d' (mm4 (mm4 A B) (mm4 (mm4 H (scale4 (V3 3 3 3))) (scale4 (V3 2 2 2)))) true.
Proof.
  intros A B C H d.
  assert (W : well_formed d /\ distinct (d_scene d)). { split; [repeat constructor; cbn; eauto 10 | unfold distinct; cbn; repeat constructor; cbn; intuition discriminate]. }
  assert (K : (forall i, In i (ns_items H) -> usable ns_load (file_of i) /\ exists K, args_pose (it_args i) K) /\
   (forall k g g', occurs ns_load d (map file_of (ns_items H)) k g -> occurs ns_load d (map file_of (ns_items H)) k g' -> g = g') /\
   (forall i, In i (ns_items H) -> find_node bool (lib_id (it_mesh i)) (d_nodes d) = None) /\
   (forall i j, In i (ns_items H) -> In j (ns_items H) -> lib_id (it_mesh i) = lib_id (it_mesh j) -> partition (it_mesh i) = partition (it_mesh j))).
  { split; [ | split; [ | split]].
    - intros i Hi. cbn in Hi. destruct Hi as [<- | [<- | [<- | [<- | []]]]]; (split; [apply ns_files; cbn; auto | ]); cbn; eauto.
    - intros k g g'. apply ns_occurs.
    - intros i Hi. cbn in Hi. destruct Hi as [<- | [<- | [<- | [<- | []]]]]; reflexivity.
    - intros i j Hi Hj. cbn in Hi, Hj. destruct Hi as [<- | [<- | [<- | [<- | []]]]], Hj as [<- | [<- | [<- | [<- | []]]]]; cbn; intros Q; try reflexivity; discriminate Q. }
  split; [exact W | ]. split; [exact K | ]. split; [cbn; intros s; tauto | ]. split; [intros s t [<- | [<- | []]] [<- | [<- | []]]; cbn; intros Q; try reflexivity; discriminate Q | ].
  destruct W as (W1 & W2), K as (K1 & K2 & K3 & K4). destruct (C98_items bool ns_load d (ns_items H) W1 W2 K1 K2 K3 K4) as (d' & E & _ & Di). exists d'. split; [exact E | ]. apply Di. right.
  exists (Item "b" "ball.dae#ball_node" (dict_args (Some H) (Some (SNum 3)))). eexists. exists (mm4 A B). eexists. split; [now left | ]. split; [reflexivity | ]. split; [ | split; [eexists; split; reflexivity | ]].
  - eexists. split; [left; reflexivity | ]. econstructor; [right; now left | ]. replace (mm4 A B) with (mm4 (mm4 eye4 (tfs_mat [TMat A])) (tfs_mat [TMat B])) by (cbn; rewrite mm4_1_l, !mm4_1_r; reflexivity). constructor.
  - eexists. eexists. split; [left; reflexivity | ]. split; [constructor | ]. econstructor; [now left | ].
    match goal with |- holds ?X _ ?Y _ => replace Y with X; [constructor | ] end. cbn [tfs_mat fold_right tf_mat]. rewrite mm4_1_r. symmetry. apply mm4_assoc.
Qed.
Print Assumptions C98_witness.

(** *** [C98] the ids given to the library nodes can be used in a reference "#id": none of \ / # : is left in them, and a path without these characters is only prefixed *)
Fixpoint chars (s : string) : list ascii := match s with EmptyString => [] | String c s' => c :: chars s' end.
Definition special (c : ascii) : Prop := c = "\"%char \/ c = "/"%char \/ c = "#"%char \/ c = ":"%char.
Lemma char_is_true n c : (n < 256)%nat -> char_is n c = true <-> c = ascii_of_nat n.
Proof.
  intros Hn. unfold char_is. rewrite Nat.eqb_eq. split; [intros <-; symmetry; apply ascii_nat_embedding | intros ->; apply nat_ascii_embedding; exact Hn].
Qed.
Lemma char_is_false n c : (n < 256)%nat -> char_is n c = false -> c <> ascii_of_nat n.
Proof. intros Hn E Q. apply (char_is_true n c Hn) in Q. congruence. Qed.
Lemma chars_app a b : chars (a ++ b)%string = chars a ++ chars b.
Proof. induction a as [ | c a IH]; [reflexivity | ]. cbn. rewrite IH. reflexivity. Qed.
Theorem C98_ids : forall path, (forall c, In c (chars (good_id path)) -> ~ special c) /\
  ((forall c, In c (chars path) -> ~ special c) -> good_id path = ("node_" ++ path)%string).
Proof.
  intros path. unfold good_id. split.
  - assert (G : forall c, In c (chars (good_chars path)) -> ~ special c).
    { induction path as [ | d s IH]; intros c Hc; [destruct Hc | ]. cbn [good_chars] in Hc. rewrite chars_app in Hc. apply in_app_iff in Hc. destruct Hc as [Hc | Hc]; [ | exact (IH c Hc)]. clear IH.
      destruct (char_is 92 d) eqn:E1; [cbn in Hc; destruct Hc as [<- | []]; intros [Q | [Q | [Q | Q]]]; discriminate | ].
      destruct (char_is 47 d) eqn:E2; [cbn in Hc; destruct Hc as [<- | []]; intros [Q | [Q | [Q | Q]]]; discriminate | ]. cbn [orb] in Hc.
      destruct (char_is 35 d) eqn:E3; [cbn in Hc; destruct Hc as [<- | [<- | []]]; intros [Q | [Q | [Q | Q]]]; discriminate | ].
      destruct (char_is 58 d) eqn:E4; [cbn in Hc; destruct Hc as [<- | [<- | []]]; intros [Q | [Q | [Q | Q]]]; discriminate | ].
      cbn in Hc. destruct Hc as [<- | []]. apply char_is_false in E1, E2, E3, E4; try lia. intros [Q | [Q | [Q | Q]]]; [exact (E1 Q) | exact (E2 Q) | exact (E3 Q) | exact (E4 Q)]. }
    intros c Hc. rewrite chars_app in Hc. apply in_app_iff in Hc. destruct Hc as [Hc | Hc]; [ | exact (G c Hc)].
    cbn in Hc. repeat (destruct Hc as [<- | Hc]; [intros [Q | [Q | [Q | Q]]]; discriminate | ]). destruct Hc.
  - intros H. f_equal. induction path as [ | d s IH]; [reflexivity | ]. cbn [good_chars].
    assert (Hd : ~ special d) by (apply H; left; reflexivity).
    assert (F : forall n, (n < 256)%nat -> special (ascii_of_nat n) -> char_is n d = false).
    { intros n Hn Sn. destruct (char_is n d) eqn:E; [ | reflexivity]. apply (char_is_true n d Hn) in E. subst d. contradiction. }
    rewrite (F 92%nat), (F 47%nat), (F 35%nat), (F 58%nat); try (apply Nat.ltb_lt; reflexivity); [ | right; right; right; reflexivity | right; right; left; reflexivity | right; left; reflexivity | left; reflexivity].
    cbn. f_equal. apply IH. intros c Hc. apply H. right. exact Hc.
Qed.
Example C98_ids_witness : good_id "left\arm.dae#Hand" = "node_left_arm.dae..Hand"%string.
Proof. reflexivity. Qed.
