(** C98: adding shapes to a collada scene. *)
From Coq Require Import Ascii Lia.
From Verif Require Export Proof_AddShapes.
From Verif Require Import Proof_Linalg.
Open Scope R_scope.

Lemma tfs_of_pose l K : args_pose l K -> exists tfs, tfs_of l = Ok tfs /\ tfs_mat tfs = K.
Proof.
  destruct l as [ | [H | s0] [ | [H' | s] [ | ]]]; cbn [args_pose]; try contradiction.
  - intros ->. exists []. split; reflexivity.
  - intros ->. exists [TMat H]. split; [reflexivity | ]. cbn. lin.
  - intros (v & E & ->). exists [TMat H; TScale v]. split; [cbn; now rewrite E | ]. cbn. lin.
Qed.
Lemma pose_unique l K K' : args_pose l K -> args_pose l K' -> K = K'.
Proof.
  destruct l as [ | [H | s0] [ | [H' | s] [ | ]]]; cbn [args_pose]; try contradiction; try congruence. intros (v & E & ->) (v' & E' & ->). congruence.
Qed.
Section G.
  Context {G : Type}.
  Variable load : string -> res (list (cnode G)).
  Lemma child_same p q : lib_id p = lib_id q -> partition p = partition q -> child_of G load p = child_of G load q.
  Proof.
    unfold lib_id, child_of. intros E1 E2. rewrite E2 in *. destruct (partition q) as (f, i). cbn [snd] in *. destruct (String.eqb i "") eqn:Ei; [reflexivity | ]. rewrite E1. reflexivity.
  Qed.
  Lemma child_spec p src : load (fst (partition p)) = Ok src -> Forall simple_node src -> distinct src ->
    (child_of G load p = Ok None /\ forall M M' g, ~ shape_at src (snd (partition p)) M M' g) \/
    exists c, child_of G load p = Ok (Some c) /\ node_id G c = Some (lib_id p) /\ simple_node c /\ (forall x, In x (geoms_of G c) -> exists n, In n src /\ In x (geoms_of G n)) /\
      forall M M' g, holds M c M' g <-> shape_at src (snd (partition p)) M M' g.
  Proof.
    intros Lo Si Di. unfold child_of, lib_id, shape_at. destruct (partition p) as (f, i). cbn [fst snd] in *. rewrite Lo. cbn [rbind]. destruct (String.eqb_spec i "") as [-> | Ni].
    - right. exists (CN (Some ""%string) [] src). split; [reflexivity | ]. split; [reflexivity | ]. split; [now apply simple_kids | ]. split.
      + intros x Hx. cbn in Hx. apply in_flat_map in Hx. exact Hx.
      + intros M M' g. rewrite holds_node_iff. cbn [tfs_mat fold_right]. replace (mm4 M eye4) with M by lin. reflexivity.
    - assert (Sp := last_node_spec src i Si Di). destruct (last_node G i src) as [m | ] eqn:E.
      + right. destruct (proj1 (Sp m) eq_refl) as (r & Hr & Hm). assert (Sr : simple_node r) by (rewrite Forall_forall in Si; auto). destruct (named_simple _ _ _ Hm Sr) as (Sm & tfs & kids & Em). subst m. eexists. split; [reflexivity | ]. split; [reflexivity | ]. split; [exact Sm | ]. split.
        * intros x Hx. exists r. split; [exact Hr | ]. apply (named_geoms _ _ _ Hm). exact Hx.
        * intros M M' g. rewrite holds_node_iff. split.
          -- intros Hh. exists r, (CN (Some i) tfs kids). repeat split; auto. apply holds_node_iff. exact Hh.
          -- intros (r' & n' & Hr' & Hn' & Hh). assert (Q : Some (CN (Some i) tfs kids) = Some n') by (apply Sp; eauto). injection Q as <-. apply holds_node_iff in Hh. exact Hh.
      + left. split; [reflexivity | ]. intros M M' g (r & n & Hr & Hn & _). assert (Q : None = Some n) by (apply Sp; eauto). discriminate Q.
  Qed.
  Definition adds (d : cdoc G) (i : item) (M : m4) (g : G) : Prop :=
    exists src P K, load (file_of i) = Ok src /\ frame_at (d_scene d) (it_frame i) P /\ args_pose (it_args i) K /\ shape_at src (snd (partition (it_mesh i))) (mm4 P K) M g.
  Section I.
    Variables (d0 : cdoc G) (items : list item).
    Hypotheses (Wf : well_formed d0) (Ds : distinct (d_scene d0))
      (Us : forall i, In i items -> usable load (file_of i) /\ exists K, args_pose (it_args i) K)
      (Ag : forall k g g', occurs load d0 (map file_of items) k g -> occurs load d0 (map file_of items) k g' -> g = g')
      (Nw : forall i, In i items -> find_node G (lib_id (it_mesh i)) (d_nodes d0) = None)
      (Un : forall i j, In i items -> In j items -> lib_id (it_mesh i) = lib_id (it_mesh j) -> partition (it_mesh i) = partition (it_mesh j)).
    Definition libs (c : cnode G) : Prop := exists i, In i items /\ child_of G load (it_mesh i) = Ok (Some c).
    Lemma lib_ids i c : In i items -> child_of G load (it_mesh i) = Ok (Some c) -> node_id G c = Some (lib_id (it_mesh i)).
    Proof.
      intros Hi E. destruct (Us i Hi) as ((src & Lo & Si & Di) & _). destruct (child_spec _ src Lo Si Di) as [(X & _) | (c' & X & Y & _)]; rewrite X in E; [discriminate | injection E as <-; exact Y].
    Qed.
    Lemma items_step l : incl l items -> forall d, inv (occurs load d0 (map file_of items)) libs d0 d ->
      exists d', foldM (add_item G load) l d = Ok d' /\ inv (occurs load d0 (map file_of items)) libs d0 d' /\ forall M g, contents d' M g <-> contents d M g \/ exists i, In i l /\ adds d0 i M g.
    Proof.
      induction l as [ | i l IH]; intros Sub d Iv; cbn [foldM].
      { exists d. split; [reflexivity | ]. split; [exact Iv | ]. intros M g. split; [auto | intros [X | (i & [] & _)]; exact X]. }
      assert (Hi : In i items) by (apply Sub; now left). destruct (Us i Hi) as ((src & Lo & Si & Di) & K & HK). destruct (tfs_of_pose _ _ HK) as (tfs & Et & Em).
      assert (Step : exists d1, add_item G load d i = Ok d1 /\ inv (occurs load d0 (map file_of items)) libs d0 d1 /\ forall M g, contents d1 M g <-> contents d M g \/ adds d0 i M g).
      { unfold add_item. assert (Fs := add_in_some (it_frame i) (CN None [] [] : cnode G) (d_scene d) eq_refl void_stands0). destruct (add_in G (it_frame i) (CN None [] []) (d_scene d)) as [l' | ].
        - destruct (child_spec (it_mesh i) src Lo Si Di) as [(X & No) | (c & X & Ec & Sc & Gc & Hc)]; rewrite X; cbn [rbind].
          + exists d. split; [reflexivity | ]. split; [exact Iv | ]. intros M g. split; [auto | ]. intros [Y | (src' & P & K' & Lo' & _ & _ & Sh)]; [exact Y | ]. exfalso. unfold file_of in *. assert (src' = src) by congruence. subst. eapply No; eauto.
          + rewrite Et. cbn [rbind]. eexists. split; [reflexivity | ].
            destruct (attach_step (occurs load d0 (map file_of items)) libs d0 d (it_frame i) tfs c Iv Ag Ds) as (I1 & C1).
            * exists i. auto.
            * exists (lib_id (it_mesh i)). auto.
            * intros c' (j & Hj & Ej) Eid. assert (Q := lib_ids j c' Hj Ej). rewrite Eid, Ec in Q. injection Q as Q. assert (Z := child_same _ _ Q (Un i j Hi Hj Q)). congruence.
            * exact Sc.
            * intros q g Hq. right. destruct (Gc _ Hq) as (n & Hn & Hg). exists (file_of i), src, n. split; [now apply in_map | ]. auto.
            * split; [exact I1 | ]. intros M g. rewrite C1, Em. split; (intros [Y | Y]; [now left | right]).
              -- destruct Y as (P & HP & Hh). exists src, P, K. repeat split; auto. now apply Hc.
              -- destruct Y as (src' & P & K' & Lo' & HP & HK' & Sh). exists P. split; [exact HP | ]. unfold file_of in *. assert (src' = src) by congruence. subst src'. assert (EK : K' = K) by (eapply pose_unique; eauto). subst K'. now apply Hc.
        - unfold file_of in Lo. rewrite Lo. cbn [rbind]. exists d. split; [reflexivity | ]. split; [exact Iv | ]. intros M g. split; [auto | ]. intros [Y | (src' & P & K' & _ & HP & _)]; [exact Y | ]. exfalso. assert (Z : In (it_frame i) (flat_map ids (d_scene d))).
          { rewrite (in_ids _ _ _ _ Iv). apply frame_id. eauto. } apply Fs in Z. destruct Z as (l' & Z). discriminate Z. }
      destruct Step as (d1 & E1 & I1 & C1). rewrite E1. cbn [rbind]. destruct (IH (fun x Hx => Sub x (or_intror Hx)) d1 I1) as (d' & E' & I' & C'). exists d'. split; [exact E' | ]. split; [exact I' | ].
      intros M g. rewrite C', C1, ex_cons. tauto.
    Qed.
  End I.
End G.
(** add_shapes_to_dae with a list of items, on a well-formed input file whose ids are all different: it succeeds, the result is a well-formed file, and it
    displays exactly what the input file displays, and, for each item whose frame and shape exist, the contents of the shape at the pose of the frame followed by
    the transform and the scale of the item.  It is assumed that each file of shapes can be used, that geometries of the same id are the same, and that the ids of the
    shapes in the library are new and different (the refutations below show that each of these is needed). *)
Theorem C98_items : forall (G : Type) load (d : cdoc G) items, well_formed d -> distinct (d_scene d) ->
  (forall i, In i items -> usable load (file_of i) /\ exists K, args_pose (it_args i) K) ->
  (forall k g g', occurs load d (map file_of items) k g -> occurs load d (map file_of items) k g' -> g = g') ->
  (forall i, In i items -> find_node G (lib_id (it_mesh i)) (d_nodes d) = None) ->
  (forall i j, In i items -> In j items -> lib_id (it_mesh i) = lib_id (it_mesh j) -> partition (it_mesh i) = partition (it_mesh j)) ->
  exists d', add_items G load items d = Ok d' /\ well_formed d' /\
    forall M g, displays d' M g <-> displays d M g \/
      exists i src P K, In i items /\ load (file_of i) = Ok src /\ frame_at (d_scene d) (it_frame i) P /\ args_pose (it_args i) K /\ shape_at src (snd (partition (it_mesh i))) (mm4 P K) M g.
Proof.
  intros G load d items Wf Ds Us Ag Nw Un. destruct (items_step load d items Ds Us Ag Nw Un items (incl_refl _) d) as (d' & E & I' & C).
  - split; auto; [reflexivity | ]. intros k g Hk. now left.
  - exists d'. split; [exact E | ]. split; [exact (in_res _ _ _ _ I') | ]. intros M g. rewrite !displays_contents by (auto; exact (in_res _ _ _ _ I')). rewrite C. split; (intros [X | X]; [now left | right]).
    + destruct X as (i & Hi & src & P & K & X). exists i, src, P, K. tauto.
    + destruct X as (i & src & P & K & Hi & X). exists i. split; [exact Hi | ]. exists src, P, K. tauto.
Qed.
Print Assumptions C98_items.
