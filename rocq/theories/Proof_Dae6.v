(** The lines and the arrows of the document. *)
From Coq Require Import Lra Lia Permutation.
From Verif Require Import Spec_Dae Proof_SE3 Proof_Linalg Proof_Coll Props_Angles Proof_Dae Proof_Dae2 Proof_Dae3 Proof_Dae4.
Open Scope R_scope.

Definition item_lines (k : list (nat * item)) : list (nat * v3) := flat_map (fun z => match snd z with ILine p _ => [(fst z, p)] | _ => [] end) k.
Definition item_arrows (k : list (nat * item)) : list nat := flat_map (fun z => match snd z with IArrows => [fst z] | _ => [] end) k.
Definition has_line (x : node) : bool := n_const x && Rltb 0 (norm3 (pos (n_pose x))).
Definition node_lines (l : list (nat * node)) : list (nat * v3) := flat_map (fun z => if has_line (snd z) then [(n_parent (snd z), pos (n_pose (snd z)))] else []) l.
Definition lines_inv (d : draw) : Prop := item_lines (d_items d) = node_lines (d_nodes d) /\ item_arrows (d_items d) = map fst (d_nodes d).

Lemma add_frame_lines p P b f c d n d' : add_frame p P b f c d = (n, d') -> lines_inv d -> lines_inv d'.
Proof.
  intros E (A & B). unfold add_frame in E. injection E as <- <-. unfold lines_inv.
  destruct (b && Rltb 0 (norm3 (pos P))) eqn:Eb; cbn [add_item d_items d_nodes item_lines item_arrows node_lines flat_map snd fst map app]; unfold has_line at 1; cbn [n_const n_pose n_parent]; rewrite Eb; cbn [app]; fold (item_lines (d_items d)) (item_arrows (d_items d)) (node_lines (d_nodes d)); rewrite A, B; auto.
Qed.
Lemma color_lines S o d c d' : draw_color S o d = Ok (c, d') -> lines_inv d -> lines_inv d'.
Proof. intros E. unfold draw_color in E. destruct (get_color _ _ _ _) as [(c0, cs) | ]; [ | discriminate]. cbn [rbind] in E. injection E as <- <-. auto. Qed.
Lemma event_lines S flat ev d d' : draw_event S flat ev d = Ok d' -> lines_inv d -> lines_inv d'.
Proof.
  intros E In. destruct ev as [ | f0 j f1 | f | s | c | a]; cbn [draw_event] in E.
  - injection E as <-. split; reflexivity.
  - unfold draw_link in E. destruct f1 as [b | b | b]; destruct flat; try discriminate.
    + destruct (body_pose _ _) as [P | ]; [ | discriminate]. cbn [rbind] in E. destruct (draw_color _ _ _) as [(c, d1) | ] eqn:C; [ | discriminate]. cbn [rbind] in E.
      destruct (add_frame _ _ _ _ _ _) as (n, d2) eqn:A. injection E as <-. exact (add_frame_lines _ _ _ _ _ _ _ _ A (color_lines _ _ _ _ _ C In)).
    + destruct (frame_node _ _) as [n0 | ]; [ | discriminate]. cbn [rbind] in E. destruct (draw_color _ _ _) as [(c, d1) | ] eqn:C; [ | discriminate]. cbn [rbind] in E.
      destruct (add_frame _ _ _ _ _ _) as (n, d2) eqn:A. injection E as <-. exact (add_frame_lines _ _ _ _ _ _ _ _ A (color_lines _ _ _ _ _ C In)).
    + destruct (body_pose _ _) as [P | ]; [ | discriminate]. cbn [rbind] in E. destruct (draw_color _ _ d) as [(c, d1) | ] eqn:C; [ | discriminate]. cbn [rbind] in E.
      destruct (add_frame _ _ _ _ _ d1) as (n, d2) eqn:A. destruct (draw_color _ _ d2) as [(c', d3) | ] eqn:C'; [ | discriminate]. cbn [rbind] in E. destruct (add_frame _ _ _ _ _ d3) as (n', d4) eqn:A'. injection E as <-.
      exact (add_frame_lines _ _ _ _ _ _ _ _ A' (color_lines _ _ _ _ _ C' (add_frame_lines _ _ _ _ _ _ _ _ A (color_lines _ _ _ _ _ C In)))).
    + destruct (frame_node _ _) as [n0 | ]; [ | discriminate]. cbn [rbind] in E. destruct (draw_color _ _ d) as [(c, d1) | ] eqn:C; [ | discriminate]. cbn [rbind] in E.
      destruct (add_frame _ _ _ _ _ d1) as (n, d2) eqn:A. destruct (draw_color _ _ d2) as [(c', d3) | ] eqn:C'; [ | discriminate]. cbn [rbind] in E. destruct (add_frame _ _ _ _ _ d3) as (n', d4) eqn:A'. injection E as <-.
      exact (add_frame_lines _ _ _ _ _ _ _ _ A' (color_lines _ _ _ _ _ C' (add_frame_lines _ _ _ _ _ _ _ _ A (color_lines _ _ _ _ _ C In)))).
  - destruct f as [b | s | m]; cbn [draw_frame] in E.
    + destruct (draw_color _ _ _) as [(c, d1) | ] eqn:C; [ | discriminate]. cbn [rbind] in E. assert (I1 := color_lines _ _ _ _ _ C In). destruct (Rltb _ _); [ | now injection E as <-].
      destruct (frame_node _ _) as [n0 | ]; [ | discriminate]. cbn [rbind] in E. injection E as <-. exact I1.
    + destruct (d_frames d _); [now injection E as <- | ]. destruct (draw_color _ _ _) as [(c, d1) | ] eqn:C; [ | discriminate]. cbn [rbind] in E. destruct (frame_node _ _) as [n0 | ]; [ | discriminate]. cbn [rbind] in E.
      destruct (add_frame _ _ _ _ _ _) as (n, d2) eqn:A. injection E as <-. exact (add_frame_lines _ _ _ _ _ _ _ _ A (color_lines _ _ _ _ _ C In)).
    + destruct (d_frames d _); [now injection E as <- | ]. destruct (draw_color _ _ _) as [(c, d1) | ] eqn:C; [ | discriminate]. cbn [rbind] in E. destruct (if flat then _ else _) as [n0 | ]; [ | discriminate]. cbn [rbind] in E.
      destruct (add_frame _ _ _ _ _ _) as (n, d2) eqn:A. injection E as <-. exact (add_frame_lines _ _ _ _ _ _ _ _ A (color_lines _ _ _ _ _ C In)).
  - unfold draw_shape in E. destruct (draw_color _ _ _) as [(c, d1) | ] eqn:C; [ | discriminate]. cbn [rbind] in E. assert (I1 := color_lines _ _ _ _ _ C In). destruct (ds_known S s); [ | discriminate]. destruct (frame_node _ _) as [n0 | ]; [ | discriminate]. cbn [rbind] in E. injection E as <-. exact I1.
  - now injection E as <-.
  - now injection E as <-.
Qed.
Lemma world_lines S flat fuel h cs d : draw_world S flat fuel h cs = Ok d -> lines_inv d.
Proof.
  unfold draw_world. destruct (parse _ _ _) as [evs | ]; [ | discriminate]. cbn [rbind]. assert (Q : forall evs d0, lines_inv d0 -> draw_events S flat evs d0 = Ok d -> lines_inv d).
  { induction evs0 as [ | ev evs0 IH]; intros d0 I0 E; cbn [draw_events] in E; [now injection E as <- | ]. destruct (draw_event S flat ev d0) as [d1 | ] eqn:E1; [ | discriminate]. cbn [rbind] in E. exact (IH d1 (event_lines _ _ _ _ _ E1 I0) E). }
  apply Q. split; reflexivity.
Qed.

(** the segment drawn by create_line when it starts at the origin of its node *)
Lemma line_covers P N H p : SE3 H -> zcol (rot H) = vdiv p (norm3 p) -> 0 < norm3 p -> dn_mesh N = MLine ->
  dn_tfs N = [TScale (V3 (norm3 p) (norm3 p) (norm3 p)); TMat (M4 (rot H) zero3 (bot H) (hom H))] -> forall x, covers P N x <-> segment (pos P) (ground_of P p) x.
Proof.
  intros SH Z Hp Em Et x. unfold covers, segment. rewrite Em, Et, tfs_two. cbn [tf_mat in_mesh]. destruct SH as (_ & B & Hm).
  assert (G : forall k, ground_of (mm4 (mm4 P (scale4 (V3 (norm3 p) (norm3 p) (norm3 p)))) (M4 (rot H) zero3 (bot H) (hom H))) (V3 0 0 k) = vadd (pos P) (vscal k (vsub (ground_of P p) (pos P)))).
  { intros k. rewrite ground_mm by assumption. rewrite ground_scale.
    assert (E : ground_of (M4 (rot H) zero3 (bot H) (hom H)) (V3 0 0 k) = vscal k (zcol (rot H))) by (unfold ground_of, zcol; cbn [rot Model_Linalg.pos]; destruct (rot H); lin).
    rewrite E, Z. assert (E2 : scaled (V3 (norm3 p) (norm3 p) (norm3 p)) (vscal k (vdiv p (norm3 p))) = vscal k p) by (generalize (norm3 p) Hp; intros q Hq; destruct p; unfold scaled, vdiv; unf; f_equal; field; lra).
    rewrite E2. unfold ground_of. destruct (rot P), (Model_Linalg.pos P), p. lin. }
  split.
  - intros ([a b k] & (U0 & U1 & U2) & ->). cbn [vx vy vz] in *. subst a b. exists k. split; [exact U2 | apply G].
  - intros (k & Hk & ->). exists (V3 0 0 k). split; [cbn; auto | ]. symmetry. apply G.
Qed.
Lemma line_made argsort eigvals eig S geo v p c o : argsort_ok argsort -> made argsort eigvals eig true S geo v (ILine p c) o -> exists N, o = Some N /\ (forall P x, covers P N x <-> segment (pos P) (ground_of P p) x) /\
  (exists k, dn_mat N = Some k /\ nth_error (v_mats v) k = Some c) /\ dn_desc N = Some "link"%string /\ dn_id N = None.
Proof.
  intros Ha (v0 & v1 & Eo & C & X). cbn [Model_Dae.create_item] in C. unfold create_line in C. cbv zeta in C. rewrite sub_zero in C. destruct (Rltb 0 (norm3 p)) eqn:Hp; [ | discriminate]. apply Rltb_true in Hp.
  destruct (zaligned_ok argsort _ Ha (norm_unit p Hp)) as (H & EH & SH & ZH & PH). rewrite EH in C. cbn [rbind] in C. destruct (geometry _ _ _ _ _ _) as (N, v2) eqn:G. injection C as <- <-.
  destruct (geometry_spec _ _ _ _ _ _ _ _ G) as (Ei & _ & Em & Et & Ds & _). destruct (geometry_color _ _ _ _ _ _ _ _ G) as (k & K1 & K2). exists N. split; [reflexivity | ]. split.
  - intros P x. exact (line_covers P N H p SH ZH Hp Em Et x).
  - split; [exists k; split; [exact K1 | exact (color_ext _ _ _ _ X K2)] | ]. split; [exact Ds | ]. cbn in Ei. congruence.
Qed.
Lemma arrows_made argsort eigvals eig S geo v o : made argsort eigvals eig true S geo v IArrows o -> exists N, o = Some N /\ dn_mesh N = MArrows /\ dn_tfs N = [TScale (V3 (op_arrows (v_opt v)) (op_arrows (v_opt v)) (op_arrows (v_opt v)))] /\ dn_desc N = None.
Proof. intros (v0 & v1 & Eo & C & X). cbn in C. injection C as <- <-. eexists. split; [reflexivity | ]. cbn. rewrite Eo. auto. Qed.
(** what is not a line, what is not an arrow *)
Lemma made_kind argsort eigvals eig S geo v i N : made argsort eigvals eig true S geo v i (Some N) ->
  dn_desc N = match i with IArrows => None | ILine _ _ => Some "link" | IInertia _ _ => Some "inertia" | IShape _ _ => Some "shape" end%string.
Proof.
  intros (v0 & v1 & Eo & C & X). destruct i as [ | p c | b c | s c]; cbn [Model_Dae.create_item] in C.
  - injection C as <- <-. reflexivity.
  - unfold create_line in C. cbv zeta in C. destruct (Rltb _ _); [ | discriminate]. destruct (zaligned_ _ _); [ | discriminate]. cbn [rbind] in C. destruct (geometry _ _ _ _ _ _) as (N', v2) eqn:G. injection C as <- <-.
    destruct (geometry_spec _ _ _ _ _ _ _ _ G) as (_ & _ & _ & _ & -> & _). reflexivity.
  - rewrite create_inertia_eq in C. destruct (create_inertia_base _ _ _ _ _) as [w | ]; [ | discriminate]. cbn [rbind] in C. destruct (principalframe _ _ _); [ | discriminate]. cbn [rbind] in C. destruct (transport _ _ _); [ | discriminate]. cbn [rbind] in C. destruct (ds_nm S _); [ | discriminate].
    destruct (geometry _ _ _ _ _ _) as (N', v2) eqn:G. injection C as <- <-. destruct (geometry_spec _ _ _ _ _ _ _ _ G) as (_ & _ & _ & _ & -> & _). reflexivity.
  - destruct (create_shape _ _ _ _ _ _) as [(N', v2) | ] eqn:G; [ | discriminate]. cbn [rbind] in C. injection C as <- <-. destruct (geo s) as [n0 d | | he | l r | r]; cbn [create_shape] in G.
    2-5: apply (f_equal (fun x => match x with Ok y => y | Err _ => (N', v0) end)) in G; destruct (geometry_spec _ _ _ _ _ _ _ _ G) as (_ & _ & _ & _ & -> & _); reflexivity.
    unfold create_plane in G. destruct (zaligned_ _ _) as [H | ]; [ | discriminate]. cbn [rbind] in G. destruct (op_plane _) as (hx, hy). apply (f_equal (fun x => match x with Ok y => y | Err _ => (N', v0) end)) in G.
    destruct (geometry_spec _ _ _ _ _ _ _ _ G) as (_ & _ & _ & _ & -> & _). reflexivity.
Qed.
