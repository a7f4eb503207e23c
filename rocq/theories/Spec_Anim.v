(** Specification vocabulary for collada animations. *)
From Verif Require Export Model_Anim Spec_Dae Spec_Sim Spec_Dyn.
Open Scope R_scope.
(** the channel of the node [n]: the one whose target is its id *)
Definition channel (A : anim) (n : nat) (M : list m4) : Prop := exists s, node_id (an_doc A) n = Some s /\ dic_get (an_chan A) s = Ok M.
(** the pose of the node [n] at the instant [k] of the animation: the product of the transforms from the ground node (0) to [n], where
    a node that has a channel has the [k]-th transform of its channel *)
Inductive shown (A : anim) (k : nat) : nat -> m4 -> Prop :=
| shown_ground : (forall M, ~ channel A 0 M) -> shown A k 0 eye4
| shown_ground_moved M H : channel A 0 M -> nth_error M k = Some H -> shown A k 0 H
| shown_still n x P : In (n, x) (d_nodes (da_draw (an_doc A))) -> (forall M, ~ channel A n M) -> shown A k (n_parent x) P -> shown A k n (mm4 P (n_pose x))
| shown_moved n x M H P : In (n, x) (d_nodes (da_draw (an_doc A))) -> channel A n M -> nth_error M k = Some H -> shown A k (n_parent x) P -> shown A k n (mm4 P H).
(** the names needed by an animation: no two objects of the scene share a name; the logged frames have one (write_collada_scene names
    them), which is not empty; no frame but the ground is called "ground", or as the ground is *)
Definition well_named (daenim : bool) (S : dscene) (geo : nat -> geom) (h : @heap R) (t : tree) : Prop :=
  distinct_names daenim S geo h t /\
  (forall f, In (frame_body (ds_e S) f) (bodies t) -> known h f -> ds_nm S (OFrame f) <> Some EmptyString) /\
  (forall f, In (frame_body (ds_e S) f) (bodies t) -> known h f -> f <> FBody (ground (ds_e S)) ->
     ds_nm S (OFrame f) <> Some "ground"%string /\ (ds_nm S (OFrame f) <> None -> ds_nm S (OFrame f) <> ds_nm S (OFrame (FBody (ground (ds_e S)))))).
(** a world that can be drawn: see [drawable_world]; no joint on a MovingSubFrame, the registered ones on bodies of the world *)
Definition showable (S : dscene) (g0 : nat -> nat -> R) (h : @heap R) (t : tree) (fuel : nat) (cg : option colors) : Prop :=
  reachable 0 (ds_e S) g0 h /\ ready (ds_e S) h t /\ rigid_scene (ds_e S) (ds_sc S) t (ds_J S) /\ (height t < fuel)%nat /\
  (forall cs, cg = Some cs -> exists m nb, new_colors m nb = Ok cs) /\
  (forall j f0 f1 k, In j (joints t) -> jframes h j = Some (f0, f1) -> f0 <> FMov k /\ f1 <> FMov k) /\
  (forall k, In (FMov k) (w_subframes h) -> In (mov_body (ds_e S) k) (bodies t)) /\
  (forall s, has_shape (ds_e S) h t s -> ds_known S s = true) /\ inv4_spec (ds_inv S).
