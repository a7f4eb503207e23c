(** Specification vocabulary for add_shapes_to_dae. *)
From Verif Require Export Model_AddShapes.
Open Scope R_scope.

Section G.
  Context {G : Type}.
  Fixpoint assoc (s : string) (l : list (string * G)) : option G := match l with [] => None | (k, g) :: l' => if String.eqb k s then Some g else assoc s l' end.
  (** what a reader of the written file sees: the geometry [g] at the pose [M'], when the node [n] is at [M]; what is referred to is looked for by its id *)
  Inductive shows (L : list (cnode G)) (Gs : list (string * G)) : m4 -> cnode G -> m4 -> G -> Prop :=
    | shows_geom : forall M i g g', assoc i Gs = Some g' -> shows L Gs M (CG i g) M g'
    | shows_node : forall M i tfs kids k M' g, In k kids -> shows L Gs (mm4 M (tfs_mat tfs)) k M' g -> shows L Gs M (CN i tfs kids) M' g
    | shows_inst : forall M n s n' M' g, node_id G n = Some s -> find_node G s L = Some n' -> shows L Gs M n' M' g -> shows L Gs M (CI n) M' g.
  Definition displays (d : cdoc G) (M : m4) (g : G) : Prop := exists n, In n (d_scene d) /\ shows (d_nodes d) (d_geoms d) eye4 n M g.
  (** what a node holds, as it was read *)
  Inductive holds : m4 -> cnode G -> m4 -> G -> Prop :=
    | holds_geom : forall M i g, holds M (CG i g) M g
    | holds_node : forall M i tfs kids k M' g, In k kids -> holds (mm4 M (tfs_mat tfs)) k M' g -> holds M (CN i tfs kids) M' g
    | holds_inst : forall M n M' g, holds M n M' g -> holds M (CI n) M' g.
  (** the references of a node, and of those it refers to, are right *)
  Fixpoint resolved (L : list (cnode G)) (Gs : list (string * G)) (n : cnode G) : Prop :=
    match n with
    | CG i g => assoc i Gs = Some g
    | CN _ _ kids => fold_right (fun k P => resolved L Gs k /\ P) True kids
    | CI m => (exists s, node_id G m = Some s /\ find_node G s L = Some m) /\ resolved L Gs m
    end.
  (** a file that was read: every reference is right *)
  Definition well_formed (d : cdoc G) : Prop := Forall (resolved (d_nodes d) (d_geoms d)) (d_scene d).
  (** no instance_node *)
  Fixpoint simple_node (n : cnode G) : Prop := match n with CG _ _ => True | CN _ _ kids => fold_right (fun k P => simple_node k /\ P) True kids | CI _ => False end.
  (** the node [s] is at [M] in the scene (nodes inside instances do not count) *)
  Inductive stands (s : string) : m4 -> cnode G -> m4 -> Prop :=
    | stands_here : forall M tfs kids, stands s M (CN (Some s) tfs kids) (mm4 M (tfs_mat tfs))
    | stands_below : forall M i tfs kids k M', In k kids -> stands s (mm4 M (tfs_mat tfs)) k M' -> stands s M (CN i tfs kids) M'.
  Definition frame_at (l : list (cnode G)) (s : string) (P : m4) : Prop := exists n, In n l /\ stands s eye4 n P.
  (** the ids of the scene *)
  Fixpoint ids (n : cnode G) : list string := match n with CN i _ kids => match i with Some s => [s] | None => [] end ++ flat_map ids kids | _ => [] end.
  (** the shape of a path in the files: the contents of the scene of the file, or those of the node of this id, at the pose [M] *)
  Inductive named_node (s : string) : cnode G -> cnode G -> Prop :=
    | named_here : forall tfs kids, named_node s (CN (Some s) tfs kids) (CN (Some s) tfs kids)
    | named_below : forall i tfs kids k n, In k kids -> named_node s k n -> named_node s (CN i tfs kids) n.
  Definition shape_at (src : list (cnode G)) (id : string) (M M' : m4) (g : G) : Prop :=
    if String.eqb id "" then exists n, In n src /\ holds M n M' g else exists r n, In r src /\ named_node id r n /\ holds M n M' g.
  (** ids of a file are all different *)
  Definition distinct (l : list (cnode G)) : Prop := NoDup (flat_map ids l).
End G.
(** the pose of an item: its transform then its scale *)
Definition args_pose (l : list arg) (K : m4) : Prop :=
  match l with
  | [] => K = eye4
  | [AMat H] => K = H
  | [AMat H; AScale s] => exists v, scale_of s = Some v /\ K = mm4 H (scale4 v)
  | _ => False
  end.
(** the library id of a shape, dae_writer.py:223, 227 *)
Definition lib_id (path : string) : string := if String.eqb (snd (partition path)) "" then ""%string else good_id path.
Section H.
  Context {G : Type}.
  Variable load : string -> res (list (cnode G)).
  (** a geometry of the input file, or of a file of shapes *)
  Definition occurs (d : cdoc G) (files : list string) (k : string) (g : G) : Prop :=
    In (k, g) (d_geoms d) \/ exists f src n, In f files /\ load f = Ok src /\ In n src /\ In (k, g) (geoms_of G n).
  Definition file_of (i : item) : string := fst (partition (it_mesh i)).
  (** a file that can be used for shapes: it can be read, has no instance of a node of its library, and its ids are all different *)
  Definition usable (f : string) : Prop := exists src, load f = Ok src /\ Forall simple_node src /\ distinct src.
End H.
