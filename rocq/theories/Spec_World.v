(** Specification vocabulary for the object graph of a world: what it means
    for a heap to be a forest of rooted trees, for a call to add one link, for
    a history to be admissible, for a dof index to enumerate dofs. *)
From Verif Require Import Model_Base Model_World.
From Verif Require Export Spec_Tree.

Section Spec.
  Context {V : Type} (zero : V) (e : env).
  Notation heap := (@heap V).

  (** joint [j] links body [b] to body [c], and [c] knows it *)
  Definition edge (h : heap) (b j c : nat) : Prop :=
    (exists f0 f1, jframes h j = Some (f0, f1) /\
                   frame_body e f0 = b /\ frame_body e f1 = c) /\
    parentjoint h c = Some j.

  (** the heap, seen from the root of [t], is the tree [t]: the children lists are
      those of [t], in the same order, and parent and child links agree *)
  Inductive rep (h : heap) : tree -> Prop :=
  | rep_node : forall b ks,
      childrenjoints h b = map fst ks ->
      Forall (fun jt => edge h b (fst jt) (root (snd jt)) /\ rep h (snd jt)) ks ->
      rep h (Node b ks).

  (** [t] is the whole tree of its bodies: its root has no parent, no body occurs twice *)
  Definition whole_tree (h : heap) (t : tree) : Prop :=
    rep h t /\ parentjoint h (root t) = None /\ NoDup (bodies t).

  (** every body lies in a tree *)
  Definition forest (h : heap) : Prop :=
    forall b, exists t, whole_tree h t /\ In b (bodies t).

  (** [y] is [x] or lies below it, following the children lists *)
  Inductive below (h : heap) : nat -> nat -> Prop :=
  | below_refl : forall x, below h x x
  | below_step : forall x j f0 f1 y,
      In j (childrenjoints h x) -> jframes h j = Some (f0, f1) ->
      below h (frame_body e f1) y -> below h x y.

  (** ** Links *)

  (** a triple (frame0, joint, frame1) *)
  Definition link := (frame * nat * frame)%type.
  Definition l_from (l : link) := frame_body e (fst (fst l)).
  Definition l_joint (l : link) := snd (fst l).
  Definition l_to (l : link) := frame_body e (snd l).
  (** the flat positional argument list of [add_link] *)
  Fixpoint flatten (ls : list link) : list obj :=
    match ls with
    | [] => []
    | (f0, j, f1) :: ls' => OFrame f0 :: OJoint j :: OFrame f1 :: flatten ls'
    end.

  (** the graph of [h'] is that of [h] plus one link and nothing else *)
  Definition linked (h : heap) (l : link) (h' : heap) : Prop :=
    (forall b, childrenjoints h' b = childrenjoints h b ++ (if Nat.eqb b (l_from l) then [l_joint l] else [])) /\
    (forall b, parentjoint h' b = if Nat.eqb b (l_to l) then Some (l_joint l) else parentjoint h b) /\
    (forall j, jframes h' j = if Nat.eqb j (l_joint l) then Some (fst (fst l), snd l) else jframes h j).

  (** the joint is not attached yet and the child body has no parent *)
  Definition can_link (h : heap) (l : link) : Prop :=
    jframes h (l_joint l) = None /\ parentjoint h (l_to l) = None.

  (** one link added: graph as in [linked], subframes registered *)
  Definition do_link (h : heap) (l : link) : heap :=
    let '(f0, j, f1) := l in
    let h1 := set_frames h j (Some (f0, f1)) in
    let h2 := set_parent h1 (frame_body e f1) (Some j) in
    let h3 := set_children h2 (frame_body e f0) (childrenjoints h2 (frame_body e f0) ++ [j]) in
    register_frame f1 (register_frame f0 h3).
  Fixpoint do_links (h : heap) (ls : list link) : heap :=
    match ls with [] => h | l :: ls' => do_links (do_link h l) ls' end.
  Fixpoint can_links (h : heap) (ls : list link) : Prop :=
    match ls with [] => True | l :: ls' => can_link h l /\ can_links (do_link h l) ls' end.

  (** guard on successive links: none attaches its own ancestor *)
  Fixpoint acyclic_links (h : heap) (ls : list link) : Prop :=
    match ls with
    | [] => True
    | l :: ls' => ~ below h (l_to l) (l_from l) /\ acyclic_links (do_link h l) ls'
    end.

  (** the graph with [old] (from [b0] to [b1]) taken out *)
  Definition detach (h : heap) (b0 old b1 : nat) : heap :=
    set_frames (set_parent (set_children h b0 (remove Nat.eq_dec old (childrenjoints h b0))) b1 None)
      old None.

  (** ** Histories *)

  (** no link attaches an ancestor (or the body itself) below its parent frame; a
      [replace_joint] call must succeed, and the links of its chain must be acyclic in the
      graph without the old joint *)
  Definition admissible (fuel : nat) (h : heap) (o : @op V) : Prop :=
    match o with
    | AddLink f0 _ f1 => ~ below h (frame_body e f1) (frame_body e f0)
    | ReplaceJoint old args =>
        (exists u, snd (step zero e fuel h o) = Ok u) /\
        (length args <> 1 -> forall ls g0 g1, args = flatten ls -> jframes h old = Some (g0, g1) ->
           acyclic_links (detach h (frame_body e g0) old (frame_body e g1)) ls)
    | _ => True
    end.

  (** heaps obtained from fresh objects by admissible calls, each with its own
      recursion budget; refused [add_link]/[register]/[init] calls are included *)
  Inductive reachable (g0 : nat -> nat -> V) : heap -> Prop :=
  | reach_fresh : reachable g0 (fresh e g0)
  | reach_step : forall h fuel o, reachable g0 h -> admissible fuel h o ->
      reachable g0 (fst (step zero e fuel h o)).

  (** any history, admissible or not, failures included *)
  Definition run (fuel : nat) (ops : list (@op V)) (h : heap) : heap :=
    fold_left (fun acc o => fst (step zero e fuel acc o)) ops h.

  (** ** Registration *)

  (** a frame needs no registration (bodies), or has been registered *)
  Definition known (h : heap) (f : frame) : Prop :=
    match f with FBody _ => True | _ => In f (w_subframes h) end.

  Record reg_inv (h : heap) : Prop := {
    ri_sub : NoDup (w_subframes h);
    ri_shapes : NoDup (w_shapes h);
    ri_con : NoDup (w_constraints h);
    ri_ctrl : NoDup (w_controllers h);
    ri_nobody : forall b, ~ In (FBody b) (w_subframes h);
    ri_shape_frame : forall s, In s (w_shapes h) -> known h (shape_frame e s);
    ri_con_frames : forall c f, In c (w_constraints h) -> In f (con_children e c) -> known h f
  }.

  (** registration lists only grow, at the end *)
  Definition reg_le (h h' : heap) : Prop :=
    (exists l, w_subframes h' = w_subframes h ++ l) /\ (exists l, w_shapes h' = w_shapes h ++ l) /\
    (exists l, w_constraints h' = w_constraints h ++ l) /\ (exists l, w_controllers h' = w_controllers h ++ l).

  (** the joints linked in a report, in order *)
  Definition links_of (evs : list event) : list nat :=
    flat_map (fun ev => match ev with ELink _ j _ => [j] | _ => [] end) evs.

  (** ** Dofs *)
  Definition total_ndof (js : list nat) : nat := list_sum (map (jndof e) js).
  (** the indices selected by a numpy index *)
  Definition denote (d : dofidx) : list nat :=
    match d with DSlice a b => seq a (b - a) | DList l => l end.
  Definition range_of (h : heap) j : list nat :=
    match jdof h j with Some (s, t) => seq s (t - s) | None => [] end.
End Spec.
