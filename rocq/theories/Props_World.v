(** Properties C05-C17: structure of the world.  The vocabulary ([whole_tree], [reachable],
    [linked], [path], [bodies], [denote], ...) is in Spec_World.v and Spec_Tree.v. *)
From Verif Require Import Model_Base Model_World Spec_World Proof_Tree Proof_World Proof_World2
  Proof_World3 Proof_Dofs Proof_Register Proof_World4.

(** ** C05 *)

(** Every body lies in exactly one finite rooted tree, after every admissible history. *)
Theorem C05_tree : forall (V : Type) (zero : V) e g0 h, reachable zero e g0 h ->
  forall b, exists! t, whole_tree e h t /\ In b (bodies t).
Proof. exact (fun V zero e g0 h R => forest_unique e h (reachable_forest zero e g0 h R)). Qed.
Print Assumptions C05_tree.

(** Parent and child links agree; a child joint is listed once, by one body only. *)
Theorem C05_links_agree : forall (V : Type) (zero : V) e g0 h, reachable zero e g0 h ->
  (forall c j, parentjoint h c = Some j ->
     exists f0 f1, jframes h j = Some (f0, f1) /\ frame_body e f1 = c /\
       count_occ Nat.eq_dec (childrenjoints h (frame_body e f0)) j = 1 /\
       forall b, b <> frame_body e f0 -> ~ In j (childrenjoints h b)) /\
  (forall b j, In j (childrenjoints h b) ->
     exists f0 f1, jframes h j = Some (f0, f1) /\ frame_body e f0 = b /\
       parentjoint h (frame_body e f1) = Some j).
Proof.
  exact (fun V zero e g0 h R => let F := reachable_forest zero e g0 h R in
    conj (fun c j => forest_parent_child e h c j F) (fun b j => forest_child_parent e h b j F)).
Qed.
Print Assumptions C05_links_agree.

(** The same for one call of [add_link] with any number of links. *)
Theorem C05_multi_add_link : forall (V : Type) e (h : @heap V) ls, ls <> [] ->
  forest e h -> can_links e h ls -> acyclic_links e h ls ->
  add_link e (flatten ls) h = (do_links e h ls, Ok tt) /\ forest e (do_links e h ls).
Proof.
  exact (fun V e h ls N F C A => conj (add_link_ok_links e ls h N C) (do_links_forest e ls h F C A)).
Qed.
Print Assumptions C05_multi_add_link.

(** Scene used in the examples: ground 0; bodies 1,2,3; subframe 7 of body 1; joint 0 has 0 dof,
    joint k has k dofs. *)
Definition ex_env : env :=
  Env 0 (fun _ => 1) (fun _ => 2) (fun s => if Nat.eqb s 0 then FBody 1 else FSub 7)
      (fun _ => [FMov 0; FMov 1]) (fun j => j).
Definition ex_ops : list (@op nat) :=
  [AddLink (FBody 0) 1 (FBody 1); AddLink (FSub 7) 2 (FBody 2); AddLink (FBody 0) 3 (FBody 3);
   Register (OShape 1); Register (OConstraint 0); Init; ReplaceJoint 2 [OJoint 4]; WriteGvel 4 1 9].
Definition ex_heap : @heap nat := fold_left (fun h o => fst (step 0 ex_env 10 h o)) ex_ops (fresh ex_env (fun j k => 10 * j + k)).

(** decision of [below] on the example by exhaustion of the (finite) tree *)
Lemma ex_not_below (h : @heap nat) (x y : nat) (l : list nat) :
  In x l -> ~ In y l ->
  (forall b, In b l -> forall j f0 f1, In j (childrenjoints h b) -> jframes h j = Some (f0, f1) ->
     In (frame_body ex_env f1) l) -> ~ below ex_env h x y.
Proof.
  intros Ix Iy C B. revert Ix. induction B as [x|x j f0 f1 y Ij Ef B IH]; intros Ix; [contradiction|].
  apply IH; auto. eapply C; eauto.
Qed.
Example ex_reachable : reachable 0 ex_env (fun j k => 10 * j + k) ex_heap.
Proof.
  unfold ex_heap, ex_ops. cbn [fold_left].
  repeat (apply reach_step).
  - apply reach_fresh.
  - apply (ex_not_below _ _ _ [1]); [now left|cbn; lia|]. intros b [<-|[]] j f0 f1 [].
  - apply (ex_not_below _ _ _ [2]); [now left|cbn; lia|]. intros b [<-|[]] j f0 f1 [].
  - apply (ex_not_below _ _ _ [3]); [now left|cbn; lia|]. intros b [<-|[]] j f0 f1 [].
  - exact I.
  - exact I.
  - exact I.
  - split; [eexists; vm_compute; reflexivity|]. intros K. now cbn in K.
  - exact I.
Qed.
(** three bodies, two branches, the replaced joint in place, indices and velocities kept *)
Example ex_heap_shape :
  iterbodies ex_env 10 ex_heap = Ok [0; 1; 2; 3] /\ iterjoints ex_env 10 ex_heap = Ok [1; 4; 3] /\
  w_ndof ex_heap = 8 /\ jdof ex_heap 4 = Some (1, 5) /\ world_gvel ex_heap = [10; 40; 9; 42; 43; 30; 31; 32] /\
  w_subframes ex_heap = [FSub 7; FMov 0; FMov 1].
Proof. vm_compute. repeat split. Qed.

(** ** C06 *)

(** What holds: a body that already has a parent joint is refused, the graph is unchanged. *)
Theorem C06_second_parent_partial : forall (V : Type) e (h : @heap V) f0 j f1,
  jframes h j = None -> parentjoint h (frame_body e f1) <> None ->
  exists h', add_link e [OFrame f0; OJoint j; OFrame f1] h = (h', Err ValueError) /\
    (forall b, childrenjoints h' b = childrenjoints h b) /\ (forall b, parentjoint h' b = parentjoint h b).
Proof. exact (fun V e h f0 j f1 => add_link_parented e h f0 j f1). Qed.
Print Assumptions C06_second_parent_partial.

(** What fails: every attempt to close a loop through the root is accepted, and the
    result is no longer a forest (the linked body lies in no tree). *)
Theorem C06_loops_refuted : forall (V : Type) e (h : @heap V) f0 j f1,
  forest e h -> jframes h j = None -> parentjoint h (frame_body e f1) = None ->
  below e h (frame_body e f1) (frame_body e f0) ->
  exists h', add_link e [OFrame f0; OJoint j; OFrame f1] h = (h', Ok tt) /\ ~ forest e h' /\
    forall t, whole_tree e h' t -> ~ In (frame_body e f1) (bodies t).
Proof. exact (fun V e h f0 j f1 => cycle_accepted e h f0 j f1). Qed.
Print Assumptions C06_loops_refuted.

(** Concrete witness: ground -> 1, then 1 -> ground; the traversal then never ends. *)
Definition ex_cycle : @heap nat := fst (run 0 ex_env 10 [AddLink (FBody 0) 1 (FBody 1); AddLink (FBody 1) 2 (FBody 0)]
  (fresh ex_env (fun _ _ => 0)), tt).
Lemma ex_cycle_deep n : iter_descendant_bodies ex_env n ex_cycle 0 = Err RecursionError /\
                        iter_descendant_bodies ex_env n ex_cycle 1 = Err RecursionError.
Proof.
  induction n as [|n [IH0 IH1]]; [split; reflexivity|].
  assert (C0 : childrenjoints ex_cycle 0 = [1]) by reflexivity.
  assert (C1 : childrenjoints ex_cycle 1 = [2]) by reflexivity.
  assert (J1 : child_body ex_env ex_cycle 1 = Ok 1) by reflexivity.
  assert (J2 : child_body ex_env ex_cycle 2 = Ok 0) by reflexivity.
  cbn [iter_descendant_bodies]. rewrite C0, C1. cbn [rmapM]. rewrite J1, J2. cbn [rbind rconcat].
  rewrite IH0, IH1. split; reflexivity.
Qed.
Example C06_witness : forall fuel, iterbodies ex_env fuel ex_cycle = Err RecursionError.
Proof. intros fuel. unfold iterbodies. change (ground ex_env) with 0. now rewrite (proj1 (ex_cycle_deep fuel)). Qed.

(** ** C07 *)

(** A successful single link: exactly one link more, the two frames registered, nothing else. *)
Theorem C07_add_link_effect : forall (V : Type) e (h h' : @heap V) f0 j f1,
  add_link e [OFrame f0; OJoint j; OFrame f1] h = (h', Ok tt) ->
  linked e h (f0, j, f1) h' /\ known h' f0 /\ known h' f1 /\
  (forall x, In x (w_subframes h') -> In x (w_subframes h) \/ x = f0 \/ x = f1) /\
  (forall x, In x (w_subframes h) -> In x (w_subframes h')) /\
  w_shapes h' = w_shapes h /\ w_constraints h' = w_constraints h /\ w_controllers h' = w_controllers h /\
  arr h' = arr h /\ jgvel h' = jgvel h /\ w_gvel h' = w_gvel h /\ next_arr h' = next_arr h /\
  jdof h' = jdof h /\ w_ndof h' = w_ndof h.
Proof. exact (fun V e h h' f0 j f1 => add_link_effect e h f0 j f1 h'). Qed.
Print Assumptions C07_add_link_effect.

(** Extra arguments are the successive single calls, up to and including a failure. *)
Theorem C07_multi_is_successive : forall (V : Type) e (h : @heap V) l ls,
  add_link e (flatten (l :: ls)) h =
  match add_link e (flatten [l]) h with
  | (h1, Ok u) => match ls with [] => (h1, Ok u) | _ => add_link e (flatten ls) h1 end
  | (h1, Err x) => (h1, Err x)
  end.
Proof. exact (fun V e h l ls => add_link_cons e l ls h). Qed.
Print Assumptions C07_multi_is_successive.

(** Any other argument list is refused. *)
Theorem C07_only_links_accepted : forall (V : Type) e (h h' : @heap V) args u,
  add_link e args h = (h', Ok u) -> exists ls, ls <> [] /\ args = flatten ls.
Proof. exact (fun V e h h' args u => add_link_shape e args h h' u). Qed.
Print Assumptions C07_only_links_accepted.

Example C07_nonvacuous : snd (add_link ex_env [OFrame (FSub 7); OJoint 9; OFrame (FBody 5)] ex_heap) = Ok tt.
Proof. reflexivity. Qed.

(** ** C08 *)

(** What holds: a refused single call changes nothing but the frames of the joint. *)
Theorem C08_refused_partial : forall (V : Type) e (h h' : @heap V) f0 j f1 x,
  add_link e [OFrame f0; OJoint j; OFrame f1] h = (h', Err x) ->
  (x = AssertionError /\ h' = h /\ jframes h j <> None) \/
  (x = ValueError /\ jframes h j = None /\ h' = set_frames h j (Some (f0, f1))).
Proof. exact (fun V e h h' f0 j f1 x => add_link_refused e h f0 j f1 h' x). Qed.
Print Assumptions C08_refused_partial.

(** What fails: after a ValueError the joint keeps the refused frames, and can never be linked again. *)
Theorem C08_retry_refuted : forall (V : Type) e (h h' : @heap V) f0 j f1,
  add_link e [OFrame f0; OJoint j; OFrame f1] h = (h', Err ValueError) ->
  jframes h j = None /\ jframes h' j = Some (f0, f1) /\
  forall g0 g1, add_link e [OFrame g0; OJoint j; OFrame g1] h' = (h', Err AssertionError).
Proof. exact (fun V e h h' f0 j f1 => add_link_no_retry e h f0 j f1 h'). Qed.
Print Assumptions C08_retry_refuted.

Example C08_witness : snd (add_link ex_env [OFrame (FBody 3); OJoint 9; OFrame (FBody 2)] ex_heap) = Err ValueError.
Proof. reflexivity. Qed.

(** ** C09 *)

(** From the ground: depth-first enumeration of the tree, each body and joint once;
    RecursionError exactly when the recursion budget is not above the height. *)
Theorem C09_traversal : forall (V : Type) (zero : V) e g0 h, reachable zero e g0 h ->
  exists t, rep e h t /\ root t = ground e /\ NoDup (bodies t) /\ NoDup (joints t) /\
    forall fuel,
      (height t < fuel -> iterbodies e fuel h = Ok (bodies t) /\ iterjoints e fuel h = Ok (joints t)) /\
      (fuel <= height t -> iterbodies e fuel h = Err RecursionError).
Proof. exact (fun V zero e g0 h R => world_iterators e h (reachable_forest zero e g0 h R)). Qed.
Print Assumptions C09_traversal.

(** From any body: the descendants of the subtree it roots. *)
Theorem C09_descendants : forall (V : Type) e (h : @heap V) t fuel, rep e h t -> height t < fuel ->
  iter_descendant_bodies e fuel h (root t) = Ok (tl (bodies t)) /\
  iter_descendant_joints e fuel h (root t) = Ok (joints t).
Proof.
  exact (fun V e h t fuel R L => conj (iter_bodies_ok e h t R fuel L) (iter_joints_ok e h t R fuel L)).
Qed.
Print Assumptions C09_descendants.

(** In this order a whole subtree is contiguous, its root first: parents come before
    their descendants and a subtree is finished before the next sibling. *)
Theorem C09_subtrees_contiguous : forall u t, subtree u t ->
  (exists l1 l2, bodies t = l1 ++ root u :: tl (bodies u) ++ l2) /\
  (exists l1 l2, joints t = l1 ++ joints u ++ l2).
Proof.
  exact (fun u t S => match subtree_contiguous u t S with
    | conj (ex_intro _ l1 (ex_intro _ l2 E)) C =>
        conj (ex_intro _ l1 (ex_intro _ l2 (eq_trans E (f_equal (fun x => l1 ++ x ++ l2) (bodies_tail u))))) C
    end).
Qed.
Print Assumptions C09_subtrees_contiguous.

(** ** C10 *)

Theorem C10_ancestors : forall (V : Type) (zero : V) e g0 h x, reachable zero e g0 h ->
  exists t ps, whole_tree e h t /\ In x (bodies t) /\ path t x ps /\
    forall fuel, length ps < fuel ->
      iter_ancestor_bodies e fuel h x = Ok (map snd ps) /\ iter_ancestor_joints e fuel h x = Ok (map fst ps).
Proof. exact (fun V zero e g0 h x R => forest_path e h x (reachable_forest zero e g0 h R)). Qed.
Print Assumptions C10_ancestors.

Theorem C10_ancestor_iff_descendant : forall (V : Type) (zero : V) e g0 h a c fuel1 fuel2 la ld,
  reachable zero e g0 h ->
  iter_ancestor_bodies e fuel1 h c = Ok la -> iter_descendant_bodies e fuel2 h a = Ok ld ->
  (In a la <-> In c ld).
Proof.
  exact (fun V zero e g0 h a c f1 f2 la ld R =>
    ancestor_descendant e h a c f1 f2 la ld (reachable_forest zero e g0 h R)).
Qed.
Print Assumptions C10_ancestor_iff_descendant.

Example C10_nonvacuous : iter_ancestor_bodies ex_env 10 ex_heap 2 = Ok [1; 0] /\
  iter_ancestor_joints ex_env 10 ex_heap 2 = Ok [4; 1].
Proof. vm_compute. split; reflexivity. Qed.

(** ** C11 *)

(** One-joint syntax: [new] takes the place of [old] everywhere, and the dofs are re-indexed. *)
Theorem C11_replace_one : forall (V : Type) (zero : V) e g h h' fuel old new,
  reachable zero e g h ->
  replace_joint zero e fuel (OJoint old) [OJoint new] h = (h', Ok tt) ->
  exists g0 g1, jframes h old = Some (g0, g1) /\
    (forall b, childrenjoints h' b = map (fun j => if Nat.eqb j old then new else j) (childrenjoints h b)) /\
    (forall b, parentjoint h' b = option_map (fun j => if Nat.eqb j old then new else j) (parentjoint h b)) /\
    (forall j, jframes h' j = if Nat.eqb j new then Some (g0, g1) else
                              if Nat.eqb j old then None else jframes h j) /\
    (forall t, whole_tree e h t -> whole_tree e h' (relabel old new t)) /\
    (exists js, iterjoints e fuel h' = Ok js /\ NoDup js /\ w_ndof h' = total_ndof e js /\
      (forall l1 j l2, js = l1 ++ j :: l2 -> jdof h' j = Some (total_ndof e l1, total_ndof e l1 + jndof e j))).
Proof.
  exact (fun V zero e g h h' fuel old new R =>
    replace_single zero e h fuel old new h' (reachable_forest zero e g h R) (reachable_vinv zero e g h R)).
Qed.
Print Assumptions C11_replace_one.

(** Chain syntax: the last link leaving the parent body takes the place of [old]; every link of
    the chain is in; no other joint or body is affected. *)
Theorem C11_replace_chain : forall (V : Type) (zero : V) e g h h' fuel old ls,
  reachable zero e g h -> length ls >= 1 ->
  replace_joint zero e fuel (OJoint old) (flatten ls) h = (h', Ok tt) ->
  exists g0 g1 A B news n, let b0 := frame_body e g0 in
    jframes h old = Some (g0, g1) /\ childrenjoints h b0 = A ++ old :: B /\
    map l_joint (filter (fun l => Nat.eqb b0 (l_from e l)) ls) = news ++ [n] /\
    childrenjoints h' b0 = A ++ n :: B ++ news /\
    (forall b, b <> b0 -> childrenjoints h' b =
       childrenjoints h b ++ map l_joint (filter (fun l => Nat.eqb b (l_from e l)) ls)) /\
    (forall j f0 f1, In (f0, j, f1) ls -> jframes h' j = Some (f0, f1) /\ parentjoint h' (frame_body e f1) = Some j) /\
    (forall j, ~ In j (map l_joint ls) -> jframes h' j = if Nat.eqb j old then None else jframes h j) /\
    (forall b, ~ In b (map (l_to e) ls) -> parentjoint h' b = if Nat.eqb b (frame_body e g1) then None else parentjoint h b) /\
    In (frame_body e g1) (map (l_to e) ls).
Proof.
  exact (fun V zero e g h h' fuel old ls R L =>
    replace_chain_effect zero e h fuel old ls h' (reachable_forest zero e g h R) L).
Qed.
Print Assumptions C11_replace_chain.

Example C11_nonvacuous :
  snd (replace_joint 0 ex_env 10 (OJoint 1) [OJoint 6] ex_heap) = Ok tt /\
  snd (replace_joint 0 ex_env 10 (OJoint 1)
         (flatten [(FBody 0, 6, FBody 5); (FBody 5, 7, FBody 1)]) ex_heap) = Ok tt /\
  iterjoints ex_env 10 (fst (replace_joint 0 ex_env 10 (OJoint 1)
         (flatten [(FBody 0, 6, FBody 5); (FBody 5, 7, FBody 1)]) ex_heap)) = Ok [6; 7; 4; 3].
Proof. vm_compute. repeat split. Qed.

(** ** C12 *)

(** What holds: a call refused by the checks on [old] and on the end bodies leaves no trace; a trace
    is possible only once these checks have passed. *)
Theorem C12_checks_partial : forall (V : Type) (zero : V) e (h h' : @heap V) fuel old args x,
  replace_joint zero e fuel (OJoint old) args h = (h', Err x) ->
  h' = h \/
  exists g0 g1, jframes h old = Some (g0, g1) /\ In old (childrenjoints h (frame_body e g0)) /\
    parentjoint h (frame_body e g1) = Some old /\
    (length args = 1 \/ exists f0 f1, hd OOther args = OFrame f0 /\ last args OOther = OFrame f1 /\
       frame_body e f0 = frame_body e g0 /\ frame_body e f1 = frame_body e g1 /\ length args mod 3 = 0).
Proof. exact (fun V zero e h h' fuel old args x => replace_checks_atomic zero e h fuel old args h' x). Qed.
Print Assumptions C12_checks_partial.

(** What fails: replacing by a joint that is already attached raises, but [old] has lost its
    frames while still being listed by its parent: the world cannot be traversed any more. *)
Theorem C12_atomic_refuted : forall (V : Type) (zero : V) e (h : @heap V) fuel old new g0 g1,
  jframes h old = Some (g0, g1) -> In old (childrenjoints h (frame_body e g0)) ->
  parentjoint h (frame_body e g1) = Some old -> new <> old -> jframes h new <> None ->
  exists h', replace_joint zero e fuel (OJoint old) [OJoint new] h = (h', Err AssertionError) /\
    jframes h' old = None /\ parentjoint h' (frame_body e g1) = None /\
    In old (childrenjoints h' (frame_body e g0)) /\
    forall n, iter_descendant_bodies e (S n) h' (frame_body e g0) = Err AttributeError.
Proof. exact (fun V zero e h fuel old new g0 g1 => replace_not_atomic zero e h fuel old new g0 g1). Qed.
Print Assumptions C12_atomic_refuted.

Example C12_witness : exists h', replace_joint 0 ex_env 10 (OJoint 1) [OJoint 3] ex_heap = (h', Err AssertionError) /\
  iterbodies ex_env 10 h' = Err AttributeError.
Proof. eexists. split; [vm_compute; reflexivity|vm_compute; reflexivity]. Qed.

(** ** C13 *)

(** After any history of calls (failing ones included): no duplicates, closed under frames of
    shapes and of contacts, bodies never stored; and the lists only grow, at the end. *)
Theorem C13_registered_once : forall (V : Type) (zero : V) e g0 fuel ops1 ops2,
  let h1 := run zero e fuel ops1 (fresh e g0) in
  let h2 := run zero e fuel ops2 h1 in
  NoDup (w_subframes h1) /\ NoDup (w_shapes h1) /\ NoDup (w_constraints h1) /\ NoDup (w_controllers h1) /\
  (forall b, ~ In (FBody b) (w_subframes h1)) /\
  (forall s, In s (w_shapes h1) -> known h1 (shape_frame e s)) /\
  (forall c f, In c (w_constraints h1) -> In f (con_children e c) -> known h1 f) /\
  (exists l, w_subframes h2 = w_subframes h1 ++ l) /\ (exists l, w_shapes h2 = w_shapes h1 ++ l) /\
  (exists l, w_constraints h2 = w_constraints h1 ++ l) /\ (exists l, w_controllers h2 = w_controllers h1 ++ l).
Proof.
  exact (fun V zero e g0 fuel ops1 ops2 =>
    match run_reg zero e fuel ops1 _ (fresh_reg e g0) with
    | conj Ri _ => match Ri, run_reg zero e fuel ops2 _ Ri with
        | Build_reg_inv _ _ a b c d f s k, conj _ L => conj a (conj b (conj c (conj d (conj f (conj s (conj k L))))))
        end
    end).
Qed.
Print Assumptions C13_registered_once.

(** A successful call brings in exactly the object, and the frames it carries. *)
Theorem C13_register_exact : forall (V : Type) e (h h' : @heap V) o, reg_inv e h ->
  register e o h = (h', Ok tt) ->
  (forall f, known h' f <-> known h f \/
     match o with
     | OFrame g => f = g
     | OShape s => f = shape_frame e s
     | OConstraint c => In f (con_children e c)
     | _ => False
     end) /\
  (forall s, In s (w_shapes h') <-> In s (w_shapes h) \/ o = OShape s) /\
  (forall c, In c (w_constraints h') <-> In c (w_constraints h) \/ o = OConstraint c) /\
  (forall a, In a (w_controllers h') <-> In a (w_controllers h) \/ o = OController a).
Proof. exact (fun V e h h' o => register_members e o h h'). Qed.
Print Assumptions C13_register_exact.

Theorem C13_idempotent : forall (V : Type) e (h : @heap V) o, reg_inv e h ->
  register e o (fst (register e o h)) = register e o h.
Proof. exact (fun V e h o => register_idem e o h). Qed.
Print Assumptions C13_idempotent.

(** Joints and foreign objects: refused without effect; everything else is accepted. *)
Theorem C13_refusals : forall (V : Type) e (h : @heap V) o,
  match o with
  | OJoint _ | OOther => register e o h = (h, Err ValueError)
  | OFrame (FBody _) => register e o h = (h, Ok tt)
  | _ => snd (register e o h) = Ok tt
  end.
Proof.
  exact (fun V e h o => match o with
    | OFrame (FBody _) => eq_refl | OFrame (FSub _) => eq_refl | OFrame (FMov _) => eq_refl
    | OJoint _ => eq_refl | OShape _ => eq_refl
    | OConstraint c => match existsb (Nat.eqb c) (w_constraints h) as b
        return snd (if b then (h, Ok tt) else (_, Ok tt)) = Ok tt with true => eq_refl | false => eq_refl end
    | OController _ => eq_refl | OOther => eq_refl end).
Qed.
Print Assumptions C13_refusals.

(** ** C14, C15 *)

(** [init] succeeds; slices are consecutive in traversal order and cover 0..ndof-1;
    each velocity is kept and is a view of its slice of the world vector. *)
Theorem C14_C15_init : forall (V : Type) (zero : V) e g0 h, reachable zero e g0 h ->
  exists t, rep e h t /\ root t = ground e /\ forall fuel, height t < fuel ->
  exists h', init zero e fuel h = (h', Ok tt) /\
    w_ndof h' = total_ndof e (joints t) /\
    (forall l1 j l2, joints t = l1 ++ j :: l2 ->
       jdof h' j = Some (total_ndof e l1, total_ndof e l1 + jndof e j) /\
       jgvel h' j = View (w_gvel h') (total_ndof e l1) (jndof e j)) /\
    world_gvel h' = concat (map (joint_gvel h) (joints t)) /\
    (forall j, joint_gvel h' j = joint_gvel h j) /\
    (forall j, ~ In j (joints t) -> jdof h' j = jdof h j /\ jgvel h' j = jgvel h j).
Proof.
  exact (fun V zero e g0 h R =>
    match world_iterators e h (reachable_forest zero e g0 h R) with
    | ex_intro _ t (conj Rt (conj Er (conj D _))) =>
        ex_intro _ t (conj Rt (conj Er (fun fuel L =>
          match init_spec zero e h t fuel (reachable_vinv zero e g0 h R) Rt Er D L with
          | ex_intro _ h' (conj E (conj N (conj Sl (conj Ot (conj W _))))) =>
              ex_intro _ h' (conj E (conj N (conj Sl (conj W (conj
                (init_keeps_gvel zero e h t fuel h' (reachable_vinv zero e g0 h R) Rt Er D L E) Ot)))))
          end)))
    end).
Qed.
Print Assumptions C14_C15_init.

(** Consecutive slices are pairwise disjoint and every index below ndof is in one of them. *)
Theorem C14_partition : forall e js,
  (forall l1 i l2 k1 j k2, js = l1 ++ i :: l2 -> js = k1 ++ j :: k2 -> i <> j ->
     total_ndof e l1 + jndof e i <= total_ndof e k1 \/ total_ndof e k1 + jndof e j <= total_ndof e l1) /\
  (forall n, n < total_ndof e js -> exists l1 j l2, js = l1 ++ j :: l2 /\
     total_ndof e l1 <= n < total_ndof e l1 + jndof e j).
Proof.
  exact (fun e js => conj (fun l1 i l2 k1 j k2 A B => slices_disjoint e js i j l1 l2 k1 k2 A B) (slices_cover e js)).
Qed.
Print Assumptions C14_partition.

(** In every reachable state joint velocities never share storage. *)
Theorem C15_no_sharing : forall (V : Type) (zero : V) e g0 h i j, reachable zero e g0 h -> i <> j ->
  let a := jgvel h i in let b := jgvel h j in
  v_arr a <> v_arr b \/ v_start a + v_len a <= v_start b \/ v_start b + v_len b <= v_start a.
Proof. exact (fun V zero e g0 h i j R N => vi_disj e h (reachable_vinv zero e g0 h R) i j N). Qed.
Print Assumptions C15_no_sharing.

(** Writing one component of a joint's velocity changes that component, no other joint, and
    exactly the corresponding entry of the world vector. *)
Theorem C15_write : forall (V : Type) (zero : V) e g0 h j k v, reachable zero e g0 h -> k < jndof e j ->
  exists h', write_gvel j k v h = (h', Ok tt) /\
    (forall i, nth_error (joint_gvel h' j) i = if Nat.eqb i k then Some v else nth_error (joint_gvel h j) i) /\
    (forall i, i <> j -> joint_gvel h' i = joint_gvel h i) /\
    (v_arr (jgvel h j) = w_gvel h -> forall i, nth_error (world_gvel h') i =
       if Nat.eqb i (v_start (jgvel h j) + k) then Some v else nth_error (world_gvel h) i) /\
    (v_arr (jgvel h j) <> w_gvel h -> world_gvel h' = world_gvel h).
Proof.
  exact (fun V zero e g0 h j k v R => write_effect e h j k v (reachable_vinv zero e g0 h R)).
Qed.
Print Assumptions C15_write.

(** A second [init] changes no index and no velocity. *)
Theorem C15_init_twice : forall (V : Type) (zero : V) e g0 h fuel h1 h2, reachable zero e g0 h ->
  init zero e fuel h = (h1, Ok tt) -> init zero e fuel h1 = (h2, Ok tt) ->
  w_ndof h2 = w_ndof h1 /\ (forall j, jdof h2 j = jdof h1 j) /\ world_gvel h2 = world_gvel h1 /\
  (forall j, joint_gvel h2 j = joint_gvel h1 j).
Proof. exact (fun V zero e g0 h fuel h1 h2 R => init_twice zero e g0 h fuel h1 h2 R). Qed.
Print Assumptions C15_init_twice.

(** ** C16 *)

Theorem C16_members : forall (V : Type) (zero : V) e g0 h js, reachable zero e g0 h ->
  (forall j, In j js -> jdof h j <> None) ->
  exists d, joints_list_dof h js = Ok d /\ denote d = flat_map (range_of h) js.
Proof. exact (fun V zero e g0 h js R => joints_list_ok zero e g0 h js R). Qed.
Print Assumptions C16_members.

Theorem C16_uninitialised : forall (V : Type) (h : @heap V) js,
  (exists j, In j js /\ jdof h j = None) -> joints_list_dof h js = Err ValueError.
Proof. exact (fun V h js => init_dof_loop_err h js (DSlice 0 0)). Qed.
Print Assumptions C16_uninitialised.

(** the whole world, right after [init]: one slice *)
Theorem C16_whole_world : forall (V : Type) (zero : V) e g0 h h' fuel, reachable zero e g0 h ->
  init zero e fuel h = (h', Ok tt) -> getjoints_dof e fuel h' = Ok (DSlice 0 (w_ndof h')).
Proof. exact (fun V zero e g0 h h' fuel R => getjoints_after_init zero e g0 h h' fuel R). Qed.
Print Assumptions C16_whole_world.

Example C16_nonvacuous :
  joints_list_dof ex_heap [3; 1; 3] = Ok (DList [5; 6; 7; 0; 5; 6; 7]) /\
  joints_list_dof ex_heap [1; 4] = Ok (DSlice 0 5) /\
  joints_list_dof ex_heap [1; 8] = Err ValueError.
Proof. vm_compute. repeat split. Qed.

(** ** C17 *)

(** parse: [EInit] first, nothing twice, exactly the elements of the tree. *)
Theorem C17_parse : forall (V : Type) (zero : V) e g0 h, reachable zero e g0 h ->
  exists t, rep e h t /\ root t = ground e /\ forall fuel, height t < fuel ->
  exists evs, parse e fuel h = Ok (EInit :: evs) /\ NoDup (EInit :: evs) /\
    (forall ev, In ev evs <->
      match ev with
      | EInit => False
      | ELink f0 j f1 => In j (joints t) /\ jframes h j = Some (f0, f1)
      | ERegFrame f => In (frame_body e f) (bodies t) /\ known h f
      | ERegShape s => In s (w_shapes h) /\ In (frame_body e (shape_frame e s)) (bodies t)
      | ERegConstraint c => In c (w_constraints h)
      | ERegController a => In a (w_controllers h)
      end) /\
    links_of (EInit :: evs) = joints t /\
    forall a ev b, EInit :: evs = a ++ ev :: b ->
      match ev with
      | ELink f0 _ _ => In (ERegFrame f0) a
      | ERegShape s => In (ERegFrame (shape_frame e s)) a
      | ERegFrame (FBody c) => c = ground e \/ exists f0 j f1, In (ELink f0 j f1) a /\ frame_body e f1 = c
      | ERegFrame f => In (ERegFrame (FBody (frame_body e f))) a
      | _ => True
      end.
Proof. exact (fun V zero e g0 h R => parse_all zero e g0 h R). Qed.
Print Assumptions C17_parse.

Example C17_nonvacuous : parse ex_env 10 ex_heap =
  Ok [EInit; ERegFrame (FBody 0); ELink (FBody 0) 1 (FBody 1); ERegFrame (FBody 1); ERegFrame (FSub 7);
      ERegShape 1; ELink (FSub 7) 4 (FBody 2); ERegFrame (FBody 2); ERegFrame (FMov 0); ERegFrame (FMov 1);
      ELink (FBody 0) 3 (FBody 3); ERegFrame (FBody 3); ERegConstraint 0].
Proof. vm_compute. reflexivity. Qed.
