(** Specification vocabulary for the generated matlab robots: how arboris-matlab reads the assignments, and what it is for them to describe a robot. *)
From Verif Require Export Model_Matlab Spec_World Spec_Dyn.
Open Scope R_scope.

(** the assignments that describe a body, and the branches *)
Definition is_body (l : mline) : bool := match l with MBody _ _ _ _ _ _ _ _ => true | _ => false end.
Definition body_lines (ls : list mline) : list mline := filter is_body ls.
Definition branch_lines (ls : list mline) : list (nat * (nat * nat)) := flat_map (fun l => match l with MBranch br p => [(br, p)] | _ => [] end) ls.
(** the body on which body [i] = (branch, rank) is mounted: the previous one of its branch, or, for the first one, the root of its branch; (0, 0) is the ground *)
Definition mounted (ls : list mline) (i p : nat * nat) : Prop :=
  (1 < snd i /\ p = (fst i, snd i - 1))%nat \/ (snd i = 1%nat /\ In (fst i, p) (branch_lines ls)).
(** in the order of the branches, and of the bodies in a branch, without hole *)
Definition next_index (i j : nat * nat) : Prop := j = (fst i, S (snd i)) \/ j = (S (fst i), 1%nat).
Fixpoint consecutive (l : list (nat * nat)) : Prop :=
  match l with i :: ((j :: _) as l') => next_index i j /\ consecutive l' | _ => True end.

(** matlab twists: the linear part first *)
Definition swap (v : v6) : v6 := V6 (lin v) (ang v).
Definition row6 (v : v6) : list R := [vx (ang v); vy (ang v); vz (ang v); vx (lin v); vy (lin v); vz (lin v)].
(** the order of the velocities of a joint: that of a free joint has the linear part first *)
Definition dof_order (s : jstate) : list nat := match jt s with FreeJoint => [3; 4; 5; 0; 1; 2]%nat | _ => seq 0 (ndof_of (jt s)) end.
(** the rows of the matrix of a joint: its jacobian, column by column *)
Definition axes (s : jstate) : list (list R) := map (fun c => row6 (swap (jacobian s c))) (dof_order s).
(** the same inertia, for matlab twists *)
Definition same_inertia (M M' : m6) : Prop := forall v w, dot6 (swap v) (mv6 M' (swap w)) = dot6 v (mv6 M w).

Section S.
  Variables (e : env) (sc : scene) (h : @heap R) (J : nat -> jstate) (nm : obj -> option string).
  (** the assignment describes joint [j] and its body, at its index *)
  Definition describes (num : nat -> nat * nat) (l : mline) (j : nat) : Prop :=
    exists f0 f1 M', jframes h j = Some (f0, f1) /\ same_inertia (b_mass sc (frame_body e f1)) M' /\
      l = MBody (fst (num (frame_body e f1))) (snd (num (frame_body e f1))) (nm (OJoint j)) (nm (OFrame (FBody (frame_body e f1))))
            (axes (J j)) (bpose sc f0) (bpose sc f1) M'.
  (** a robot: the tree [t] of bodies carried by the joint [root] *)
  Definition robot (root : nat) (t : tree) : Prop :=
    rep e h t /\ NoDup (bodies t) /\ exists f0 f1, jframes h root = Some (f0, f1) /\ frame_body e f1 = Spec_Tree.root t.
End S.
(** one of the hinges that arboris-matlab knows *)
Definition hinge (k : jtype) : Prop := In k [RxJoint; RyJoint; RzJoint].

(** the assignment of a shape: its type, its dimensions (the whole lengths of a box; a point is a small sphere) *)
Definition shape_words (s : geom) (ty : string) (dims : list R) : Prop :=
  match s with
  | Point => ty = "sphere"%string /\ dims = [1 / 100]
  | Sphere r => ty = "sphere"%string /\ dims = [r]
  | Box he => ty = "parallelepiped"%string /\ dims = [2 * vx he; 2 * vy he; 2 * vz he]
  | Cylinder len r => ty = "cylinder"%string /\ dims = [r; len]
  | Plane _ _ => False
  end.
Definition is_shape (l : mline) : bool := match l with MShape _ _ _ _ _ _ => true | _ => false end.
Definition shape_lines (ls : list mline) : list mline := filter is_shape ls.
(** the assignment describes the shape after the shapes [before] have been described *)
Definition shows (e : env) (sc : scene) (geo : nat -> geom) (num : nat -> nat * nat) (before : list nat) (l : mline) (s : nat) : Prop :=
  exists ty dims, shape_words (geo s) ty dims /\
    let b := frame_body e (shape_frame e s) in
    l = MShape (fst (num b)) (snd (num b)) (S (length (filter (fun s' => Nat.eqb (frame_body e (shape_frame e s')) b) before))) ty dims (bpose sc (shape_frame e s)).
Fixpoint all_shown (e : env) (sc : scene) (geo : nat -> geom) (num : nat -> nat * nat) (before : list nat) (ls : list mline) (ss : list nat) : Prop :=
  match ls, ss with
  | [], [] => True
  | l :: ls', s :: ss' => shows e sc geo num before l s /\ all_shown e sc geo num (before ++ [s]) ls' ss'
  | _, _ => False
  end.
(** the bodies [sb] are told apart from the bodies [bs] by their names *)
Definition told_apart (nm : obj -> option string) (sb bs : list nat) : Prop :=
  forall b b', In b sb -> In b' bs -> nm (OFrame (FBody b)) = nm (OFrame (FBody b')) -> b = b'.
