(** Specification vocabulary for the conversion of robots to hinges in series. *)
From Verif Require Export Model_Convert Spec_World.
Open Scope R_scope.

(** the axes of a joint made of several hinges, in the order of its position; the other joints are not made of hinges, or are one *)
Definition hinges_of (k : jtype) : list jtype :=
  match k with
  | RzRyRxJoint => [RzJoint; RyJoint; RxJoint]
  | RzRyJoint => [RzJoint; RyJoint]
  | RyRxJoint => [RyJoint; RxJoint]
  | RzRxJoint => [RzJoint; RxJoint]
  | _ => []
  end.
Definition suffix_of (k : jtype) : string := match k with RzJoint => "Rz" | RyJoint => "Ry" | _ => "Rx" end.

Section S.
  Variables (J : nat -> jstate) (nm : obj -> option string).
  (** the joints [js], from the frame [f0] to the frame [f1] through the bodies [ms] *)
  Fixpoint in_series (h : @heap R) (f0 : frame) (js ms : list nat) (f1 : frame) : Prop :=
    match js, ms with
    | [j], [] => jframes h j = Some (f0, f1)
    | j :: js', m :: ms' => jframes h j = Some (f0, FBody m) /\ in_series h (FBody m) js' ms' f1
    | _, _ => False
    end.
  (** a new joint of the given kind, named after the joint [j], has been created *)
  Definition new_hinge (new : list cmd) (j : nat) (i : nat) (k : jtype) : Prop :=
    In (MkJoint i (option_map (fun s => (s ++ suffix_of k)%string) (nm (OJoint j))) k) new.
  (** a tree whose root has one kid: the bodies [ms] and the tree [s], carried by the joints [js] *)
  Fixpoint branch (js ms : list nat) (s : tree) : option (nat * tree) :=
    match js, ms with
    | [j], [] => Some (j, s)
    | j :: js', m :: ms' => option_map (fun k => (j, Node m [k])) (branch js' ms' s)
    | _, _ => None
    end.
  (** the tree [t'] of the heap [h'] is the tree [t] of [h] where each joint made of several hinges is replaced by these hinges in series,
      between the same frames, through new bodies; the other joints are kept *)
  Inductive serial (h h' : @heap R) (new : list cmd) : tree -> tree -> Prop :=
  | serial_node : forall b ks ks', Forall2 (serial_kid h h' new) ks ks' -> serial h h' new (Node b ks) (Node b ks')
  with serial_kid (h h' : @heap R) (new : list cmd) : nat * tree -> nat * tree -> Prop :=
  | serial_keep : forall j s s', hinges_of (jt (J j)) = [] -> jframes h' j = jframes h j -> serial h h' new s s' -> serial_kid h h' new (j, s) (j, s')
  | serial_split : forall j s s' js ms f0 f1 k, hinges_of (jt (J j)) <> [] -> jframes h j = Some (f0, f1) ->
      Forall2 (new_hinge new j) js (hinges_of (jt (J j))) -> Forall (fun m => In (MkBody m None mid_mass) new) ms ->
      in_series h' f0 js ms f1 -> jframes h' j = None -> serial h h' new s s' -> branch js ms s' = Some k -> serial_kid h h' new (j, s) k.
End S.
(** objects that are not used yet *)
Definition unused_body (h : @heap R) (b : nat) : Prop := childrenjoints h b = [] /\ parentjoint h b = None.
Definition unused_joint (h : @heap R) (j : nat) : Prop := jframes h j = None.
