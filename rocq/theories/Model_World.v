(** Model of the object graph of a [World]: arboris/core.py, classes [Joint],
    [Body], [JointsList] and [World] (structure, registration, init, parse). *)
From Verif Require Import Model_Base.

(** Identity of a frame object: a [Body], a [SubFrame] or a [MovingSubFrame]
    (core.py:1077-1440). *)
Inductive frame := FBody (b : nat) | FSub (s : nat) | FMov (s : nat).

Definition frame_eqb (a b : frame) : bool :=
  match a, b with
  | FBody x, FBody y => Nat.eqb x y
  | FSub x, FSub y => Nat.eqb x y
  | FMov x, FMov y => Nat.eqb x y
  | _, _ => false
  end.
Definition frame_eq_dec (a b : frame) : {a = b} + {a <> b}.
Proof. decide equality; apply Nat.eq_dec. Defined.

(** Anything that can be passed to [register]/[add_link]. *)
Inductive obj :=
| OFrame (f : frame) | OJoint (j : nat) | OShape (s : nat)
| OConstraint (c : nat) | OController (a : nat) | OOther.

(** Attributes fixed when the objects are constructed. *)
Record env := Env {
  ground : nat;                    (* World.ground, core.py:413 *)
  sub_body : nat -> nat;           (* _SubFrame._body, core.py:1077-1122 *)
  mov_body : nat -> nat;           (* MovingSubFrame._body *)
  shape_frame : nat -> frame;      (* Shape.frame, core.py:382-388 *)
  con_children : nat -> list frame;(* Constraint._child_obj_to_reg: the moving frames
                                      of a PointContact (constraints.py, _child_obj_to_reg), else [] *)
  jndof : nat -> nat               (* Joint.ndof, joints.py *)
}.

(** [frame.body]: core.py:1152-1154 (_SubFrame), Body.body. *)
Definition frame_body (e : env) (f : frame) : nat :=
  match f with FBody b => b | FSub s => sub_body e s | FMov s => mov_body e s end.

(** numpy storage: a joint initially owns its [gvel] array, the world allocates
    one array per call to [init]. *)
Inductive aid := AJoint (j : nat) | AWorld (k : nat).
Definition aid_eqb (a b : aid) : bool :=
  match a, b with
  | AJoint x, AJoint y => Nat.eqb x y
  | AWorld x, AWorld y => Nat.eqb x y
  | _, _ => false
  end.
Record view := View { v_arr : aid; v_start : nat; v_len : nat }.

Section World.
  Context {V : Type} (zero : V).

  Record heap := Heap {
    parentjoint : nat -> option nat;             (* Body.parentjoint *)
    childrenjoints : nat -> list nat;            (* Body.childrenjoints *)
    jframes : nat -> option (frame * frame);     (* Joint._frame0, _frame1 *)
    jdof : nat -> option (nat * nat);            (* Joint._dof: slice(start, stop) *)
    w_subframes : list frame;                    (* World._subframes *)
    w_shapes : list nat;                         (* World._shapes *)
    w_constraints : list nat;                    (* World._constraints *)
    w_controllers : list nat;                    (* World._controllers *)
    w_ndof : nat;                                (* World._ndof *)
    arr : aid -> list V;                         (* contents of the arrays *)
    jgvel : nat -> view;                         (* Joint.gvel *)
    w_gvel : aid;                                (* World._gvel *)
    next_arr : nat                               (* allocation counter *)
  }.

  Definition set_parent h b v := {| parentjoint := upd (parentjoint h) b v;
    childrenjoints := childrenjoints h; jframes := jframes h; jdof := jdof h;
    w_subframes := w_subframes h; w_shapes := w_shapes h; w_constraints := w_constraints h;
    w_controllers := w_controllers h; w_ndof := w_ndof h; arr := arr h; jgvel := jgvel h;
    w_gvel := w_gvel h; next_arr := next_arr h |}.
  Definition set_children h b v := {| parentjoint := parentjoint h;
    childrenjoints := upd (childrenjoints h) b v; jframes := jframes h; jdof := jdof h;
    w_subframes := w_subframes h; w_shapes := w_shapes h; w_constraints := w_constraints h;
    w_controllers := w_controllers h; w_ndof := w_ndof h; arr := arr h; jgvel := jgvel h;
    w_gvel := w_gvel h; next_arr := next_arr h |}.
  (** core.py:209-211 [Joint.set_frames] *)
  Definition set_frames h j v := {| parentjoint := parentjoint h;
    childrenjoints := childrenjoints h; jframes := upd (jframes h) j v; jdof := jdof h;
    w_subframes := w_subframes h; w_shapes := w_shapes h; w_constraints := w_constraints h;
    w_controllers := w_controllers h; w_ndof := w_ndof h; arr := arr h; jgvel := jgvel h;
    w_gvel := w_gvel h; next_arr := next_arr h |}.
  Definition set_registered h sf sh co ct := {| parentjoint := parentjoint h;
    childrenjoints := childrenjoints h; jframes := jframes h; jdof := jdof h;
    w_subframes := sf; w_shapes := sh; w_constraints := co;
    w_controllers := ct; w_ndof := w_ndof h; arr := arr h; jgvel := jgvel h;
    w_gvel := w_gvel h; next_arr := next_arr h |}.
  Definition set_dofs h d n a g w k := {| parentjoint := parentjoint h;
    childrenjoints := childrenjoints h; jframes := jframes h; jdof := d;
    w_subframes := w_subframes h; w_shapes := w_shapes h; w_constraints := w_constraints h;
    w_controllers := w_controllers h; w_ndof := n; arr := a; jgvel := g;
    w_gvel := w; next_arr := k |}.

  (** Fresh objects: core.py:200-207 (Joint), 411-427 (World), 1175-1196 (Body).
      A joint owns an array of length [ndof] (joints.py:36-42, core.py:277-286)
      holding its initial velocity. *)
  Definition fresh (e : env) (g0 : nat -> nat -> V) : heap := {|
    parentjoint := fun _ => None; childrenjoints := fun _ => [];
    jframes := fun _ => None; jdof := fun _ => None;
    w_subframes := []; w_shapes := []; w_constraints := []; w_controllers := [];
    w_ndof := 0;
    arr := fun a => match a with AJoint j => map (g0 j) (seq 0 (jndof e j)) | AWorld _ => [] end;
    jgvel := fun j => View (AJoint j) 0 (jndof e j);
    w_gvel := AWorld 0; next_arr := 1 |}.

  (** *** register, core.py:586-631 *)

  (** [if not obj in l: l.append(obj)] *)
  Definition add_once {A} (eqb : A -> A -> bool) (x : A) (l : list A) : list A :=
    if existsb (eqb x) l then l else l ++ [x].

  (** register of a frame: bodies are ignored (609-610), subframes stored once (614-616) *)
  Definition register_frame (f : frame) (h : heap) : heap :=
    match f with
    | FBody _ => h
    | _ => set_registered h (add_once frame_eqb f (w_subframes h)) (w_shapes h)
             (w_constraints h) (w_controllers h)
    end.

  Definition register (e : env) (o : obj) (h : heap) : heap * res unit :=
    match o with
    | OFrame f => (register_frame f h, Ok tt)
    | OJoint _ => (h, Err ValueError)                                   (* 611-613 *)
    | OShape s =>                                                       (* 617-620 *)
        let h1 := set_registered h (w_subframes h) (add_once Nat.eqb s (w_shapes h))
                    (w_constraints h) (w_controllers h) in
        (register_frame (shape_frame e s) h1, Ok tt)
    | OConstraint c =>                                                  (* 621-625 *)
        if existsb (Nat.eqb c) (w_constraints h) then (h, Ok tt)
        else
          let h1 := set_registered h (w_subframes h) (w_shapes h)
                      (w_constraints h ++ [c]) (w_controllers h) in
          (fold_left (fun acc f => register_frame f acc) (con_children e c) h1, Ok tt)
    | OController a =>                                                  (* 626-628 *)
        (set_registered h (w_subframes h) (w_shapes h) (w_constraints h)
           (add_once Nat.eqb a (w_controllers h)), Ok tt)
    | OOther => (h, Err ValueError)                                     (* 629-631 *)
    end.

  (** *** add_link, core.py:507-540.  [args] is the whole positional argument list. *)
  Fixpoint add_link (e : env) (args : list obj) (h : heap) {struct args} : heap * res unit :=
    match args with
    | a0 :: aj :: a1 :: rest =>
        match a0, a1, aj with
        | OFrame f0, OFrame f1, OJoint j =>                             (* 523-525 *)
            match jframes h j with
            | Some _ => (h, Err AssertionError)                         (* 526-527 *)
            | None =>
                if Nat.eqb (length rest mod 3) 0 then                   (* 528 *)
                  let h1 := set_frames h j (Some (f0, f1)) in           (* 529 *)
                  let c := frame_body e f1 in
                  match parentjoint h1 c with
                  | None =>
                      let h2 := set_parent h1 c (Some j) in             (* 531 *)
                      let p := frame_body e f0 in
                      let h3 := set_children h2 p (childrenjoints h2 p ++ [j]) in (* 536 *)
                      let h4 := register_frame f0 h3 in                 (* 537 *)
                      let h5 := register_frame f1 h4 in                 (* 538 *)
                      match rest with
                      | [] => (h5, Ok tt)
                      | _ => add_link e rest h5                         (* 539-540 *)
                      end
                  | Some _ => (h1, Err ValueError)                      (* 533-535 *)
                  end
                else (h, Err AssertionError)
            end
        | _, _, _ => (h, Err AssertionError)
        end
    | _ => (h, Err TypeError)      (* missing positional arguments *)
    end.

  (** *** Iterators, core.py:1198-1226.  [fuel] is the recursion budget. *)

  (** [j.frame1.body]; AttributeError when the joint is not attached *)
  Definition child_body (e : env) (h : heap) (j : nat) : res nat :=
    match jframes h j with
    | Some (_, f1) => Ok (frame_body e f1)
    | None => Err AttributeError
    end.
  Definition parent_body (e : env) (h : heap) (j : nat) : res nat :=
    match jframes h j with
    | Some (f0, _) => Ok (frame_body e f0)
    | None => Err AttributeError
    end.

  (** core.py:1198-1203; the list comprehension runs before any yield *)
  Fixpoint iter_descendant_bodies (e : env) (fuel : nat) (h : heap) (b : nat)
    : res (list nat) :=
    match fuel with
    | O => Err RecursionError
    | S n =>
        let* bs := rmapM (child_body e h) (childrenjoints h b) in
        rconcat (fun c => let* l := iter_descendant_bodies e n h c in Ok (c :: l)) bs
    end.

  (** core.py:1212-1217 *)
  Fixpoint iter_descendant_joints (e : env) (fuel : nat) (h : heap) (b : nat)
    : res (list nat) :=
    match fuel with
    | O => Err RecursionError
    | S n =>
        rconcat (fun j =>
          let* c := child_body e h j in
          let* l := iter_descendant_joints e n h c in Ok (j :: l)) (childrenjoints h b)
    end.

  (** core.py:1205-1210 *)
  Fixpoint iter_ancestor_bodies (e : env) (fuel : nat) (h : heap) (b : nat)
    : res (list nat) :=
    match fuel with
    | O => Err RecursionError
    | S n =>
        match parentjoint h b with
        | None => Ok []
        | Some j =>
            let* p := parent_body e h j in
            let* l := iter_ancestor_bodies e n h p in Ok (p :: l)
        end
    end.

  (** core.py:1219-1224 *)
  Fixpoint iter_ancestor_joints (e : env) (fuel : nat) (h : heap) (b : nat)
    : res (list nat) :=
    match fuel with
    | O => Err RecursionError
    | S n =>
        match parentjoint h b with
        | None => Ok []
        | Some j =>
            let* p := parent_body e h j in
            let* l := iter_ancestor_joints e n h p in Ok (j :: l)
        end
    end.

  (** core.py:429-433 [World.iterbodies], 485-488 [World.iterjoints] *)
  Definition iterbodies e fuel h : res (list nat) :=
    let* l := iter_descendant_bodies e fuel h (ground e) in Ok (ground e :: l).
  Definition iterjoints e fuel h : res (list nat) :=
    iter_descendant_joints e fuel h (ground e).

  (** *** init, core.py:684-709 *)

  (** reading and writing numpy views *)
  Definition read (a : aid -> list V) (v : view) : list V :=
    firstn (v_len v) (skipn (v_start v) (a (v_arr v))).
  Definition upd_arr (a : aid -> list V) (k : aid) (l : list V) : aid -> list V :=
    fun x => if aid_eqb x k then l else a x.
  (** [x[start:start+len(l)] = l] *)
  Definition splice (x : list V) (start : nat) (l : list V) : list V :=
    firstn start x ++ l ++ skipn (start + length l) x.

  (** core.py:686-690: consecutive slices in iteration order *)
  Fixpoint assign_dofs (e : env) (js : list nat) (n : nat) (d : nat -> option (nat * nat))
    : nat * (nat -> option (nat * nat)) :=
    match js with
    | [] => (n, d)
    | j :: js' => assign_dofs e js' (n + jndof e j) (upd d j (Some (n, n + jndof e j)))
    end.

  (** core.py:701-703: [self._gvel[j.dof] = j.gvel[:]; j.gvel = self._gvel[j.dof]].
      A length mismatch is a numpy broadcasting error (ValueError; broadcasting of
      length-1 arrays is not modelled). *)
  Fixpoint copy_gvels (d : nat -> option (nat * nat)) (w : aid) (js : list nat)
    (a : aid -> list V) (g : nat -> view) : res ((aid -> list V) * (nat -> view)) :=
    match js with
    | [] => Ok (a, g)
    | j :: js' =>
        match d j with
        | None => Err ValueError                                  (* Joint.dof, 219-230 *)
        | Some (s, t) =>
            let x := read a (g j) in
            if Nat.eqb (length x) (t - s) then
              copy_gvels d w js' (upd_arr a w (splice (a w) s x))
                         (upd g j (View w s (t - s)))
            else Err ValueError
        end
    end.

  (** [World.init]; the (wiped) model matrices and the [init] hooks of constraints and
      controllers are modelled elsewhere; effects of an [init] that raises are not. *)
  Definition init (e : env) (fuel : nat) (h : heap) : heap * res unit :=
    match iterjoints e fuel h with
    | Err x => (h, Err x)
    | Ok js =>
        let (n, d) := assign_dofs e js 0 (jdof h) in
        let w := AWorld (next_arr h) in
        let a0 := upd_arr (arr h) w (repeat zero n) in            (* 700 *)
        match copy_gvels d w js a0 (jgvel h) with
        | Err x => (h, Err x)
        | Ok (a, g) => (set_dofs h d n a g w (S (next_arr h)), Ok tt)
        end
    end.

  (** [World.gvel] (a copy), core.py:736-738; and the user statement [j.gvel[k] = v]. *)
  Definition world_gvel (h : heap) : list V := arr h (w_gvel h).
  Definition joint_gvel (h : heap) (j : nat) : list V := read (arr h) (jgvel h j).
  Definition write_gvel (j k : nat) (v : V) (h : heap) : heap * res unit :=
    let w := jgvel h j in
    if Nat.ltb k (length (joint_gvel h j)) then
      (set_dofs h (jdof h) (w_ndof h)
         (upd_arr (arr h) (v_arr w) (splice (arr h (v_arr w)) (v_start w + k) [v]))
         (jgvel h) (w_gvel h) (next_arr h), Ok tt)
    else (h, Err IndexError).

  (** *** replace_joint, core.py:542-584 *)
  Fixpoint list_index (j : nat) (l : list nat) : option nat :=
    match l with
    | [] => None
    | x :: l' => if Nat.eqb x j then Some 0 else option_map S (list_index j l')
    end.
  (** [l[i] = l.pop()] *)
  Definition assign_pop (i : nat) (l : list nat) : list nat :=
    let x := last l 0 in
    let l' := removelast l in
    firstn i l' ++ x :: skipn (S i) l'.

  (** the [len(args) % 3 == 0] branch, 570-584 *)
  Definition replace_chain (e : env) (fuel : nat) (old : nat) (args : list obj) (h : heap)
    : heap * res unit :=
    match jframes h old, hd OOther args, last args OOther with
    | Some (g0, g1), OFrame f0, OFrame f1 =>
        let body0 := frame_body e f0 in
        let body1 := frame_body e f1 in
        if Nat.eqb (frame_body e g0) body0 && Nat.eqb (frame_body e g1) body1 then
          let h1 := set_parent h body1 None in                          (* 576 *)
          let h2 := set_frames h1 old None in                           (* 577 *)
          match add_link e args h2 with                                 (* 578 *)
          | (h3, Err x) => (h3, Err x)
          | (h3, Ok _) =>
              match list_index old (childrenjoints h3 body0) with       (* 582 *)
              | None => (h3, Err ValueError)
              | Some i =>
                  init e fuel (set_children h3 body0
                                 (assign_pop i (childrenjoints h3 body0))) (* 583-584 *)
              end
          end
        else (h, Err AssertionError)                                    (* 574-575 *)
    | _, _, _ => (h, Err AttributeError)
    end.

  Definition replace_joint (e : env) (fuel : nat) (oj : obj) (args : list obj) (h : heap)
    : heap * res unit :=
    match oj with
    | OJoint old =>
        match jframes h old with
        | None => (h, Err AttributeError)       (* None.body, line 559 *)
        | Some (g0, g1) =>
            if existsb (Nat.eqb old) (childrenjoints h (frame_body e g0)) &&
               match parentjoint h (frame_body e g1) with
               | Some j => Nat.eqb j old | None => false end then       (* 559-560 *)
              match args with
              | [new] => replace_chain e fuel old [OFrame g0; new; OFrame g1] h  (* 561-565 *)
              | [] => (h, Err RuntimeError)                             (* 567 *)
              | _ => if Nat.eqb (length args mod 3) 0
                     then replace_chain e fuel old args h
                     else (h, Err RuntimeError)                         (* 568-570 *)
              end
            else (h, Err AssertionError)
        end
    | _ => (h, Err AssertionError)
    end.

  (** *** Histories of API calls *)
  Inductive op :=
  | AddLink (f0 : frame) (j : nat) (f1 : frame)
  | ReplaceJoint (old : nat) (args : list obj)
  | Register (o : obj)
  | Init
  | WriteGvel (j k : nat) (v : V).

  Definition step (e : env) (fuel : nat) (h : heap) (o : op) : heap * res unit :=
    match o with
    | AddLink f0 j f1 => add_link e [OFrame f0; OJoint j; OFrame f1] h
    | ReplaceJoint old args => replace_joint e fuel (OJoint old) args h
    | Register o => register e o h
    | Init => init e fuel h
    | WriteGvel j k v => write_gvel j k v h
    end.

  (** *** JointsList, core.py:293-317 *)
  Inductive dofidx := DSlice (start stop : nat) | DList (l : list nat).

  Fixpoint init_dof_loop (h : heap) (js : list nat) (d : dofidx) : res dofidx :=
    match js with
    | [] => Ok d
    | j :: js' =>
        match jdof h j with
        | None => Err ValueError
        | Some (s, t) =>
            match d with
            | DSlice a b =>
                if Nat.eqb b s then init_dof_loop h js' (DSlice a t)           (* 304-307 *)
                else init_dof_loop h js' (DList (seq a (b - a) ++ seq s (t - s))) (* 309-311 *)
            | DList l => init_dof_loop h js' (DList (l ++ seq s (t - s)))      (* 313 *)
            end
        end
    end.
  Definition joints_list_dof (h : heap) (js : list nat) : res dofidx :=
    init_dof_loop h js (DSlice 0 0).
  (** core.py:490-505 [World.getjoints] *)
  Definition getjoints_dof (e : env) (fuel : nat) (h : heap) : res dofidx :=
    let* js := iterjoints e fuel h in joints_list_dof h js.

  (** *** parse, core.py:633-682, as the sequence of calls made on [target] *)
  Inductive event :=
  | EInit
  | ELink (f0 : frame) (j : nat) (f1 : frame)
  | ERegFrame (f : frame)
  | ERegShape (s : nat)
  | ERegConstraint (c : nat)
  | ERegController (a : nat).

  Definition mem_frame (f : frame) (l : list frame) := existsb (frame_eqb f) l.

  (** [_register_frame_and_children] on a subframe (645-659) *)
  Definition reg_subframe (e : env) (h : heap) (f : frame) (registered : list frame)
    : list frame * list event :=
    if mem_frame f registered then (registered, [])
    else (f :: registered,
          ERegFrame f ::
          map ERegShape (filter (fun s => frame_eqb f (shape_frame e s)) (w_shapes h))).

  (** the loop over [self._subframes] for body [b] (653-656) *)
  Fixpoint reg_subframes (e : env) (h : heap) (b : nat) (l : list frame)
    (registered : list frame) : list frame * list event :=
    match l with
    | [] => (registered, [])
    | f :: l' =>
        if negb (mem_frame f registered) && Nat.eqb b (frame_body e f) then
          let (r1, e1) := reg_subframe e h f registered in
          let (r2, e2) := reg_subframes e h b l' r1 in (r2, e1 ++ e2)
        else reg_subframes e h b l' registered
    end.

  (** [_register_frame_and_children] on a body *)
  Definition reg_body (e : env) (h : heap) (b : nat) (registered : list frame)
    : list frame * list event :=
    if mem_frame (FBody b) registered then (registered, [])
    else
      let (r, ev) := reg_subframes e h b (w_subframes h) (FBody b :: registered) in
      (r, ERegFrame (FBody b) :: ev ++
          map ERegShape (filter (fun s => frame_eqb (FBody b) (shape_frame e s)) (w_shapes h))).

  (** [_recurse_over_joints] (669-674), on the children of body [b] *)
  Fixpoint parse_joints (e : env) (fuel : nat) (h : heap) (b : nat)
    (registered : list frame) {struct fuel} : res (list frame * list event) :=
    match fuel with
    | O => Err RecursionError
    | S n =>
        (fix loop (js : list nat) (registered : list frame) : res (list frame * list event) :=
           match js with
           | [] => Ok (registered, [])
           | j :: js' =>
               match jframes h j with
               | None => Err AttributeError
               | Some (f0, f1) =>
                   let c := frame_body e f1 in
                   let (r1, e1) := reg_body e h c registered in
                   let* (r2, e2) := parse_joints e n h c r1 in
                   let* (r3, e3) := loop js' r2 in
                   Ok (r3, ELink f0 j f1 :: e1 ++ e2 ++ e3)
               end
           end) (childrenjoints h b) registered
    end.

  Definition parse (e : env) (fuel : nat) (h : heap) : res (list event) :=
    let (r0, e0) := reg_body e h (ground e) [] in
    let* (r1, e1) := parse_joints e fuel h (ground e) r0 in
    Ok (EInit :: e0 ++ e1 ++ map ERegConstraint (w_constraints h)
              ++ map ERegController (w_controllers h)).
End World.
