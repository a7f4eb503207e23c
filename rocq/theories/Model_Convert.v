(** matlab/convert_py2mat.py: MatlabConverter. *)
From Verif Require Export Model_Build.
Open Scope R_scope.

(** What a conversion does to the world and to the objects: the heap, the number of bodies and of joints created so far (their identities are those of [bids]), and the objects created. *)
Record cst := CS { c_h : @heap R; c_nb : nat; c_nj : nat; c_new : list cmd }.

(** the hinges that replace a joint, and the suffixes of their names, convert_py2mat.py:131-158; the other joints are left as they are (127-130, and no else) *)
Definition conv_plan (k : jtype) : list (jtype * string) :=
  match k with
  | RzRyRxJoint => [(RzJoint, "Rz"%string); (RyJoint, "Ry"%string); (RxJoint, "Rx"%string)]
  | RzRyJoint => [(RzJoint, "Rz"%string); (RyJoint, "Ry"%string)]
  | RyRxJoint => [(RyJoint, "Ry"%string); (RxJoint, "Rx"%string)]
  | RzRxJoint => [(RzJoint, "Rz"%string); (RxJoint, "Rx"%string)]
  | _ => []
  end.
(** [mass()], convert_py2mat.py:124-126, with base_mass = 1.0e4 (53) *)
Definition mid_mass : m6 := M6 (M3 10000 0 0 0 10000 0 0 0 10000) zerom3 zerom3 (M3 1000 0 0 0 1000 0 0 0 1000).
(** the arguments frame0, joint, body, body, joint, ... , frame1 *)
Fixpoint chain_args (f0 : frame) (js ms : list nat) (f1 : frame) : list obj :=
  match js, ms with
  | j :: js', m :: ms' => OFrame f0 :: OJoint j :: OFrame (FBody m) :: chain_args (FBody m) js' ms' f1
  | j :: _, [] => [OFrame f0; OJoint j; OFrame f1]
  | [], _ => []
  end.

Section C.
  Variables (e : env) (eigvals : m6 -> list R) (J : nat -> jstate) (nm : obj -> option string) (I : bids) (xc : nat -> nat) (fuel : nat).

  (** [convert_nonroot_joint], convert_py2mat.py:110-158.  The masses are checked by Body(), core.py:1190; the order in which the objects are created is not modelled. *)
  Definition conv_joint (j : nat) (st : cst) : cst * res unit :=
    match jframes (c_h st) j with
    | None => (st, Err AttributeError)
    | Some (f0, f1) =>
        if Nat.eqb (frame_body e f0) (ground e) then (st, Err AssertionError) else
        match conv_plan (jt (J j)) with
        | [] => (st, Ok tt)
        | plan =>
            let n := length plan in
            let js := map (xj I) (seq (c_nj st) n) in
            let ms := map (xb I) (seq (c_nb st) (n - 1)) in
            let new := map (fun x => MkJoint (fst x) (option_map (fun s => (s ++ snd (snd x))%string) (nm (OJoint j))) (fst (snd x))) (combine js plan) ++ map (fun m => MkBody m None mid_mass) ms in
            if negb (ismassmatrix eigvals mid_mass true) then (st, Err AssertionError) else
            match replace_joint 0 e fuel (OJoint j) (chain_args f0 js ms f1) (c_h st) with
            | (h1, r) => (CS h1 (c_nb st + (n - 1)) (c_nj st + n) (c_new st ++ new), r)
            end
        end
    end.

  (** [_traverse], convert_py2mat.py:98-108.  The list that is iterated is that of the body, which replace_joint changes: the index goes on over the new list.
      Its length does not change (C11). *)
  Fixpoint conv_traverse (n b : nat) (st : cst) {struct n} : cst * res unit :=
    match n with
    | O => (st, Err RecursionError)
    | S n' =>
        (fix loop (m idx : nat) (st : cst) {struct m} : cst * res unit :=
           match m with
           | O => (st, Ok tt)
           | S m' =>
               match nth_error (childrenjoints (c_h st) b) idx with
               | None => (st, Ok tt)
               | Some j =>
                   match child_body e (c_h st) j with
                   | Err x => (st, Err x)
                   | Ok c =>
                       match conv_joint j st with
                       | (st1, Err x) => (st1, Err x)
                       | (st1, Ok _) =>
                           match conv_traverse n' c st1 with
                           | (st2, Err x) => (st2, Err x)
                           | (st2, Ok _) => loop m' (S idx) st2
                           end
                       end
                   end
               end
           end) (length (childrenjoints (c_h st) b)) O st
    end.

  (** the ground, the four spheres and their contacts, convert_py2mat.py:80-91, with contact_radius = 0.05 and base_lengths = [0.25, 0.1, 0.05] (54-55).
      The contacts are xc 0 .. xc 3. *)
  Definition corner (base k : nat) (i j : R) : list cmd :=
    [MkSub (xs I k) base None (transl (i * (25 / 100) / 2) (- (10 / 100) / 2) (j * (5 / 100) / 2)); MkShape (xh I (S k)) None (FSub (xs I k)) (ShSphere (5 / 100));
     Reg (OShape (xh I (S k))); Reg (OConstraint (xc k))].
  Definition floor_script (base : nat) : list cmd :=
    [MkShape (xh I 0) None (FBody (ground e)) (ShBox (V3 (25 / 100 / 2 + 2 * (5 / 100)) (10 / 100 / 2 + 2 * (5 / 100)) (5 / 100 / 2 + 2 * (5 / 100)))); Reg (OShape (xh I 0))] ++
    corner base 0 1 1 ++ corner base 1 1 (-1) ++ corner base 2 (-1) (-1) ++ corner base 3 (-1) 1.
  (** [convert_root_joint], convert_py2mat.py:59-91 *)
  Definition conv_root (root : nat) (st : cst) : cst * res unit :=
    match jframes (c_h st) root with
    | None => (st, Err AttributeError)
    | Some (f0, f1) =>
        if negb (Nat.eqb (frame_body e f0) (ground e)) then (st, Err AssertionError) else
        match jt (J root) with
        | FreeJoint => (st, Ok tt)
        | _ =>
            let M := box (V3 (25 / 100) (10 / 100) (5 / 100)) 10000 in
            let base := xb I (c_nb st) in
            let new := [MkBody base None M; MkJoint (xj I (c_nj st)) None FreeJoint] in
            if negb (ismassmatrix eigvals M true) then (st, Err AssertionError) else
            match replace_joint 0 e fuel (OJoint root) (chain_args f0 [xj I (c_nj st); root] [base] f1) (c_h st) with
            | (h1, Err x) => (CS h1 (S (c_nb st)) (S (c_nj st)) (c_new st ++ new), Err x)
            | (h1, Ok _) =>
                match exec_all e eigvals fuel (floor_script base) h1 with
                | (h2, r) => (CS h2 (S (c_nb st)) (S (c_nj st)) (c_new st ++ new ++ floor_script base), r)
                end
            end
        end
    end.
  (** [convert_robot], convert_py2mat.py:93-96 *)
  Definition convert_robot (root : nat) (st : cst) : cst * res unit :=
    match child_body e (c_h st) root with
    | Err x => (st, Err x)
    | Ok c => match conv_root root st with (st1, Err x) => (st1, Err x) | (st1, Ok _) => conv_traverse fuel c st1 end
    end.
End C.
