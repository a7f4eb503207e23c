(** matlab/convert_py2mat.py: MatlabRobotGenerator and MatlabSimulationGenerator.  The text written in the stream is the sequence
    of its assignments; the layout of the text, the comments and the rounding of the numbers (a2s: 14 digits, format: 12) are not modelled. *)
From Verif Require Export Model_Coll Model_Dyn.
Open Scope R_scope.

(** What is written: the pieces of text of convert_py2mat.py:205-229 (MHead), 287-293 (MTree), 297-306 (MState), 313-317 (MBranch),
    348-368 (MBody), 397-404 (MShape), 408-414 (MNoShape) and 280-281 (MMad).  [E] is the matrix before its transposition. *)
Inductive mline :=
  | MHead (dt t_end t_start : R) (gravity : list R) (rname sname : string)
  | MTree (name : string)
  | MBranch (br : nat) (root_jk : nat * nat)
  | MBody (br bd : nat) (jname bname : option string) (E : list (list R)) (H_0_0L1 H_1_1L0 : m4) (M : m6)
  | MShape (br bd num : nat) (type : string) (dims : list R) (H : m4)
  | MNoShape
  | MState (H0 : m4) (q T : list R)
  | MMad.

(** [_flip], convert_py2mat.py:437-446 *)
Definition flip (M : m6) : m6 := M6 (ll M) (la M) (al M) (aa M).

(** [E] of a joint, convert_py2mat.py:332-347.  GenerationError is a RuntimeError. *)
Definition unit_row (i : nat) : list R := map (fun k => if Nat.eqb k i then 1 else 0) (seq 0 6).
Definition gen_axis (k : jtype) (br bd : nat) : res (list (list R)) :=
  match k with
  | RxJoint => Ok [[0; 0; 0; 1; 0; 0]]
  | RyJoint => Ok [[0; 0; 0; 0; 1; 0]]
  | RzJoint => Ok [[0; 0; 0; 0; 0; 1]]
  | FreeJoint => if Nat.eqb br 1 && Nat.eqb bd 1 then Ok (map unit_row (seq 0 6)) else Err RuntimeError
  | _ => Err RuntimeError
  end.

(** A MatlabRobotGenerator, convert_py2mat.py:261-265: [_b_map], a dict from body names to indices (the first item that has the key is the last one set),
    and [_gpos], [_gvel], which always come from the same joints. *)
Record gen := Gen { g_map : list (option string * (nat * nat)); g_js : list jstate }.
Definition new_gen := Gen [] [].
Definition name_eqb (a b : option string) : bool :=
  match a, b with Some x, Some y => String.eqb x y | None, None => true | _, _ => false end.
Fixpoint lookup (n : option string) (m : list (option string * (nat * nat))) : option (nat * nat) :=
  match m with [] => None | (k, v) :: m' => if name_eqb n k then Some v else lookup n m' end.
(** [gpos] and [gvel] arrays of a joint; that of a FreeJoint position is a matrix and is not asked here *)
Definition qlist (s : jstate) : list R := map (gpos s) (seq 0 (ndof_of (jt s))).
Definition vlist (s : jstate) : list R := map (gvel s) (seq 0 (ndof_of (jt s))).

Section G.
  Variables (e : env) (sc : scene) (h : @heap R) (J : nat -> jstate) (nm : obj -> option string) (geo : nat -> geom).
  Definition body_name (b : nat) : option string := nm (OFrame (FBody b)).

  (** [_add_link], convert_py2mat.py:321-368; the result is the child body *)
  Definition gen_link (j br bd : nat) (g : gen) : gen * list mline * res nat :=
    match jframes h j with
    | None => (g, [], Err AttributeError)
    | Some (f0, f1) =>
        let b := frame_body e f1 in
        let g1 := Gen ((body_name b, (br, bd)) :: g_map g) (g_js g) in
        match gen_axis (jt (J j)) br bd with
        | Err x => (g1, [], Err x)
        | Ok E => (g1, [MBody br bd (nm (OJoint j)) (body_name b) E (bpose sc f0) (bpose sc f1) (flip (b_mass sc b))], Ok b)
        end
    end.

  (** [_traverse], convert_py2mat.py:416-435; [fuel] is the recursion budget *)
  Fixpoint gen_traverse (fuel : nat) (js : list nat) (br bd : nat) (g : gen) {struct fuel} : gen * list mline * res nat :=
    match fuel with
    | O => (g, [], Err RecursionError)
    | S n =>
        let parent := (br, bd - 1)%nat in
        (* lines 424-426 and 430-433: the link, then what is below *)
        let one (j br bd : nat) (g : gen) : gen * list mline * res nat :=
          match gen_link j br bd g with
          | (g1, l1, Err x) => (g1, l1, Err x)
          | (g1, l1, Ok c) =>
              match gen_traverse n (childrenjoints h c) br (S bd) (Gen (g_map g1) (g_js g1 ++ [J j])) with
              | (g2, l2, r) => (g2, l1 ++ l2, r)
              end
          end in
        match js with
        | [] => (g, [], Ok br)
        | j :: js' =>
            match one j br bd g with
            | (g1, l1, Err x) => (g1, l1, Err x)
            | (g1, l1, Ok br1) =>
                (fix loop (js : list nat) (br : nat) (g : gen) (out : list mline) : gen * list mline * res nat :=
                   match js with
                   | [] => (g, out, Ok br)
                   | j :: js' =>
                       match one j (S br) 1%nat g with
                       | (g1, l1, Err x) => (g1, out ++ MBranch (S br) parent :: l1, Err x)
                       | (g1, l1, Ok br1) => loop js' br1 g1 (out ++ MBranch (S br) parent :: l1)
                       end
                   end) js' br1 g1 l1
            end
        end
    end.

  (** the type and the dimensions of a shape, convert_py2mat.py:380-393; a Plane, or any other shape, leaves those of the previous shape *)
  Definition shape_text (s : geom) (before : option (string * list R)) : option (string * list R) :=
    match s with
    | Point => Some ("sphere"%string, [1 / 100])
    | Sphere r => Some ("sphere"%string, [r])
    | Box he => Some ("parallelepiped"%string, [vx he * 2; vy he * 2; vz he * 2])
    | Cylinder len r => Some ("cylinder"%string, [r; len])
    | Plane _ _ => before
    end.
  (** the loop of [_add_shapes], convert_py2mat.py:371-405; [cnt] is [num_in_bd] *)
  Fixpoint gen_shapes (m : list (option string * (nat * nat))) (ss : list nat) (cnt : option string -> nat) (cur : option (string * list R))
    : list mline * res unit :=
    match ss with
    | [] => ([], Ok tt)
    | s :: ss' =>
        let n := body_name (frame_body e (shape_frame e s)) in
        match lookup n m with
        | None => ([], Err KeyError)
        | Some (br, bd) =>
            let cnt' := fun x => if name_eqb x n then S (cnt x) else cnt x in
            let cur' := shape_text (geo s) cur in
            match cur' with
            | None => ([], Err NameError)
            | Some (ty, dims) =>
                let (l, r) := gen_shapes m ss' cnt' cur' in
                (MShape br bd (cnt' n) ty dims (bpose sc (shape_frame e s)) :: l, r)
            end
        end
    end.
  (** [_add_shapes], convert_py2mat.py:371-414 *)
  Definition gen_all_shapes (m : list (option string * (nat * nat))) : list mline * res unit :=
    match gen_shapes m (w_shapes h) (fun _ => O) None with
    | (l, Err x) => (l, Err x)
    | (l, Ok _) => (l ++ (if Nat.eqb (length (w_shapes h)) 0 then [MNoShape] else []), Ok tt)
    end.

  (** [_finish], convert_py2mat.py:295-306.  numpy.hstack refuses an empty list.  The first joint is a FreeJoint. *)
  Definition gen_finish (js : list jstate) : res mline :=
    match js with
    | [] => Err IndexError
    | r :: [] => Err ValueError
    | r :: js' => Ok (MState (gposH r) (flat_map qlist js') ((skipn 3 (vlist r) ++ firstn 3 (vlist r)) ++ flat_map vlist js'))
    end.

  (** [make_robot], convert_py2mat.py:267-282 *)
  Definition make_robot (fuel root : nat) (name : string) (g : gen) : gen * list mline * res unit :=
    match jt (J root) with
    | FreeJoint =>
        let head := [MTree name; MBranch 1 (0, 0)%nat] in
        match gen_traverse fuel [root] 1 1 g with
        | (g1, l, Err x) => (g1, head ++ l ++ [MMad], Err x)
        | (g1, l, Ok _) =>
            match gen_all_shapes (g_map g1) with
            | (l2, Err x) => (g1, head ++ l ++ l2 ++ [MMad], Err x)
            | (l2, Ok _) =>
                match gen_finish (g_js g1) with
                | Err x => (g1, head ++ l ++ l2 ++ [MMad], Err x)
                | Ok s => (g1, head ++ l ++ l2 ++ [s], Ok tt)
                end
            end
        end
    | _ => (g, [], Err RuntimeError)
    end.

  (** numpy.arange on reals: the number of elements is the ceiling of (stop - start) / step *)
  Definition arange (start stop step : R) : list R :=
    map (fun k => start + INR k * step) (seq 0 (Z.to_nat (- Int_part (- ((stop - start) / step))))).
  Fixpoint all_equal (a b : list R) : bool :=
    match a, b with [], [] => true | x :: a', y :: b' => (if Req_EM_T x y then true else false) && all_equal a' b' | _, _ => false end.
  (** the test of the timeline, convert_py2mat.py:178-184.  A null step is refused by arange; comparing arrays of different lengths gives the
      bool False, which has no [all] (one element is compared to all the others). *)
  Definition check_timeline (tl : list R) : res (R * R * R) :=
    match tl with
    | t0 :: t1 :: _ =>
        let dt := t1 - t0 in
        let t_end := last tl 0 + dt in
        if Req_EM_T dt 0 then Err ValueError else
        let a := arange t0 t_end dt in
        if Nat.eqb (length a) (length tl) then
          if all_equal a tl then Ok (t0, dt, t_end - 15 / 10 * dt) else Err RuntimeError
        else if Nat.eqb (length a) 1 then Err RuntimeError else Err AttributeError
    | _ => Err IndexError
    end.
  (** the loop over the controllers, convert_py2mat.py:192-200: [ctl a] is the gravity of a WeightController, None for the others *)
  Fixpoint gen_gravity (ctl : nat -> option R) (cs : list nat) (gravity : R) : res R :=
    match cs with
    | [] => Ok gravity
    | a :: cs' =>
        match ctl a with
        | None => Err RuntimeError
        | Some g => if Req_EM_T gravity 0 then gen_gravity ctl cs' g else Err RuntimeError
        end
    end.
  (** [generate_simulation], convert_py2mat.py:175-233; [up] is World.up *)
  Definition generate_simulation (ctl : nat -> option R) (up : v3) (fuel : nat) (tl : list R) (sname : string) : list mline * res unit :=
    match check_timeline tl with
    | Err x => ([], Err x)
    | Ok (t0, dt, t_end) =>
        match childrenjoints h (ground e) with
        | [root] =>
            match w_constraints h with
            | [] =>
                match gen_gravity ctl (w_controllers h) 0 with
                | Err x => ([], Err x)
                | Ok g =>
                    let hd := MHead dt t_end t0 [g * vx up; g * vy up; g * vz up; 0; 0; 0] "robot" sname in
                    match make_robot fuel root "robot" new_gen with (_, l, r) => (hd :: l, r) end
                end
            | _ => ([], Err RuntimeError)
            end
        | _ => ([], Err RuntimeError)
        end
    end.
End G.
