(** arboris/robots/snake.py, arboris/robots/simplearm.py. *)
From Verif Require Export Model_Mass Model_Dyn.

(** The objects created by a call, with the attributes they are given.  The heap of Model_World knows all the objects beforehand: the
    k-th body, joint and subframe created get the identities [nb k], [nj k] and [ns k]. *)
Inductive created :=
  | CBody (b : nat) (mass : m6)
  | CJoint (j : nat) (k : jtype) (gpos gvel : list R)
  | CSub (s b : nat) (bpose : m4)
  | CBox (s : nat) (f : frame) (half_extents : v3).
Record ids := Ids { nb : nat -> nat; nj : nat -> nat; ns : nat -> nat }.

(** [Body(mass=M)], core.py:1175-1181 *)
Definition new_body (eigvals : m6 -> list R) (M : m6) : res m6 := if ismassmatrix eigvals M true then Ok M else Err AssertionError.
(** a value or its default; [assert nbody == len(x)], snake.py:28-39 *)
Definition sized (nbody : nat) (x : option (list R)) (d : R) : res (list R) :=
  let l := match x with Some l => l | None => repeat d nbody end in
  if Nat.eqb nbody (length l) then Ok l else Err AssertionError.
Fixpoint zip4 (a b c d : list R) : list (R * R * R * R) :=
  match a, b, c, d with x :: a', y :: b', z :: c', t :: d' => (x, y, z, t) :: zip4 a' b' c' d' | _, _, _, _ => [] end.

Section M.
  Variables (e : env) (eigvals : m6 -> list R) (fuel : nat) (I : ids).
  Notation heap := (@heap R).

  (** one body of the snake, snake.py:50-54; [transport] and [Body] may refuse the mass matrix *)
  Definition snake_mass (length mass : R) : res m6 :=
    let* M := transport eigvals (cylinder length (length / 5) mass) (mm4 (rotx (PI / 2)) (transl 0 (- length / 2) 0)) in
    new_body eigvals M.
  (** the loop, snake.py:49-57.  [SubFrame] checks its pose, which is always a transl here. *)
  Fixpoint snake_loop (k : nat) (l : list (R * R * R * R)) (frame : frame) (h : heap) (cr : list created) : heap * list created * res Model_World.frame :=
    match l with
    | [] => (h, cr, Ok frame)
    | (len, mass, q, dq) :: l' =>
        match snake_mass len mass with
        | Err x => (h, cr, Err x)
        | Ok M =>
            let cr1 := cr ++ [CBody (nb I k) M; CJoint (nj I k) RzJoint [q] [dq]] in
            match add_link e [OFrame frame; OJoint (nj I k); OFrame (FBody (nb I k))] h with
            | (h1, Err x) => (h1, cr1, Err x)
            | (h1, Ok _) => snake_loop (S k) l' (FSub (ns I k)) h1 (cr1 ++ [CSub (ns I k) (nb I k) (transl 0 len 0)])
            end
        end
    end.
  (** the base of a free snake, snake.py:43-47; it takes the first identities *)
  Definition snake_base (lengths masses : list R) (h : heap) : heap * list created * res frame :=
    match lengths, masses with
    | len :: _, mass :: _ =>
        let L := len / 2 in
        match new_body eigvals (box (V3 L L L) mass) with
        | Err x => (h, [], Err x)
        | Ok M =>
            let cr := [CBody (nb I 0) M; CJoint (nj I 0) FreeJoint [] (repeat 0 6)] in
            match add_link e [OFrame (FBody (ground e)); OJoint (nj I 0); OFrame (FBody (nb I 0))] h with
            | (h1, Err x) => (h1, cr, Err x)
            | (h1, Ok _) => (h1, cr, Ok (FBody (nb I 0)))
            end
        end
    | _, _ => (h, [], Err IndexError)
    end.
  (** [w.register(frame); w.init()]; the [init] hooks of the constraints and controllers of the world are not modelled here *)
  Definition finish_robot (frame : frame) (h : heap) : heap * res unit :=
    match register e (OFrame frame) h with (h1, Err x) => (h1, Err x) | (h1, Ok _) => init 0 e fuel h1 end.
  (** [add_snake], snake.py:17-60 *)
  Definition add_snake (nbody : nat) (lengths masses gpos gvel : option (list R)) (is_fixed : bool) (h : heap) : heap * list created * res unit :=
    match (let* ls := sized nbody lengths (1 / 2) in let* ms := sized nbody masses 2 in
           let* qs := sized nbody gpos 0 in let* vs := sized nbody gvel 0 in Ok (ls, ms, qs, vs)) with
    | Err x => (h, [], Err x)
    | Ok (ls, ms, qs, vs) =>
        let '(h0, cr0, r) := if is_fixed then (h, [], Ok (FBody (ground e))) else snake_base ls ms h in
        match r with
        | Err x => (h0, cr0, Err x)
        | Ok f0 =>
            let '(h1, cr1, r1) := snake_loop (if is_fixed then 0 else 1) (zip4 ls ms qs vs) f0 h0 cr0 in
            match r1 with
            | Err x => (h1, cr1, Err x)
            | Ok f1 => let (h2, r2) := finish_robot f1 h1 in (h2, cr1, r2)
            end
        end
    end.
End M.
