(** The straight-line code of arboris/robots/*.py: a robot is built by creating objects, linking, registering and calling [World.init].
    A script is the sequence of these calls with their arguments; executing it is executing the calls in order, an exception stopping it. *)
From Verif Require Export Model_Mass Model_Dyn Model_Coll.
Open Scope R_scope.

(** shapes.py: the dimensions given to the constructors *)
Inductive bshape := ShPoint | ShSphere (radius : R) | ShBox (half_extents : v3) | ShCylinder (len radius : R) | ShPlane (coeffs : v3 * R).
(** As in Model_Robots the heap knows all the objects beforehand: the script says which identities are used, and what the objects are. *)
Inductive cmd :=
  | MkBody (b : nat) (name : option string) (M : m6)                (* Body(name, M), core.py:1175-1196 *)
  | MkSub (s b : nat) (name : option string) (H : m4)               (* SubFrame(body, H, name), core.py:1078-1121 *)
  | MkJoint (j : nat) (name : option string) (k : jtype)            (* k(name=name): zero position and velocity, joints.py:36-42 *)
  | MkShape (s : nat) (name : option string) (f : frame) (g : bshape)  (* core.py:382-388, shapes.py *)
  | SetMass (b : nat) (M : m6)                                      (* body.mass = M, not checked, core.py:1190 *)
  | Link (f0 : frame) (j : nat) (f1 : frame)                        (* world.add_link(f0, j, f1) *)
  | Reg (x : obj)                                                   (* world.register(x) *)
  | WInit.                                                          (* world.init(); the init hooks of the registered constraints and controllers are not modelled here *)

Section M.
  Variables (e : env) (eigvals : m6 -> list R) (fuel : nat).
  Notation heap := (@heap R).
  Definition exec (c : cmd) (h : heap) : heap * res unit :=
    match c with
    | MkBody _ _ M => (h, if ismassmatrix eigvals M true then Ok tt else Err AssertionError)
    | MkSub _ _ _ H => (h, if ishomogeneousmatrix H then Ok tt else Err AssertionError)
    | MkJoint _ _ _ | MkShape _ _ _ _ | SetMass _ _ => (h, Ok tt)
    | Link f0 j f1 => match add_link e [OFrame f0; OJoint j; OFrame f1] h with (h1, Ok _) => (h1, Ok tt) | (h1, Err x) => (h1, Err x) end
    | Reg x => register e x h
    | WInit => init 0 e fuel h
    end.
  Fixpoint exec_all (cs : list cmd) (h : heap) : heap * res unit :=
    match cs with
    | [] => (h, Ok tt)
    | c :: cs' => match exec c h with (h1, Err x) => (h1, Err x) | (h1, Ok _) => exec_all cs' h1 end
    end.
End M.
(** identities of the k-th body, joint, subframe and shape that a call creates *)
Record bids := BIds { xb : nat -> nat; xj : nat -> nat; xs : nat -> nat; xh : nat -> nat }.
