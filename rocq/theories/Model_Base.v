(** Exceptions as values and small list helpers shared by the model. *)
From Coq Require Export Arith ZArith Lia Bool String.
From Coq Require Export List.
Export ListNotations.

(** Python exception classes raised (or let through) by the modelled code. *)
Inductive exn : Type :=
| AssertionError
| ValueError
| TypeError
| KeyError
| IndexError
| AttributeError
| RuntimeError
| NotImplementedError
| LinAlgError
| NameError                (* a local variable read before it is set *)
| ZeroDivision             (* numpy yields nan here; the model reports it *)
| RecursionError           (* interpreter recursion budget exhausted *)
| DuplicateNameError (surplus : list string).

Inductive res (A : Type) : Type :=
| Ok (a : A)
| Err (e : exn).
Arguments Ok {A} a.
Arguments Err {A} e.

Definition rbind {A B} (x : res A) (f : A -> res B) : res B :=
  match x with Ok a => f a | Err e => Err e end.
Definition rmap {A B} (f : A -> B) (x : res A) : res B :=
  match x with Ok a => Ok (f a) | Err e => Err e end.
Notation "'let*' x := c1 'in' c2" := (rbind c1 (fun x => c2))
  (at level 61, x pattern, c1 at next level, right associativity).

(** [assert b] of Python. *)
Definition passert (b : bool) : res unit := if b then Ok tt else Err AssertionError.

(** Sequential map with exceptions: [for x in l: y.extend(f(x))]. *)
Fixpoint rconcat {A B} (f : A -> res (list B)) (l : list A) : res (list B) :=
  match l with
  | [] => Ok []
  | x :: l' => rbind (f x) (fun y => rbind (rconcat f l') (fun z => Ok (y ++ z)))
  end.

Fixpoint rmapM {A B} (f : A -> res B) (l : list A) : res (list B) :=
  match l with
  | [] => Ok []
  | x :: l' => rbind (f x) (fun y => rbind (rmapM f l') (fun z => Ok (y :: z)))
  end.

(** Update of a total function at a point (object attribute assignment). *)
Definition upd {A} (f : nat -> A) (k : nat) (v : A) : nat -> A :=
  fun x => if Nat.eqb x k then v else f x.
