(** Specification vocabulary for the messages to the viewer: how they are read. *)
From Coq Require Export Ascii.
From Verif Require Export Model_Com Spec_Anim.
Open Scope R_scope.
Open Scope string_scope.
(** [s.split(c)] *)
Fixpoint split (c : ascii) (s : string) : list string :=
  match s with
  | "" => [""]
  | String a s' => if Ascii.eqb a c then "" :: split c s' else match split c s' with x :: l => String a x :: l | [] => [String a ""] end
  end.
Fixpoint has (c : ascii) (s : string) : bool := match s with "" => false | String a s' => Ascii.eqb a c || has c s' end.
Definition nl : ascii := ascii_of_nat 10.
Definition sp : ascii := " "%char.
(** a word: no space, no end of line *)
Definition word (s : string) : Prop := has sp s = false /\ has nl s = false.
Definition lines (s : string) : list string := removelast (split nl s).
Definition words (s : string) : list string := split sp s.
(** a line of thirteen words is the id of a node and the three first rows of its matrix, which is a transform; anything else is ignored *)
Definition read_line (num : string -> option R) (l : string) : list (string * m4) :=
  match words l with
  | n :: ws =>
      match map num ws with
      | [Some a; Some b; Some c; Some x; Some d; Some e; Some f; Some y; Some g; Some h; Some i; Some z] => [(n, M4 (M3 a b c d e f g h i) (V3 x y z) zero3 1)]
      | _ => []
      end
  | [] => []
  end.
Definition read_message (num : string -> option R) (s : string) : list (string * m4) := flat_map (read_line num) (lines s).
(** the numbers are written as words, and read as rounded numbers (the code writes twelve significant digits) *)
Definition reads (str : R -> string) (num : string -> option R) (rnd : R -> R) : Prop := forall x, word (str x) /\ num (str x) = Some (rnd x).
(** the transform of the rounded numbers *)
Definition rounded (rnd : R -> R) (H : m4) : m4 :=
  let A := rot H in M4 (M3 (rnd (m00 A)) (rnd (m01 A)) (rnd (m02 A)) (rnd (m10 A)) (rnd (m11 A)) (rnd (m12 A)) (rnd (m20 A)) (rnd (m21 A)) (rnd (m22 A)))
    (V3 (rnd (vx (pos H))) (rnd (vy (pos H))) (rnd (vz (pos H)))) zero3 1.
(** what the viewer then displays: the nodes named in the message have the transform it gives *)
Definition displayed (D : dae) (m : list (string * m4)) : nat -> m4 -> Prop := shown (Anim D [] (map (fun x => (fst x, [snd x])) m)) 0.
