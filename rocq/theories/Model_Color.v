(** arboris/visu/world_drawer.py:1-51 ([hsv_to_rgb]) and 164-245 ([ColorGenerator]).
    Floating-point numbers are real numbers. *)
From Coq Require Export Reals.
From Verif Require Export Model_Base Model_World.
From Verif Require Import Model_Linalg.
Open Scope R_scope.

(** a 3-tuple of numbers *)
Definition rgb := (R * R * R)%type.
(** [math.floor] *)
Definition pyfloor (x : R) : Z := Int_part x.

(** [hsv_to_rgb], world_drawer.py:8-51.  If no branch assigned [rgb], line 51 would raise UnboundLocalError (here
    RuntimeError). *)
Definition hsv_to_rgb (h s v : R) : res rgb :=
  let hi := (pyfloor (h / 60) mod 6)%Z in
  let f := h / 60 - IZR (pyfloor (h / 60)) in
  let p := v * (1 - s) in
  let q := v * (1 - f * s) in
  let t := v * (1 - (1 - f) * s) in
  if (hi =? 0)%Z then Ok (v, t, p)
  else if (hi =? 1)%Z then Ok (q, v, p)
  else if (hi =? 2)%Z then Ok (p, v, t)
  else if (hi =? 3)%Z then Ok (p, q, v)
  else if (hi =? 4)%Z then Ok (t, p, v)
  else if (hi =? 5)%Z then Ok (v, p, q)
  else Err RuntimeError.

(** keys of [ColorGenerator._map]: objects, or names ([None] for the name of an unnamed object); world_drawer.py:164-195 *)
Inductive ckey := KObj (o : obj) | KName (s : option string).
Definition obj_eq_dec (a b : obj) : {a = b} + {a <> b}.
Proof. decide equality; try apply Nat.eq_dec; apply frame_eq_dec. Defined.
Definition ckey_eq_dec (a b : ckey) : {a = b} + {a <> b}.
Proof. decide equality; [apply obj_eq_dec | decide equality; apply string_dec]. Defined.
(** [_palette] and [_map] *)
Record colors := Colors { c_palette : list rgb; c_map : ckey -> option rgb }.

(** the assertion of [set_color], world_drawer.py:202 (a colour has three components by typing) *)
Definition color_ok (c : rgb) : bool :=
  let '(r, g, b) := c in Rleb 0 r && Rleb r 1 && (Rleb 0 g && Rleb g 1) && (Rleb 0 b && Rleb b 1).
(** [set_color], world_drawer.py:201-203 *)
Definition set_color (k : ckey) (c : rgb) (st : colors) : res colors :=
  let* _ := passert (color_ok c) in
  Ok (Colors (c_palette st) (fun k' => if ckey_eq_dec k' k then Some c else c_map st k')).
Fixpoint set_colors (l : list (ckey * rgb)) (st : colors) : res colors :=
  match l with [] => Ok st | (k, c) :: l' => let* st1 := set_color k c st in set_colors l' st1 end.
(** the constructor, world_drawer.py:189-199; [m] lists the items of [_map] ([None] being the same as an empty one).
    With [nb_colors = 0] the loop does nothing, as here. *)
Definition new_colors (m : list (ckey * rgb)) (nb : nat) : res colors :=
  let* p := rmapM (fun k => hsv_to_rgb (360 / INR nb * INR k) (9 / 10) (9 / 10)) (seq 0 nb) in
  set_colors m (Colors p (fun _ => None)).

(** [generate_color], world_drawer.py:240-245 *)
Definition generate_color (st : colors) : rgb * colors :=
  match rev (c_palette st) with
  | [] => ((1, 1, 1), st)
  | c :: r => (c, Colors (rev r) (c_map st))
  end.
(** [get_parent_body], world_drawer.py:213-225 *)
Definition get_parent_body (e : env) (o : obj) : res nat :=
  match o with
  | OFrame f => Ok (frame_body e f)
  | OShape s => Ok (frame_body e (shape_frame e s))
  | _ => Err ValueError
  end.
(** [get_color] on a body, world_drawer.py:227-238; [nm] gives the names of the objects *)
Definition get_body_color (nm : obj -> option string) (b : nat) (st : colors) : res (rgb * colors) :=
  match c_map st (KObj (OFrame (FBody b))) with
  | Some c => Ok (c, st)
  | None =>
      match c_map st (KName (nm (OFrame (FBody b)))) with
      | Some c => Ok (c, st)
      | None => let (c, st1) := generate_color st in let* st2 := set_color (KObj (OFrame (FBody b))) c st1 in Ok (c, st2)
      end
  end.
(** [get_color], world_drawer.py:205-238 (the recursive call is on a body) *)
Definition get_color (e : env) (nm : obj -> option string) (o : obj) (st : colors) : res (rgb * colors) :=
  match o with
  | OFrame (FBody b) => get_body_color nm b st
  | _ =>
      match c_map st (KObj o) with
      | Some c => Ok (c, st)
      | None =>
          match c_map st (KName (nm o)) with
          | Some c => Ok (c, st)
          | None => let* b := get_parent_body e o in get_body_color nm b st
          end
      end
  end.

(** a history of calls on a [ColorGenerator] *)
Inductive cop := GetColor (o : obj) | SetColor (k : ckey) (c : rgb).
Definition cstep (e : env) (nm : obj -> option string) (op : cop) (st : colors) : res colors :=
  match op with
  | GetColor o => rmap snd (get_color e nm o st)
  | SetColor k c => set_color k c st
  end.
Fixpoint crun (e : env) (nm : obj -> option string) (ops : list cop) (st : colors) : res colors :=
  match ops with [] => Ok st | op :: ops' => let* st1 := cstep e nm op st in crun e nm ops' st1 end.
