(** Model of the named-object utilities: arboris/core.py lines 43-154. *)
From Verif Require Import Model_Base.

(** arboris/core.py:43-57 [NamedObject]; [o_isnamed] is
    [isinstance(obj, NamedObject)], [o_id] the Python identity. *)
Record pyobj := PyObj { o_id : nat; o_isnamed : bool; o_name : option string }.

Definition opt_string_eqb (a b : option string) : bool :=
  match a, b with
  | None, None => true
  | Some x, Some y => String.eqb x y
  | _, _ => false
  end.

(** [isinstance(obj, NamedObject) and (obj.name == name)]; core.py:99,107. *)
Definition matches (name : option string) (o : pyobj) : bool :=
  o_isnamed o && opt_string_eqb (o_name o) name.

(** core.py:96-101 [NamedObjectsList.find]: loop appending to [result]. *)
Fixpoint find_loop (name : option string) (l : list pyobj) (result : list pyobj)
  : list pyobj :=
  match l with
  | [] => result
  | obj :: l' =>
      if matches name obj then find_loop name l' (result ++ [obj])
      else find_loop name l' result
  end.
Definition nol_find (l : list pyobj) (name : option string) : list pyobj :=
  find_loop name l [].

(** The index passed to [__getitem__]: a string or an integer (slices are
    delegated to [list] and not modelled). *)
Inductive index := IStr (s : string) | IInt (i : Z).

(** [list.__getitem__(self, i)] with Python's negative indices. *)
Definition list_getitem (l : list pyobj) (i : Z) : res pyobj :=
  let n := Z.of_nat (length l) in
  let k := if (i <? 0)%Z then (i + n)%Z else i in
  if ((0 <=? k) && (k <? n))%Z then
    match nth_error l (Z.to_nat k) with Some o => Ok o | None => Err IndexError end
  else Err IndexError.

(** core.py:103-111 [NamedObjectsList.__getitem__]. *)
Fixpoint getitem_loop (s : string) (l : list pyobj) : res pyobj :=
  match l with
  | [] => Err KeyError
  | obj :: l' => if matches (Some s) obj then Ok obj else getitem_loop s l'
  end.
Definition nol_getitem (l : list pyobj) (i : index) : res pyobj :=
  match i with
  | IStr s => getitem_loop s l
  | IInt k => list_getitem l k
  end.

(** core.py:132-139 [DuplicateNameError.__init__(self, message)]: calling the
    class with anything but one argument is a [TypeError]. *)
Definition mk_DuplicateNameError (args : list (list string)) : exn :=
  match args with
  | [m] => DuplicateNameError m
  | _ => TypeError
  end.

Definition dict := list (string * pyobj).
Fixpoint dict_get (d : dict) (k : string) : option pyobj :=
  match d with
  | [] => None
  | (k', o) :: d' => if String.eqb k' k then Some o else dict_get d' k
  end.

(** core.py:113-129 [NamedObjectsList.as_dict]; line 128 is
    [raise DuplicateNameError()] (no argument). *)
Fixpoint as_dict_loop (l : list pyobj) (result : dict) : res dict :=
  match l with
  | [] => Ok result
  | obj :: l' =>
      match o_isnamed obj, o_name obj with
      | true, Some n =>
          match dict_get result n with
          | None => as_dict_loop l' (result ++ [(n, obj)])
          | Some _ => Err (mk_DuplicateNameError [])
          end
      | _, _ => as_dict_loop l' result
      end
  end.
Definition nol_as_dict (l : list pyobj) : res dict := as_dict_loop l [].

(** ** [name_all_elements], core.py:141-154.
    Elements are identities; their [name] attributes live in a heap
    (the same element may occur twice in the list). *)
Definition names := nat -> option string.

(** What the [nlist] argument may be: a list, or a generator, which is
    exhausted by its first traversal. *)
Inductive iterable := IterList (l : list nat) | IterGen (l : list nat).
(** one [for]/comprehension over the iterable: elements seen, and what is left *)
Definition consume (it : iterable) : list nat * iterable :=
  match it with
  | IterList l => (l, IterList l)
  | IterGen l => (l, IterGen [])
  end.

Section NameAll.
  (** [str(id(elem))]: any function of the identity. *)
  Variable str_id : nat -> string.

  (** core.py:142-145 *)
  Fixpoint name_pass (nm : names) (l : list nat) : names :=
    match l with
    | [] => nm
    | x :: l' =>
        name_pass (match nm x with
                   | None => upd nm x (Some (str_id x))
                   | Some _ => nm
                   end) l'
    end.

  (** [list.remove(e)]: drops the first occurrence. *)
  Fixpoint list_remove (e : string) (l : list string) : list string :=
    match l with
    | [] => []
    | x :: l' => if String.eqb x e then l' else x :: list_remove e l'
    end.

  Definition name_of (nm : names) (x : nat) : string :=
    match nm x with Some s => s | None => EmptyString end.

  (** core.py:147-154; [set] is modelled by [nodup] (iteration order of a set
      is unspecified; the surplus list does not depend on it). *)
  Definition check_names (list_name : list string) : res unit :=
    let set_name := nodup string_dec list_name in
    if Nat.eqb (length list_name) (length set_name) then Ok tt
    else Err (mk_DuplicateNameError
                [fold_left (fun acc e => list_remove e acc) set_name list_name]).

  (** core.py:141-154 as a whole: new names and outcome. *)
  Definition name_all_elements (nm : names) (nlist : iterable) (check_unicity : bool)
    : names * res unit :=
    let (l1, nlist1) := consume nlist in
    let nm' := name_pass nm l1 in
    if check_unicity then
      let (l2, _) := consume nlist1 in
      (nm', check_names (map (name_of nm') l2))
    else (nm', Ok tt).
End NameAll.
