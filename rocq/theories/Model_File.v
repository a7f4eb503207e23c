(** The files of the loggers: PickleLogger and Hdf5Logger of arboris/observers.py (318-398), read by arboris/visu/dae_writer.py. *)
From Verif Require Export Model_Anim.
Open Scope R_scope.

(** numpy arrays and HDF5 datasets of floats: a shape, and a value for each index in it *)
Record ndarray := ND { nd_shape : list nat; nd_at : list nat -> R }.
Definition nd_zeros (shape : list nat) : ndarray := ND shape (fun _ => 0).
Definition m4_at (H : m4) (i j : nat) : R :=
  let A := rot H in
  nth j (nth i [[m00 A; m01 A; m02 A; vx (pos H)]; [m10 A; m11 A; m12 A; vy (pos H)]; [m20 A; m21 A; m22 A; vz (pos H)]; [vx (bot H); vy (bot H); vz (bot H); hom H]] []) 0.
(** the shape and the values of what is saved at one step *)
Definition pv_shape (v : pyval) : list nat :=
  match v with VNum _ => [] | VVec l => [length l] | VMat _ => [4; 4]%nat | VTwist _ => [6%nat] | VPoint _ => [3%nat] end.
Definition pv_at (v : pyval) (idx : list nat) : R :=
  match v, idx with
  | VNum x, _ => x
  | VVec l, [i] => nth i l 0
  | VMat H, [i; j] => m4_at H i j
  | VTwist u, [i] => nth i [vx (ang u); vy (ang u); vz (ang u); vx (lin u); vy (lin u); vz (lin u)] 0
  | VPoint p, [i] => nth i [vx p; vy p; vz p] 0
  | _, _ => 0
  end.
(** the array of the values of all the steps; it was made with the shape of the values at the init, which does not change *)
Definition rows_array (l : list (option pyval)) : ndarray :=
  ND (length l :: match l with Some v :: _ => pv_shape v | _ => [] end)
     (fun idx => match idx with k :: idx' => match nth_error l k with Some (Some v) => pv_at v idx' | _ => 0 end | [] => 0 end).
Definition vec_array {A} (d : nat) (f : A -> vec) (l : list (option A)) : ndarray :=
  ND [length l; d] (fun idx => match idx with [k; i] => match nth_error l k with Some (Some v) => f v i | _ => 0 end | _ => 0 end).
Definition mat_array {A} (d : nat) (f : A -> mat) (l : list (option A)) : ndarray :=
  ND [length l; d; d] (fun idx => match idx with [k; i; j] => match nth_error l k with Some (Some v) => f v i j | _ => 0 end | _ => 0 end).
Definition rows4_array (l : list (option m4)) : ndarray :=
  ND [length l; 4; 4]%nat (fun idx => match idx with [k; i; j] => match nth_error l k with Some (Some H) => m4_at H i j | _ => 0 end | _ => 0 end).
Definition time_array (l : list (option R)) : ndarray :=
  ND [length l] (fun idx => match idx with [k] => match nth_error l k with Some (Some x) => x | _ => 0 end | _ => 0 end).
Definition dic_map {A B} (f : A -> B) (d : dic A) : dic B := map (fun x => (fst x, f (snd x))) d.
(** [self._root] without the timeline, observers.py:245-288; [ndof] is the number of degrees of freedom of the world *)
Definition model_arrays (ndof : nat) (l : list (option (list R * mat * mat * mat * vec))) : dic ndarray :=
  [("gvel"%string, vec_array ndof (fun x => match x with (v, _, _, _, _) => fun i => nth i v 0 end) l);
   ("mass"%string, mat_array ndof (fun x => match x with (_, M, _, _, _) => M end) l);
   ("admittance"%string, mat_array ndof (fun x => match x with (_, _, Y, _, _) => Y end) l);
   ("nleffects"%string, mat_array ndof (fun x => match x with (_, _, _, N, _) => N end) l);
   ("gforce"%string, vec_array ndof (fun x => match x with (_, _, _, _, f) => f end) l)].
Definition log_root (o : logopts) (ndof : nat) (g : logger) : dic (dic ndarray) :=
  (if lo_state o then [("gpositions"%string, dic_map rows_array (lg_pos g)); ("gvelocities"%string, dic_map rows_array (lg_vel g))] else []) ++
  (if lo_transforms o then [("transforms"%string, dic_map rows4_array (lg_tr g))] else []) ++
  (if lo_model o then [("model"%string, model_arrays ndof (lg_model g))] else []).

(** *** HDF5 *)
(** the group of the file given to Hdf5Logger (the rest of the file does not matter): the dataset "timeline" and the subgroups.  The
    names of the datasets must be plain: a name with a slash would make subgroups. *)
Record h5 := H5 { h5_open : bool; h5_time : option ndarray; h5_groups : dic (dic ndarray) }.
Definition h5_empty : h5 := H5 true None [].
(** [g.require_dataset(name, shape, "f8")]: TypeError if it exists with another shape *)
Definition shape_eqb (s t : list nat) : bool := if list_eq_dec Nat.eq_dec s t then true else false.
Definition require_dataset (d : dic ndarray) (k : string) (shape : list nat) : res (dic ndarray) :=
  match dic_get d k with
  | Ok a => if shape_eqb (nd_shape a) shape then Ok d else Err TypeError
  | Err _ => Ok (dic_set d k (nd_zeros shape))
  end.
(** [dset[:] = v]: [v] is broadcast, from its last axis, to the shape of the dataset; TypeError if it cannot be *)
Fixpoint broadcasts (s t : list nat) : bool :=     (* the shapes reversed *)
  match s, t with
  | [], _ => true
  | a :: s', b :: t' => (Nat.eqb a b || Nat.eqb a 1) && broadcasts s' t'
  | a :: s', [] => Nat.eqb a 1 && broadcasts s' []
  end.
Definition bc_index (s idx : list nat) : list nat :=
  map (fun x => if Nat.eqb (fst x) 1 then 0%nat else snd x) (combine s (skipn (length idx - length s) idx)).
Definition nd_assign (shape : list nat) (v : ndarray) : res ndarray :=
  if broadcasts (rev (nd_shape v)) (rev shape) then Ok (ND shape (fun idx => nd_at v (bc_index (nd_shape v) idx))) else Err TypeError.
(** the loop of observers.py:390-392 on the arrays of one group; what was written before an exception remains *)
Fixpoint write_group (n : nat) (l : dic ndarray) (d : dic ndarray) : dic ndarray * res unit :=
  match l with
  | [] => (d, Ok tt)
  | (k, v) :: l' =>
      match require_dataset d k [n; 4; 4]%nat with
      | Err x => (d, Err x)
      | Ok d1 =>
          match nd_assign [n; 4; 4]%nat v with
          | Err x => (d1, Err x)
          | Ok a => write_group n l' (dic_set d1 k a)
          end
      end
  end.
(** observers.py:388-392 *)
Fixpoint write_groups (n : nat) (els : dic (dic ndarray)) (gs : dic (dic ndarray)) : dic (dic ndarray) * res unit :=
  match els with
  | [] => (gs, Ok tt)
  | (e, l) :: els' =>
      let d := match dic_get gs e with Ok d => d | Err _ => [] end in
      match write_group n l d with
      | (d1, Err x) => (dic_set gs e d1, Err x)
      | (d1, Ok _) => write_groups n els' (dic_set gs e d1)
      end
  end.
(** [Hdf5Logger.finish], observers.py:383-394; [els] are the groups of [_root], in the order of this dictionary; a closed file refuses
    everything *)
Definition hdf5_finish (n : nat) (time : ndarray) (els : dic (dic ndarray)) (f : h5) : h5 * res unit :=
  if negb (h5_open f) then (f, Err ValueError)
  else
    if match h5_time f with Some a => negb (shape_eqb (nd_shape a) [n]) | None => false end then (f, Err TypeError)
    else match nd_assign [n] time with
    | Err x => (H5 true (Some (nd_zeros [n])) (h5_groups f), Err x)
    | Ok a =>
        match write_groups n els (h5_groups f) with
        | (gs, Err x) => (H5 true (Some a) gs, Err x)
        | (gs, Ok _) => (H5 false (Some a) gs, Ok tt)
        end
    end.
(** a file given to an Hdf5Logger at the end of a simulation ([_nb_steps] is the length of the timeline it made) *)
Definition hdf5_logger_finish (g : logger) (els : dic (dic ndarray)) (f : h5) : h5 * res unit := hdf5_finish (length (lg_time g)) (time_array (lg_time g)) els f.
(** reading, dae_writer.py:66-74: [np.array(sim[group]["timeline"])] and the arrays of [sim[group]["transforms"]]; KeyError if absent.
    A transform is read as [v[i, :, :]] in dae_writer.py:128-131; an array of another shape is not read here (TypeError). *)
Definition m4_of (a : list nat -> R) : m4 :=
  M4 (M3 (a [0; 0]) (a [0; 1]) (a [0; 2]) (a [1; 0]) (a [1; 1]) (a [1; 2]) (a [2; 0]) (a [2; 1]) (a [2; 2]))%nat
     (V3 (a [0; 3]) (a [1; 3]) (a [2; 3]))%nat (V3 (a [3; 0]) (a [3; 1]) (a [3; 2]))%nat (a [3; 3])%nat.
Definition read_poses (a : ndarray) : res (list m4) :=
  match nd_shape a with
  | [n; 4; 4]%nat => Ok (map (fun k => m4_of (fun idx => nd_at a (k :: idx))) (seq 0 n))
  | _ => Err TypeError
  end.
Definition read_times (a : ndarray) : res (list R) :=
  match nd_shape a with [n] => Ok (map (fun k => nd_at a [k]) (seq 0 n)) | _ => Err TypeError end.
Definition read_h5 (f : h5) : res (list R * dic (list m4)) :=
  let* a := match h5_time f with Some a => Ok a | None => Err KeyError end in
  let* ts := read_times a in
  let* d := dic_get (h5_groups f) "transforms" in
  let* tr := rmapM (fun x => let* M := read_poses (snd x) in Ok (fst x, M)) d in
  Ok (ts, tr).
