(** The functions write_collada_scene and write_collada_animation of arboris/visu/dae_writer.py and arboris/visu/visu_collada.py. *)
From Verif Require Export Model_Dae Model_Sim.
Open Scope R_scope.

(** the names given before a drawing, dae_writer.py:32-37, visu_collada.py:39-44 ([getbodies] is a list, [itermovingsubframes] a generator) *)
Definition scene_names (str_id : nat -> string) (e : env) (fuel : nat) (h : @heap R) (flat : bool) (nm : names) : names * res unit :=
  let '(nm1, r1) :=
    if flat then
      match iterbodies e fuel h with
      | Err x => (nm, Err x)
      | Ok bs => name_all_elements str_id nm (IterList (map (fun b => id_frame (FBody b)) bs)) true
      end
    else
      match iterjoints e fuel h with
      | Err x => (nm, Err x)
      | Ok js => match frames1 h js with
                 | Err x => (nm, Err x)
                 | Ok fs => name_all_elements str_id nm (IterList (map id_frame fs)) true
                 end
      end in
  match r1 with
  | Err x => (nm1, Err x)
  | Ok _ => name_all_elements str_id nm1 (IterGen (map (fun m => id_frame (FMov m)) (itermovingsubframes h))) true
  end.
(** the scene [S] with the names [nm] of its frames and joints and the poses [st] of its bodies *)
Definition named_scene (S : dscene) (nm : names) (st : store) : dscene :=
  DS (ds_e S) (fun o => match o with OFrame f => nm (id_frame f) | OJoint j => nm (id_joint j) | o => ds_nm S o end) (ds_sc S) st (ds_J S) (ds_known S) (ds_inv S).
(** [write_collada_scene], dae_writer.py:28-48 ([daenim] = false) and visu_collada.py:23-53 ([daenim] = true): the names are an effect
    on the world that remains when the drawing fails; [cg] is the colour generator, if one is given *)
Definition write_collada_scene (argsort : v3 -> nat * nat * nat) (eigvals : m6 -> list R) (eig : m3 -> v3 * m3) (daenim : bool) (str_id : nat -> string)
  (S : dscene) (geo : nat -> geom) (flat : bool) (fuel : nat) (h : @heap R) (up : v3) (cg : option colors) (scale : R) (update : dopts -> dopts) (nm : names) : names * res (dscene * dae) :=
  match scene_names str_id (ds_e S) fuel h flat nm with
  | (nm1, Err x) => (nm1, Err x)
  | (nm1, Ok _) =>
      (nm1, let* cs := match cg with Some cs => Ok cs | None => let* bs := iterbodies (ds_e S) fuel h in new_colors [] (length bs) end in
            let* st := world_update_geometric (ds_e S) (ds_sc S) h (ds_J S) fuel (ds_st S) in
            let S1 := named_scene S nm1 st in
            let* D := dae_world argsort eigvals eig daenim S1 geo flat fuel h up cs scale update in Ok (S1, D))
  end.

(** a collada animation: the document of the scene and, for each array of the group "transforms", a channel whose target is the
    element of sid "matrix" of the node of this id, dae_writer.py:94-150.  Times and values are exact here (the code rounds them
    to [precision] digits). *)
Record anim := Anim { an_doc : dae; an_time : list R; an_chan : dic (list m4) }.
Definition zero4 : m4 := M4 (M3 0 0 0 0 0 0 0 0 0) zero3 zero3 0.
(** the data of a PickleLogger or a Hdf5Logger; rows that were not written are rows of zeros *)
Definition saved_rows (l : list (option m4)) : list m4 := map (fun o => match o with Some H => H | None => zero4 end) l.
Definition saved_times (l : list (option R)) : list R := map (fun o => match o with Some x => x | None => 0 end) l.
Definition animation_from_transforms (D : dae) (timeline : list R) (transforms : dic (list m4)) : anim := Anim D timeline transforms.
(** [write_collada_animation], dae_writer.py:51-90; [ext] is the extension of the name of the file.  For any other type of file
    [timeline] is not assigned: UnboundLocalError, written RuntimeError here. *)
Definition write_collada_animation (D : dae) (g : logger) (ext : string) (file_type : option string) : res anim :=
  let ty := match file_type with Some s => s | None => ext end in
  if existsb (String.eqb ty) ["hdf5"; "h5"; "pickle"; "pkl"]%string
  then Ok (animation_from_transforms D (saved_times (lg_time g)) (map (fun x => (fst x, saved_rows (snd x))) (lg_tr g)))
  else Err RuntimeError.
(** [view(scene_file, hdf5_file, hdf5_group)], visu_collada.py:282-283: the group is given as the type of the file *)
Definition view_animation (D : dae) (g : logger) (ext : string) (hdf5_group : string) : res anim :=
  write_collada_animation D g ext (Some hdf5_group).
