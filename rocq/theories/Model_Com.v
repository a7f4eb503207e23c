(** The observer DaenimCom of arboris/visu/visu_collada.py (164-235) and SocketCom of arboris/observers.py (398-445): what is sent to
    the viewer during a simulation.  The start of the viewer and the socket are not modelled, but for the fact that it is connected or not. *)
From Verif Require Export Model_Anim.
Open Scope R_scope.
Open Scope string_scope.

Definition newline : string := String (Ascii.ascii_of_nat 10) "".
(** [_H[0:3, :].reshape(12)] *)
Definition row12 (H : m4) : list R :=
  let A := rot H in [m00 A; m01 A; m02 A; vx (pos H); m10 A; m11 A; m12 A; vy (pos H); m20 A; m21 A; m22 A; vz (pos H)].
(** [packing_transform], visu_collada.py:233-235; [str] writes a number *)
Definition packing_transform (str : R -> string) (name : string) (H : m4) : string := String.concat " " (name :: map str (row12 H)) ++ newline.
(** [x.name], which must be a string for [" ".join] *)
Definition name_str (nm : names) (i : nat) : res string := match nm i with Some s => Ok s | None => Err TypeError end.
(** the message of [DaenimCom.update], visu_collada.py:209-226 *)
Definition daenim_message (str : R -> string) (U : setup) (flat : bool) (nm : names) (v : wview) : res string :=
  let h := s_heap (v_s v) in
  let* m1 :=
    if flat then
      let* bs := iterbodies (su_e U) (su_fuel U) h in
      rmapM (fun b => let* H := frame_pose (su_e U) (scene_of U v) (v_st v) (FBody b) in let* s := name_str nm (id_frame (FBody b)) in Ok (packing_transform str s H)) bs
    else
      let* js := iterjoints (su_e U) (su_fuel U) h in
      rmapM (fun j => match jframes h j with
                      | None => Err AttributeError
                      | Some (_, f1) => let* s := name_str nm (id_frame f1) in Ok (packing_transform str s (Model_Joints.pose (joints_of (v_s v) j)))
                      end) js in
  let* m2 := rmapM (fun m => let* H := if flat then frame_pose (su_e U) (scene_of U v) (v_st v) (FMov m) else Ok (mov_bpose (scene_of U v) m) in
                             let* s := name_str nm (id_frame (FMov m)) in Ok (packing_transform str s H)) (itermovingsubframes h) in
  Ok (String.concat "" (m1 ++ m2)).
(** the names given in [DaenimCom.init], visu_collada.py:200-206, are those of write_collada_scene: [scene_names] *)
(** [SocketCom.finish], observers.py:437-442: [self.conn] is None when no viewer connected in time, which is no socket error.  An
    observer of this kind for [simulate]: [init] catches the failure of the connection, [update] catches everything. *)
Definition com_kind (connected : bool) : okind :=
  OUser (fun _ _ d => Ok d) (fun _ _ d => Ok d) (fun d => if connected then Ok d else Err AttributeError).
