(** arboris/core.py:1463-1503 (simulate), and the observers of arboris/observers.py: the recorders (534-694),
    SaveLogger (166-315), EnergyMonitor and CoMObserver (through Model_Ctl and Model_CoM). *)
From Verif Require Export Model_Con Model_Coll Model_Ctl Model_CoM Model_Named.

(** *** The simulated world *)
(** Controllers: the two classes of controllers.py, and any user class whose [update] reads the world only. *)
Inductive kctl (W : Type) :=
  | KWeight (gravity : R) (c : option wctl)
  | KPD (c : pdctl)
  | KUser (f : W -> R -> res (vec * mat)).
Arguments KWeight {W}. Arguments KPD {W}. Arguments KUser {W}.

(** what a user controller or observer can read: the attributes of Model_Step, those of the bodies, the constraints *)
Record wview := WV { v_s : wst; v_st : store; v_cs : list con }.
Record world := W { w_v : wview; w_ctl : nat -> kctl wview }.
Definition w_s (w : world) : wst := v_s (w_v w).
Definition w_time (w : world) : R := s_time (w_s w).

(** What does not change during a simulation, and the functions of numpy. *)
Record setup := SU {
  su_e : env; su_sc : scene; su_fuel : nat;
  su_linv : nat -> mat -> option mat;                       (* linalg.inv *)
  su_pinv : nat -> mat -> mat;                              (* linalg.pinv *)
  su_eigc : mat -> list (R * R);                            (* linalg.eigvals (6,6) *)
  su_solve : nat -> mat -> vec -> option vec;               (* linalg.solve *)
  su_eigvals : m6 -> list R; su_eig : m3 -> v3 * m3;        (* in massmatrix.py *)
  su_str_id : nat -> string }.                              (* str(id(x)) *)

Definition set_s (w : world) (s : wst) : world := W (WV s (v_st (w_v w)) (v_cs (w_v w))) (w_ctl w).
Definition set_heap (s : wst) (h : @heap R) : wst := WS h (s_ty s) (s_qH s) (s_q s) (s_dyn s) (s_gforce s) (s_imp s) (s_adm s) (s_time s).
(** [world._current_time = t] *)
Definition set_time (w : world) (t : R) : world :=
  let s := w_s w in set_s w (WS (s_heap s) (s_ty s) (s_qH s) (s_q s) (s_dyn s) (s_gforce s) (s_imp s) (s_adm s) t).

(** the scene with the current bpose of the contacts' frames *)
Definition scene_of (U : setup) (v : wview) : scene :=
  fold_left (fun sc c => match c with CS x => with_frames sc (sf_m0 x) (sf_m1 x) (sf_H0 x) (sf_H1 x) | _ => sc end) (v_cs v) (su_sc U).

(** [c.init(world)]: constraints.py:54-56, 161-162, 279-280 *)
Definition con_init (h : @heap R) (c : con) : res con :=
  match c with
  | CJ x => match jdof h (jl_joint x) with None => match jl_init_lost (w_ndof h) x with Some y => Ok (CJ y) | None => Err ValueError end | Some (a, _) => Ok (CJ (jl_init a x)) end
  | _ => Ok c
  end.
(** [a.init(world)]: controllers.py:44-57, 157-168 *)
Definition ctl_init (U : setup) (h : @heap R) (k : kctl wview) : res (kctl wview) :=
  match k with
  | KWeight g _ => let* c := wc_init (su_e U) (su_sc U) (su_fuel U) h g in Ok (KWeight g (Some c))
  | KPD c => rmap KPD (pd_init h c)
  | KUser f => Ok (KUser f)
  end.
Fixpoint ctl_inits (U : setup) (h : @heap R) (l : list nat) (k : nat -> kctl wview) : res (nat -> kctl wview) :=
  match l with
  | [] => Ok k
  | a :: l' => let* c := ctl_init U h (k a) in ctl_inits U h l' (upd k a c)
  end.
(** [World.init], core.py:684-709: Model_World.init for the joints and velocities, the wiped matrices, then the
    constraints and the controllers.  The effects of the hooks of an [init] that raises are not modelled. *)
Definition world_init (U : setup) (w : world) : world * res unit :=
  let s := w_s w in
  match Model_World.init 0 (su_e U) (su_fuel U) (s_heap s) with
  | (h, Err x) => (set_s w (set_heap s h), Err x)
  | (h, Ok _) =>
      let s1 := WS h (s_ty s) (s_qH s) (s_q s) wdyn0 vzero (s_imp s) (s_adm s) (s_time s) in
      match rmapM (con_init h) (v_cs (w_v w)) with
      | Err x => (set_s w s1, Err x)
      | Ok cs =>
          let w1 := W (WV s1 (v_st (w_v w)) cs) (w_ctl w) in
          match ctl_inits U h (w_controllers h) (w_ctl w) with
          | Err x => (w1, Err x)
          | Ok k => (W (w_v w1) k, Ok tt)
          end
      end
  end.

(** [World.update_dynamic] *)
Definition world_dynamic (U : setup) (w : world) : world * res unit :=
  let s := w_s w in
  match world_update_dynamic (su_e U) (su_sc U) (s_heap s) (joints_of s) (su_fuel U) (v_st (w_v w)) with
  | Err x => (w, Err x)
  | Ok (st, d) =>
      (W (WV (WS (s_heap s) (s_ty s) (s_qH s) (s_q s) d (s_gforce s) (s_imp s) (s_adm s) (s_time s)) st (v_cs (w_v w))) (w_ctl w), Ok tt)
  end.

(** [a.update(dt)]: controllers.py:59-66, 170-186 *)
Definition ctl_update (U : setup) (w : world) (a : nat) (dt : R) : res (vec * mat) :=
  let s := w_s w in
  match w_ctl w a with
  | KWeight _ None => Err TypeError               (* not initialised *)
  | KWeight _ (Some c) => wc_update (su_sc U) (v_st (w_v w)) c
  | KPD c => pd_update (su_e U) (w_ndof (s_heap s)) (s_q s) (fun j => gvel (joints_of s j)) c dt
  | KUser f => f (w_v w) dt
  end.
(** [World.update_controllers].  The controllers see the forces and impedance of the previous step (no class of
    controllers.py reads them). *)
Definition world_controllers (U : setup) (dt : R) (w : world) : world * res unit :=
  let (s, r) := update_controllers (su_linv U) (ctl_update U w) dt (w_s w) in (set_s w s, r).

(** [World.update_constraints] with its default arguments (core.py:895).  A constraint on another contact's frame would
    see the bpose of the previous step (only the contact itself uses its frames in the constructors of the library). *)
Definition con_env (U : setup) (w : world) : cenv :=
  CE (su_e U) (scene_of U (w_v w)) (v_st (w_v w)) (s_q (w_s w)) (su_pinv U) (su_eigc U) (su_solve U).
Definition world_constraints (U : setup) (dt : R) (w : world) : world * res unit :=
  match update_constraints (con_ops (con_env U w)) dt (1 / 10000) 1000 (v_cs (w_v w)) (w_s w) with
  | Err x => (w, Err x)
  | Ok (s, l, _) => (W (WV s (v_st (w_v w)) (map fst l)) (w_ctl w), Ok tt)
  end.

(** [World.integrate] *)
Definition world_integrate (U : setup) (dt : R) (w : world) : world * res unit :=
  let (s, r) := integrate (su_e U) (su_fuel U) dt (w_s w) in (set_s w s, r).

(** *** Observers *)
(** data kept by the observers *)
Inductive pyval := VNum (x : R) | VVec (l : list R) | VMat (H : m4) | VTwist (u : v6) | VPoint (p : v3).

(** [x[k] = v] for a list or the first axis of an array *)
Fixpoint set_item {A} (l : list A) (k : nat) (v : A) : res (list A) :=
  match l, k with
  | [], _ => Err IndexError
  | _ :: l', O => Ok (v :: l')
  | x :: l', S k' => let* r := set_item l' k' v in Ok (x :: r)
  end.

(** _Recorder: [_record] and [_index], and the data of the CoMObserver of RecordCoMPosition *)
Record recorder := Rec { rc_record : list (option pyval); rc_index : nat; rc_com : comdata }.
(** [init], observers.py:553-555 *)
Definition rec_init (timeline : list R) (c : comdata) : recorder := Rec (repeat None (length timeline - 1)) 0 c.
(** [save_data], observers.py:560-563 *)
Definition save_data (v : pyval) (r : recorder) : res recorder :=
  let* l := set_item (rc_record r) (rc_index r) (Some v) in Ok (Rec l (S (rc_index r)) (rc_com r)).

(** SaveLogger *)
Inductive target := TBody (b : nat) | TJoint (j : nat) | TMov (m : nat).
Definition dic (A : Type) := list (string * A).
Fixpoint dic_set {A} (d : dic A) (k : string) (v : A) : dic A :=
  match d with
  | [] => [(k, v)]
  | (k', v') :: d' => if String.eqb k' k then (k', v) :: d' else (k', v') :: dic_set d' k v
  end.
Fixpoint dic_get {A} (d : dic A) (k : string) : res A :=
  match d with [] => Err KeyError | (k', v) :: d' => if String.eqb k' k then Ok v else dic_get d' k end.
Record logopts := LO { lo_transforms : bool; lo_state : bool; lo_model : bool; lo_flat : bool }.
(** The arrays are lists of rows, [None] standing for a row of zeros not yet written.  The five arrays of the group
    [model] are one list of rows. *)
Record logger := LG { lg_n : nat; lg_k : nat; lg_time : list (option R);
                      lg_pos : dic (list (option pyval)); lg_vel : dic (list (option pyval));
                      lg_what : dic target; lg_tr : dic (list (option m4));
                      lg_model : list (option (list R * mat * mat * mat * vec)) }.
(** identities of the named objects *)
Definition id_joint (j : nat) : nat := (4 * j)%nat.
Definition id_frame (f : frame) : nat :=
  match f with FBody b => (4 * b + 1)%nat | FSub s => (4 * s + 2)%nat | FMov m => (4 * m + 3)%nat end.
(** [World.itermovingsubframes], core.py:457-461 *)
Definition itermovingsubframes (h : @heap R) : list nat :=
  flat_map (fun f => match f with FMov m => [m] | _ => [] end) (w_subframes h).
(** [self._arb_transforms[x.name] = x] *)
Definition what_of (nm : names) (l : list (nat * target)) (d : dic target) : dic target :=
  fold_left (fun d x => dic_set d (name_of nm (fst x)) (snd x)) l d.
(** [j.frames[1]] for j in the joints *)
Definition frames1 (h : @heap R) (js : list nat) : res (list frame) :=
  rmapM (fun j => match jframes h j with None => Err AttributeError | Some (_, f1) => Ok f1 end) js.
(** [init], observers.py:241-288.  The names given to the objects are an effect on the world. *)
Definition log_state_init (U : setup) (h : @heap R) (o : logopts) (n : nat) (nm : names) : names * res (dic (list (option pyval))) :=
  if lo_state o then
    match iterjoints (su_e U) (su_fuel U) h with
    | Err x => (nm, Err x)
    | Ok js =>
        match name_all_elements (su_str_id U) nm (IterList (map id_joint js)) true with
        | (nm1, Err x) => (nm1, Err x)
        | (nm1, Ok _) => (nm1, Ok (fold_left (fun d j => dic_set d (name_of nm1 (id_joint j)) (repeat None n)) js []))
        end
    end
  else (nm, Ok []).
Definition log_what_init (U : setup) (h : @heap R) (o : logopts) (nm : names) : names * res (dic target) :=
  if lo_transforms o then
    let '(nm1, r1) :=
      if lo_flat o then
        match iterbodies (su_e U) (su_fuel U) h with
        | Err x => (nm, Err x)
        | Ok bs =>
            match name_all_elements (su_str_id U) nm (IterGen (map (fun b => id_frame (FBody b)) bs)) true with
            | (nm1, Err x) => (nm1, Err x)
            | (nm1, Ok _) => (nm1, Ok (what_of nm1 (map (fun b => (id_frame (FBody b), TBody b)) bs) []))
            end
        end
      else
        match iterjoints (su_e U) (su_fuel U) h with
        | Err x => (nm, Err x)
        | Ok js =>
            match frames1 h js with
            | Err x => (nm, Err x)
            | Ok fs =>
                match name_all_elements (su_str_id U) nm (IterList (map id_frame fs)) true with
                | (nm1, Err x) => (nm1, Err x)
                | (nm1, Ok _) => (nm1, Ok (what_of nm1 (map (fun x => (id_frame (snd x), TJoint (fst x))) (combine js fs)) []))
                end
            end
        end in
    match r1 with
    | Err x => (nm1, Err x)
    | Ok d1 =>
        let ms := itermovingsubframes h in
        match name_all_elements (su_str_id U) nm1 (IterGen (map (fun m => id_frame (FMov m)) ms)) true with
        | (nm2, Err x) => (nm2, Err x)
        | (nm2, Ok _) => (nm2, Ok (what_of nm2 (map (fun m => (id_frame (FMov m), TMov m)) ms) d1))
        end
    end
  else (nm, Ok []).
Definition log_init (U : setup) (v : wview) (o : logopts) (timeline : list R) (nm : names) : names * res logger :=
  let h := s_heap (v_s v) in
  let n := (length timeline - 1)%nat in
  match log_state_init U h o n nm with
  | (nm1, Err x) => (nm1, Err x)
  | (nm1, Ok dp) =>
      match log_what_init U h o nm1 with
      | (nm2, Err x) => (nm2, Err x)
      | (nm2, Ok dw) =>
          (nm2, Ok (LG n 0 (repeat None n) dp dp dw (map (fun x => (fst x, repeat None n)) dw)
                       (if lo_model o then repeat None n else [])))
      end
  end.

(** [j.gpos], [j.gvel] *)
Definition gpos_value (s : wst) (j : nat) : pyval :=
  match s_ty s j with
  | FreeJoint => VMat (s_qH s j)
  | k => VVec (map (s_q s j) (seq 0 (ndof_of k)))
  end.
Definition gvel_value (s : wst) (j : nat) : pyval := VVec (joint_gvel (s_heap s) j).
(** [d[name][k] = v] *)
Definition dic_write {A} (d : dic (list (option A))) (key : string) (k : nat) (v : A) : res (dic (list (option A))) :=
  let* l := dic_get d key in let* l1 := set_item l k (Some v) in Ok (dic_set d key l1).
(** the loop of observers.py:296-298 *)
Fixpoint log_states (s : wst) (nm : names) (k : nat) (js : list nat) (dp dv : dic (list (option pyval)))
  : res (dic (list (option pyval)) * dic (list (option pyval))) :=
  match js with
  | [] => Ok (dp, dv)
  | j :: js' =>
      let* dp1 := dic_write dp (name_of nm (id_joint j)) k (gpos_value s j) in
      let* dv1 := dic_write dv (name_of nm (id_joint j)) k (gvel_value s j) in
      log_states s nm k js' dp1 dv1
  end.
(** the pose saved for a target, observers.py:301-307 *)
Definition target_pose (U : setup) (v : wview) (flat : bool) (t : target) : res m4 :=
  match t with
  | TMov m => if flat then frame_pose (su_e U) (scene_of U v) (v_st v) (FMov m) else Ok (mov_bpose (scene_of U v) m)
  | TBody b => frame_pose (su_e U) (scene_of U v) (v_st v) (FBody b)
  | TJoint j => Ok (Model_Joints.pose (joints_of (v_s v) j))
  end.
(** the loop of observers.py:300-308 *)
Fixpoint log_poses (U : setup) (v : wview) (flat : bool) (k : nat) (what : dic target) (d : dic (list (option m4)))
  : res (dic (list (option m4))) :=
  match what with
  | [] => Ok d
  | (key, t) :: what' =>
      let* H := target_pose U v flat t in
      let* d1 := dic_write d key k H in
      log_poses U v flat k what' d1
  end.
(** [update], observers.py:290-315 *)
Definition log_update (U : setup) (v : wview) (o : logopts) (nm : names) (g : logger) : res logger :=
  if Nat.leb (lg_k g) (lg_n g) then
    let s := v_s v in
    let k := lg_k g in
    let* tl := set_item (lg_time g) k (Some (s_time s)) in
    let* (dp, dv) := if lo_state o
                     then let* js := iterjoints (su_e U) (su_fuel U) (s_heap s) in log_states s nm k js (lg_pos g) (lg_vel g)
                     else Ok (lg_pos g, lg_vel g) in
    let* tr := if lo_transforms o then log_poses U v (lo_flat o) k (lg_what g) (lg_tr g) else Ok (lg_tr g) in
    let* md := if lo_model o
               then set_item (lg_model g) k (Some (world_gvel (s_heap s), d_mass (s_dyn s), s_adm s, d_nle (s_dyn s), s_gforce s))
               else Ok (lg_model g) in
    Ok (LG (lg_n g) (S k) tl dp dv (lg_what g) tr md)
  else Err AssertionError.

(** the observers of a simulation.  [ORec] stands for every subclass of _Recorder: [fi] is what its [init] does after
    _Recorder.init, [f] the data its [update] saves.  [OUser]: any observer that keeps its own data. *)
Inductive okind :=
  | ORec (fi : wview -> res comdata) (f : comdata -> wview -> res pyval)
  | OLog (o : logopts)
  | OEnergy
  | OUser (fi : wview -> list R -> pyval -> res pyval) (fu : wview -> R -> pyval -> res pyval) (ff : pyval -> res pyval).
Inductive omem := MRec (r : recorder) | MLog (g : logger) | MEnergy (m : emon) | MUser (x : pyval).

(** the subclasses of _Recorder: observers.py:586-587, 601-602, 617-618, 633-634, 649-650, 672-674, 689-695 *)
Definition no_com (v : wview) : res comdata := Ok [].
Definition record_gpos (j : nat) : okind := ORec no_com (fun _ v => Ok (gpos_value (v_s v) j)).
Definition record_gvel (j : nat) : okind := ORec no_com (fun _ v => Ok (gvel_value (v_s v) j)).
Definition record_pose (U : setup) (f : frame) : okind := ORec no_com (fun _ v => rmap VMat (frame_pose (su_e U) (scene_of U v) (v_st v) f)).
Definition record_twist (U : setup) (f : frame) : okind := ORec no_com (fun _ v => rmap VTwist (frame_twist (su_e U) (scene_of U v) (v_st v) f)).
(** the [i]-th constraint of the world *)
Definition con_force (c : con) : list R :=
  match c with CJ x => map (jl_force x) (seq 0 (jl_nd x)) | CB x => map (bs_force x) (seq 0 3) | CS x => map (sf_force x) (seq 0 4) end.
Definition record_force (i : nat) : okind :=
  ORec no_com (fun _ v => match nth_error (v_cs v) i with None => Err IndexError | Some c => Ok (VVec (con_force c)) end).
Definition record_distance (U : setup) (argsort : v3 -> nat * nat * nat) (g : nat -> geom) (c : (nat * nat) * solver) : okind :=
  ORec no_com (fun _ v => let* (d, _, _) := collision argsort (su_e U) g (scene_of U v) c (v_st v) in Ok (VNum d)).
Definition record_com (U : setup) (bodies : list nat) : okind :=
  ORec (fun _ => com_init (su_eigvals U) (su_eig U) (su_sc U) bodies)
       (fun c v => let* a := com_update false (v_st v) c in Ok (VPoint (cm_pos a))).

(** *** simulate *)
Record sim := Sim { sm_w : world; sm_names : names; sm_obs : nat -> omem }.
Definition now (x : sim) : R := w_time (sm_w x).
Definition set_w (x : sim) (w : world) : sim := Sim w (sm_names x) (sm_obs x).
Definition set_o (x : sim) (i : nat) (m : omem) : sim := Sim (sm_w x) (sm_names x) (upd (sm_obs x) i m).

(** [obs.init(world, timeline)] *)
Definition obs_init (U : setup) (O : nat -> okind) (i : nat) (timeline : list R) (x : sim) : sim * res unit :=
  let v := w_v (sm_w x) in
  match O i with
  | ORec fi _ => match fi v with Err y => (x, Err y) | Ok c => (set_o x i (MRec (rec_init timeline c)), Ok tt) end
  | OLog o =>
      match log_init U v o timeline (sm_names x) with
      | (nm, Err y) => (Sim (sm_w x) nm (sm_obs x), Err y)
      | (nm, Ok g) => (Sim (sm_w x) nm (upd (sm_obs x) i (MLog g)), Ok tt)
      end
  | OEnergy =>
      match em_init (su_eigvals U) (su_eig U) (su_e U) (su_sc U) (su_fuel U) (s_heap (v_s v)) with
      | Err y => (x, Err y)
      | Ok m => (set_o x i (MEnergy m), Ok tt)
      end
  | OUser fi _ _ =>
      match sm_obs x i with
      | MUser d => match fi v timeline d with Err y => (x, Err y) | Ok d1 => (set_o x i (MUser d1), Ok tt) end
      | _ => (x, Err AttributeError)
      end
  end.
(** [obs.update(dt)] *)
Definition obs_update (U : setup) (O : nat -> okind) (i : nat) (dt : R) (x : sim) : sim * res unit :=
  let v := w_v (sm_w x) in
  let put (r : res omem) := match r with Err y => (x, Err y) | Ok m => (set_o x i m, Ok tt) end in
  match O i, sm_obs x i with
  | ORec _ f, MRec r => put (rmap MRec (let* d := f (rc_com r) v in save_data d r))
  | OLog o, MLog g => put (rmap MLog (log_update U v o (sm_names x) g))
  | OEnergy, MEnergy m => put (rmap MEnergy (em_update (su_e U) (su_sc U) (su_fuel U) (v_s v) (v_st v) m))
  | OUser _ fu _, MUser d => put (rmap MUser (fu v dt d))
  | _, _ => (x, Err AttributeError)
  end.
(** [obs.finish()]; the files written by PickleLogger and Hdf5Logger are in Model_File *)
Definition obs_finish (O : nat -> okind) (i : nat) (x : sim) : sim * res unit :=
  match O i, sm_obs x i with
  | OUser _ _ ff, MUser d => match ff d with Err y => (x, Err y) | Ok d1 => (set_o x i (MUser d1), Ok tt) end
  | _, _ => (x, Ok tt)
  end.

(** the calls made by [simulate], and their effect *)
Inductive call := WInit | OInit (i : nat) | Dyn | Ctl (dt : R) | Cons (dt : R) | OUpd (i : nat) (dt : R) | Int (dt : R) | OFin (i : nat).
Definition interp (U : setup) (O : nat -> okind) (timeline : list R) (c : call) (x : sim) : sim * res unit :=
  let on_world (f : world -> world * res unit) := let (w, r) := f (sm_w x) in (set_w x w, r) in
  match c with
  | WInit => on_world (world_init U)
  | OInit i => obs_init U O i timeline x
  | Dyn => on_world (world_dynamic U)
  | Ctl dt => on_world (world_controllers U dt)
  | Cons dt => on_world (world_constraints U dt)
  | OUpd i dt => obs_update U O i dt x
  | Int dt => on_world (world_integrate U dt)
  | OFin i => obs_finish O i x
  end.
(** consecutive statements; the first exception ends the sequence *)
Definition bind_ (a : sim * res unit) (f : sim -> sim * res unit) : sim * res unit :=
  match a with (x, Ok _) => f x | (x, Err y) => (x, Err y) end.
Fixpoint calls (I : call -> sim -> sim * res unit) (l : list call) (x : sim) : sim * res unit :=
  match l with [] => (x, Ok tt) | c :: l' => bind_ (I c x) (calls I l') end.
(** core.py:1493-1500 *)
Fixpoint sim_loop (I : call -> sim -> sim * res unit) (obs : list nat) (ts : list R) (x : sim) : sim * res unit :=
  match ts with
  | [] => (x, Ok tt)
  | t :: ts' =>
      let dt := t - now x in
      bind_ (calls I [Dyn; Ctl dt; Cons dt] x) (fun x1 =>
      bind_ (calls I (map (fun i => OUpd i dt) obs) x1) (fun x2 =>
      bind_ (I (Int dt) x2) (sim_loop I obs ts')))
  end.
(** [simulate(world, timeline, observers)], core.py:1463-1503; [observers] is a list, a tuple, a dictionary (its values)
    or a generator.  The warning about the initial time has no effect. *)
Definition simulate (U : setup) (O : nat -> okind) (timeline : list R) (observers : iterable) (x : sim) : sim * res unit :=
  match timeline with
  | [] => (x, Err IndexError)
  | t0 :: ts =>
      let I := interp U O timeline in
      let x0 := set_w x (set_time (sm_w x) t0) in
      let (l1, it1) := consume observers in
      let rest := fst (consume it1) in
      bind_ (I WInit x0) (fun x1 =>
      bind_ (calls I (map OInit l1) x1) (fun x2 =>
      bind_ (sim_loop I rest ts x2) (fun x3 =>
      calls I (map OFin rest) x3)))
  end.
