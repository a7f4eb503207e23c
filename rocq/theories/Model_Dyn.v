(** arboris/core.py: the kinematic and dynamic updates of a world (Frame, SubFrame, Body, World):
    lines 750-812, 1118-1160, 1253-1440.  The object graph is that of Model_World (velocities being
    reals); a (6,ndof) array is the function giving its columns, a (ndof,ndof) array the function
    giving its entries.  Attributes that Python initialises to None are options. *)
From Verif Require Export Model_World Model_Joints.

(** Attributes of the objects that the updates only read. *)
Record scene := Scene {
  b_mass : nat -> m6;            (* Body.mass, core.py:1190 *)
  b_visc : nat -> m6;            (* Body.viscosity, core.py:1191 *)
  sub_bpose : nat -> m4;         (* SubFrame._bpose, core.py:1108-1116 *)
  mov_bpose : nat -> m4          (* MovingSubFrame._bpose *)
}.

(** [bpose] of a Body (core.py:1245-1247), SubFrame (1153-1156), MovingSubFrame (1159-1162) *)
Definition bpose (sc : scene) (f : frame) : m4 :=
  match f with FBody _ => eye4 | FSub s => sub_bpose sc s | FMov s => mov_bpose sc s end.

(** Body._pose, _jacobian, _djacobian, _twist, _nleffects, core.py:1192-1196 *)
Record bodyattr := BA { a_pose : option m4; a_jac : option (nat -> v6); a_djac : option (nat -> v6);
                        a_twist : option v6; a_nle : option m6 }.
Definition store := nat -> bodyattr.
(** a new Body *)
Definition no_attr := BA None None None None None.

(** pose of the child frame seen from the parent body: core.py:1275-1278, 1420-1423 *)
Definition rel_pose (sc : scene) (j : jstate) (f0 f1 : frame) : res m4 :=
  let* Hnc := inv (bpose sc f1) in Ok (mm4 (bpose sc f0) (mm4 (Model_Joints.pose j) Hnc)).

(** core.py:1279 *)
Definition child_pose (sc : scene) (j : jstate) (f0 f1 : frame) (pose : m4) : res m4 :=
  let* Hpc := rel_pose sc j f0 f1 in Ok (mm4 pose Hpc).

(** [Body.update_geometric], core.py:1253-1280.  [J] gives the joints' attributes, [fuel] is the
    recursion budget; the attributes already set when an exception is raised are not modelled. *)
Fixpoint update_geometric (e : env) (sc : scene) (h : @heap R) (J : nat -> jstate) (fuel : nat)
  (b : nat) (pose : m4) (st : store) {struct fuel} : res store :=
  match fuel with
  | O => Err RecursionError
  | S n =>
      let a := st b in
      let st0 := upd st b (BA (Some pose) (a_jac a) (a_djac a) (a_twist a) (a_nle a)) in
      (fix loop (js : list nat) (st : store) : res store :=
         match js with
         | [] => Ok st
         | j :: js' =>
             match jframes h j with
             | None => Err AttributeError
             | Some (f0, f1) =>
                 let* p' := child_pose sc (J j) f0 f1 pose in
                 let* st1 := update_geometric e sc h J n (frame_body e f1) p' st in
                 loop js' st1
             end
         end) (childrenjoints h b) st0
  end.

(** body [nleffects], core.py:1401-1413 *)
Definition body_nle (mass : m6) (T : v6) : m6 :=
  let w := ang T in
  let wx := M3 0 (- vz w) (vy w)  (vz w) 0 (- vx w)  (- vy w) (vx w) 0 in
  let m := m22 (ll mass) in
  let rx := if Rle_dec m (1 / 10000000000) then zerom3 else mscal (/ m) (al mass) in
  mm6 (M6 wx (msub (mm rx wx) (mm wx rx)) zerom3 wx) mass.

(** the arguments of [Body.update_dynamic] *)
Record kin := Kin { k_pose : m4; k_jac : nat -> v6; k_djac : nat -> v6; k_twist : v6 }.

(** [x[:, s:t] += f] adds column [k - s] of [f] to column [k] *)
Definition slice_col (s t : nat) (f : nat -> v6) (k : nat) : v6 :=
  if Nat.leb s k && Nat.ltb k t then f (k - s)%nat else zero6.

(** what the loop of core.py:1419-1440 computes for the child through joint [j].  An unset or
    out-of-range [j.dof] slice is a ValueError (core.py:219-230; numpy broadcasting). *)
Definition child_kin (sc : scene) (h : @heap R) (j : nat) (s : jstate) (f0 f1 : frame) (k : kin) : res kin :=
  let H_cn := bpose sc f1 in
  let H_pr := bpose sc f0 in
  let* H_pc := rel_pose sc s f0 f1 in
  let* Ad_cp := iadjoint H_pc in
  let* Ad_cn := adjoint H_cn in
  let* H_rp := inv H_pr in
  let* Ad_rp := adjoint H_rp in
  let* dAd_nr := idadjoint s in
  let dAd_cp := mm6 Ad_cn (mm6 dAd_nr Ad_rp) in
  match jdof h j with
  | None => Err ValueError
  | Some (d0, d1) =>
      if Nat.leb d1 (w_ndof h) then
        Ok (Kin (mm4 (k_pose k) H_pc)
                (fun c => v6add (mv6 Ad_cp (k_jac k c)) (slice_col d0 d1 (fun i => mv6 Ad_cn (jacobian s i)) c))
                (fun c => v6add (v6add (mv6 dAd_cp (k_jac k c)) (mv6 Ad_cp (k_djac k c)))
                                (slice_col d0 d1 (fun i => mv6 Ad_cn (djacobian s i)) c))
                (v6add (mv6 Ad_cp (k_twist k)) (mv6 Ad_cn (Model_Joints.twist s))))
      else Err ValueError
  end.

(** [Body.update_dynamic], core.py:1282-1440 *)
Fixpoint update_dynamic (e : env) (sc : scene) (h : @heap R) (J : nat -> jstate) (fuel : nat)
  (b : nat) (k : kin) (st : store) {struct fuel} : res store :=
  match fuel with
  | O => Err RecursionError
  | S n =>
      let st0 := upd st b (BA (Some (k_pose k)) (Some (k_jac k)) (Some (k_djac k)) (Some (k_twist k))
                              (Some (body_nle (b_mass sc b) (k_twist k)))) in
      (fix loop (js : list nat) (st : store) : res store :=
         match js with
         | [] => Ok st
         | j :: js' =>
             match jframes h j with
             | None => Err AttributeError
             | Some (f0, f1) =>
                 let* k' := child_kin sc h j (J j) f0 f1 k in
                 let* st1 := update_dynamic e sc h J n (frame_body e f1) k' st in
                 loop js' st1
             end
         end) (childrenjoints h b) st0
  end.

(** World._mass, _viscosity, _nleffects *)
Record wdyn := WD { d_mass : nat -> nat -> R; d_visc : nat -> nat -> R; d_nle : nat -> nat -> R }.
Definition wdyn0 := WD (fun _ _ => 0) (fun _ _ => 0) (fun _ _ => 0).

(** [dot(dot(A.T, M), B)] for (6,ndof) arrays A and B *)
Definition congr (A : nat -> v6) (M : m6) (B : nat -> v6) (k l : nat) : R := dot6 (A k) (mv6 M (B l)).

(** the loop of [World.update_dynamic], core.py:803-812 *)
Fixpoint accumulate (sc : scene) (st : store) (bs : list nat) (d : wdyn) : res wdyn :=
  match bs with
  | [] => Ok d
  | b :: bs' =>
      match a_jac (st b), a_djac (st b), a_nle (st b) with
      | Some A, Some dA, Some N =>
          accumulate sc st bs'
            (WD (fun k l => d_mass d k l + congr A (b_mass sc b) A k l)
                (fun k l => d_visc d k l + congr A (b_visc sc b) A k l)
                (fun k l => d_nle d k l + dot6 (A k) (v6add (mv6 (b_mass sc b) (dA l)) (mv6 N (A l)))))
      | _, _, _ => Err AttributeError           (* None.T *)
      end
  end.

(** [World.update_geometric], core.py:747-758 *)
Definition world_update_geometric (e : env) (sc : scene) (h : @heap R) (J : nat -> jstate) (fuel : nat) (st : store) : res store :=
  update_geometric e sc h J fuel (ground e) eye4 st.

(** [World.update_dynamic], core.py:760-812 *)
Definition world_update_dynamic (e : env) (sc : scene) (h : @heap R) (J : nat -> jstate) (fuel : nat) (st : store)
  : res (store * wdyn) :=
  let* st1 := update_dynamic e sc h J fuel (ground e) (Kin eye4 (fun _ => zero6) (fun _ => zero6) zero6) st in
  let* bs := iter_descendant_bodies e fuel h (ground e) in
  let* d := accumulate sc st1 bs wdyn0 in
  Ok (st1, d).

(** Properties of frames: core.py:1123-1150 (subframes), 1225-1251 (bodies).  A Body returns None
    where the model reports TypeError. *)
Definition get {A} (x : option A) : res A := match x with Some a => Ok a | None => Err TypeError end.
Definition frame_pose (e : env) (sc : scene) (st : store) (f : frame) : res m4 :=
  let* p := get (a_pose (st (frame_body e f))) in
  match f with FBody _ => Ok p | _ => Ok (mm4 p (bpose sc f)) end.
Definition frame_twist (e : env) (sc : scene) (st : store) (f : frame) : res v6 :=
  match f with
  | FBody b => get (a_twist (st b))
  | _ => let* A := iadjoint (bpose sc f) in let* x := get (a_twist (st (frame_body e f))) in Ok (mv6 A x)
  end.
Definition frame_jac (e : env) (sc : scene) (st : store) (f : frame) : res (nat -> v6) :=
  match f with
  | FBody b => get (a_jac (st b))
  | _ => let* A := iadjoint (bpose sc f) in let* x := get (a_jac (st (frame_body e f))) in Ok (fun c => mv6 A (x c))
  end.
Definition frame_djac (e : env) (sc : scene) (st : store) (f : frame) : res (nat -> v6) :=
  match f with
  | FBody b => get (a_djac (st b))
  | _ => let* A := iadjoint (bpose sc f) in let* x := get (a_djac (st (frame_body e f))) in Ok (fun c => mv6 A (x c))
  end.

(** Attributes of joint [j] in a world: class, position, and velocity read through its (possibly
    shared) array, core.py:701-703. *)
Definition joint_state (h : @heap R) (ty : nat -> jtype) (qH : nat -> m4) (q : nat -> nat -> R) (j : nat) : jstate :=
  JS (ty j) (qH j) (q j) (fun i => nth i (joint_gvel h j) 0).
