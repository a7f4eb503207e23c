(** Specification vocabulary for the arrays of a world. *)
From Verif Require Export Model_Mem.
Open Scope R_scope.
(** an array that exists *)
Definition exists_in {A} (m : mem A) (a : addr) : Prop := match a with AObj _ => True | ANew n => (n < m_next m)%nat end.
Definition all_exist {A} (m : mem A) (o : option addr) : Prop := match o with Some a => exists_in m a | None => True end.
(** The world owns its arrays: its attributes refer to existing arrays, the arrays that its methods write in place are distinct from the others (an array of
    a moving frame may be shared with other frames, not with a body or a joint). *)
Record owned (w : mworld) : Prop := {
  ow_pose : forall b, all_exist (r4 (mw_ram w)) (v_pose (mw_body w b)) /\ forall m, v_pose (mw_body w b) <> Some (mw_mov w m);
  ow_jac : forall b, all_exist (rj (mw_ram w)) (v_jac (mw_body w b)) /\ all_exist (rj (mw_ram w)) (v_djac (mw_body w b));
  ow_twist : forall b, all_exist (r6 (mw_ram w)) (v_twist (mw_body w b)) /\ all_exist (rm (mw_ram w)) (v_nle (mw_body w b));
  ow_mass : forall b, exists_in (rm (mw_ram w)) (mw_bmass w b) /\ exists_in (rm (mw_ram w)) (mw_bvisc w b);
  ow_bpose : forall s, exists_in (r4 (mw_ram w)) (mw_sub w s) /\ exists_in (r4 (mw_ram w)) (mw_mov w s);
  ow_world : forall a, In a [mw_mass w; mw_visc w; mw_nle w; mw_imp w; mw_adm w] -> exists_in (rn (mw_ram w)) a;
  ow_apart : NoDup [mw_mass w; mw_visc w; mw_nle w; mw_imp w; mw_adm w];
  ow_gforce : exists_in (rv (mw_ram w)) (mw_gforce w) /\ forall j, mw_q w j <> mw_gforce w;
  ow_gpos : forall j, exists_in (rv (mw_ram w)) (mw_q w j) /\ exists_in (r4 (mw_ram w)) (mw_qH w j) /\ forall m, mw_mov w m <> mw_qH w j;
  ow_gpos_inj : forall i j, mw_q w i = mw_q w j -> i = j }.
(** each moving frame was made from an array of its own *)
Definition unshared (w : mworld) : Prop :=
  (forall m m', mw_mov w m = mw_mov w m' -> m = m') /\ forall m s, mw_mov w m <> mw_sub w s.
(** frames are made from arrays that are not attributes of a body or a joint *)
Definition legal (c : mcall) (w : mworld) : Prop :=
  match c with
  | CNewSub s a => exists_in (r4 (mw_ram w)) a
  | CNewMov m a => exists_in (r4 (mw_ram w)) a /\ (forall b, v_pose (mw_body w b) <> Some a) /\ (forall j, mw_qH w j <> a)
  | _ => True
  end.
Fixpoint legal_calls (e : env) (fuel : nat) (cs : list mcall) (w : mworld) : Prop :=
  match cs with [] => True | c :: cs' => legal c w /\ legal_calls e fuel cs' (fst (mcall_run e fuel c w)) end.
(** no moving frame is made from the array [x] *)
Definition not_moved (x : handle) (cs : list mcall) : Prop := forall m a, In (CNewMov m a) cs -> x <> H4 a.
(** what the documentation shows as values of the current time *)
Definition snapshot (w : mworld) (q : query) : Prop :=
  match q with
  | QWMass | QWVisc | QWNle | QGvel _ => False
  | QGpos j => mw_ty w j = FreeJoint
  | _ => True
  end.
(** Calls and readings of [q] alternate: the arrays obtained, and the values seen when they were obtained. *)
Fixpoint watch (e : env) (fuel : nat) (q : query) (css : list (list mcall)) (w : mworld) : mworld * list (res handle) * list (res value) :=
  match css with
  | [] => (w, [], [])
  | cs :: css' =>
      let (w1, x) := fetch e q (mcalls_run e fuel cs w) in
      let '(w2, xs, vs) := watch e fuel q css' w1 in
      (w2, x :: xs, rmap (content w1) x :: vs)
  end.
(** the same calls, all legal *)
Fixpoint legal_watch (e : env) (fuel : nat) (q : query) (css : list (list mcall)) (w : mworld) : Prop :=
  match css with
  | [] => True
  | cs :: css' => legal_calls e fuel cs w /\ legal_watch e fuel q css' (fst (fetch e q (mcalls_run e fuel cs w)))
  end.
(** the value of a property, from the values of the attributes (Model_Dyn, Model_Step) *)
Definition shows (e : env) (w : mworld) (q : query) : res value :=
  let sc := scene_in w in let st := store_in w in let s := wst_in w in
  match q with
  | QPose f => rmap Val4 (frame_pose e sc st f)
  | QTwist f => rmap Val6 (frame_twist e sc st f)
  | QJac f => rmap ValJ (frame_jac e sc st f)
  | QDjac f => rmap ValJ (frame_djac e sc st f)
  | QNle b => rmap ValM (get (a_nle (st b)))
  | QBpose f => Ok (Val4 (bpose sc f))
  | QWMass => Ok (ValN (d_mass (s_dyn s)))
  | QWVisc => Ok (ValN (d_visc (s_dyn s)))
  | QWNle => Ok (ValN (d_nle (s_dyn s)))
  | QWGvel => Ok (ValV (gvel_vec (s_heap s)))
  | QWGforce => Ok (ValV (s_gforce s))
  | QWAdm => Ok (ValN (s_adm s))
  | QGpos j => Ok (match s_ty s j with FreeJoint => Val4 (s_qH s j) | _ => ValV (s_q s j) end)
  | QGvel j => Ok (ValG (joint_gvel (s_heap s) j))
  end.
(** the attributes that are written in place: world.mass, viscosity, nleffects, and gpos of a joint that is not a FreeJoint *)
Definition live_query (w : mworld) (q : query) : Prop :=
  match q with QWMass | QWVisc | QWNle => True | QGpos j => mw_ty w j <> FreeJoint | _ => False end.
Definition no_init (cs : list mcall) : Prop := ~ In (CGraph Init) cs.
(** Memory of a world with given values: every object has arrays of its own. *)
Definition load (sc : scene) (s : wst) : mworld :=
  let three k := match Nat.modulo k 3 with 0 => sub_bpose sc (k / 3) | 1 => mov_bpose sc (k / 3) | _ => s_qH s (k / 3) end%nat in
  let two k := match Nat.modulo k 2 with 0 => b_mass sc (k / 2) | _ => b_visc sc (k / 2) end%nat in
  let five k := match k with 0 => d_mass (s_dyn s) | 1 => d_visc (s_dyn s) | 2 => d_nle (s_dyn s) | 3 => s_imp s | _ => s_adm s end%nat in
  let obj A (f : nat -> A) (x : A) := Mem 0 (fun a => match a with AObj k => f k | ANew _ => x end) in
  MW (Ram (obj _ three eye4) (obj _ (fun _ => zero6) zero6) (obj _ (fun _ _ => zero6) (fun _ => zero6)) (obj _ two eye6) (obj _ five mzero)
          (obj _ (fun k => match k with O => s_gforce s | S j => s_q s j end) vzero))
     (fun _ => BV None None None None None) (fun b => AObj (2 * b)) (fun b => AObj (2 * b + 1)) (fun k => AObj (3 * k)) (fun k => AObj (3 * k + 1))
     (AObj 0) (AObj 1) (AObj 2) (AObj 0) (AObj 3) (AObj 4) (s_ty s) (fun j => AObj (3 * j + 2)) (fun j => AObj (S j)) (s_heap s) (s_time s).
