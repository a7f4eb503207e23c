(** The arrays of a world as objects: which attribute of arboris/core.py refers to which array, which methods write an array in place
    and which ones make a new array.  Model_Dyn and Model_Step give the values; here the same methods act on a memory. *)
From Verif Require Export Model_Step.
Open Scope R_scope.

(** An array given to a constructor or made by it ([AObj]), or made later ([ANew], numbered in order of creation).  Arrays of different
    shapes live in different memories. *)
Inductive addr := AObj (k : nat) | ANew (n : nat).
Definition addr_eqb (a b : addr) : bool :=
  match a, b with AObj i, AObj j => Nat.eqb i j | ANew i, ANew j => Nat.eqb i j | _, _ => false end.
Record mem (A : Type) := Mem { m_next : nat; m_at : addr -> A }.
Arguments Mem {A}. Arguments m_next {A}. Arguments m_at {A}.
(** a new array, and [x[:] = v] *)
Definition put {A} (a : addr) (x : A) (m : mem A) : mem A := Mem (m_next m) (fun b => if addr_eqb b a then x else m_at m b).
Definition fresh_addr {A} (m : mem A) : addr := ANew (m_next m).
Definition alloc {A} (x : A) (m : mem A) : mem A := Mem (S (m_next m)) (fun b => if addr_eqb b (fresh_addr m) then x else m_at m b).
(** arrays of shape (4,4), (6,), (6,ndof), (6,6), (ndof,ndof), and the vectors *)
Record ram := Ram { r4 : mem m4; r6 : mem v6; rj : mem (nat -> v6); rm : mem m6; rn : mem mat; rv : mem vec }.

(** Body._pose, _jacobian, _djacobian, _twist, _nleffects *)
Record bvars := BV { v_pose : option addr; v_jac : option addr; v_djac : option addr; v_twist : option addr; v_nle : option addr }.
Record mworld := MW {
  mw_ram : ram;
  mw_body : nat -> bvars;
  mw_bmass : nat -> addr; mw_bvisc : nat -> addr;       (* Body.mass, viscosity: the arrays given to the constructor, core.py:1190-1191 *)
  mw_sub : nat -> addr; mw_mov : nat -> addr;           (* _SubFrame._bpose: the array given to the constructor, core.py:1116 *)
  mw_mass : addr; mw_visc : addr; mw_nle : addr; mw_gforce : addr; mw_imp : addr; mw_adm : addr;
  mw_ty : nat -> jtype; mw_qH : nat -> addr; mw_q : nat -> addr;  (* Joint.gpos of a FreeJoint, and of the others *)
  mw_heap : @heap R;                                    (* the object graph and the arrays of the velocities, Model_World *)
  mw_time : R }.
(** the values *)
Definition scene_in (w : mworld) : scene :=
  let r := mw_ram w in
  Scene (fun b => m_at (rm r) (mw_bmass w b)) (fun b => m_at (rm r) (mw_bvisc w b)) (fun s => m_at (r4 r) (mw_sub w s)) (fun s => m_at (r4 r) (mw_mov w s)).
Definition store_in (w : mworld) : store :=
  let r := mw_ram w in
  fun b => let v := mw_body w b in
    BA (option_map (m_at (r4 r)) (v_pose v)) (option_map (m_at (rj r)) (v_jac v)) (option_map (m_at (rj r)) (v_djac v))
       (option_map (m_at (r6 r)) (v_twist v)) (option_map (m_at (rm r)) (v_nle v)).
Definition wst_in (w : mworld) : wst :=
  let r := mw_ram w in
  WS (mw_heap w) (mw_ty w) (fun j => m_at (r4 r) (mw_qH w j)) (fun j => m_at (rv r) (mw_q w j))
     (WD (m_at (rn r) (mw_mass w)) (m_at (rn r) (mw_visc w)) (m_at (rn r) (mw_nle w)))
     (m_at (rv r) (mw_gforce w)) (m_at (rn r) (mw_imp w)) (m_at (rn r) (mw_adm w)) (mw_time w).

Definition set_ram (r : ram) (w : mworld) : mworld :=
  MW r (mw_body w) (mw_bmass w) (mw_bvisc w) (mw_sub w) (mw_mov w) (mw_mass w) (mw_visc w) (mw_nle w) (mw_gforce w) (mw_imp w) (mw_adm w)
     (mw_ty w) (mw_qH w) (mw_q w) (mw_heap w) (mw_time w).
Definition set_body (b : nat) (v : bvars) (w : mworld) : mworld :=
  MW (mw_ram w) (upd (mw_body w) b v) (mw_bmass w) (mw_bvisc w) (mw_sub w) (mw_mov w) (mw_mass w) (mw_visc w) (mw_nle w) (mw_gforce w) (mw_imp w) (mw_adm w)
     (mw_ty w) (mw_qH w) (mw_q w) (mw_heap w) (mw_time w).
Definition on4 (f : mem m4 -> mem m4) (r : ram) : ram := Ram (f (r4 r)) (r6 r) (rj r) (rm r) (rn r) (rv r).
Definition onn (f : mem mat -> mem mat) (r : ram) : ram := Ram (r4 r) (r6 r) (rj r) (rm r) (f (rn r)) (rv r).
Definition onv (f : mem vec -> mem vec) (r : ram) : ram := Ram (r4 r) (r6 r) (rj r) (rm r) (rn r) (f (rv r)).
Definition onm (f : mem m6 -> mem m6) (r : ram) : ram := Ram (r4 r) (r6 r) (rj r) (f (rm r)) (rn r) (rv r).

Section M.
  Variables (e : env) (fuel0 : nat).
  (** [Body.update_geometric(pose)], core.py:1269-1280; the argument is an array, which becomes the attribute *)
  Fixpoint m_geometric (fuel : nat) (b : nat) (p : addr) (w : mworld) {struct fuel} : mworld * res unit :=
    match fuel with
    | O => (w, Err RecursionError)
    | S n =>
        let v := mw_body w b in
        let w0 := set_body b (BV (Some p) (v_jac v) (v_djac v) (v_twist v) (v_nle v)) w in
        (fix loop (js : list nat) (w : mworld) : mworld * res unit :=
           match js with
           | [] => (w, Ok tt)
           | j :: js' =>
               match jframes (mw_heap w) j with
               | None => (w, Err AttributeError)
               | Some (f0, f1) =>
                   match child_pose (scene_in w) (joints_of (wst_in w) j) f0 f1 (m_at (r4 (mw_ram w)) p) with
                   | Err x => (w, Err x)
                   | Ok H =>                                             (* dot: a new array *)
                       let p' := fresh_addr (r4 (mw_ram w)) in
                       let w1 := set_ram (on4 (alloc H) (mw_ram w)) w in
                       match m_geometric n (frame_body e f1) p' w1 with
                       | (w2, Err x) => (w2, Err x)
                       | (w2, Ok _) => loop js' w2
                       end
                   end
               end
           end) (childrenjoints (mw_heap w) b) w0
    end.
  (** the arrays given to [Body.update_dynamic] *)
  Record kaddr := KA { ka_pose : addr; ka_jac : addr; ka_djac : addr; ka_twist : addr }.
  Definition kin_in (w : mworld) (k : kaddr) : kin :=
    let r := mw_ram w in Kin (m_at (r4 r) (ka_pose k)) (m_at (rj r) (ka_jac k)) (m_at (rj r) (ka_djac k)) (m_at (r6 r) (ka_twist k)).
  (** four new arrays *)
  Definition new_kin (k : kin) (w : mworld) : kaddr * mworld :=
    let r := mw_ram w in
    (KA (fresh_addr (r4 r)) (fresh_addr (rj r)) (fresh_addr (alloc (k_jac k) (rj r))) (fresh_addr (r6 r)),
     set_ram (Ram (alloc (k_pose k) (r4 r)) (alloc (k_twist k) (r6 r)) (alloc (k_djac k) (alloc (k_jac k) (rj r))) (rm r) (rn r) (rv r)) w).
  (** [Body.update_dynamic], core.py:1397-1440; [child_jac[:, j.dof] += ...] writes an array just made by [dot] *)
  Fixpoint m_dynamic (fuel : nat) (b : nat) (k : kaddr) (w : mworld) {struct fuel} : mworld * res unit :=
    match fuel with
    | O => (w, Err RecursionError)
    | S n =>
        let r := mw_ram w in
        let N := body_nle (m_at (rm r) (mw_bmass w b)) (m_at (r6 r) (ka_twist k)) in
        let w0 := set_body b (BV (Some (ka_pose k)) (Some (ka_jac k)) (Some (ka_djac k)) (Some (ka_twist k)) (Some (fresh_addr (rm r))))
                    (set_ram (onm (alloc N) r) w) in
        (fix loop (js : list nat) (w : mworld) : mworld * res unit :=
           match js with
           | [] => (w, Ok tt)
           | j :: js' =>
               match jframes (mw_heap w) j with
               | None => (w, Err AttributeError)
               | Some (f0, f1) =>
                   match child_kin (scene_in w) (mw_heap w) j (joints_of (wst_in w) j) f0 f1 (kin_in w k) with
                   | Err x => (w, Err x)
                   | Ok k' =>
                       let (ka, w1) := new_kin k' w in
                       match m_dynamic n (frame_body e f1) ka w1 with
                       | (w2, Err x) => (w2, Err x)
                       | (w2, Ok _) => loop js' w2
                       end
                   end
               end
           end) (childrenjoints (mw_heap w) b) w0
    end.
  (** [self._mass += ...], [self._viscosity += ...], [self._nleffects += ...]: in place, core.py:803-812 *)
  Definition put3 (d : wdyn) (w : mworld) : mworld :=
    set_ram (onn (fun m => put (mw_nle w) (d_nle d) (put (mw_visc w) (d_visc d) (put (mw_mass w) (d_mass d) m))) (mw_ram w)) w.
  Definition wdyn_in (w : mworld) : wdyn := s_dyn (wst_in w).
  Fixpoint m_accumulate (bs : list nat) (w : mworld) : mworld * res unit :=
    match bs with
    | [] => (w, Ok tt)
    | b :: bs' =>
        match accumulate (scene_in w) (store_in w) [b] (wdyn_in w) with
        | Err x => (w, Err x)
        | Ok d => m_accumulate bs' (put3 d w)
        end
    end.
  (** [World.update_geometric] and [World.update_dynamic], core.py:758, 795-812 *)
  Definition m_update_geometric (w : mworld) : mworld * res unit :=
    m_geometric fuel0 (ground e) (fresh_addr (r4 (mw_ram w))) (set_ram (on4 (alloc eye4) (mw_ram w)) w).
  Definition m_update_dynamic (w : mworld) : mworld * res unit :=
    let (k, w1) := new_kin (Kin eye4 (fun _ => zero6) (fun _ => zero6) zero6) w in
    match m_dynamic fuel0 (ground e) k w1 with
    | (w2, Err x) => (w2, Err x)
    | (w2, Ok _) =>
        let w3 := put3 wdyn0 w2 in                                      (* self._mass[:] = 0. ... *)
        match iter_descendant_bodies e fuel0 (mw_heap w3) (ground e) with
        | Err x => (w3, Err x)
        | Ok bs => m_accumulate bs w3
        end
    end.

  (** [World.update_controllers], core.py:886-893: [_gforce] is written in place, [_impedance] and [_admittance] are new arrays (the
      first one is then changed in place).  [ctl] is what the controllers return in this call. *)
  Definition put_gforce (f : vec) (w : mworld) : mworld := set_ram (onv (put (mw_gforce w) f) (mw_ram w)) w.
  Definition put_imp (Z : mat) (w : mworld) : mworld := set_ram (onn (put (mw_imp w) Z) (mw_ram w)) w.
  Definition new_imp (Z : mat) (w : mworld) : mworld :=
    MW (onn (alloc Z) (mw_ram w)) (mw_body w) (mw_bmass w) (mw_bvisc w) (mw_sub w) (mw_mov w) (mw_mass w) (mw_visc w) (mw_nle w) (mw_gforce w)
       (fresh_addr (rn (mw_ram w))) (mw_adm w) (mw_ty w) (mw_qH w) (mw_q w) (mw_heap w) (mw_time w).
  Definition new_adm (Y : mat) (w : mworld) : mworld :=
    MW (onn (alloc Y) (mw_ram w)) (mw_body w) (mw_bmass w) (mw_bvisc w) (mw_sub w) (mw_mov w) (mw_mass w) (mw_visc w) (mw_nle w) (mw_gforce w)
       (mw_imp w) (fresh_addr (rn (mw_ram w))) (mw_ty w) (mw_qH w) (mw_q w) (mw_heap w) (mw_time w).
  Fixpoint m_add_controllers (ctl : nat -> R -> res (vec * mat)) (dt : R) (l : list nat) (w : mworld) : mworld * res unit :=
    match l with
    | [] => (w, Ok tt)
    | a :: l' =>
        match ctl a dt with
        | Err x => (w, Err x)
        | Ok (f, Z) =>
            let w1 := put_gforce (vplus (m_at (rv (mw_ram w)) (mw_gforce w)) f) w in
            m_add_controllers ctl dt l' (put_imp (mminus (m_at (rn (mw_ram w1)) (mw_imp w1)) Z) w1)
        end
    end.
  Definition m_update_controllers (linv : nat -> mat -> option mat) (ctl : nat -> R -> res (vec * mat)) (dt : R) (w : mworld) : mworld * res unit :=
    if Rlt_dec 0 dt then
      let w0 := put_gforce vzero w in
      let d := wdyn_in w0 in
      let w1 := new_imp (mplus (mplus (mmul (/ dt) (d_mass d)) (d_visc d)) (d_nle d)) w0 in
      match m_add_controllers ctl dt (w_controllers (mw_heap w1)) w1 with
      | (w2, Err x) => (w2, Err x)
      | (w2, Ok _) =>
          match linv (w_ndof (mw_heap w2)) (m_at (rn (mw_ram w2)) (mw_imp w2)) with
          | None => (w2, Err LinAlgError)
          | Some Y => (new_adm Y w2, Ok tt)
          end
      end
    else (w, Err AssertionError).

  (** [MovingSubFrame.bpose = H], core.py:1168-1171: in place *)
  Definition m_set_bpose (m : nat) (H : m4) (w : mworld) : mworld * res unit :=
    if ishomogeneousmatrix H then (set_ram (on4 (put (mw_mov w m) H) (mw_ram w)) w, Ok tt) else (w, Err AssertionError).
  (** the effects of [World.update_constraints] on the arrays of the world, core.py:993-1022: the contacts move their frames (constraints.py:
      [self._frames[i].bpose = ...]), then [self._gforce += c.gforce].  [fs] are the generalized forces of the constraints at the end of the call. *)
  Fixpoint m_set_bposes (l : list (nat * m4)) (w : mworld) : mworld * res unit :=
    match l with
    | [] => (w, Ok tt)
    | (m, H) :: l' => match m_set_bpose m H w with (w1, Err x) => (w1, Err x) | (w1, Ok _) => m_set_bposes l' w1 end
    end.
  Fixpoint m_add_gforces (fs : list vec) (w : mworld) : mworld :=
    match fs with [] => w | f :: fs' => m_add_gforces fs' (put_gforce (vplus (m_at (rv (mw_ram w)) (mw_gforce w)) f) w) end.
  Definition m_update_constraints (bps : list (nat * m4)) (fs : list vec) (w : mworld) : mworld * res unit :=
    match m_set_bposes bps w with (w1, Err x) => (w1, Err x) | (w1, Ok _) => (m_add_gforces fs w1, Ok tt) end.

  (** [World.integrate], core.py:1061-1067; [Joint.integrate]: [self.gpos += ...] in place (core.py:290), [self.gpos = dot(...)] a new array
      for a FreeJoint (joints.py:66) *)
  Definition set_heap_in (h : @heap R) (w : mworld) : mworld :=
    MW (mw_ram w) (mw_body w) (mw_bmass w) (mw_bvisc w) (mw_sub w) (mw_mov w) (mw_mass w) (mw_visc w) (mw_nle w) (mw_gforce w) (mw_imp w) (mw_adm w)
       (mw_ty w) (mw_qH w) (mw_q w) h (mw_time w).
  Definition m_integrate_joint (dt : R) (j : nat) (w : mworld) : res mworld :=
    let h := mw_heap w in
    match jdof h j with
    | None => Err ValueError
    | Some (a, b) =>
        let v := fun i => nth i (read (arr h) (View (w_gvel h) a (b - a))) 0 in
        let g := match mw_ty w j with FixedJoint => jgvel h | _ => upd (jgvel h) j (View (w_gvel h) a (b - a)) end in
        let w1 := set_heap_in (set_dofs h (jdof h) (w_ndof h) (arr h) g (w_gvel h) (next_arr h)) w in
        let r := mw_ram w in
        match mw_ty w j with
        | FreeJoint =>
            Ok (MW (on4 (alloc (mm4 (m_at (r4 r) (mw_qH w j)) (exp (v6scal dt (v6of v))))) r) (mw_body w1) (mw_bmass w1) (mw_bvisc w1) (mw_sub w1) (mw_mov w1)
                   (mw_mass w1) (mw_visc w1) (mw_nle w1) (mw_gforce w1) (mw_imp w1) (mw_adm w1) (mw_ty w1) (upd (mw_qH w1) j (fresh_addr (r4 r))) (mw_q w1) (mw_heap w1) (mw_time w1))
        | FixedJoint => Ok w1
        | _ => Ok (set_ram (onv (put (mw_q w j) (fun i => m_at (rv r) (mw_q w j) i + dt * v i)) r) w1)
        end
    end.
  Fixpoint m_integrate_joints (dt : R) (js : list nat) (w : mworld) : mworld * res unit :=
    match js with
    | [] => (w, Ok tt)
    | j :: js' => match m_integrate_joint dt j w with Err x => (w, Err x) | Ok w1 => m_integrate_joints dt js' w1 end
    end.
  Definition m_integrate (dt : R) (w : mworld) : mworld * res unit :=
    if Rlt_dec 0 dt then
      let s := wst_in w in
      let w1 := set_heap_in (write_world_gvel (mw_heap w) (next_gvel s dt (s_gforce s))) w in
      match iterjoints e fuel0 (mw_heap w1) with
      | Err x => (w1, Err x)
      | Ok js =>
          match m_integrate_joints dt js w1 with
          | (w2, Err x) => (w2, Err x)
          | (w2, Ok _) =>
              (MW (mw_ram w2) (mw_body w2) (mw_bmass w2) (mw_bvisc w2) (mw_sub w2) (mw_mov w2) (mw_mass w2) (mw_visc w2) (mw_nle w2) (mw_gforce w2) (mw_imp w2) (mw_adm w2)
                  (mw_ty w2) (mw_qH w2) (mw_q w2) (mw_heap w2) (mw_time w2 + dt), Ok tt)
          end
      end
    else (w, Err AssertionError).
  (** [World.init], core.py:684-703: four new arrays; [AddLink], [Register] ... only change the object graph *)
  Definition m_graph (o : op) (w : mworld) : mworld * res unit :=
    let (h, x) := step 0 e fuel0 (mw_heap w) o in
    match o, x with
    | Init, Ok _ =>
        let r := mw_ram w in
        let n1 := alloc mzero (rn r) in let n2 := alloc mzero n1 in let n3 := alloc mzero n2 in
        (MW (Ram (r4 r) (r6 r) (rj r) (rm r) n3 (alloc vzero (rv r))) (mw_body w) (mw_bmass w) (mw_bvisc w) (mw_sub w) (mw_mov w)
            (fresh_addr (rn r)) (fresh_addr n2) (fresh_addr n1) (fresh_addr (rv r)) (mw_imp w) (mw_adm w) (mw_ty w) (mw_qH w) (mw_q w) h (mw_time w), Ok tt)
    | _, _ => (set_heap_in h w, x)
    end.
  (** [SubFrame(body, bpose)] and [MovingSubFrame(body, bpose)], core.py:1112-1116: the array given is kept *)
  Definition m_new_sub (s : nat) (a : addr) (w : mworld) : mworld * res unit :=
    if ishomogeneousmatrix (m_at (r4 (mw_ram w)) a)
    then (MW (mw_ram w) (mw_body w) (mw_bmass w) (mw_bvisc w) (upd (mw_sub w) s a) (mw_mov w) (mw_mass w) (mw_visc w) (mw_nle w) (mw_gforce w) (mw_imp w) (mw_adm w)
             (mw_ty w) (mw_qH w) (mw_q w) (mw_heap w) (mw_time w), Ok tt)
    else (w, Err AssertionError).
  Definition m_new_mov (m : nat) (a : addr) (w : mworld) : mworld * res unit :=
    if ishomogeneousmatrix (m_at (r4 (mw_ram w)) a)
    then (MW (mw_ram w) (mw_body w) (mw_bmass w) (mw_bvisc w) (mw_sub w) (upd (mw_mov w) m a) (mw_mass w) (mw_visc w) (mw_nle w) (mw_gforce w) (mw_imp w) (mw_adm w)
             (mw_ty w) (mw_qH w) (mw_q w) (mw_heap w) (mw_time w), Ok tt)
    else (w, Err AssertionError).

  (** [joint.gpos[:] = q] for a LinearConfigurationSpaceJoint, core.py:276-286; such a statement on another joint is not modelled *)
  Definition m_set_gpos (j : nat) (q : vec) (w : mworld) : mworld * res unit :=
    match mw_ty w j with
    | FreeJoint | FixedJoint => (w, Err ValueError)
    | _ => (set_ram (onv (put (mw_q w j) q) (mw_ram w)) w, Ok tt)
    end.

  (** the calls of a user *)
  Inductive mcall :=
  | CGeometric | CDynamic
  | CControllers (linv : nat -> mat -> option mat) (ctl : nat -> R -> res (vec * mat)) (dt : R)
  | CConstraints (bps : list (nat * m4)) (fs : list vec)
  | CIntegrate (dt : R)
  | CGraph (o : @op R)
  | CMove (m : nat) (H : m4)
  | CNewSub (s : nat) (a : addr)
  | CNewMov (m : nat) (a : addr)
  | CSetGpos (j : nat) (q : vec).
  Definition mcall_run (c : mcall) (w : mworld) : mworld * res unit :=
    match c with
    | CGeometric => m_update_geometric w
    | CDynamic => m_update_dynamic w
    | CControllers linv ctl dt => m_update_controllers linv ctl dt w
    | CConstraints bps fs => m_update_constraints bps fs w
    | CIntegrate dt => m_integrate dt w
    | CGraph o => m_graph o w
    | CMove m H => m_set_bpose m H w
    | CNewSub s a => m_new_sub s a w
    | CNewMov m a => m_new_mov m a w
    | CSetGpos j q => m_set_gpos j q w
    end.
  (** the user goes on after an exception *)
  Fixpoint mcalls_run (cs : list mcall) (w : mworld) : mworld := match cs with [] => w | c :: cs' => mcalls_run cs' (fst (mcall_run c w)) end.

  (** *** what the user reads: arrays, not values *)
  Inductive handle := H4 (a : addr) | H6 (a : addr) | HJ (a : addr) | HM (a : addr) | HN (a : addr) | HV (a : addr) | HG (v : view).
  Inductive value := Val4 (H : m4) | Val6 (u : v6) | ValJ (A : nat -> v6) | ValM (M : m6) | ValN (A : mat) | ValV (x : vec) | ValG (l : list R).
  Definition content (w : mworld) (x : handle) : value :=
    let r := mw_ram w in
    match x with
    | H4 a => Val4 (m_at (r4 r) a) | H6 a => Val6 (m_at (r6 r) a) | HJ a => ValJ (m_at (rj r) a) | HM a => ValM (m_at (rm r) a)
    | HN a => ValN (m_at (rn r) a) | HV a => ValV (m_at (rv r) a) | HG v => ValG (read (arr (mw_heap w)) v)
    end.
  Inductive query := QPose (f : frame) | QTwist (f : frame) | QJac (f : frame) | QDjac (f : frame) | QNle (b : nat) | QBpose (f : frame)
    | QWMass | QWVisc | QWNle | QWGvel | QWGforce | QWAdm | QGpos (j : nat) | QGvel (j : nat).
  Definition ret4 (H : m4) (w : mworld) : mworld * res handle := (set_ram (on4 (alloc H) (mw_ram w)) w, Ok (H4 (fresh_addr (r4 (mw_ram w))))).
  Definition ret6 (u : v6) (w : mworld) : mworld * res handle :=
    let r := mw_ram w in (set_ram (Ram (r4 r) (alloc u (r6 r)) (rj r) (rm r) (rn r) (rv r)) w, Ok (H6 (fresh_addr (r6 r)))).
  Definition retj (A : nat -> v6) (w : mworld) : mworld * res handle :=
    let r := mw_ram w in (set_ram (Ram (r4 r) (r6 r) (alloc A (rj r)) (rm r) (rn r) (rv r)) w, Ok (HJ (fresh_addr (rj r)))).
  Definition retn (A : mat) (w : mworld) : mworld * res handle := (set_ram (onn (alloc A) (mw_ram w)) w, Ok (HN (fresh_addr (rn (mw_ram w))))).
  Definition retv (x : vec) (w : mworld) : mworld * res handle := (set_ram (onv (alloc x) (mw_ram w)) w, Ok (HV (fresh_addr (rv (mw_ram w))))).
  Definition attr_handle (k : addr -> handle) (o : option addr) : res handle := match o with Some a => Ok (k a) | None => Err TypeError end.
  (** the properties of core.py: those of a Body return the attribute (1225-1247, [bpose] a new array), those of a subframe a new array (1123-1165),
      World.mass, viscosity, nleffects the attribute, World.gvel, gforce, admittance a copy (720-745), Joint.gpos and gvel are attributes.
      (As in Model_Dyn, TypeError stands for the None returned by a Body before the first update.) *)
  Definition fetch (q : query) (w : mworld) : mworld * res handle :=
    let r := mw_ram w in
    match q with
    | QPose (FBody b) => (w, attr_handle H4 (v_pose (mw_body w b)))
    | QTwist (FBody b) => (w, attr_handle H6 (v_twist (mw_body w b)))
    | QJac (FBody b) => (w, attr_handle HJ (v_jac (mw_body w b)))
    | QDjac (FBody b) => (w, attr_handle HJ (v_djac (mw_body w b)))
    | QPose f => match frame_pose e (scene_in w) (store_in w) f with Ok H => ret4 H w | Err x => (w, Err x) end
    | QTwist f => match frame_twist e (scene_in w) (store_in w) f with Ok u => ret6 u w | Err x => (w, Err x) end
    | QJac f => match frame_jac e (scene_in w) (store_in w) f with Ok A => retj A w | Err x => (w, Err x) end
    | QDjac f => match frame_djac e (scene_in w) (store_in w) f with Ok A => retj A w | Err x => (w, Err x) end
    | QNle b => (w, attr_handle HM (v_nle (mw_body w b)))
    | QBpose f => ret4 (bpose (scene_in w) f) w
    | QWMass => (w, Ok (HN (mw_mass w)))
    | QWVisc => (w, Ok (HN (mw_visc w)))
    | QWNle => (w, Ok (HN (mw_nle w)))
    | QWGvel => retv (gvel_vec (mw_heap w)) w
    | QWGforce => retv (m_at (rv r) (mw_gforce w)) w
    | QWAdm => retn (m_at (rn r) (mw_adm w)) w
    | QGpos j => (w, Ok (match mw_ty w j with FreeJoint => H4 (mw_qH w j) | _ => HV (mw_q w j) end))
    | QGvel j => (w, Ok (HG (jgvel (mw_heap w) j)))
    end.
End M.
