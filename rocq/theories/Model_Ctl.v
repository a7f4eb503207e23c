(** arboris/controllers.py (WeightController, ProportionalDerivativeController) and the EnergyMonitor of
    arboris/observers.py. *)
From Verif Require Export Model_Step Model_Mass.

(** World.up, core.py:415, 716-717 *)
Definition world_up : v3 := V3 0 1 0.

(** the entries of a (6,6) array *)
Definition list3 (m : m3) : list R := [m00 m; m01 m; m02 m; m10 m; m11 m; m12 m; m20 m; m21 m; m22 m].
Definition list6 (M : m6) : list R := list3 (aa M) ++ list3 (al M) ++ list3 (la M) ++ list3 (ll M).

(** *** WeightController, controllers.py:10-66 *)
Record wctl := WC { wc_bodies : list nat; wc_dtwist : v6; wc_imp : mat }.
(** [init], controllers.py:44-57.  [norm(x.mass>0.)] is the square root of the number of positive
    entries: not zero iff there is one. *)
Definition wc_init (e : env) (sc : scene) (fuel : nat) (h : @heap R) (gravity : R) : res wctl :=
  let* bs := iter_descendant_bodies e fuel h (ground e) in
  Ok (WC (filter (fun b => existsb (fun x => Rltb 0 x) (list6 (b_mass sc b))) bs)
         (V6 zero3 (vscal gravity world_up)) mzero).
(** [update], controllers.py:59-66 *)
Fixpoint wc_loop (sc : scene) (st : store) (g : v6) (bs : list nat) (f : vec) : res vec :=
  match bs with
  | [] => Ok f
  | b :: bs' =>
      let* P := Model_Dyn.get (a_pose (st b)) in
      let* A := iadjoint P in
      let* J := Model_Dyn.get (a_jac (st b)) in
      wc_loop sc st g bs' (fun k => f k + dot6 (J k) (mv6 (b_mass sc b) (mv6 A g)))
  end.
Definition wc_update (sc : scene) (st : store) (c : wctl) : res (vec * mat) :=
  let* f := wc_loop sc st (wc_dtwist c) (wc_bodies c) vzero in Ok (f, wc_imp c).

(** *** ProportionalDerivativeController, controllers.py:69-186 *)

(** [isinstance(j, LinearConfigurationSpaceJoint)] *)
Definition is_linear (k : jtype) : bool := match k with FreeJoint | FixedJoint => false | _ => true end.

Record pdctl := PD { pd_joints : list nat; pd_cndof : nat; pd_map : list nat;
                     pd_kp : mat; pd_kd : mat; pd_qd : vec; pd_vd : vec }.
(** [range(j.dof.start, j.dof.stop)] *)
Definition dof_range (h : @heap R) (j : nat) : res (list nat) :=
  match jdof h j with None => Err ValueError | Some (s, d) => Ok (seq s (d - s)) end.
(** the loop of [__init__], controllers.py:124-134 *)
Fixpoint pd_scan (e : env) (h : @heap R) (ty : nat -> jtype) (js : list nat) (n : nat) (m : list nat) : res (nat * list nat) :=
  match js with
  | [] => Ok (n, m)
  | j :: js' =>
      if is_linear (ty j) then let* l := dof_range h j in pd_scan e h ty js' (n + jndof e j)%nat (m ++ l)
      else Err ValueError
  end.
(** [__init__], controllers.py:108-155.  The gains and targets are given with the right sizes ([reshape] raises
    ValueError otherwise); None stands for zero. *)
Definition pd_new (e : env) (h : @heap R) (ty : nat -> jtype) (js : list nat) (kp kd : option mat) (qd vd : option vec) : res pdctl :=
  let* (n, m) := pd_scan e h ty js 0 [] in
  let om (x : option mat) := match x with None => mzero | Some a => a end in
  let ov (x : option vec) := match x with None => vzero | Some a => a end in
  Ok (PD js n m (om kp) (om kd) (ov qd) (ov vd)).
(** [init], controllers.py:157-168 *)
Definition pd_init (h : @heap R) (c : pdctl) : res pdctl :=
  let* m := rconcat (dof_range h) (pd_joints c) in
  Ok (PD (pd_joints c) (pd_cndof c) m (pd_kp c) (pd_kd c) (pd_qd c) (pd_vd c)).

(** [array(l).reshape(n)] for a list of one-dimensional arrays: arrays of different sizes cannot be
    stacked (ValueError; numpy before 1.24 builds an array of objects, that [reshape] refuses unless it has
    [n] elements, which no list of LinearConfigurationSpaceJoint gives) *)
Definition np_stack (l : list (list R)) (n : nat) : res (list R) :=
  match l with
  | [] => if Nat.eqb n 0 then Ok [] else Err ValueError
  | x :: l' => if forallb (fun y => Nat.eqb (length y) (length x)) l' && Nat.eqb (length (concat l)) n
               then Ok (concat l) else Err ValueError
  end.
(** [x[m] = v] for an array [x] of size [n] and an integer array [m]; an empty [m] is an array of floats,
    which numpy refuses as an index *)
Fixpoint assign {A} (m : list nat) (k : nat) (v : nat -> A) (x : nat -> A) : nat -> A :=
  match m with [] => x | i :: m' => assign m' (S k) v (upd x i (v k)) end.
Definition set_at (n : nat) (m : list nat) (v x : vec) : res vec :=
  match m with
  | [] => Err IndexError
  | _ => if forallb (fun i => Nat.ltb i n) m then Ok (assign m 0 v x) else Err IndexError
  end.
(** [x[ix_(m, m)] = v] *)
Definition set_block (n : nat) (m : list nat) (v x : mat) : res mat :=
  if forallb (fun i => Nat.ltb i n) m
  then Ok (assign m 0 (fun a => assign m 0 (v a) (x (nth a m 0%nat))) x) else Err IndexError.

Definition coords (e : env) (x : nat -> nat -> R) (j : nat) : list R := map (x j) (seq 0 (jndof e j)).
(** [update], controllers.py:170-186; [q j] and [v j] are the joint's [gpos] and [gvel] *)
Definition pd_update (e : env) (n : nat) (q v : nat -> nat -> R) (c : pdctl) (dt : R) : res (vec * mat) :=
  let* gpos := np_stack (map (coords e q) (pd_joints c)) (pd_cndof c) in
  let* gvel := np_stack (map (coords e v) (pd_joints c)) (pd_cndof c) in
  let d := pd_cndof c in
  let f := vplus (mvn d (pd_kp c) (vminus (pd_qd c) (fun r => nth r gpos 0))) (mvn d (pd_kd c) (pd_vd c)) in
  let* gforce := set_at n (pd_map c) f vzero in
  let* imp := set_block n (pd_map c) (mmul (-1) (mplus (mmul dt (pd_kp c)) (pd_kd c))) mzero in
  Ok (gforce, imp).

(** *** EnergyMonitor, observers.py:28-81; the dictionary of the centres of mass (columns of 4 entries)
    is a partial function *)
Record emon := EM { em_time : list R; em_kin : list R; em_pot : list R; em_mech : list R; em_com : nat -> option (v3 * R) }.
(** [init], observers.py:56-65 *)
Fixpoint em_scan (eigvals : m6 -> list R) (eig : m3 -> v3 * m3) (sc : scene) (bs : list nat) (com : nat -> option (v3 * R))
  : res (nat -> option (v3 * R)) :=
  match bs with
  | [] => Ok com
  | b :: bs' => let* H := principalframe eigvals eig (b_mass sc b) in em_scan eigvals eig sc bs' (upd com b (Some (pos H, hom H)))
  end.
Definition em_init (eigvals : m6 -> list R) (eig : m3 -> v3 * m3) (e : env) (sc : scene) (fuel : nat) (h : @heap R) : res emon :=
  let* bs := iter_descendant_bodies e fuel h (ground e) in
  let* com := em_scan eigvals eig sc bs (fun _ => None) in
  Ok (EM [] [] [] [] com).
(** the loop of observers.py:73-75 *)
Fixpoint em_height (sc : scene) (st : store) (com : nat -> option (v3 * R)) (bs : list nat) (acc : R) : res R :=
  match bs with
  | [] => Ok acc
  | b :: bs' =>
      let* P := Model_Dyn.get (a_pose (st b)) in
      match com b with
      | None => Err KeyError
      | Some (c, w) =>
          let p := vadd (mv (rot P) c) (vscal w (pos P)) in
          em_height sc st com bs' (acc + m00 (ll (b_mass sc b)) * dot3 p world_up)
      end
  end.
(** [update], observers.py:67-78 *)
Definition em_update (e : env) (sc : scene) (fuel : nat) (s : wst) (st : store) (o : emon) : res emon :=
  let n := w_ndof (s_heap s) in
  let v := gvel_vec (s_heap s) in
  let Ec := sumR n (fun k => v k * mvn n (d_mass (s_dyn s)) v k) / 2 in
  let* bs := iter_descendant_bodies e fuel (s_heap s) (ground e) in
  let* ep := em_height sc st (em_com o) bs 0 in
  let Ep := ep * (981 / 100) in
  Ok (EM (em_time o ++ [s_time s]) (em_kin o ++ [Ec]) (em_pot o ++ [Ep]) (em_mech o ++ [Ec + Ep]) (em_com o)).
