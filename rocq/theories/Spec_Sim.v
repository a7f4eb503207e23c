(** Specification vocabulary for simulations. *)
From Verif Require Export Model_Sim.

(** strictly increasing *)
Definition increasing (l : list R) : Prop := forall k, (S k < length l)%nat -> nth k l 0 < nth (S k) l 0.

(** [performed I x l y]: from the state [x], the calls listed in [l] are made in this order, none of them raises, each
    starts when the world's time is the one written beside it, and they lead to the state [y]. *)
Inductive performed (I : call -> sim -> sim * res unit) : sim -> list (call * R) -> sim -> Prop :=
  | perf_nil x : performed I x [] x
  | perf_cons x c x1 l y : I c x = (x1, Ok tt) -> performed I x1 l y -> performed I x ((c, now x) :: l) y.

(** [raises I x l y e]: from [x] the calls of [l] are made in this order until one of them raises [e], leaving the state [y] *)
Definition raises (I : call -> sim -> sim * res unit) (x : sim) (l : list (call * R)) (y : sim) (e : exn) : Prop :=
  exists l1 c l2 x1, l = l1 ++ (c, now x1) :: l2 /\ performed I x l1 x1 /\ I c x1 = (y, Err e).

(** the calls of one step from [t] to [t'] *)
Definition step_calls (obs : list nat) (t t' : R) : list call :=
  [Dyn; Ctl (t' - t); Cons (t' - t)] ++ map (fun i => OUpd i (t' - t)) obs ++ [Int (t' - t)].
Definition at_ (t : R) (l : list call) : list (call * R) := map (fun c => (c, t)) l.
Fixpoint steps (obs : list nat) (t : R) (ts : list R) : list (call * R) :=
  match ts with [] => [] | t' :: ts' => at_ t (step_calls obs t t') ++ steps obs t' ts' end.
(** what [simulate] is documented to do for the times [t0 :: ts] *)
Definition schedule (obs : list nat) (t0 : R) (ts : list R) : list (call * R) :=
  at_ t0 (WInit :: map OInit obs) ++ steps obs t0 ts ++ at_ (last ts t0) (map OFin obs).

(** the states seen by the observers, step after step, and the state after the last step: [sees I obs x t ts vs y] *)
Inductive sees (I : call -> sim -> sim * res unit) (obs : list nat) : sim -> R -> list R -> list sim -> sim -> Prop :=
  | sees_nil x t : sees I obs x t [] [] x
  | sees_cons x t t' ts v u x1 vs y :
      performed I x (at_ t [Dyn; Ctl (t' - t); Cons (t' - t)]) v ->
      performed I v (at_ t (map (fun i => OUpd i (t' - t)) obs)) u ->
      I (Int (t' - t)) u = (x1, Ok tt) -> now v = t -> sees I obs x1 t' ts vs y ->
      sees I obs x t (t' :: ts) (v :: vs) y.

(** [at_step U O t0 ts obs x k v]: in a simulation of [x] over [t0 :: ts], [v] is the state reached when the k-th step's
    forces have been computed (at t_k), before the observers are updated and before the integration to t_(k+1). *)
Definition at_step (U : setup) (O : nat -> okind) (t0 : R) (ts : list R) (obs : list nat) (x : sim) (k : nat) (v : sim) : Prop :=
  exists t t', nth_error (t0 :: ts) k = Some t /\ nth_error ts k = Some t' /\ now v = t /\
    performed (interp U O (t0 :: ts)) (set_w x (set_time (sm_w x) t0))
      (at_ t0 (WInit :: map OInit obs) ++ steps obs t0 (firstn k ts) ++ at_ t [Dyn; Ctl (t' - t); Cons (t' - t)]) v.

(** what a SaveLogger records in its group [transforms]: the frame after which the array is named, and the object whose
    pose is saved *)
Inductive logged (U : setup) (h : @heap R) (flat : bool) : frame -> target -> Prop :=
  | logged_body b bs : flat = true -> iterbodies (su_e U) (su_fuel U) h = Ok bs -> In b bs -> logged U h flat (FBody b) (TBody b)
  | logged_joint j js f0 f1 : flat = false -> iterjoints (su_e U) (su_fuel U) h = Ok js -> In j js -> jframes h j = Some (f0, f1) ->
      logged U h flat f1 (TJoint j)
  | logged_mov m : In (FMov m) (w_subframes h) -> logged U h flat (FMov m) (TMov m).

(** one row of the group [model] *)
Definition model_row (s : wst) : list R * mat * mat * mat * vec :=
  (world_gvel (s_heap s), d_mass (s_dyn s), s_adm s, d_nle (s_dyn s), s_gforce s).
