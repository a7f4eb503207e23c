(** Specification vocabulary for worlds with several weight controllers. *)
From Verif Require Export Spec_Order.
Open Scope R_scope.

(** the same world, whose controllers are a WeightController of gravity [g] and those of [rest] *)
Definition one_weight (a : nat) (rest : list nat) (g : R) (x : sim) : sim :=
  Sim (W (reordered_v (a :: rest) (w_v (sm_w x))) (upd (w_ctl (sm_w x)) a (KWeight g None))) (sm_names x) (sm_obs x).
(** the same world, whose controllers are those of [rest] *)
Definition no_weight (rest : list nat) (x : sim) : sim := Sim (W (reordered_v rest (w_v (sm_w x))) (w_ctl (sm_w x))) (sm_names x) (sm_obs x).
