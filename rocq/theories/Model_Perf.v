(** arboris/observers.py:95-165: [PerfMonitor].  The clock ([time.time()]) is read once by [init] and by each [update]; its readings are given. *)
From Verif Require Export Spec_Sim.
Open Scope R_scope.

(** the attributes [_logger] (or None), [_last_time], [_computation_time], and what was logged so far (observers.py:115-128) *)
Record perf := PM { pm_log : bool; pm_last : option R; pm_comp : list R; pm_said : list R }.
Definition new_perf (log : bool) : perf := PM log None [] [].
(** [init], observers.py:130-132: [_computation_time] is left as it is *)
Definition perf_init (clock : R) (m : perf) : perf := PM (pm_log m) (Some clock) (pm_comp m) (pm_said m).
(** [update], observers.py:134-140; [now] is world.current_time.  [current_time - None] is a TypeError *)
Definition perf_update (clock now : R) (m : perf) : res perf :=
  match pm_last m with
  | None => Err TypeError
  | Some l => Ok (PM (pm_log m) (Some clock) (pm_comp m ++ [clock - l]) (if pm_log m then pm_said m ++ [now] else pm_said m))
  end.
(** the calls of a simulation that concern observer [i] (with the time of the world at each), the clock giving the readings [rs] in this order;
    [finish], observers.py:142-143 *)
Fixpoint perf_run (i : nat) (l : list (call * R)) (rs : list R) (m : perf) : res perf :=
  match l with
  | [] => Ok m
  | (c, now) :: l' =>
      match c, rs with
      | OInit j, r :: rs' => if Nat.eqb i j then perf_run i l' rs' (perf_init r m) else perf_run i l' rs m
      | OUpd j _, r :: rs' => if Nat.eqb i j then let* m1 := perf_update r now m in perf_run i l' rs' m1 else perf_run i l' rs m
      | _, _ => perf_run i l' rs m
      end
  end.
(** [get_summary], observers.py:153-162: total, min, mean, max; [min] of an empty list is a ValueError (it comes before the division) *)
Definition sum_list (l : list R) : R := fold_left Rplus l 0.
Definition min_of (l : list R) : res R := match l with [] => Err ValueError | x :: l' => Ok (fold_left Rmin l' x) end.
Definition max_of (l : list R) : res R := match l with [] => Err ValueError | x :: l' => Ok (fold_left Rmax l' x) end.
Definition get_summary (m : perf) : res (R * R * R * R) :=
  let total := sum_list (pm_comp m) in
  let* mn := min_of (pm_comp m) in
  let* mx := max_of (pm_comp m) in
  Ok (total, mn, total / INR (length (pm_comp m)), mx).
