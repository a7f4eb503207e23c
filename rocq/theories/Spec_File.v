(** Specification vocabulary for the files of the loggers. *)
From Coq Require Export Permutation.
From Verif Require Export Model_File Spec_Sim.
Open Scope R_scope.
(** the same dictionary of dictionaries, listed in another order *)
Definition reordered {A} (d d' : dic (dic A)) : Prop :=
  exists d1, Permutation d1 d' /\ Forall2 (fun a b => fst a = fst b /\ Permutation (snd a) (snd b)) d d1.
(** the array of the group [group] called [name] *)
Definition stored (f : h5) (group name : string) (a : ndarray) : Prop := exists d, dic_get (h5_groups f) group = Ok d /\ dic_get d name = Ok a.
