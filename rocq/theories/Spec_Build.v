(** Specification vocabulary for the scripts that build robots. *)
From Coq Require Export Permutation.
From Verif Require Export Model_Build Spec_World Spec_Mass Spec_Dyn.
Open Scope R_scope.

(** the objects created by a call are new: all different and attached to nothing *)
Definition new_ids (I : bids) (h : @heap R) (e : env) : Prop :=
  (forall k l, xb I k = xb I l -> k = l) /\ (forall k l, xj I k = xj I l -> k = l) /\
  forall k, xb I k <> ground e /\ parentjoint h (xb I k) = None /\ childrenjoints h (xb I k) = [] /\ jframes h (xj I k) = None.
(** the world knows an object as it was created: the body of a subframe, the frame of a shape, the size and the velocity of a joint *)
Definition made (e : env) (h : @heap R) (c : cmd) : Prop :=
  match c with
  | MkSub s b _ _ => sub_body e s = b
  | MkJoint j _ k => jndof e j = ndof_of k /\ joint_gvel h j = repeat 0 (ndof_of k)
  | MkShape s _ f _ => shape_frame e s = f
  | _ => True
  end.
(** the last mass given to a body by a script *)
Fixpoint mass_in (b : nat) (cs : list cmd) : option m6 :=
  match cs with
  | [] => None
  | c :: cs' => match mass_in b cs' with
                | Some M => Some M
                | None => match c with MkBody b' _ M | SetMass b' M => if Nat.eqb b b' then Some M else None | _ => None end
                end
  end.
(** the scene is that of the script, up to the configuration of the joints *)
Definition scene_of (sc : scene) (J : nat -> jstate) (cs : list cmd) : Prop :=
  (forall b M, mass_in b cs = Some M -> b_mass sc b = M) /\
  (forall s b n H, In (MkSub s b n H) cs -> sub_bpose sc s = H) /\
  (forall j n k, In (MkJoint j n k) cs -> jt (J j) = k).
(** the object is in the lists of the world *)
Definition registered (h : @heap R) (x : obj) : Prop :=
  match x with
  | OFrame f => known h f
  | OShape s => In s (w_shapes h)
  | OConstraint c => In c (w_constraints h)
  | OController c => In c (w_controllers h)
  | _ => False
  end.
(** the links made by a script *)
Definition links_in (cs : list cmd) : list link := flat_map (fun c => match c with Link f0 j f1 => [(f0, j, f1)] | _ => [] end) cs.
(** the names given by a script *)
Definition names_in (cs : list cmd) : list string :=
  flat_map (fun c => match c with MkBody _ (Some n) _ | MkSub _ _ (Some n) _ | MkJoint _ (Some n) _ | MkShape _ (Some n) _ _ => [n] | _ => [] end) cs.
(** the body, the joint, the tag called [n] *)
Definition body_called (cs : list cmd) (p n : string) (b : nat) : Prop := exists M, In (MkBody b (Some (p ++ n)%string) M) cs.
Definition mass_called (cs : list cmd) (p n : string) (M : m6) : Prop := exists b, In (MkBody b (Some (p ++ n)%string) M) cs.
Definition joint_called (cs : list cmd) (p n : string) (j : nat) : Prop := exists k, In (MkJoint j (Some (p ++ n)%string) k) cs.
Definition tag_called (cs : list cmd) (p n : string) (s : nat) : Prop := exists b H, In (MkSub s b (Some (p ++ n)%string) H) cs.
(** all the angles are zero and the free joint has not moved *)
Definition at_rest (J : nat -> jstate) (cs : list cmd) : Prop := forall j n k, In (MkJoint j n k) cs -> gposH (J j) = eye4 /\ forall i, gpos (J j) i = 0.
(** the position of the tag called [n] after an update *)
Definition tag_at (e : env) (sc : scene) (sg : store) (cs : list cmd) (p n : string) (P : v3) : Prop :=
  exists s F, tag_called cs p n s /\ frame_pose e sc sg (FSub s) = Ok F /\ pos F = P.
(** the names of the frames, of the joints, of the shapes *)
Definition frame_names (cs : list cmd) : list string := flat_map (fun c => match c with MkBody _ (Some n) _ | MkSub _ _ (Some n) _ => [n] | _ => [] end) cs.
Definition joint_names (cs : list cmd) : list string := flat_map (fun c => match c with MkJoint _ (Some n) _ => [n] | _ => [] end) cs.
Definition shape_names (cs : list cmd) : list string := flat_map (fun c => match c with MkShape _ (Some n) _ _ => [n] | _ => [] end) cs.
