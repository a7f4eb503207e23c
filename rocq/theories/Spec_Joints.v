(** Specification vocabulary for joints. *)
From Verif Require Import Model_Joints Spec_SE3.

(** the position of a joint is one its constructor accepts as a rigid configuration *)
Definition valid_joint (j : jstate) : Prop := jt j = FreeJoint -> SE3 (gposH j).

(** [f] is a motion of one joint, with velocity [gvel] at time [t]: the type never changes, a linear
    joint has q' = gvel, a free joint keeps a rigid position H with H' = H hat(gvel). *)
Definition joint_motion (k : jtype) (f : R -> jstate) (t : R) : Prop :=
  (forall s, jt (f s) = k /\ valid_joint (f s)) /\
  (k = FreeJoint -> dm4 (fun s => gposH (f s)) t (mm4 (gposH (f t)) (hat (v6of (gvel (f t)))))) /\
  (k <> FreeJoint -> forall i, (i < ndof_of k)%nat -> derivable_pt_lim (fun s => gpos (f s) i) t (gvel (f t) i)).

(** joints moving along or about axes fixed in both frames *)
Definition simple_joint (k : jtype) : Prop :=
  match k with FixedJoint | RzJoint | RyJoint | RxJoint | TxTyTzJoint | TzJoint | TyJoint | TxJoint => True
  | _ => False end.
