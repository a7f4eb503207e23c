(** Specification vocabulary: rigid motions, twists, derivatives of matrix-valued motions. *)
From Verif Require Import Model_Linalg.

(** proper rotations and rigid motions *)
Definition SO3 (A : m3) : Prop := mm (tr A) A = eye3 /\ det3 A = 1.
Definition SE3 (H : m4) : Prop := SO3 (rot H) /\ bot H = zero3 /\ hom H = 1.

(** the 4x4 matrix of a twist: angular velocity as a skew matrix, linear velocity *)
Definition hat (T : v6) : m4 :=
  M4 (M3 0 (- vz (ang T)) (vy (ang T))  (vz (ang T)) 0 (- vx (ang T))  (- vy (ang T)) (vx (ang T)) 0)
     (lin T) zero3 0.

(** entrywise derivative at time [t] (standard library's [derivable_pt_lim]) *)
Definition dv3 (f : R -> v3) (t : R) (d : v3) : Prop :=
  derivable_pt_lim (fun s => vx (f s)) t (vx d) /\ derivable_pt_lim (fun s => vy (f s)) t (vy d) /\
  derivable_pt_lim (fun s => vz (f s)) t (vz d).
Definition dm3 (f : R -> m3) (t : R) (d : m3) : Prop :=
  derivable_pt_lim (fun s => m00 (f s)) t (m00 d) /\ derivable_pt_lim (fun s => m01 (f s)) t (m01 d) /\
  derivable_pt_lim (fun s => m02 (f s)) t (m02 d) /\ derivable_pt_lim (fun s => m10 (f s)) t (m10 d) /\
  derivable_pt_lim (fun s => m11 (f s)) t (m11 d) /\ derivable_pt_lim (fun s => m12 (f s)) t (m12 d) /\
  derivable_pt_lim (fun s => m20 (f s)) t (m20 d) /\ derivable_pt_lim (fun s => m21 (f s)) t (m21 d) /\
  derivable_pt_lim (fun s => m22 (f s)) t (m22 d).
Definition dm4 (f : R -> m4) (t : R) (d : m4) : Prop :=
  dm3 (fun s => rot (f s)) t (rot d) /\ dv3 (fun s => pos (f s)) t (pos d) /\
  dv3 (fun s => bot (f s)) t (bot d) /\ derivable_pt_lim (fun s => hom (f s)) t (hom d).
Definition dv6 (f : R -> v6) (t : R) (d : v6) : Prop :=
  dv3 (fun s => ang (f s)) t (ang d) /\ dv3 (fun s => lin (f s)) t (lin d).
Definition dm6 (f : R -> m6) (t : R) (d : m6) : Prop :=
  dm3 (fun s => aa (f s)) t (aa d) /\ dm3 (fun s => al (f s)) t (al d) /\
  dm3 (fun s => la (f s)) t (la d) /\ dm3 (fun s => ll (f s)) t (ll d).

(** the displacement generated by a constant body twist: the solution of E' = E hat(tw), E(0) = I *)
Definition screw_motion (tw : v6) (E : R -> m4) : Prop :=
  E 0 = eye4 /\ forall s, dm4 E s (mm4 (E s) (hat tw)).
(** entrywise closeness *)
Definition v3_near (e : R) (a b : v3) : Prop :=
  Rabs (vx a - vx b) <= e /\ Rabs (vy a - vy b) <= e /\ Rabs (vz a - vz b) <= e.
Definition m3_near (e : R) (a b : m3) : Prop :=
  v3_near e (V3 (m00 a) (m01 a) (m02 a)) (V3 (m00 b) (m01 b) (m02 b)) /\
  v3_near e (V3 (m10 a) (m11 a) (m12 a)) (V3 (m10 b) (m11 b) (m12 b)) /\
  v3_near e (V3 (m20 a) (m21 a) (m22 a)) (V3 (m20 b) (m21 b) (m22 b)).
(** columns of a rotation *)
Definition xcol (A : m3) := V3 (m00 A) (m10 A) (m20 A).
Definition ycol (A : m3) := V3 (m01 A) (m11 A) (m21 A).
Definition zcol (A : m3) := V3 (m02 A) (m12 A) (m22 A).
