(** arboris/robots/simplearm.py and arboris/robots/simpleshapes.py. *)
From Verif Require Export Model_Build.
Open Scope R_scope.

(** Code whose calls on the world alternate with computations that may raise: the calls made so far, then the outcome. *)
Definition scr (A : Type) : Type := (list cmd * res A)%type.
Definition sret {A} (x : A) : scr A := ([], Ok x).
Definition scall (c : cmd) : scr unit := ([c], Ok tt).
Definition slift {A} (r : res A) : scr A := ([], r).
Definition sbind {A B} (m : scr A) (f : A -> scr B) : scr B :=
  match snd m with Err x => (fst m, Err x) | Ok a => (fst m ++ fst (f a), snd (f a)) end.
Notation "'do*' x := m 'in' k" := (sbind m (fun x => k)) (at level 200, x name, m at level 100, k at level 200).
Notation "m ';;' k" := (sbind m (fun _ => k)) (at level 199, right associativity).
(** the calls are executed in order; the first exception, of a call or of the code, ends the function *)
Definition run_scr (e : env) (eigvals : m6 -> list R) (fuel : nat) (m : scr unit) (h : @heap R) : @heap R * res unit :=
  match exec_all e eigvals fuel (fst m) h with (h1, Err x) => (h1, Err x) | (h1, Ok _) => (h1, snd m) end.
(** [l[k]], k >= 0, on a tuple *)
Definition item (l : list R) (k : nat) : res R := match nth_error l k with Some x => Ok x | None => Err IndexError end.

Section A.
  Variables (e : env) (eigvals : m6 -> list R) (I : bids).
  (** [create_body], simplearm.py:32-46.  The k-th body is xb k; its shape, if any, is xh k, in the subframe xs (3 + k). *)
  Definition create_body (with_shapes : bool) (k : nat) (name : string) (len mass : R) : scr nat :=
    let half_extents := V3 (len / 20) (len / 2) (len / 20) in
    do* M := slift (transport eigvals (box half_extents mass) (transl 0 (- len / 2) 0)) in
    scall (MkBody (xb I k) (Some name) M) ;;
    (if with_shapes then
       scall (MkSub (xs I (3 + k)) (xb I k) None (transl 0 (len / 2) 0)) ;;
       scall (MkShape (xh I k) None (FSub (xs I (3 + k))) (ShBox half_extents)) ;;
       scall (Reg (OShape (xh I k)))
     else sret tt) ;;
    sret (xb I k).
  (** [add_simplearm], simplearm.py:19-77 *)
  Definition simplearm_script (name : string) (lengths masses : list R) (with_shapes : bool) : scr unit :=
    do* l0 := slift (item lengths 0) in do* m0 := slift (item masses 0) in
    do* arm := create_body with_shapes 0 (name ++ "Arm") l0 m0 in
    do* l1 := slift (item lengths 1) in do* m1 := slift (item masses 1) in
    do* forearm := create_body with_shapes 1 (name ++ "Forearm") l1 m1 in
    do* l2 := slift (item lengths 2) in do* m2 := slift (item masses 2) in
    do* hand := create_body with_shapes 2 (name ++ "Hand") l2 m2 in
    scall (MkJoint (xj I 0) (Some (name ++ "Shoulder")%string) RzJoint) ;;
    scall (Link (FBody (ground e)) (xj I 0) (FBody arm)) ;;
    scall (MkSub (xs I 0) arm (Some (name ++ "ElbowBaseFrame")%string) (transl 0 l0 0)) ;;
    scall (MkJoint (xj I 1) (Some (name ++ "Elbow")%string) RzJoint) ;;
    scall (Link (FSub (xs I 0)) (xj I 1) (FBody forearm)) ;;
    scall (MkSub (xs I 1) forearm (Some (name ++ "WristBaseFrame")%string) (transl 0 l1 0)) ;;
    scall (MkJoint (xj I 2) (Some (name ++ "Wrist")%string) RzJoint) ;;
    scall (Link (FSub (xs I 1)) (xj I 2) (FBody hand)) ;;
    scall (MkSub (xs I 2) hand (Some (name ++ "EndEffector")%string) (transl 0 l2 0)) ;;
    scall (Reg (OFrame (FSub (xs I 2)))) ;;
    scall WInit.
  Definition add_simplearm (fuel : nat) (name : string) (lengths masses : list R) (with_shapes : bool) (h : @heap R) : @heap R * res unit :=
    run_scr e eigvals fuel (simplearm_script name lengths masses with_shapes) h.

  (** a body in a free joint, with a shape, simpleshapes.py:13-67 *)
  Definition lone_script (name : option string) (M : m6) (g : bshape) : list cmd :=
    [MkBody (xb I 0) name M; MkJoint (xj I 0) None FreeJoint; Link (FBody (ground e)) (xj I 0) (FBody (xb I 0)); MkShape (xh I 0) None (FBody (xb I 0)) g; Reg (OShape (xh I 0)); WInit].
  (** [add_sphere], [add_box], [add_cylinder]: simpleshapes.py:13-29, 32-48, 51-67 *)
  Definition add_sphere (fuel : nat) (radius mass : R) (name : option string) (h : @heap R) : @heap R * res unit :=
    exec_all e eigvals fuel (lone_script name (sphere radius mass) (ShSphere radius)) h.
  Definition add_box (fuel : nat) (half_extents : v3) (mass : R) (name : option string) (h : @heap R) : @heap R * res unit :=
    exec_all e eigvals fuel (lone_script name (box half_extents mass) (ShBox half_extents)) h.
  Definition add_cylinder (fuel : nat) (len radius mass : R) (name : option string) (h : @heap R) : @heap R * res unit :=
    exec_all e eigvals fuel (lone_script name (cylinder len radius mass) (ShCylinder len radius)) h.
  (** [add_groundplane], simpleshapes.py:70-75; [up] is World.up *)
  Definition groundplane_script (up : v3) : list cmd :=
    [MkShape (xh I 0) (Some "Ground shape"%string) (FBody (ground e)) (ShPlane (up, 0)); Reg (OShape (xh I 0))].
  Definition add_groundplane (fuel : nat) (up : v3) (h : @heap R) : @heap R * res unit := exec_all e eigvals fuel (groundplane_script up) h.
End A.
