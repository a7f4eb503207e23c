(** arboris/observers.py:452-531: CoMObserver. *)
From Verif Require Export Model_Dyn Model_Mass.

(** [bodies], [H_body_com] and [mass] after [init]: one triple per kept body *)
Definition comdata := list (nat * m4 * R).
(** [init], observers.py:479-486; [mass[5,5]] is the last entry of the translational block *)
Fixpoint com_scan (eigvals : m6 -> list R) (eig : m3 -> v3 * m3) (sc : scene) (bs : list nat) : res comdata :=
  match bs with
  | [] => Ok []
  | b :: bs' =>
      let* H := principalframe eigvals eig (b_mass sc b) in
      let* l := com_scan eigvals eig sc bs' in
      Ok ((b, H, m22 (ll (b_mass sc b))) :: l)
  end.
Definition com_init (eigvals : m6 -> list R) (eig : m3 -> v3 * m3) (sc : scene) (user_bodies : list nat) : res comdata :=
  com_scan eigvals eig sc (filter (fun b => Rltb 0 (m22 (ll (b_mass sc b)))) user_bodies).
(** [total_mass], observers.py:487 *)
Definition com_total (c : comdata) : R := fold_left (fun a x => a + snd x) c 0.

(** the three accumulators of [update], observers.py:493-519; the (3,ndof) arrays are given by their columns *)
Record comsum := CoM { cm_pos : v3; cm_jac : nat -> v3; cm_djac : nat -> v3 }.
(** one pass of the loop, observers.py:497-515 *)
Definition com_step (jacs : bool) (st : store) (x : nat * m4 * R) (a : comsum) : res comsum :=
  let '(b, Hbc, m) := x in
  let* P := Model_Dyn.get (a_pose (st b)) in
  let H := mm4 P Hbc in
  let p := vadd (cm_pos a) (vscal m (pos H)) in
  if jacs then
    let H2 := M4 (tr (rot H)) zero3 zero3 1 in
    let* Ad := iadjoint (mm4 Hbc H2) in
    let* J := Model_Dyn.get (a_jac (st b)) in
    let* T := Model_Dyn.get (a_twist (st b)) in
    let dAd := mm6 Ad (adjacency (V6 (ang T) zero3)) in
    let* dJ := Model_Dyn.get (a_djac (st b)) in
    Ok (CoM p
         (fun k => vadd (cm_jac a k) (vscal m (lin (mv6 Ad (J k)))))
         (fun k => vadd (cm_djac a k) (vscal m (lin (v6add (mv6 Ad (dJ k)) (mv6 dAd (J k)))))))
  else Ok (CoM p (cm_jac a) (cm_djac a)).
Fixpoint com_loop (jacs : bool) (st : store) (c : comdata) (a : comsum) : res comsum :=
  match c with [] => Ok a | x :: c' => let* a1 := com_step jacs st x a in com_loop jacs st c' a1 end.
(** [update], observers.py:492-519.  With no massive body [total_mass] is 0 and numpy fills the arrays with NaN (and warns):
    NaN is not a real number, that outcome is reported here as an error. *)
Definition com_update (jacs : bool) (st : store) (c : comdata) : res comsum :=
  let* a := com_loop jacs st c (CoM zero3 (fun _ => zero3) (fun _ => zero3)) in
  if Reqb (com_total c) 0 then Err ZeroDivision
  else Ok (CoM (vscal (/ com_total c) (cm_pos a)) (fun k => vscal (/ com_total c) (cm_jac a k))
               (fun k => vscal (/ com_total c) (cm_djac a k))).
