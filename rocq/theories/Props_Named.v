(** Properties C01-C04. *)
From Coq Require Import Lia ZArith ZifyBool.
From Verif Require Import Model_Base Model_Named Proof_Named.

(** C01: [L[s]] is the first NamedObject called [s]. *)
Theorem C01_getitem_first : forall l s o,
  nol_getitem l (IStr s) = Ok o <->
  exists l1 l2, l = l1 ++ o :: l2 /\ named_as s o /\ Forall (fun x => ~ named_as s x) l1.
Proof. exact getitem_ok. Qed.
Print Assumptions C01_getitem_first.

(** C01: KeyError exactly when there is none, and no other exception. *)
Theorem C01_getitem_keyerror : forall l s,
  (nol_getitem l (IStr s) = Err KeyError <-> (forall o, In o l -> ~ named_as s o)) /\
  ((exists o, nol_getitem l (IStr s) = Ok o) \/ nol_getitem l (IStr s) = Err KeyError).
Proof. exact (fun l s => conj (getitem_err l s) (getitem_str_total l s)). Qed.
Print Assumptions C01_getitem_keyerror.

(** C01: [find] is the sublist, in order, of the objects called [s]. *)
Theorem C01_find_all : forall l s,
  nol_find l (Some s) = filter (fun o => if named_as_dec s o then true else false) l.
Proof. exact find_spec. Qed.
Print Assumptions C01_find_all.

(** C01: an integer behaves as in a list: from the beginning, from the end when negative, IndexError outside. *)
Theorem C01_getitem_int : forall l n,
  nol_getitem l (IInt (Z.of_nat n)) = match nth_error l n with Some o => Ok o | None => Err IndexError end /\
  nol_getitem l (IInt (- Z.of_nat (S n))) = match nth_error (rev l) n with Some o => Ok o | None => Err IndexError end.
Proof.
  intros l n. cbn [nol_getitem]. unfold list_getitem. split.
  - destruct (Z.of_nat n <? 0)%Z eqn:E; [lia | ]. destruct (nth_error l n) eqn:G.
    + assert (n < length l)%nat by (apply nth_error_Some; congruence). replace ((0 <=? Z.of_nat n) && (Z.of_nat n <? Z.of_nat (length l)))%Z with true by lia. rewrite Nat2Z.id, G. reflexivity.
    + apply nth_error_None in G. replace ((0 <=? Z.of_nat n) && (Z.of_nat n <? Z.of_nat (length l)))%Z with false by lia. reflexivity.
  - destruct (- Z.of_nat (S n) <? 0)%Z eqn:E; [ | lia]. destruct (Nat.ltb_spec n (length l)) as [L | L].
    + replace ((0 <=? - Z.of_nat (S n) + Z.of_nat (length l)) && (- Z.of_nat (S n) + Z.of_nat (length l) <? Z.of_nat (length l)))%Z with true by lia.
      replace (Z.to_nat (- Z.of_nat (S n) + Z.of_nat (length l))) with (length l - S n)%nat by lia.
      assert (X : nth_error (rev l) n = nth_error l (length l - S n)).
      { destruct l as [ | x l']; [cbn in L; lia | ]. rewrite (nth_error_nth' (rev (x :: l')) x) by (rewrite rev_length; exact L). rewrite rev_nth by exact L. symmetry. apply nth_error_nth'. lia. }
      rewrite X. reflexivity.
    + replace ((0 <=? - Z.of_nat (S n) + Z.of_nat (length l)) && (- Z.of_nat (S n) + Z.of_nat (length l) <? Z.of_nat (length l)))%Z with false by lia.
      rewrite (proj2 (nth_error_None (rev l) n)); [reflexivity | rewrite rev_length; exact L].
Qed.
Print Assumptions C01_getitem_int.

Example C01_nonvacuous :
  let l := [PyObj 0 true None; PyObj 1 false (Some "a"); PyObj 2 true (Some "a");
            PyObj 3 true (Some "b"); PyObj 4 true (Some "a")]%string in
  nol_getitem l (IStr "a") = Ok (PyObj 2 true (Some "a"%string)) /\
  nol_getitem l (IStr "c") = Err KeyError /\
  nol_find l (Some "a"%string) = [PyObj 2 true (Some "a"); PyObj 4 true (Some "a")]%string.
Proof. repeat split. Qed.

(** C02: distinct names give the exact mapping. *)
Theorem C02_as_dict_partial : forall l, NoDup (names_in l) ->
  exists d, nol_as_dict l = Ok d /\ map fst d = names_in l /\
    forall s o, dict_get d s = Some o <-> (In o l /\ named_as s o).
Proof. exact as_dict_ok. Qed.
Print Assumptions C02_as_dict_partial.

(** C02, error case: the documented [DuplicateNameError] is never raised; a duplicate name
    always surfaces as a [TypeError] (the exception's constructor misses its argument). *)
Theorem C02_as_dict_refuted : forall l, ~ NoDup (names_in l) ->
  nol_as_dict l = Err TypeError /\ forall m, nol_as_dict l <> Err (DuplicateNameError m).
Proof.
  exact (fun l H => conj (as_dict_dup l H)
    (fun m E => eq_ind (Err TypeError)
       (fun r : res dict => match r with Err TypeError => True | _ => False end)
       I (Err (DuplicateNameError m)) (eq_trans (eq_sym (as_dict_dup l H)) E))).
Qed.
Print Assumptions C02_as_dict_refuted.

Example C02_nonvacuous :
  NoDup (names_in [PyObj 0 true (Some "a"); PyObj 1 true None; PyObj 2 true (Some "b")]%string) /\
  ~ NoDup (names_in [PyObj 0 true (Some "a"); PyObj 2 true (Some "a")]%string).
Proof.
  split; cbn.
  - repeat constructor; cbn; firstorder discriminate.
  - intros H. inversion H as [|? ? N]; subst. apply N. now left.
Qed.

(** C03: naming pass (also for generators): named elements keep their name, the others get
    their identity string, elements outside the list are untouched. *)
Theorem C03_names_everything : forall str_id nm it chk x,
  let l := match it with IterList l | IterGen l => l end in
  fst (name_all_elements str_id nm it chk) x =
  match nm x with
  | Some s => Some s
  | None => if in_dec Nat.eq_dec x l then Some (str_id x) else None
  end.
Proof.
  exact (fun str_id nm it chk x =>
    match it, chk with
    | IterList l, true => name_pass_spec str_id l nm x
    | IterList l, false => name_pass_spec str_id l nm x
    | IterGen l, true => name_pass_spec str_id l nm x
    | IterGen l, false => name_pass_spec str_id l nm x
    end).
Qed.
Print Assumptions C03_names_everything.

(** C03: on a list, duplicates (after naming) are reported exactly, each name occurrences-1 times. *)
Theorem C03_duplicates_on_lists : forall str_id nm l,
  let final := map (name_of (fst (name_all_elements str_id nm (IterList l) true))) l in
  (NoDup final -> snd (name_all_elements str_id nm (IterList l) true) = Ok tt) /\
  (~ NoDup final -> exists surplus,
     snd (name_all_elements str_id nm (IterList l) true) = Err (DuplicateNameError surplus) /\
     forall s, count_occ string_dec surplus s = count_occ string_dec final s - 1) /\
  snd (name_all_elements str_id nm (IterList l) false) = Ok tt.
Proof.
  exact (fun str_id nm l =>
    let S := check_names_spec (map (name_of (name_pass str_id nm l)) l) in
    conj (proj1 S) (conj (proj2 S) eq_refl)).
Qed.
Print Assumptions C03_duplicates_on_lists.

(** C04 is false: whatever the names, a generator never gets its duplicates detected. *)
Theorem C04_generators_refuted : forall str_id nm l chk,
  snd (name_all_elements str_id nm (IterGen l) chk) = Ok tt.
Proof.
  exact (fun str_id nm l chk => match chk with true => eq_refl | false => eq_refl end).
Qed.
Print Assumptions C04_generators_refuted.

(** the witness: two elements both called "a", accepted when given as a generator,
    rejected when given as a list *)
Example C04_witness :
  let nm := fun _ : nat => Some "a"%string in
  snd (name_all_elements (fun _ => "x"%string) nm (IterGen [0; 1]) true) = Ok tt /\
  snd (name_all_elements (fun _ => "x"%string) nm (IterList [0; 1]) true)
  = Err (DuplicateNameError ["a"%string]).
Proof. split; reflexivity. Qed.
