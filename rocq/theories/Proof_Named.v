(** Proofs about the named-object utilities. *)
From Verif Require Import Model_Base Model_Named.

(** ** Specification vocabulary *)

(** the object is a NamedObject whose name is [s] *)
Definition named_as (s : string) (o : pyobj) : Prop :=
  o_isnamed o = true /\ o_name o = Some s.

(** the names of the named objects of a list, in order *)
Definition names_in (l : list pyobj) : list string :=
  flat_map (fun o => if o_isnamed o then match o_name o with Some s => [s] | None => [] end
                     else []) l.

Lemma named_as_dec s o : {named_as s o} + {~ named_as s o}.
Proof.
  unfold named_as. destruct (o_isnamed o); [|right; intros [H _]; discriminate].
  destruct (o_name o) as [n|]; [|right; intros [_ H]; discriminate].
  destruct (string_dec n s) as [->|N]; [left; auto| right; intros [_ H]; congruence].
Defined.

Lemma matches_spec s o : matches (Some s) o = true <-> named_as s o.
Proof.
  unfold matches, named_as, opt_string_eqb.
  destruct (o_isnamed o), (o_name o) as [n|]; cbn; split; try (intros [? ?]); try discriminate;
    try congruence.
  - intros H. apply String.eqb_eq in H. subst; auto.
  - apply String.eqb_eq. congruence.
Qed.

Lemma find_loop_acc n l : forall r, find_loop n l r = r ++ filter (matches n) l.
Proof.
  induction l as [|o l IH]; intros r; cbn; [now rewrite app_nil_r|].
  destruct (matches n o); rewrite IH; [now rewrite <- app_assoc|reflexivity].
Qed.

Lemma find_spec l s :
  nol_find l (Some s) = filter (fun o => if named_as_dec s o then true else false) l.
Proof.
  unfold nol_find. rewrite find_loop_acc. cbn.
  induction l as [|o l IH]; [reflexivity|]. cbn. rewrite IH.
  destruct (named_as_dec s o) as [H|H].
  - apply matches_spec in H. now rewrite H.
  - destruct (matches (Some s) o) eqn:E; [|reflexivity].
    apply matches_spec in E. contradiction.
Qed.

Lemma getitem_ok l s o :
  nol_getitem l (IStr s) = Ok o <->
  exists l1 l2, l = l1 ++ o :: l2 /\ named_as s o /\ Forall (fun x => ~ named_as s x) l1.
Proof.
  cbn. induction l as [|x l IH]; cbn.
  - split; [discriminate|]. intros (l1 & l2 & H & _). destruct l1; discriminate.
  - destruct (matches (Some s) x) eqn:E.
    + apply matches_spec in E. split.
      * intros [= ->]. exists [], l. auto.
      * intros (l1 & l2 & H & Hn & F). destruct l1 as [|y l1]; cbn in H.
        -- now injection H as -> _.
        -- injection H as -> _. inversion F; contradiction.
    + rewrite IH. split.
      * intros (l1 & l2 & -> & Hn & F). exists (x :: l1), l2. repeat split; auto; try apply Hn.
        constructor; auto. intros H. apply matches_spec in H. congruence.
      * intros (l1 & l2 & H & Hn & F). destruct l1 as [|y l1]; cbn in H.
        -- injection H as -> _. apply matches_spec in Hn. congruence.
        -- injection H as -> ->. inversion F; subst. exists l1, l2. auto.
Qed.

Lemma getitem_err l s :
  nol_getitem l (IStr s) = Err KeyError <-> (forall o, In o l -> ~ named_as s o).
Proof.
  cbn. induction l as [|x l IH]; cbn; [firstorder|].
  destruct (matches (Some s) x) eqn:E.
  - apply matches_spec in E. split; [discriminate|]. intros H. exfalso. now apply (H x); auto.
  - rewrite IH. split.
    + intros H o [<-|I]; [intros K; apply matches_spec in K; congruence|auto].
    + auto.
Qed.

Lemma getitem_str_total l s :
  (exists o, nol_getitem l (IStr s) = Ok o) \/ nol_getitem l (IStr s) = Err KeyError.
Proof.
  cbn. induction l as [|x l IH]; cbn; [auto|]. destruct (matches (Some s) x); eauto.
Qed.

(** ** as_dict *)
Lemma dict_get_app d k n o :
  dict_get (d ++ [(n, o)]) k =
  match dict_get d k with Some x => Some x | None => if String.eqb n k then Some o else None end.
Proof.
  induction d as [|[k' o'] d IH]; cbn; [reflexivity|]. destruct (String.eqb k' k); auto.
Qed.

Definition dict_spec (l : list pyobj) (d : dict) : Prop :=
  map fst d = names_in l /\
  forall s o, dict_get d s = Some o <-> (In o l /\ named_as s o).

Lemma names_in_app l l' : names_in (l ++ l') = names_in l ++ names_in l'.
Proof. unfold names_in. apply flat_map_app. Qed.

Lemma in_names_in l s : In s (names_in l) <-> exists o, In o l /\ named_as s o.
Proof.
  unfold names_in, named_as. rewrite in_flat_map. split; intros (o & I & H); exists o; split; auto.
  - destruct (o_isnamed o); [|destruct H]. destruct (o_name o); [|destruct H].
    destruct H as [->|[]]; auto.
  - destruct H as [-> ->]. now left.
Qed.

Lemma dict_get_none_keys d k : dict_get d k = None <-> ~ In k (map fst d).
Proof.
  induction d as [|[k' o] d IH]; cbn; [tauto|].
  destruct (String.eqb_spec k' k) as [->|N]; [split; [discriminate|intros H; exfalso; auto]|].
  rewrite IH. split; [intros H [?|?]; congruence || auto | auto].
Qed.

Lemma as_dict_loop_spec l : forall pre d,
  dict_spec pre d -> NoDup (names_in pre) ->
  (NoDup (names_in (pre ++ l)) ->
     exists d', as_dict_loop l d = Ok d' /\ dict_spec (pre ++ l) d') /\
  (~ NoDup (names_in (pre ++ l)) -> as_dict_loop l d = Err (mk_DuplicateNameError [])).
Proof.
  induction l as [|o l IH]; intros pre d [Hk Hd] Hnd.
  - rewrite app_nil_r. cbn. split; [intros _; exists d; split; [reflexivity|split; auto]|contradiction].
  - assert (E : pre ++ o :: l = (pre ++ [o]) ++ l) by now rewrite <- app_assoc.
    rewrite E. cbn [as_dict_loop].
    assert (Skip : names_in [o] = [] ->
              dict_spec (pre ++ [o]) d /\ NoDup (names_in (pre ++ [o]))).
    { intros Ho. rewrite names_in_app, Ho, app_nil_r. split; [|auto]. split; [now rewrite names_in_app, Ho, app_nil_r|].
      intros s x. rewrite Hd, in_app_iff. split; [tauto|]. intros [[I|[<-|[]]] N]; [auto|].
      exfalso. assert (In s (names_in [o])) by (apply in_names_in; exists o; split; [now left|auto]).
      rewrite Ho in H; destruct H. }
    destruct (o_isnamed o) eqn:En; [destruct (o_name o) as [n|] eqn:Em|].
    2,3: assert (Ho : names_in [o] = []) by (unfold names_in; cbn; rewrite En, ?Em; reflexivity);
         destruct (Skip Ho); auto.
    assert (Ho : names_in [o] = [n]) by (unfold names_in; cbn; rewrite En, Em; reflexivity).
    destruct (dict_get d n) as [x|] eqn:G.
    + assert (In n (names_in pre)).
      { rewrite <- Hk. destruct (in_dec string_dec n (map fst d)); auto.
        apply dict_get_none_keys in n0. congruence. }
      assert (~ NoDup (names_in ((pre ++ [o]) ++ l))).
      { rewrite !names_in_app, Ho, <- app_assoc. cbn. intros K. apply NoDup_remove_2 in K.
        apply K, in_app_iff. now left. }
      split; [contradiction|reflexivity].
    + apply IH.
      * split; [rewrite map_app, names_in_app, Hk, Ho; reflexivity|].
        intros s y. rewrite dict_get_app, in_app_iff.
        destruct (dict_get d s) as [z|] eqn:Gs.
        -- pose proof Gs as Gs'. rewrite Hd in Gs. split.
           ++ intros [= <-]. tauto.
           ++ intros [[I|[<-|[]]] N]; [rewrite <- Gs'; apply Hd; auto|].
              destruct N as [_ N]. rewrite Em in N. injection N as <-. congruence.
        -- destruct (String.eqb_spec n s) as [->|Ns].
           ++ split; [intros [= <-]; split; [right; now left|split; auto]|].
              intros [[I|[<-|[]]] N]; [|reflexivity].
              assert (K : dict_get d s = Some y) by (apply Hd; auto). congruence.
           ++ split; [discriminate|]. intros [[I|[<-|[]]] N].
              ** assert (K : dict_get d s = Some y) by (apply Hd; auto). congruence.
              ** destruct N as [_ N]. congruence.
      * rewrite names_in_app, Ho. apply NoDup_app_remove_l with (l := []) || idtac.
        apply dict_get_none_keys in G. rewrite Hk in G.
        apply NoDup_rev in Hnd. rewrite <- (rev_involutive (names_in pre ++ [n])), rev_app_distr.
        apply NoDup_rev. cbn. constructor; [now rewrite <- in_rev|auto].
Qed.

Lemma as_dict_ok l : NoDup (names_in l) -> exists d, nol_as_dict l = Ok d /\ dict_spec l d.
Proof.
  intros H. apply (as_dict_loop_spec l [] []); auto.
  - split; [reflexivity|]. intros s o; cbn; split; [discriminate|tauto].
  - constructor.
Qed.
Lemma as_dict_dup l : ~ NoDup (names_in l) -> nol_as_dict l = Err TypeError.
Proof.
  intros H. apply (as_dict_loop_spec l [] []); auto.
  - split; [reflexivity|]. intros s o; cbn; split; [discriminate|tauto].
  - constructor.
Qed.

(** ** name_all_elements *)
Section NameAll.
  Variable str_id : nat -> string.

  Lemma name_pass_spec l : forall nm x,
    name_pass str_id nm l x =
    match nm x with
    | Some s => Some s
    | None => if in_dec Nat.eq_dec x l then Some (str_id x) else None
    end.
  Proof.
    induction l as [|y l IH]; intros nm x; cbn [name_pass].
    - destruct (nm x); auto.
    - rewrite IH. destruct (nm y) as [s|] eqn:Ey.
      + destruct (nm x) eqn:Ex; auto.
        destruct (in_dec Nat.eq_dec x l), (in_dec Nat.eq_dec x (y :: l)) as [[K|K]|K]; auto; try congruence;
          exfalso; apply K; now right.
      + unfold upd. destruct (Nat.eqb_spec x y) as [->|N].
        * rewrite Ey. destruct (in_dec Nat.eq_dec y (y :: l)) as [|K]; auto. exfalso; apply K; now left.
        * destruct (nm x); auto.
          destruct (in_dec Nat.eq_dec x l), (in_dec Nat.eq_dec x (y :: l)) as [[K|K]|K]; auto; try congruence;
          exfalso; apply K; now right.
  Qed.

  Lemma count_remove e l s :
    count_occ string_dec (list_remove e l) s =
    count_occ string_dec l s - (if string_dec e s then 1 else 0).
  Proof.
    induction l as [|x l IH]; cbn; [destruct (string_dec e s); reflexivity|].
    destruct (String.eqb_spec x e) as [->|N].
    - destruct (string_dec e s); [cbn; lia|lia].
    - cbn. rewrite IH. destruct (string_dec x s), (string_dec e s); try congruence; lia.
  Qed.

  Lemma count_fold_remove set : forall l s, NoDup set ->
    count_occ string_dec (fold_left (fun acc e => list_remove e acc) set l) s =
    count_occ string_dec l s - (if in_dec string_dec s set then 1 else 0).
  Proof.
    induction set as [|e set IH]; intros l s N; cbn [fold_left].
    - destruct (in_dec string_dec s []) as [[]|]; lia.
    - inversion N; subst. rewrite IH, count_remove by auto.
      destruct (string_dec e s) as [->|Ns].
      + destruct (in_dec string_dec s set); [contradiction|].
        destruct (in_dec string_dec s (s :: set)) as [|K]; [lia|exfalso; apply K; now left].
      + destruct (in_dec string_dec s set) as [|K1], (in_dec string_dec s (e :: set)) as [[|]|K2]; try congruence; try lia.
        exfalso; apply K2; now right.
  Qed.

  Lemma nodup_length_iff (l : list string) :
    length l = length (nodup string_dec l) <-> NoDup l.
  Proof.
    split.
    - intros H. apply (@NoDup_incl_NoDup _ (nodup string_dec l) l).
      + apply NoDup_nodup.
      + lia.
      + intros x Hx. now apply nodup_In in Hx.
    - intros H. now rewrite nodup_fixed_point.
  Qed.

  Definition surplus_of (l surplus : list string) : Prop :=
    forall s, count_occ string_dec surplus s = count_occ string_dec l s - 1.

  Lemma check_names_spec l :
    (NoDup l -> check_names l = Ok tt) /\
    (~ NoDup l -> exists m, check_names l = Err (DuplicateNameError m) /\ surplus_of l m).
  Proof.
    unfold check_names. destruct (Nat.eqb_spec (length l) (length (nodup string_dec l))) as [E|E].
    - apply nodup_length_iff in E. tauto.
    - rewrite nodup_length_iff in E. split; [contradiction|]. intros _. eexists; split; [reflexivity|].
      intros s. rewrite count_fold_remove by apply NoDup_nodup.
      destruct (in_dec string_dec s (nodup string_dec l)) as [I|I]; [lia|].
      rewrite nodup_In in I. apply (count_occ_not_In string_dec) in I. lia.
  Qed.
End NameAll.
