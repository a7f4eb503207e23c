(** The collada document follows the drawer: which instances it has, which ids. *)
From Coq Require Import Lra Lia Permutation DecimalString DecimalNat DecimalFacts.
From Verif Require Import Spec_Dae.
Open Scope R_scope.

(** *** names *)
(** the names really asked for: an empty name gives a node without id *)
Definition want (o : option string) : list string := match o with None | Some EmptyString => [] | Some s => [s] end.
Definition norm_name (o : option string) : option string := match o with Some EmptyString => None | _ => o end.
Fixpoint assign (l : list (option string)) (used : list string) : list (option string) * list string :=
  match l with
  | [] => ([], used)
  | o :: l' => let (i, u1) := collada_id o used in let (r, u2) := assign l' u1 in (i :: r, u2)
  end.

Lemma mem_in s l : mem s l = true <-> In s l.
Proof. unfold mem. rewrite existsb_exists. split; [intros (x & I & E); apply String.eqb_eq in E; now subst | intros I; exists s; now rewrite String.eqb_refl]. Qed.
Lemma decimal_inj i j : decimal i = decimal j -> i = j.
Proof.
  unfold decimal. intros E. assert (U := f_equal NilZero.uint_of_string E).
  assert (N : forall k, Nat.to_uint k <> Decimal.Nil). { intros k A. rewrite <- (Unsigned.of_to k), Unsigned.to_of in A. unfold Decimal.unorm in A. destruct (Decimal.nzhead (Nat.to_uint k)); discriminate. }
  rewrite !NilZero.usu in U by apply N. injection U as U. now apply Unsigned.to_uint_inj.
Qed.
Lemma append_inj (p a b : string) : (p ++ a)%string = (p ++ b)%string -> a = b.
Proof. induction p as [ | c p IH]; cbn; [auto | ]. intros E. injection E as E. auto. Qed.
Lemma suffixed_inj s i j : suffixed s i = suffixed s j -> i = j.
Proof. unfold suffixed. intros E. apply append_inj in E. apply append_inj in E. now apply decimal_inj. Qed.
Lemma append_length (p a : string) : String.length (p ++ a) = (String.length p + String.length a)%nat.
Proof. induction p as [ | c p IH]; cbn; [reflexivity | now rewrite IH]. Qed.
Lemma suffixed_ne s i : suffixed s i <> s.
Proof. unfold suffixed. intros E. apply (f_equal String.length) in E. rewrite !append_length in E. cbn in E. lia. Qed.
Lemma try_names_fresh s used : forall k i cur, (exists j, (i <= j < i + k)%nat /\ ~ In (suffixed s j) used) -> ~ In (try_names s used i k cur) used.
Proof.
  induction k as [ | k IH]; intros i cur (j & Hj & F); [lia | ]. cbn [try_names]. destruct (mem (suffixed s i) used) eqn:M.
  - apply IH. exists j. split; [ | exact F]. assert (j <> i) by (intros ->; apply F; now apply mem_in). lia.
  - intros A. apply mem_in in A. congruence.
Qed.
Lemma nodup_candidates s : NoDup (s :: map (suffixed s) (seq 0 100)).
Proof.
  constructor.
  - intros A. apply in_map_iff in A. destruct A as (i & E & _). exact (suffixed_ne s i E).
  - assert (Q : forall n a, NoDup (map (suffixed s) (seq a n))); [ | apply Q]. induction n as [ | n IH]; intros a; cbn; constructor; [ | apply IH].
    intros A. apply in_map_iff in A. destruct A as (i & E & A). apply suffixed_inj in E. apply in_seq in A. lia.
Qed.
Lemma free_suffix s used : In s used -> (length used <= 100)%nat -> exists j, (0 <= j < 0 + 100)%nat /\ ~ In (suffixed s j) used.
Proof.
  intros I L. destruct (Forall_Exists_dec (fun j => In (suffixed s j) used) (fun j => in_dec string_dec _ _) (seq 0 100)) as [A | A].
  - exfalso. assert (Q : (length (s :: map (suffixed s) (seq 0 100)) <= length used)%nat).
    { apply NoDup_incl_length; [apply nodup_candidates | ]. intros x [<- | Hx]; [exact I | ]. apply in_map_iff in Hx. destruct Hx as (j & <- & Hj). rewrite Forall_forall in A. now apply A. }
    cbn [length] in Q. rewrite map_length, seq_length in Q. lia.
  - apply Exists_exists in A. destruct A as (j & Ij & N). apply in_seq in Ij. exists j. auto.
Qed.
Lemma new_plain s used : ~ In s used -> new_name s used = s.
Proof. intros F. unfold new_name. destruct (mem s used) eqn:M; [ | reflexivity]. now apply mem_in in M. Qed.
Lemma new_fresh s used : (length used <= 100)%nat -> ~ In (new_name s used) used.
Proof.
  intros L. unfold new_name. destruct (mem s used) eqn:M; [ | intros A; apply mem_in in A; congruence].
  apply mem_in in M. apply try_names_fresh, free_suffix; assumption.
Qed.
Opaque new_name.
Lemma collada_used o used i u : collada_id o used = (i, u) -> u = used ++ somes [i].
Proof. unfold collada_id. destruct o as [[ | c s] | ]; intros E; injection E as <- <-; cbn; now rewrite ?app_nil_r. Qed.
Lemma collada_plain o used : (forall s, In s (want o) -> ~ In s used) -> collada_id o used = (norm_name o, used ++ want o).
Proof.
  unfold collada_id. destruct o as [[ | c s] | ]; cbn [want norm_name]; rewrite ?app_nil_r; try reflexivity. intros F.
  rewrite new_plain; [reflexivity | ]. apply F. now left.
Qed.
Lemma collada_fresh o used i u : collada_id o used = (i, u) -> NoDup used -> (length used <= 100)%nat -> NoDup u.
Proof.
  intros E N L. assert (U := collada_used _ _ _ _ E). subst u. destruct i as [s | ]; cbn [somes flat_map app]; rewrite ?app_nil_r; [ | exact N].
  apply (Permutation_NoDup (l := s :: used)); [apply Permutation_cons_append | ]. constructor; [ | exact N].
  unfold collada_id in E. destruct o as [[ | c t] | ]; try discriminate. injection E as E. subst s. now apply new_fresh.
Qed.
Lemma somes_app {A} (a b : list (option A)) : somes (a ++ b) = somes a ++ somes b.
Proof. unfold somes. now rewrite flat_map_app. Qed.
Lemma collada_want o used i u : collada_id o used = (i, u) -> length (somes [i]) = length (want o).
Proof. unfold collada_id. destruct o as [[ | c s] | ]; intros E; injection E as <- <-; reflexivity. Qed.
Lemma assign_used l : forall used ids u, assign l used = (ids, u) -> u = used ++ somes ids /\ length ids = length l.
Proof.
  induction l as [ | o l IH]; intros used ids u E; cbn [assign] in E.
  - injection E as <- <-. cbn. now rewrite app_nil_r.
  - destruct (collada_id o used) as (i, u1) eqn:C. destruct (assign l u1) as (r, u2) eqn:A. injection E as <- <-. destruct (IH _ _ _ A) as (-> & L). rewrite (collada_used _ _ _ _ C), <- app_assoc. cbn [length]. rewrite L. split; [ | reflexivity]. destruct i; reflexivity.
Qed.
Lemma assign_app a b used : assign (a ++ b) used = let (i, u) := assign a used in let (j, w) := assign b u in (i ++ j, w).
Proof.
  revert used. induction a as [ | o a IH]; intros used; cbn [app assign]; [now destruct (assign b used) | ]. destruct (collada_id o used) as (i, u). rewrite IH. destruct (assign a u) as (i1, u1). destruct (assign b u1) as (i2, u2). reflexivity.
Qed.
(** names all different: the ids are the names *)
Lemma assign_plain l : forall used, NoDup (used ++ flat_map want l) -> assign l used = (map norm_name l, used ++ flat_map want l).
Proof.
  induction l as [ | o l IH]; intros used N; cbn [assign map flat_map] in *; [now rewrite app_nil_r | ].
  rewrite collada_plain.
  - rewrite app_assoc in N. rewrite (IH _ N), <- app_assoc. reflexivity.
  - intros s I A. destruct o as [[ | c t] | ]; cbn [want] in *; try contradiction. destruct I as [<- | []]. cbn [app] in N. apply NoDup_remove_2 in N. apply N, in_or_app. now left.
Qed.
(** at most 101 names: the ids are all different *)
Lemma assign_fresh l : forall used ids u, assign l used = (ids, u) -> NoDup used -> (length used + length (flat_map want l) <= 101)%nat -> NoDup u.
Proof.
  induction l as [ | o l IH]; intros used ids u E N L; cbn [assign flat_map] in *; [now injection E as <- <- | ].
  destruct (collada_id o used) as (i, u1) eqn:C. destruct (assign l u1) as (r, u2) eqn:A. injection E as <- <-. rewrite app_length in L. assert (U := collada_used _ _ _ _ C). assert (W := collada_want _ _ _ _ C).
  apply (IH _ _ _ A).
  - destruct (want o) as [ | s w] eqn:Ew.
    + subst u1. destruct i; cbn in W; [discriminate | ]. cbn. now rewrite app_nil_r.
    + apply (collada_fresh _ _ _ _ C N). cbn [length] in L. lia.
  - rewrite U, app_length, W. lia.
Qed.
