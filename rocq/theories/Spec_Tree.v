(** Specification objects: finite rooted trees whose nodes are bodies and
    whose edges are joints.  Independent of the model. *)
From Coq Require Import List Arith Lia.
Import ListNotations.

Inductive tree : Type := Node (b : nat) (kids : list (nat * tree)).

Definition root (t : tree) : nat := match t with Node b _ => b end.
Definition kids (t : tree) : list (nat * tree) := match t with Node _ k => k end.

(** Depth-first (pre-order) enumeration of the nodes and of the edges. *)
Fixpoint bodies (t : tree) : list nat :=
  match t with
  | Node b ks =>
      b :: (fix go (l : list (nat * tree)) : list nat :=
              match l with
              | [] => []
              | (_, t') :: l' => bodies t' ++ go l'
              end) ks
  end.
Fixpoint joints (t : tree) : list nat :=
  match t with
  | Node _ ks =>
      (fix go (l : list (nat * tree)) : list nat :=
         match l with
         | [] => []
         | (j, t') :: l' => j :: joints t' ++ go l'
         end) ks
  end.
(** Number of edges on the longest downward path. *)
Fixpoint height (t : tree) : nat :=
  match t with
  | Node _ ks =>
      (fix go (l : list (nat * tree)) : nat :=
         match l with
         | [] => 0
         | (_, t') :: l' => Nat.max (S (height t')) (go l')
         end) ks
  end.

(** Graft a subtree [t'] through edge [j] as last child of node [p]. *)
Fixpoint graft (p j : nat) (t' : tree) (t : tree) : tree :=
  match t with
  | Node b ks =>
      let ks' :=
        (fix go (l : list (nat * tree)) : list (nat * tree) :=
           match l with
           | [] => []
           | (i, s) :: l' => (i, graft p j t' s) :: go l'
           end) ks in
      Node b (if Nat.eqb b p then ks' ++ [(j, t')] else ks')
  end.

(** Relabel edge [old] as [new]. *)
Fixpoint relabel (old new : nat) (t : tree) : tree :=
  match t with
  | Node b ks =>
      Node b ((fix go (l : list (nat * tree)) : list (nat * tree) :=
                 match l with
                 | [] => []
                 | (i, s) :: l' =>
                     ((if Nat.eqb i old then new else i), relabel old new s) :: go l'
                 end) ks)
  end.

(** [path t b ps]: walking up from [b] to the root of [t] meets the
    (joint, body) pairs [ps], nearest first. *)
Inductive path : tree -> nat -> list (nat * nat) -> Prop :=
| path_root : forall b ks, path (Node b ks) b []
| path_step : forall b ks j s x ps,
    In (j, s) ks -> path s x ps -> path (Node b ks) x (ps ++ [(j, b)]).

Section TreeInd.
  Variable P : tree -> Prop.
  Hypothesis H : forall b ks, Forall (fun jt => P (snd jt)) ks -> P (Node b ks).
  Fixpoint tree_ind' (t : tree) : P t :=
    match t with
    | Node b ks =>
        H b ks ((fix go (l : list (nat * tree)) : Forall (fun jt => P (snd jt)) l :=
                   match l with
                   | [] => Forall_nil _
                   | jt :: l' => Forall_cons jt (tree_ind' (snd jt)) (go l')
                   end) ks)
    end.
End TreeInd.

(** The nested loops as list functions. *)
Lemma bodies_eq b ks : bodies (Node b ks) = b :: flat_map (fun jt => bodies (snd jt)) ks.
Proof.
  cbn [bodies]. f_equal. induction ks as [|[j t] l IH]; cbn; [reflexivity|]. now rewrite IH.
Qed.
Lemma joints_eq b ks :
  joints (Node b ks) = flat_map (fun jt => fst jt :: joints (snd jt)) ks.
Proof.
  cbn [joints]. induction ks as [|[j t] l IH]; cbn; [reflexivity|]. now rewrite IH.
Qed.
Lemma height_eq b ks :
  height (Node b ks) = fold_right (fun jt n => Nat.max (S (height (snd jt))) n) 0 ks.
Proof.
  induction ks as [|[j t] l IH]; [reflexivity|]. cbn [fold_right snd]. rewrite <- IH. reflexivity.
Qed.
Lemma graft_eq p j t' b ks :
  graft p j t' (Node b ks) =
  Node b (map (fun jt => (fst jt, graft p j t' (snd jt))) ks ++
          (if Nat.eqb b p then [(j, t')] else [])).
Proof.
  cbn [graft].
  assert (E : (fix go (l : list (nat * tree)) : list (nat * tree) :=
           match l with
           | [] => []
           | (i, s) :: l' => (i, graft p j t' s) :: go l'
           end) ks = map (fun jt => (fst jt, graft p j t' (snd jt))) ks).
  { induction ks as [|[i s] l IH]; cbn; [reflexivity|]. now rewrite IH. }
  rewrite E. destruct (Nat.eqb b p); [reflexivity| now rewrite app_nil_r].
Qed.
Lemma relabel_eq old new b ks :
  relabel old new (Node b ks) =
  Node b (map (fun jt => ((if Nat.eqb (fst jt) old then new else fst jt),
                          relabel old new (snd jt))) ks).
Proof.
  cbn [relabel]. f_equal. induction ks as [|[j t] l IH]; cbn; [reflexivity|]. now rewrite IH.
Qed.
