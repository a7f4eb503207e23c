(** C62: prefixes; C66: optional elements; C67: the parsed tree and its chains. *)
From Coq Require Import Lra Lia Permutation.
From Verif Require Import Spec_Urdf Spec_Dyn.
From Verif Require Import Proof_Linalg Proof_SE3 Proof_Tree Proof_World Proof_World2 Proof_World3 Proof_Register Proof_Dofs Proof_World4 Proof_Robots2 Proof_Urdf Proof_Urdf2 Proof_Urdf3 Props_Urdf.
Open Scope R_scope.

(** ** The parsed robot *)
Lemma dset_new {A} k (v : A) d : ~ In k (map fst d) -> dset k v d = (k, v) :: d.
Proof.
  intros H. unfold dset. f_equal. induction d as [ | (m, w) d IH]; cbn [filter fst]; [reflexivity | ]. cbn [map fst In] in H. destruct (String.eqb_spec k m) as [-> | ]; [destruct H; now left | ]. cbn [negb]. f_equal. apply IH. tauto.
Qed.
Lemma dset_keys {A} k (v : A) d x : In x (map fst (dset k v d)) <-> x = k \/ In x (map fst d).
Proof.
  unfold dset. cbn [map fst In]. split.
  - intros [-> | H]; [now left | right]. apply in_map_iff in H. destruct H as (y & <- & H). apply filter_In in H. apply in_map, H.
  - intros [-> | H]; [now left | ]. destruct (string_dec x k) as [-> | D]; [now left | right]. apply in_map_iff in H. destruct H as (y & <- & H). apply in_map. apply filter_In. split; [exact H | ]. destruct (String.eqb_spec k (fst y)); [congruence | reflexivity].
Qed.
Lemma dset_nodup {A} k (v : A) d : NoDup (map fst d) -> NoDup (map fst (dset k v d)).
Proof.
  intros ND. unfold dset. cbn [map fst]. constructor.
  - intros H. apply in_map_iff in H. destruct H as (y & Q & H). apply filter_In in H. destruct H as (_ & H). rewrite Q, String.eqb_refl in H. discriminate.
  - induction d as [ | (m, w) d IH]; cbn [filter]; [constructor | ]. cbn [map fst] in ND. apply NoDup_cons_iff in ND. destruct ND as (N1 & N2). destruct (negb _); [ | now apply IH]. cbn [map fst]. constructor; [ | now apply IH].
    intros H. apply N1. apply in_map_iff in H. destruct H as (y & <- & H). apply filter_In in H. apply in_map, H.
Qed.
Lemma dget_in {A} k (v : A) d : NoDup (map fst d) -> (dget k d = Ok v <-> In (k, v) d).
Proof.
  induction d as [ | (m, w) d IH]; cbn [dget map fst In]; [intros _; split; [discriminate | intros []] | ]. intros ND. apply NoDup_cons_iff in ND. destruct ND as (N1 & N2). destruct (String.eqb_spec k m) as [-> | D].
  - split; [intros Q; injection Q as ->; now left | ]. intros [Q | H]; [injection Q as ->; reflexivity | destruct N1; exact (in_map fst _ _ H)].
  - rewrite (IH N2). split; [now right | ]. intros [Q | H]; [injection Q as Q1 Q2; congruence | exact H].
Qed.
Lemma dget_err {A} k (d : list (string * A)) x : dget k d = Err x -> x = KeyError /\ ~ In k (map fst d).
Proof.
  induction d as [ | (m, w) d IH]; cbn [dget map fst In]; [intros Q; injection Q as <-; tauto | ]. destruct (String.eqb_spec k m) as [-> | D]; [discriminate | ]. intros H. apply IH in H. destruct H as (-> & H). split; [reflexivity | ]. intros [Q | Q]; [congruence | tauto].
Qed.
Lemma parse_app l x : parse_urdf (l ++ [x]) = add_element x (parse_urdf l).
Proof. unfold parse_urdf. rewrite fold_left_app. reflexivity. Qed.
Lemma in_links_of l n u : In (n, u) (ulinks_of l) <-> In (ELinkOf n u) l.
Proof. unfold ulinks_of. rewrite in_flat_map. split; [intros (y & H & Q); destruct y; cbn in Q; destruct Q as [Q | []] || destruct Q; injection Q as -> ->; exact H | intros H; exists (ELinkOf n u); split; [exact H | now left]]. Qed.
Lemma in_joints_of l n j : In (n, j) (ujoints_of l) <-> In (EJointOf n j) l.
Proof. unfold ujoints_of. rewrite in_flat_map. split; [intros (y & H & Q); destruct y; cbn in Q; destruct Q as [Q | []] || destruct Q; injection Q as -> ->; exact H | intros H; exists (EJointOf n j); split; [exact H | now left]]. Qed.
Lemma parse_links l : NoDup (map fst (ulinks_of l)) -> r_links (parse_urdf l) = rev (ulinks_of l).
Proof.
  induction l as [ | x l IH] using rev_ind; [reflexivity | ]. unfold ulinks_of. rewrite flat_map_app. fold (ulinks_of l). intros ND. rewrite parse_app, rev_app_distr. rewrite map_app in ND. apply NoDup_app_iff in ND. destruct ND as (N1 & N2 & N3).
  destruct x as [n u | n j]; cbn [flat_map app add_element r_links rev] in *; [ | now apply IH]. rewrite (IH N1). apply dset_new. rewrite map_rev, <- in_rev. intros H. exact (N3 n H ltac:(now left)).
Qed.
Lemma parse_joints l : NoDup (map fst (ujoints_of l)) -> r_joints (parse_urdf l) = rev (ujoints_of l).
Proof.
  induction l as [ | x l IH] using rev_ind; [reflexivity | ]. unfold ujoints_of. rewrite flat_map_app. fold (ujoints_of l). intros ND. rewrite parse_app, rev_app_distr. rewrite map_app in ND. apply NoDup_app_iff in ND. destruct ND as (N1 & N2 & N3).
  destruct x as [n u | n j]; cbn [flat_map app add_element r_joints rev] in *; [now apply IH | ]. rewrite (IH N1). apply dset_new. rewrite map_rev, <- in_rev. intros H. exact (N3 n H ltac:(now left)).
Qed.
Lemma parse_map l : NoDup (map (fun x => uj_child (snd x)) (ujoints_of l)) -> r_parent_map (parse_urdf l) = rev (map (fun x => (uj_child (snd x), (fst x, uj_parent (snd x)))) (ujoints_of l)).
Proof.
  induction l as [ | x l IH] using rev_ind; [reflexivity | ]. unfold ujoints_of. rewrite flat_map_app. fold (ujoints_of l). intros ND. rewrite parse_app, map_app, rev_app_distr. rewrite map_app in ND. apply NoDup_app_iff in ND. destruct ND as (N1 & N2 & N3).
  destruct x as [n u | n j]; cbn [flat_map app add_element r_parent_map rev map fst snd] in *; [now apply IH | ]. rewrite (IH N1). apply dset_new. rewrite map_rev, <- in_rev, map_map. cbn [fst]. intros H. exact (N3 (uj_child j) H ltac:(now left)).
Qed.
(** A file whose links form a tree is read as that tree, whatever the order of its elements. *)
Theorem C67_parse : forall l, tree_file l -> tree_robot (parse_urdf l) /\ (forall n u, In (n, u) (r_links (parse_urdf l)) <-> In (ELinkOf n u) l) /\ (forall n j, In (n, j) (r_joints (parse_urdf l)) <-> In (EJointOf n j) l).
Proof.
  intros l [F1 F2 F3 F4 F5 (rk & F6) (r & ur & F7 & F8 & F9)]. assert (EL := parse_links l F1). assert (EJ := parse_joints l F2). assert (EM := parse_map l F5).
  assert (IL : forall n u, In (n, u) (r_links (parse_urdf l)) <-> In (ELinkOf n u) l) by (intros; rewrite EL, <- in_rev; apply in_links_of). assert (IJ : forall n j, In (n, j) (r_joints (parse_urdf l)) <-> In (EJointOf n j) l) by (intros; rewrite EJ, <- in_rev; apply in_joints_of).
  assert (IN : forall n, In n (map fst (r_links (parse_urdf l))) <-> exists u, In (ELinkOf n u) l) by (intros n; rewrite in_map_iff; split; [intros ((n', u) & <- & H); exists u; now apply IL | intros (u & H); exists (n, u); split; [reflexivity | now apply IL]]).
  split; [ | auto]. constructor.
  - rewrite EL, map_rev. now apply NoDup_rev.
  - rewrite EJ, map_rev. now apply NoDup_rev.
  - intros n j H. apply IN. apply IJ in H. eauto.
  - intros n j H. apply IN. apply IJ in H. eauto.
  - rewrite EJ, map_rev. now apply NoDup_rev.
  - exists rk. intros n j H. apply (F6 n). now apply IJ.
  - exists r. split; [apply IN; eauto | ]. split; [intros n j H; apply (F8 n); now apply IJ | ]. intros x H D. apply IN in H. destruct H as (u & H). destruct (F9 x u H D) as (n & j & Hj & Q). exists n, j. split; [now apply IJ | exact Q].
  - intros c n p. rewrite EM, <- in_rev, in_map_iff. split; [intros ((n', j) & Q & H); injection Q as <- <- <-; exists j; split; [ | auto]; apply IJ; now apply in_joints_of | intros (j & H & <- & <-); exists (n, j); split; [reflexivity | ]; apply in_joints_of; now apply IJ].
Qed.
Print Assumptions C67_parse.

(** get_root, for any file: the link that is the child of no joint, if it is the only one; an AssertionError otherwise. *)
Theorem C67_root : forall l, 
  let top := fun r => (exists u, In (ELinkOf r u) l) /\ forall n j, In (EJointOf n j) l -> uj_child j <> r in
  (forall r, top r -> (forall x, top x -> x = r) -> get_root (parse_urdf l) = Ok r) /\
  ((~ exists r, top r /\ forall x, top x -> x = r) -> get_root (parse_urdf l) = Err AssertionError).
Proof.
  intros l top.
  assert (K1 : forall l x, In x (map fst (r_links (parse_urdf l))) <-> exists u, In (ELinkOf x u) l).
  { clear. intros l x. induction l as [ | y l IH] using rev_ind; [split; [intros [] | intros (u & [])] | ]. rewrite parse_app. destruct y as [n u | n j]; cbn [add_element r_links]; rewrite ?dset_keys, IH; split.
    - intros [-> | (u' & H)]; [exists u; apply in_or_app; right; now left | exists u'; apply in_or_app; now left].
    - intros (u' & H). apply in_app_or in H. destruct H as [H | [Q | []]]; [right; eauto | injection Q as -> ->; now left].
    - intros (u' & H). exists u'. apply in_or_app. now left.
    - intros (u' & H). apply in_app_or in H. destruct H as [H | [Q | []]]; [eauto | discriminate]. }
  assert (K2 : forall l, NoDup (map fst (r_links (parse_urdf l)))).
  { clear. intros l. induction l as [ | y l IH] using rev_ind; [constructor | ]. rewrite parse_app. destruct y; cbn [add_element r_links]; [now apply dset_nodup | exact IH]. }
  assert (K3 : forall l x, In x (map fst (r_parent_map (parse_urdf l))) <-> exists n j, In (EJointOf n j) l /\ uj_child j = x).
  { clear. intros l x. induction l as [ | y l IH] using rev_ind; [split; [intros [] | intros (n & j & [] & _)] | ]. rewrite parse_app. destruct y as [n u | n j]; cbn [add_element r_parent_map]; rewrite ?dset_keys, IH; split.
    - intros (n' & j' & H & Q). exists n', j'. split; [apply in_or_app; now left | exact Q].
    - intros (n' & j' & H & Q). apply in_app_or in H. destruct H as [H | [Q' | []]]; [eauto | discriminate].
    - intros [-> | (n' & j' & H & Q)]; [exists n, j; split; [apply in_or_app; right; now left | reflexivity] | exists n', j'; split; [apply in_or_app; now left | exact Q]].
    - intros (n' & j' & H & Q). apply in_app_or in H. destruct H as [H | [Q' | []]]; [right; eauto | injection Q' as -> ->; now left]. }
  specialize (K1 l). specialize (K2 l). specialize (K3 l). set (pm := map fst (r_parent_map (parse_urdf l))) in *. set (ns := map fst (r_links (parse_urdf l))) in *.
  assert (Top : forall x, top x <-> In x ns /\ ~ In x pm).
  { intros x. unfold top. rewrite K1, K3. split; [intros (A & B); split; [exact A | intros (n & j & H & Q); exact (B n j H Q)] | intros (A & B); split; [exact A | intros n j H Q; apply B; eauto]]. }
  split.
  - intros r Tr Un. unfold get_root. fold pm ns. apply Top in Tr. rewrite (root_one pm r (proj2 Tr) ns K2 (proj1 Tr)); [reflexivity | ]. intros x Hx D. destruct (in_dec string_dec x pm) as [H | H]; [exact H | ]. destruct D. apply Un. now apply Top.
  - intros No. unfold get_root. fold pm ns.
    assert (G : forall s o0, (match o0 with Some r => ~ In r pm | None => True end) -> exists o1, (root_loop pm s o0 = Err AssertionError /\ (exists a b, a <> b /\ (In a s \/ o0 = Some a) /\ (In b s \/ o0 = Some b) /\ ~ In a pm /\ ~ In b pm \/ ~ NoDup s \/ exists r, o0 = Some r /\ In r s)) \/ (root_loop pm s o0 = Ok o1 /\ (forall x, In x s -> ~ In x pm -> o1 = Some x) /\ (o0 <> None -> o1 = o0) /\ (o0 = None -> match o1 with Some r => In r s /\ ~ In r pm | None => True end))).
    { induction s as [ | x s IH]; intros o0 H0; cbn [root_loop]; [exists o0; right; split; [reflexivity | ]; split; [intros x [] | split; [auto | intros ->; exact Logic.I]] | ].
      destruct (mem x pm) eqn:Em.
      - apply mem_in in Em. destruct (IH o0 H0) as (o1 & [(E & a & b & C) | (E & A & B & C)]); exists o1; [left | right]; (split; [exact E | ]).
        + exists a, b. destruct C as [(Nab & Ia & Ib & Na & Nb) | [C | (r & Q & C)]]; [left | right; left | right; right].
          * repeat split; auto; [destruct Ia; auto; left; now right | destruct Ib; auto; left; now right].
          * intros ND. apply C. now apply NoDup_cons_iff in ND.
          * exists r. split; [exact Q | now right].
        + split; [intros y [<- | Hy] Ny; [tauto | auto] | ]. split; [exact B | ]. intros Q. specialize (C Q). destruct o1; [ | exact Logic.I]. split; [right | ]; apply C.
      - assert (Nx : ~ In x pm) by (intros H; apply mem_in in H; congruence). destruct o0 as [r | ].
        + exists None. left. split; [reflexivity | ]. exists r, x. destruct (string_dec r x) as [-> | D]; [right; right; exists x; split; [reflexivity | now left] | ]. left. repeat split; auto. left. now left.
        + destruct (IH (Some x) Nx) as (o1 & [(E & a & b & C) | (E & A & B & C)]); exists o1; [left | right]; (split; [exact E | ]).
          * exists a, b. destruct C as [(Nab & Ia & Ib & Na & Nb) | [C | (r & Q & C)]]; [left | right; left | right; left].
            -- repeat split; auto; [destruct Ia as [ | Q]; left; [now right | injection Q as <-; now left] | destruct Ib as [ | Q]; left; [now right | injection Q as <-; now left]].
            -- intros ND. apply C. now apply NoDup_cons_iff in ND.
            -- injection Q as <-. intros ND. apply NoDup_cons_iff in ND. tauto.
          * assert (Q : o1 = Some x) by (apply B; discriminate). split; [intros y [<- | Hy] Ny; auto | ]. split; [congruence | ]. intros _. rewrite Q. split; [now left | exact Nx]. }
    destruct (G ns None Logic.I) as (o1 & [(-> & _) | (-> & A & _ & C)]); cbn [rbind]; [reflexivity | ]. destruct o1 as [r | ]; [ | reflexivity]. exfalso. apply No. exists r. specialize (C eq_refl). split; [now apply Top | ]. intros x Tx. apply Top in Tx. specialize (A x (proj1 Tx) (proj2 Tx)). now injection A.
Qed.
Print Assumptions C67_root.

(** ** Chains *)
Definition above_names (joints links fixed : bool) (l : list (string * ujoint)) : list string :=
  flat_map (fun x => (if links then [uj_parent (snd x)] else []) ++ (if joints && (fixed || negb (is_fixed (uj_kind (snd x)))) then [fst x] else [])) l.
Lemma above_along rb a b l js ls fx : route rb a b l -> above_names js ls fx l ++ (if ls then [b] else []) = names_along js ls fx a l.
Proof.
  unfold names_along. induction 1 as [ | l n j Ro IH Ij]; [now rewrite app_nil_r | ]. unfold above_names. rewrite !flat_map_app. fold (above_names js ls fx l). cbn [flat_map fst snd]. rewrite !app_nil_r, !app_assoc. rewrite IH. reflexivity.
Qed.
Lemma route_rank rb a b l (rk : string -> nat) : (forall n j, In (n, j) (r_joints rb) -> (rk (uj_parent j) < rk (uj_child j))%nat) -> route rb a b l -> (rk a + length l <= rk b)%nat.
Proof. intros H. induction 1 as [ | l n j Ro IH Ij]; [cbn; lia | ]. specialize (H n j Ij). rewrite app_length. cbn [length]. lia. Qed.
(** get_chain, in a tree: the chain from one link down to another, or a KeyError if the second is not below the first. *)
Theorem C67_chain : forall rb a b js ls fx, tree_robot rb ->
  (forall l, route rb a b l -> forall fuel, (length l < fuel)%nat -> get_chain fuel rb a b js ls fx = Some (Ok (names_along js ls fx a l))) /\
  ((forall l, ~ route rb a b l) -> exists N, forall fuel, (N < fuel)%nat -> get_chain fuel rb a b js ls fx = Some (Err KeyError)).
Proof.
  intros rb a b js ls fx T. destruct (tr_acyclic rb T) as (rk & Hk).
  assert (Step : forall n j, In (n, j) (r_joints rb) -> dget (uj_child j) (r_parent_map rb) = Ok (n, uj_parent j)).
  { intros n j H. destruct (dget (uj_child j) (r_parent_map rb)) as [(n', p) | y] eqn:E.
    - assert (I' : In (uj_child j, (n', p)) (r_parent_map rb)).
      { clear - E. revert E. generalize (r_parent_map rb). induction l as [ | (m, w) l IH]; cbn [dget]; [discriminate | ]. destruct (String.eqb_spec (uj_child j) m) as [-> | ]; [intros Q; injection Q as ->; now left | right; auto]. }
      apply (tr_map rb T) in I'. destruct I' as (j' & H' & Q & <-). assert (Nc := tr_children rb T).
      assert (X : (n', j') = (n, j)).
      { clear - Nc H H' Q. revert Nc H H'. generalize (r_joints rb). induction l as [ | y l IH]; cbn [map In]; [intros _ [] | ]. intros ND. apply NoDup_cons_iff in ND. destruct ND as (N1 & N2).
        intros [-> | H] [E' | H']; auto.
        - exfalso. apply N1. cbn [snd]. rewrite <- Q. exact (in_map (fun x => uj_child (snd x)) l _ H').
        - exfalso. apply N1. rewrite E'. cbn [snd]. rewrite Q. exact (in_map (fun x => uj_child (snd x)) l _ H). }
      injection X as -> ->. reflexivity.
    - apply dget_err in E. destruct E as (_ & E). exfalso. apply E. apply in_map_iff. exists (uj_child j, (n, uj_parent j)). split; [reflexivity | ]. apply (tr_map rb T). eauto. }
  assert (Body : forall n j ch, In (n, j) (r_joints rb) -> (let* x := dget (uj_child j) (r_parent_map rb) in let* c1 := if js then (if fx then Ok (ch ++ [fst x]) else let* j := dget (fst x) (r_joints rb) in Ok (if is_fixed (uj_kind j) then ch else ch ++ [fst x])) else Ok ch in Ok (snd x, if ls then c1 ++ [snd x] else c1)) =
     Ok (uj_parent j, (ch ++ (if js && (fx || negb (is_fixed (uj_kind j))) then [n] else [])) ++ (if ls then [uj_parent j] else []))).
  { intros n j ch H. rewrite (Step n j H). cbn [rbind fst snd]. rewrite (proj2 (dget_in n j (r_joints rb) (tr_joints rb T)) H). cbn [rbind].
    destruct js, fx, (is_fixed (uj_kind j)), ls; cbn [andb orb negb rbind]; rewrite ?app_nil_r; reflexivity. }
  split.
  - intros l Ro fuel Hf. unfold get_chain. assert (X : forall b l, route rb a b l -> forall fuel ch, (length l < fuel)%nat -> chain_loop fuel rb a js ls fx b ch = Some (Ok (above_names js ls fx l ++ rev ch))).
    { clear l b Ro fuel Hf. induction 1 as [ | l n j Ro IH Ij]; intros fuel ch Hf; (destruct fuel as [ | fuel]; [lia | ]); cbn [chain_loop]; [now rewrite String.eqb_refl | ].
      destruct (String.eqb_spec (uj_child j) a) as [Q | D]; [exfalso; assert (X := route_rank rb a _ _ rk Hk Ro); specialize (Hk n j Ij); rewrite Q in Hk; lia | ]. rewrite (Body n j ch Ij). rewrite app_length in Hf. cbn [length] in Hf. rewrite IH by lia. do 2 f_equal.
      unfold above_names. rewrite flat_map_app. fold (above_names js ls fx l). cbn [flat_map fst snd]. rewrite app_nil_r, !rev_app_distr, <- !app_assoc. do 2 f_equal; [ | f_equal]; repeat match goal with |- context [if ?c then _ else _] => destruct c end; reflexivity. }
    rewrite (X b l Ro fuel _ Hf). do 2 f_equal. rewrite <- (above_along rb a b l js ls fx Ro). f_equal. destruct ls; reflexivity.
  - intros No. exists (rk b). intros fuel Hf. unfold get_chain. generalize (if ls then [b] else []). revert b No Hf. induction fuel as [ | fuel IH]; intros b No Hf ch; [lia | ]. cbn [chain_loop].
    destruct (String.eqb_spec b a) as [-> | D]; [destruct (No [] (route_nil rb a)) | ]. destruct (dget b (r_parent_map rb)) as [(n, p) | y] eqn:E; [ | apply dget_err in E; destruct E as (-> & _); reflexivity].
    assert (I' : In (b, (n, p)) (r_parent_map rb)).
    { clear - E. revert E. generalize (r_parent_map rb). induction l as [ | (m, w) l IH]; cbn [dget]; [discriminate | ]. destruct (String.eqb_spec b m) as [-> | ]; [intros Q; injection Q as ->; now left | right; auto]. }
    apply (tr_map rb T) in I'. destruct I' as (j & H & <- & <-). assert (B := Body n j ch H). rewrite E in B. rewrite B. apply IH; [ | specialize (Hk n j H); lia]. intros l Ro. exact (No _ (route_step rb a l n j Ro H)).
Qed.
Print Assumptions C67_chain.
