(** C84: the ids of the collada document. *)
From Coq Require Import Lra Lia Permutation.
From Verif Require Import Spec_Dae Proof_SE3 Proof_Linalg Proof_Coll Props_Color Props_Color2 Proof_Draw Proof_Draw2 Props_Dyn Props_Draw Props_Draw2 Proof_Dae Proof_Dae2 Proof_Dae3 Proof_Dae4 Props_Dae Props_Dae2.
Open Scope R_scope.

Lemma assign_count l : forall used ids u, assign l used = (ids, u) -> length (somes ids) = length (flat_map want l).
Proof.
  induction l as [ | o l IH]; intros used ids u E; cbn [assign] in E; [now injection E as <- <- | ].
  destruct (collada_id o used) as (i, u1) eqn:C. destruct (assign l u1) as (r, u2) eqn:A. injection E as <- <-. change (i :: r) with ([i] ++ r). rewrite somes_app, app_length, (collada_want _ _ _ _ C), (IH _ _ _ A). cbn [flat_map]. now rewrite app_length.
Qed.
Lemma somes_perm {A} (l k : list (option A)) : Permutation l k -> Permutation (somes l) (somes k).
Proof. apply Permutation_flat_map. Qed.
Lemma somes_inst IL : somes (map (fun x => dn_id (snd x)) (flat_map inst IL)) = somes (map (fun z : nat * item * option dnode => id_of (snd z)) IL).
Proof.
  induction IL as [ | ((n, i), o) IL IH]; [reflexivity | ]. cbn [flat_map map snd]. rewrite map_app, somes_app. destruct o as [N | ].
  - change (map (fun z : nat * item * option dnode => id_of (snd z)) (((n, i, Some N)) :: IL)) with ([dn_id N] ++ map (fun z : nat * item * option dnode => id_of (snd z)) IL). rewrite IH. unfold inst. cbn [snd fst map]. cbn [id_of]. change (dn_id N :: map (fun z : nat * item * option dnode => id_of (snd z)) IL) with ([dn_id N] ++ map (fun z : nat * item * option dnode => id_of (snd z)) IL). rewrite somes_app. reflexivity.
  - cbn. rewrite IH. reflexivity.
Qed.
(** the ids given are those of the driver's [_names] *)
Lemma ids_perm argsort eigvals eig daenim S geo D : doc_inv argsort eigvals eig daenim S geo D -> exists L,
  assign (map fst L) [] = (map snd L, v_names (da_drv D)) /\ Permutation (doc_ids D) (somes (map snd L)).
Proof.
  intros (NL & IL & L & _ & Ei & _ & Et & _ & As & Pm). exists L. split; [exact As | ]. unfold doc_ids. rewrite Et, somes_inst, Ei.
  apply (Permutation_map snd) in Pm. apply somes_perm in Pm. rewrite Pm, map_app, somes_app, !map_map. cbn [snd]. reflexivity.
Qed.

(** As long as the document has at most 101 named nodes, no id is given twice (the ground node excepted). *)
Theorem C84_unique : forall argsort eigvals eig daenim S geo flat g0 h t fuel up cs scale update, argsort_ok argsort -> drawable_world S g0 h t fuel cs ->
  writable eigvals eig S geo h t up ->
  exists D, dae_world argsort eigvals eig daenim S geo flat fuel h up cs scale update = Ok D /\ ((length (doc_ids D) <= 101)%nat -> NoDup (doc_ids D)).
Proof.
  intros argsort eigvals eig daenim S geo flat g0 h t fuel up cs scale update Ha Dw Wr.
  destruct (written argsort eigvals eig daenim S geo flat g0 h t fuel up cs scale update Ha Dw Wr) as (D & ED & In & _). exists D. split; [exact ED | ]. intros Le.
  destruct (ids_perm _ _ _ _ _ _ _ In) as (L & As & Pm). rewrite (Permutation_length Pm), (assign_count _ _ _ _ As) in Le. apply (Permutation_NoDup (Permutation_sym Pm)).
  destruct (assign_used _ _ _ _ As) as (E & _). cbn [app] in E. rewrite <- E. apply (assign_fresh _ _ _ _ As); [constructor | exact Le].
Qed.
Print Assumptions C84_unique.

(** *** names all different *)
Definition things_of (i : item) : list thing := match i with IArrows | ILine _ _ => [] | IInertia b _ => [TInertia b] | IShape s _ => [TShape s] end.
Lemma want_items daenim S geo its : flat_map want (map (fun z : nat * item => item_name daenim S geo (snd z)) its) = flat_map (fun x => want (label daenim S geo x)) (flat_map (fun z : nat * item => things_of (snd z)) its).
Proof.
  induction its as [ | (n, i) its IH]; [reflexivity | ]. cbn [map flat_map snd]. rewrite flat_map_app, IH. f_equal. destruct i as [ | p c | b c | s c]; cbn [things_of flat_map item_name label]; rewrite ?app_nil_r; try reflexivity.
  all: destruct daenim; [destruct (ds_nm S _); reflexivity | reflexivity].
Qed.
Lemma nodup_labels {A B} (f : A -> list B) l : (forall x, NoDup (f x)) -> NoDup l -> (forall x y s, In x l -> In y l -> In s (f x) -> In s (f y) -> x = y) -> NoDup (flat_map f l).
Proof.
  intros Nf Nd Inj. induction l as [ | a l IH]; cbn [flat_map]; [constructor | ]. inversion Nd as [ | ? ? Na Nl]; subst. apply Proof_Tree.NoDup_app_iff. split; [apply Nf | ]. split; [apply IH; [exact Nl | intros x y s X Y; apply Inj; now right] | ].
  intros s Ha Hl. apply in_flat_map in Hl. destruct Hl as (y & Hy & Hs). assert (a = y) by (apply (Inj a y s); auto; [now left | now right]). subst. contradiction.
Qed.
Lemma nodup_things (nodes : list (nat * node)) (its : list (nat * item)) : NoDup (map (fun z => n_frame (snd z)) nodes) -> NoDup (item_shapes its) -> NoDup (item_bodies its) ->
  NoDup (map (fun z => TFrame (n_frame (snd z))) nodes ++ flat_map (fun z => things_of (snd z)) its).
Proof.
  intros A B C. apply Proof_Tree.NoDup_app_iff. split; [ | split].
  - rewrite <- (map_map (fun z => n_frame (snd z)) TFrame). apply FinFun.Injective_map_NoDup; [ | exact A]. intros x y E. now injection E.
  - assert (Q : forall k, In k (flat_map (fun z => things_of (snd z)) its) -> (exists s, k = TShape s /\ In s (item_shapes its)) \/ (exists b, k = TInertia b /\ In b (item_bodies its))).
    { intros k J. apply in_flat_map in J. destruct J as ((n, i) & J & K). cbn [snd] in K. destruct i as [ | p c | b c | s c]; cbn in K; try contradiction; destruct K as [<- | []].
      - right. exists b. split; [reflexivity | ]. apply in_flat_map. exists (n, IInertia b c). split; [exact J | now left].
      - left. exists s. split; [reflexivity | ]. apply in_flat_map. exists (n, IShape s c). split; [exact J | now left]. }
    clear Q. induction its as [ | (n, i) its IH]; [constructor | ]. cbn [flat_map snd]. destruct i as [ | p c | b c | s c]; cbn [things_of app]; cbn [item_shapes item_bodies flat_map snd app] in B, C.
    + now apply IH.
    + now apply IH.
    + inversion C as [ | ? ? Nb Nl]; subst. constructor; [ | now apply IH]. intros J. apply Nb. apply in_flat_map in J. destruct J as ((n', i') & J & K). apply in_flat_map. exists (n', i'). split; [exact J | ]. cbn [snd] in *. destruct i'; cbn in K; try contradiction; destruct K as [K | []]; [injection K as ->; now left | discriminate].
    + inversion B as [ | ? ? Nb Nl]; subst. constructor; [ | now apply IH]. intros J. apply Nb. apply in_flat_map in J. destruct J as ((n', i') & J & K). apply in_flat_map. exists (n', i'). split; [exact J | ]. cbn [snd] in *. destruct i'; cbn in K; try contradiction; destruct K as [K | []]; [discriminate | injection K as ->; now left].
  - intros k J K. apply in_map_iff in J. destruct J as (z & <- & _). apply in_flat_map in K. destruct K as ((n, i) & _ & K). cbn [snd] in K. destruct i; cbn in K; try contradiction; destruct K as [K | []]; discriminate.
Qed.
Lemma node_frames S flat L d : dinv S flat L d -> NoDup (map (fun z => n_frame (snd z)) (d_nodes d)).
Proof.
  intros DI. assert (N3 := s3 _ _ _ _ _ _ (proj1 DI)). assert (S1 := fun n x => s1 _ _ _ _ _ _ (proj1 DI) n x). clear - N3 S1. induction (d_nodes d) as [ | (n, x) ns IH]; cbn [map snd]; [constructor | ]. cbn [map fst] in N3. inversion N3 as [ | ? ? Nn Nd]; subst. constructor; [ | apply IH; [exact Nd | intros n' x' J; apply S1; now right]].
  intros J. apply in_map_iff in J. destruct J as ((n', x') & E & J). cbn in E. apply Nn. destruct (S1 n x (or_introl eq_refl)) as (_ & _ & E1 & _), (S1 n' x' (or_intror J)) as (_ & _ & E2 & _). rewrite <- E, E2 in E1. injection E1 as <-. apply (in_map fst) in J. exact J.
Qed.
(** the id of a node, in the list of the ids *)
Lemma node_id_in D n i : NoDup (map fst (da_ids D)) -> n <> 0%nat -> In (n, i) (da_ids D) -> node_id D n = i.
Proof.
  intros Nd Nz J. unfold node_id. destruct n as [ | n]; [congruence | ]. clear Nz. induction (da_ids D) as [ | (m, k) l IH]; [destruct J | ]. cbn [map fst find] in *. inversion Nd as [ | ? ? Nm Nl]; subst. destruct (Nat.eqb m (S n)) eqn:E.
  - apply Nat.eqb_eq in E. subst m. destruct J as [E | J]; [now injection E | ]. exfalso. apply Nm. apply (in_map fst) in J. exact J.
  - destruct J as [E' | J]; [injection E' as -> _; rewrite Nat.eqb_refl in E; discriminate | now apply IH].
Qed.

(** When the names are all different, they are the ids: each node has the name of its frame as id (none when the name is missing or
    empty), no id is used twice, and every id of the document is one of these names. *)
Theorem C84_ids : forall argsort eigvals eig daenim S geo flat g0 h t fuel up cs scale update, argsort_ok argsort -> drawable_world S g0 h t fuel cs ->
  writable eigvals eig S geo h t up -> distinct_names daenim S geo h t ->
  exists D, dae_world argsort eigvals eig daenim S geo flat fuel h up cs scale update = Ok D /\ NoDup (doc_ids D) /\
    (forall f, in_world (ds_e S) h t f -> f <> FBody (ground (ds_e S)) -> exists n, n <> 0%nat /\ d_frames (da_draw D) f = Some n /\ node_id D n = nonempty (ds_nm S (OFrame f))) /\
    (forall s, In s (doc_ids D) <-> exists x, in_doc S h t x /\ label daenim S geo x = Some s /\ s <> ""%string).
Proof.
  intros argsort eigvals eig daenim S geo flat g0 h t fuel up cs scale update Ha Dw Wr Dn.
  destruct (written argsort eigvals eig daenim S geo flat g0 h t fuel up cs scale update Ha Dw Wr) as (D & ED & In0 & Ed & _). exists D. split; [exact ED | ].
  destruct (drawn S flat g0 h t fuel cs Dw) as (d & evs & Ed' & _ & _ & Po & Fr & Ns & Is & _ & Nb & Ib & _ & DI). rewrite Ed in Ed'. apply Ok_inj in Ed'. subst d. set (d := da_draw D) in *.
  destruct (ids_perm _ _ _ _ _ _ _ In0) as (_ & _ & _). destruct In0 as (NL & IL & L & En & Ei & Et & Ej & _ & As & Pm). fold d in En, Et.
  set (TL := map (fun z => TFrame (n_frame (snd z))) (d_nodes d) ++ flat_map (fun z => things_of (snd z)) (d_items d)).
  assert (Inw : forall x, In x TL <-> in_doc S h t x).
  { intros x. unfold TL. rewrite in_app_iff. split.
    - intros [J | J].
      + apply in_map_iff in J. destruct J as ((n, y) & <- & J). cbn [snd in_doc]. destruct (s1 _ _ _ _ _ _ (proj1 DI) n y J) as (Q & _ & E1 & _). assert (Iw : in_world (ds_e S) h t (n_frame y)) by (apply Fr; eauto). split; [apply Iw | ]. split; [apply Iw | ].
        intros E. rewrite E, (s0 _ _ _ _ _ _ (proj1 DI)) in E1. injection E1 as <-. lia.
      + apply in_flat_map in J. destruct J as ((n, i) & J & K). cbn [snd] in K. destruct i as [ | p c | b c | s c]; cbn in K; try contradiction; destruct K as [<- | []]; cbn [in_doc].
        * apply Ib. apply in_flat_map. exists (n, IInertia b c). split; [exact J | now left].
        * apply Is. apply in_flat_map. exists (n, IShape s c). split; [exact J | now left].
    - intros J. destruct x as [f | s | b]; cbn [in_doc] in J.
      + left. destruct J as (J1 & J2 & J3). assert (Iw : in_world (ds_e S) h t f) by (split; assumption). apply Fr in Iw. destruct Iw as (n & Ef). destruct (s2 _ _ _ _ _ _ (proj1 DI) _ _ Ef) as [(Q & _) | (x & Ix & <-)]; [congruence | ]. apply in_map_iff. exists (n, x). auto.
      + right. apply Is in J. apply in_flat_map in J. destruct J as ((n, i) & J & K). apply in_flat_map. exists (n, i). split; [exact J | ]. cbn [snd] in *. destruct i; cbn in K; try contradiction. destruct K as [-> | []]. now left.
      + right. apply Ib in J. apply in_flat_map in J. destruct J as ((n, i) & J & K). apply in_flat_map. exists (n, i). split; [exact J | ]. cbn [snd] in *. destruct i; cbn in K; try contradiction. destruct K as [-> | []]. now left. }
  assert (NT : NoDup TL) by (apply nodup_things; [exact (node_frames _ _ _ _ DI) | exact Ns | exact Nb]).
  assert (Wl : forall o s, In s (want o) <-> o = Some s /\ s <> ""%string).
  { intros [[ | c s0] | ] s; cbn; split; try (intros []; congruence); try tauto.
    - intros [<- | []]. split; [reflexivity | discriminate].
    - intros (E & _). injection E as <-. now left. }
  assert (PW : Permutation (flat_map want (map fst L)) (flat_map (fun x => want (label daenim S geo x)) TL)).
  { unfold TL. rewrite flat_map_app, <- want_items. apply (Permutation_map fst) in Pm. apply (Permutation_flat_map want) in Pm. rewrite Pm, map_app, flat_map_app, !map_map. cbn [fst]. rewrite En, Et, !map_map, flat_map_concat_map, (flat_map_concat_map (fun x => want (label daenim S geo x))), !map_map. cbn [label]. reflexivity. }
  assert (NW : NoDup (flat_map (fun x => want (label daenim S geo x)) TL)).
  { apply nodup_labels; [ | exact NT | ].
    - intros x. destruct (label daenim S geo x) as [[ | c s0] | ]; cbn; repeat constructor; intros [].
    - intros x y s X Y Sx Sy. apply Wl in Sx, Sy. apply Inw in X, Y. apply (Dn x y s); tauto. }
  assert (Pl := assign_plain (map fst L) [] ltac:(cbn [app]; exact (Permutation_NoDup (Permutation_sym PW) NW))). rewrite As in Pl. cbn [app] in Pl. injection Pl as Pl1 Pl2.
  assert (PD : Permutation (doc_ids D) (flat_map want (map fst L))).
  { destruct (assign_used _ _ _ _ As) as (E & _). cbn [app] in E. rewrite <- Pl2, E. unfold doc_ids. rewrite Ej, somes_inst, Ei. apply (Permutation_map snd) in Pm. apply somes_perm in Pm. rewrite Pm, map_app, somes_app, !map_map. cbn [snd]. reflexivity. }
  split; [exact (Permutation_NoDup (Permutation_sym (Permutation_trans PD PW)) NW) | ]. split.
  - intros f Iw Ng. apply Fr in Iw. destruct Iw as (n & Ef). destruct (s2 _ _ _ _ _ _ (proj1 DI) _ _ Ef) as [(Q & _) | (x & Ix & Ex)]; [congruence | ]. exists n. destruct (s1 _ _ _ _ _ _ (proj1 DI) n x Ix) as (Nz & _). split; [lia | ]. split; [exact Ef | ].
    rewrite En in Ix. apply in_map_iff in Ix. destruct Ix as (((n0, x0), i) & E & Jn). cbn in E. injection E as -> ->.
    assert (JL : In (ds_nm S (OFrame (n_frame x)), i) L). { apply (Permutation_in _ (Permutation_sym Pm)). apply in_or_app. left. apply in_map_iff. exists (n, x, i). auto. }
    assert (Ii : i = norm_name (ds_nm S (OFrame (n_frame x)))).
    { clear - Pl1 JL. revert Pl1 JL. generalize (ds_nm S (OFrame (n_frame x))). intros o. induction L as [ | (a, b) L IH]; cbn [map fst snd]; intros E J; [destruct J | ]. injection E as E1 E2. destruct J as [J | J]; [now injection J as -> -> | now apply IH]. }
    rewrite (node_id_in D n i); [rewrite Ii, Ex; reflexivity | | lia | rewrite Ei; apply in_map_iff; exists (n, x, i); auto].
    rewrite Ei, map_map. cbn [fst]. assert (N3 := s3 _ _ _ _ _ _ (proj1 DI)). rewrite En, map_map in N3. exact N3.
  - intros s. split.
    + intros J. apply (Permutation_in _ PD) in J. apply (Permutation_in _ PW) in J. apply in_flat_map in J. destruct J as (x & Jx & Js). apply Inw in Jx. apply Wl in Js. exists x. tauto.
    + intros (x & Jx & El & Ne). apply (Permutation_in _ (Permutation_sym PD)), (Permutation_in _ (Permutation_sym PW)). apply in_flat_map. exists x. split; [now apply Inw | apply Wl; auto].
Qed.
Print Assumptions C84_ids.
