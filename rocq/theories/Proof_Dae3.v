(** The collada document follows the drawer, call after call. *)
From Coq Require Import Lra Lia Permutation.
From Verif Require Import Spec_Dae Proof_SE3 Proof_Dae2.
Open Scope R_scope.

(** the drawer only adds nodes and items, and no line of length 0 *)
Definition lines_ok (k : list (nat * item)) : Prop := forall n p c, In (n, ILine p c) k -> 0 < norm3 p.
Lemma lines_nil : lines_ok []. Proof. intros ? ? ? []. Qed.
Lemma lines_one n i : (forall p c, i <> ILine p c) -> lines_ok [(n, i)].
Proof. intros H n' p c [E | []]. injection E as <- E. now apply H in E. Qed.
Lemma lines_app a b : lines_ok a -> lines_ok b -> lines_ok (a ++ b).
Proof. intros A B n p c I. apply in_app_or in I. destruct I as [I | I]; [exact (A _ _ _ I) | exact (B _ _ _ I)]. Qed.
Lemma draw_grows S flat ev d d' : ev <> EInit -> draw_event S flat ev d = Ok d' ->
  exists l k, d_nodes d' = l ++ d_nodes d /\ d_items d' = k ++ d_items d /\ lines_ok k.
Proof.
  assert (Fr : forall p P b f c d0 n d1, add_frame p P b f c d0 = (n, d1) -> exists l k, d_nodes d1 = l ++ d_nodes d0 /\ d_items d1 = k ++ d_items d0 /\ lines_ok k).
  { intros p P b f c d0 n d1 E. unfold add_frame in E. injection E as <- <-. exists [(d_next d0, Nd p P b f)]. destruct (b && Rltb 0 (norm3 (pos P))) eqn:B.
    - exists [(p, ILine (pos P) c); (d_next d0, IArrows)]. split; [reflexivity | split; [reflexivity | ]]. intros n p' c' [E | [E | []]]; [ | discriminate]. injection E as <- <- <-. apply andb_prop in B. now apply Rltb_true.
    - exists [(d_next d0, IArrows)]. split; [reflexivity | split; [reflexivity | ]]. now apply lines_one. }
  assert (Co : forall o d0 c d1, draw_color S o d0 = Ok (c, d1) -> d_nodes d1 = d_nodes d0 /\ d_items d1 = d_items d0).
  { intros o d0 c d1 E. unfold draw_color in E. destruct (get_color _ _ _ _) as [(c0, cs) | ]; [ | discriminate]. cbn [rbind] in E. injection E as <- <-. auto. }
  intros Ne E. destruct ev as [ | f0 j f1 | f | s | c | a]; [congruence | | | | |]; cbn [draw_event] in E.
  - unfold draw_link in E. destruct f1 as [b | b | b]; destruct flat; try discriminate.
    + destruct (body_pose _ _) as [P | ]; [ | discriminate]. cbn [rbind] in E. destruct (draw_color _ _ _) as [(c, d1) | ] eqn:C; [ | discriminate]. cbn [rbind] in E.
      destruct (add_frame _ _ _ _ _ _) as (n, d2) eqn:A. injection E as <-. destruct (Co _ _ _ _ C) as (C1 & C2), (Fr _ _ _ _ _ _ _ _ A) as (l & k & A1 & A2 & A0). exists l, k. cbn. rewrite A1, A2, C1, C2. auto.
    + destruct (frame_node _ _) as [n0 | ]; [ | discriminate]. cbn [rbind] in E. destruct (draw_color _ _ _) as [(c, d1) | ] eqn:C; [ | discriminate]. cbn [rbind] in E.
      destruct (add_frame _ _ _ _ _ _) as (n, d2) eqn:A. injection E as <-. destruct (Co _ _ _ _ C) as (C1 & C2), (Fr _ _ _ _ _ _ _ _ A) as (l & k & A1 & A2 & A0). exists l, k. cbn. rewrite A1, A2, C1, C2. auto.
    + destruct (body_pose _ _) as [P | ]; [ | discriminate]. cbn [rbind] in E. destruct (draw_color _ _ d) as [(c, d1) | ] eqn:C; [ | discriminate]. cbn [rbind] in E.
      destruct (add_frame _ _ _ _ _ d1) as (n, d2) eqn:A. destruct (draw_color _ _ d2) as [(c', d3) | ] eqn:C'; [ | discriminate]. cbn [rbind] in E. destruct (add_frame _ _ _ _ _ d3) as (n', d4) eqn:A'. injection E as <-.
      destruct (Co _ _ _ _ C) as (C1 & C2), (Fr _ _ _ _ _ _ _ _ A) as (l & k & A1 & A2 & A0), (Co _ _ _ _ C') as (C3 & C4), (Fr _ _ _ _ _ _ _ _ A') as (l' & k' & A3 & A4 & A5). exists (l' ++ l), (k' ++ k). cbn. rewrite A3, A4, C3, C4, A1, A2, C1, C2, !app_assoc. auto using lines_app.
    + destruct (frame_node _ _) as [n0 | ]; [ | discriminate]. cbn [rbind] in E. destruct (draw_color _ _ d) as [(c, d1) | ] eqn:C; [ | discriminate]. cbn [rbind] in E.
      destruct (add_frame _ _ _ _ _ d1) as (n, d2) eqn:A. destruct (draw_color _ _ d2) as [(c', d3) | ] eqn:C'; [ | discriminate]. cbn [rbind] in E. destruct (add_frame _ _ _ _ _ d3) as (n', d4) eqn:A'. injection E as <-.
      destruct (Co _ _ _ _ C) as (C1 & C2), (Fr _ _ _ _ _ _ _ _ A) as (l & k & A1 & A2 & A0), (Co _ _ _ _ C') as (C3 & C4), (Fr _ _ _ _ _ _ _ _ A') as (l' & k' & A3 & A4 & A5). exists (l' ++ l), (k' ++ k). cbn. rewrite A3, A4, C3, C4, A1, A2, C1, C2, !app_assoc. auto using lines_app.
  - destruct f as [b | s | m]; cbn [draw_frame] in E.
    + destruct (draw_color _ _ _) as [(c, d1) | ] eqn:C; [ | discriminate]. cbn [rbind] in E. destruct (Co _ _ _ _ C) as (C1 & C2). destruct (Rltb _ _).
      * destruct (frame_node _ _) as [n0 | ]; [ | discriminate]. cbn [rbind] in E. injection E as <-. exists [], [(n0, IInertia b c)]. cbn. rewrite C1, C2. split; [reflexivity | split; [reflexivity | now apply lines_one]].
      * injection E as <-. exists [], []. cbn. auto using lines_nil.
    + destruct (d_frames d _); [injection E as <-; exists [], []; auto using lines_nil | ]. destruct (draw_color _ _ _) as [(c, d1) | ] eqn:C; [ | discriminate]. cbn [rbind] in E. destruct (frame_node _ _) as [n0 | ]; [ | discriminate]. cbn [rbind] in E.
      destruct (add_frame _ _ _ _ _ _) as (n, d2) eqn:A. injection E as <-. destruct (Co _ _ _ _ C) as (C1 & C2), (Fr _ _ _ _ _ _ _ _ A) as (l & k & A1 & A2 & A0). exists l, k. cbn. rewrite A1, A2, C1, C2. auto.
    + destruct (d_frames d _); [injection E as <-; exists [], []; auto using lines_nil | ]. destruct (draw_color _ _ _) as [(c, d1) | ] eqn:C; [ | discriminate]. cbn [rbind] in E. destruct (if flat then _ else _) as [n0 | ]; [ | discriminate]. cbn [rbind] in E.
      destruct (add_frame _ _ _ _ _ _) as (n, d2) eqn:A. injection E as <-. destruct (Co _ _ _ _ C) as (C1 & C2), (Fr _ _ _ _ _ _ _ _ A) as (l & k & A1 & A2 & A0). exists l, k. cbn. rewrite A1, A2, C1, C2. auto.
  - unfold draw_shape in E. destruct (draw_color _ _ _) as [(c, d1) | ] eqn:C; [ | discriminate]. cbn [rbind] in E. destruct (ds_known S s); [ | discriminate]. destruct (frame_node _ _) as [n0 | ]; [ | discriminate]. cbn [rbind] in E. injection E as <-.
    destruct (Co _ _ _ _ C) as (C1 & C2). exists [], [(n0, IShape s c)]. cbn. rewrite C1, C2. split; [reflexivity | split; [reflexivity | now apply lines_one]].
  - injection E as <-. exists [], []. auto using lines_nil.
  - injection E as <-. exists [], []. auto using lines_nil.
Qed.
Lemma added_app {A} (l o : list A) : added o (l ++ o) = rev l.
Proof. unfold added. rewrite app_length. replace (length l + length o - length o)%nat with (length l) by lia. rewrite firstn_app, Nat.sub_diag, firstn_all. cbn. now rewrite app_nil_r. Qed.

Lemma create_inertia_eq eigvals eig daenim M c name v : create_inertia eigvals eig daenim M c name v =
  if daenim then
    let* v1 := create_inertia_base eigvals eig M (Some EmptyString) v in
    let* H := principalframe eigvals eig M in
    let* Mcom := transport eigvals M H in
    match name with
    | None => Err TypeError
    | Some s =>
        let (N, v2) := geometry (Some (s ++ ".inertia")%string) c MSphere [TMat H; TScale (vscal (op_factor (v_opt v1)) (diag_of Mcom))] (described daenim "inertia") v1 in
        Ok (Some N, v2)
    end
  else let* v1 := create_inertia_base eigvals eig M name v in Ok (None, v1).
Proof.
  unfold create_inertia, create_ellipsoid, geometry. destruct daenim; [ | reflexivity]. destruct (create_inertia_base _ _ _ _ _) as [v1 | ]; [ | reflexivity]. cbn [rbind].
  destruct (principalframe _ _ _) as [H | ]; [ | reflexivity]. cbn [rbind]. destruct (transport _ _ _) as [Mc | ]; [ | reflexivity]. cbn [rbind]. destruct name as [s | ]; [ | reflexivity].
  destruct (get_node _ _) as [i v2]. destruct (material _ _) as [m v3]. reflexivity.
Qed.
Section Doc.
  Variables (argsort : v3 -> nat * nat * nat) (eigvals : m6 -> list R) (eig : m3 -> v3 * m3) (daenim : bool) (S : dscene) (geo : nat -> geom).
  Notation create_item := (create_item argsort eigvals eig daenim S geo).
  Notation draw_items := (draw_items argsort eigvals eig daenim S geo).
  Notation dae_event := (dae_event argsort eigvals eig daenim S geo).
  Notation dae_events := (dae_events argsort eigvals eig daenim S geo).

  (** the name asked for an item *)
  Definition item_name (i : item) : option string :=
    match i with
    | IArrows | ILine _ _ => None
    | IInertia b _ => if daenim then match ds_nm S (OFrame (FBody b)) with Some s => Some (s ++ ".inertia")%string | None => None end else None
    | IShape s _ => match geo s with Sphere _ | Point => None | _ => ds_nm S (OShape s) end
    end.
  Definition id_of (o : option dnode) : option string := match o with Some N => dn_id N | None => None end.
  Definition ext (v v' : drv) : Prop := v_opt v' = v_opt v /\ exists r, v_mats v' = v_mats v ++ r.
  Lemma ext_refl v : ext v v. Proof. split; [reflexivity | exists []; now rewrite app_nil_r]. Qed.
  Lemma ext_trans a b c : ext a b -> ext b c -> ext a c.
  Proof. intros (A & r & E) (B & q & F). split; [congruence | ]. exists (r ++ q). now rewrite F, E, app_assoc. Qed.
  Lemma get_node_spec o v i v' : get_node o v = (i, v') -> collada_id o (v_names v) = (i, v_names v') /\ ext v v'.
  Proof. unfold get_node. destruct (collada_id _ _) as (j, l). intros E. injection E as <- <-. split; [reflexivity | ]. split; [reflexivity | ]. exists []. cbn. now rewrite app_nil_r. Qed.
  Lemma material_spec c v m v' : material c v = (m, v') -> v_names v' = v_names v /\ ext v v'.
  Proof. unfold material. destruct (color_index _ _); intros E; injection E as <- <-; (split; [reflexivity | ]); [apply ext_refl | ]. split; [reflexivity | ]. cbn. eauto. Qed.
  Lemma geometry_spec o c g l ds v N v' : geometry o c g l ds v = (N, v') -> collada_id o (v_names v) = (dn_id N, v_names v') /\ ext v v' /\ dn_mesh N = g /\ dn_tfs N = l /\ dn_desc N = ds /\ exists m, dn_mat N = Some m.
  Proof.
    unfold geometry. destruct (get_node o v) as (i, v1) eqn:G. destruct (material c v1) as (m, v2) eqn:M. intros E. injection E as <- <-. destruct (get_node_spec _ _ _ _ G) as (A & B), (material_spec _ _ _ _ M) as (C & D). cbn. rewrite C. split; [exact A | ]. split; [exact (ext_trans _ _ _ B D) | ]. eauto.
  Qed.
  Lemma create_item_spec i v o v' : create_item i v = Ok (o, v') -> collada_id (item_name i) (v_names v) = (id_of o, v_names v') /\ ext v v'.
  Proof.
    destruct i as [ | p c | b c | s c]; cbn [Model_Dae.create_item item_name]; intros E.
    - injection E as <- <-. split; [ | apply ext_refl]. unfold create_arrows. destruct daenim; reflexivity.
    - unfold create_line in E. destruct daenim; [ | injection E as <- <-; split; [reflexivity | apply ext_refl]]. cbv zeta in E. destruct (Rltb _ _); [ | discriminate]. destruct (zaligned_ _ _) as [H | ]; [ | discriminate]. cbn [rbind] in E.
      destruct (geometry _ _ _ _ _ _) as (N, v1) eqn:G. injection E as <- <-. destruct (geometry_spec _ _ _ _ _ _ _ _ G) as (A & B & _). exact (conj A B).
    - rewrite create_inertia_eq in E. destruct daenim.
      + unfold create_inertia_base in E. destruct (rigid_of _ _ _ _) as [r | ]; [ | discriminate]. cbn [rbind] in E. destruct (principalframe _ _ _) as [H | ]; [ | discriminate]. cbn [rbind] in E. destruct (transport _ _ _) as [Mc | ]; [ | discriminate]. cbn [rbind] in E.
        destruct (ds_nm S _) as [s | ]; [ | discriminate]. destruct (geometry _ _ _ _ _ _) as (N, v1) eqn:G. injection E as <- <-. destruct (geometry_spec _ _ _ _ _ _ _ _ G) as (A & (B & r' & B') & _). split; [exact A | ]. split; [exact B | exists r'; exact B'].
      + unfold create_inertia_base in E. destruct (rigid_of _ _ _ _) as [r | ]; [ | discriminate]. cbn [rbind] in E. injection E as <- <-. split; [reflexivity | ]. split; [reflexivity | ]. exists []. cbn. now rewrite app_nil_r.
    - destruct (create_shape _ _ _ _ _ _) as [(N, v1) | ] eqn:G; [ | discriminate]. cbn [rbind] in E. injection E as <- <-. cbn [id_of]. destruct (geo s) as [n d | | he | l r | r]; cbn [create_shape] in G.
      all: try (apply (f_equal (fun x => match x with Ok y => y | Err _ => (N, v) end)) in G; destruct (geometry_spec _ _ _ _ _ _ _ _ G) as (A & B & _); exact (conj A B)).
      unfold create_plane in G. destruct (zaligned_ _ _) as [H | ]; [ | discriminate]. cbn [rbind] in G. destruct (op_plane _) as (hx, hy). apply (f_equal (fun x => match x with Ok y => y | Err _ => (N, v) end)) in G. destruct (geometry_spec _ _ _ _ _ _ _ _ G) as (A & B & _). exact (conj A B).
  Qed.

  Definition made (v : drv) (i : item) (o : option dnode) : Prop := exists v0 v1, v_opt v0 = v_opt v /\ create_item i v0 = Ok (o, v1) /\ ext v1 v.
  Lemma made_ext v v' i o : made v i o -> ext v v' -> made v' i o.
  Proof. intros (v0 & v1 & A & B & C) E. exists v0, v1. split; [rewrite A; symmetry; apply E | ]. split; [exact B | exact (ext_trans _ _ _ C E)]. Qed.

  Lemma number_nodes_spec l : forall ids v ids' v', number_nodes S l ids v = (ids', v') -> exists k : list (option string),
    length k = length l /\ ids' = rev (combine (map fst l) k) ++ ids /\ assign (map (fun x => ds_nm S (OFrame (n_frame (snd x)))) l) (v_names v) = (k, v_names v') /\ ext v v'.
  Proof.
    induction l as [ | (n, x) l IH]; intros ids v ids' v' E; cbn [number_nodes] in E.
    - injection E as <- <-. exists []. repeat split; [exists []; now rewrite app_nil_r].
    - destruct (get_node _ v) as (i, v1) eqn:G. destruct (get_node_spec _ _ _ _ G) as (A & B). destruct (IH _ _ _ _ E) as (k & L & Q & As & X). exists (i :: k). cbn [length map combine rev fst snd assign]. rewrite A, As. rewrite L. repeat split.
      + rewrite Q, <- app_assoc. reflexivity.
      + apply (ext_trans _ _ _ B X).
      + apply (ext_trans _ _ _ B X).
  Qed.
  Definition inst (x : nat * item * option dnode) : list (nat * dnode) := match snd x with Some N => [(fst (fst x), N)] | None => [] end.
  Lemma draw_items_spec l : forall its v its' v', draw_items l its v = Ok (its', v') -> exists os : list (option dnode),
    length os = length l /\ its' = flat_map inst (rev (combine l os)) ++ its /\ assign (map (fun x => item_name (snd x)) l) (v_names v) = (map id_of os, v_names v') /\ ext v v' /\
    forall n i o, In (n, i, o) (combine l os) -> made v' i o.
  Proof.
    induction l as [ | (n, i) l IH]; intros its v its' v' E; cbn [Model_Dae.draw_items] in E.
    - injection E as <- <-. exists []. split; [reflexivity | ]. split; [reflexivity | ]. split; [reflexivity | ]. split; [apply ext_refl | intros ? ? ? []].
    - destruct (create_item i v) as [(o, v1) | ] eqn:C; [ | discriminate]. cbn [rbind] in E. destruct (create_item_spec _ _ _ _ C) as (A & B). destruct (IH _ _ _ _ E) as (os & L & Q & As & X & Md).
      exists (o :: os). cbn [length map combine rev fst snd assign]. rewrite A, As, L. split; [reflexivity | ]. split.
      + rewrite Q, flat_map_app. cbn [flat_map]. unfold inst at 3. cbn [fst snd]. destruct o as [N | ]; cbn; now rewrite <- app_assoc.
      + split; [reflexivity | ]. split; [exact (ext_trans _ _ _ B X) | ]. intros n' i' o' [E' | I']; [ | now apply (Md n')]. injection E' as <- <- <-. exists v, v1. split; [symmetry; apply (ext_trans _ _ _ B X) | ]. split; [exact C | exact X].
  Qed.

  (** the document built so far, node by node and item by item, with the names asked for and the ids given, in order ([L]) *)
  Definition doc_inv (D : dae) : Prop := exists (NL : list (nat * node * option string)) (IL : list (nat * item * option dnode)) (L : list (option string * option string)),
    d_nodes (da_draw D) = map fst NL /\ da_ids D = map (fun z => (fst (fst z), snd z)) NL /\
    d_items (da_draw D) = map fst IL /\ da_items D = flat_map inst IL /\
    (forall n i o, In (n, i, o) IL -> made (da_drv D) i o) /\
    assign (map fst L) [] = (map snd L, v_names (da_drv D)) /\
    Permutation L (map (fun z => (ds_nm S (OFrame (n_frame (snd (fst z)))), snd z)) NL ++ map (fun z => (item_name (snd (fst z)), id_of (snd z))) IL).

  Lemma map_fst_combine {A B} (l : list A) (k : list B) : length k = length l -> map fst (combine l k) = l.
  Proof. revert k. induction l as [ | a l IH]; intros [ | b k] E; cbn in *; try discriminate; [reflexivity | ]. f_equal. apply IH. now injection E. Qed.
  Lemma map_snd_combine {A B} (l : list A) (k : list B) : length k = length l -> map snd (combine l k) = k.
  Proof. revert k. induction l as [ | a l IH]; intros [ | b k] E; cbn in *; try discriminate; [reflexivity | ]. f_equal. apply IH. now injection E. Qed.
  Lemma combine_map {A B C} (f : A -> C) (l : list A) (k : list B) : combine (map f l) k = map (fun z => (f (fst z), snd z)) (combine l k).
  Proof. revert k. induction l as [ | a l IH]; intros [ | b k]; cbn; try reflexivity. now rewrite IH. Qed.
  Lemma combine_map2 {A B C D} (f : A -> C) (g : B -> D) (l : list A) (k : list B) : combine (map f l) (map g k) = map (fun z => (f (fst z), g (snd z))) (combine l k).
  Proof. revert k. induction l as [ | a l IH]; intros [ | b k]; cbn; try reflexivity. now rewrite IH. Qed.

  Lemma doc_step flat ev D D' : ev <> EInit -> doc_inv D -> dae_event flat ev D = Ok D' -> doc_inv D' /\ draw_event S flat ev (da_draw D) = Ok (da_draw D') /\ da_up D' = da_up D /\ ext (da_drv D) (da_drv D').
  Proof.
    intros Ne (NL & IL & L & En & Ei & Et & Ed & Md & As & Pm) E. unfold Model_Dae.dae_event in E. destruct (draw_event S flat ev (da_draw D)) as [d | ] eqn:Dr; [ | discriminate]. cbn [rbind] in E.
    destruct (draw_grows _ _ _ _ _ Ne Dr) as (l & k & Gl & Gk & _). rewrite Gl, Gk, !added_app in E.
    destruct (number_nodes S (rev l) _ _) as (ids, v1) eqn:Nn. destruct (draw_items (rev k) _ _) as [(its, v2) | ] eqn:Di; [ | discriminate]. cbn [rbind] in E. injection E as <-. cbn [da_draw da_up da_drv].
    destruct (number_nodes_spec _ _ _ _ _ Nn) as (ks & L1 & Q1 & A1 & X1). destruct (draw_items_spec _ _ _ _ _ Di) as (os & L2 & Q2 & A2 & X2 & M2).
    split; [ | split; [reflexivity | split; [reflexivity | exact (ext_trans _ _ _ X1 X2)]]].
    exists (rev (combine (rev l) ks) ++ NL), (rev (combine (rev k) os) ++ IL),
      (L ++ map (fun z => (ds_nm S (OFrame (n_frame (snd (fst z)))), snd z)) (combine (rev l) ks) ++ map (fun z => (item_name (snd (fst z)), id_of (snd z))) (combine (rev k) os)).
    cbn [da_draw da_ids da_items da_drv]. split; [ | split; [ | split; [ | split; [ | split; [ | split]]]]].
    - rewrite Gl, En, map_app, map_rev, map_fst_combine, rev_involutive by exact L1. reflexivity.
    - rewrite Q1, Ei, map_app, combine_map, <- map_rev. reflexivity.
    - rewrite Gk, Et, map_app, map_rev, map_fst_combine, rev_involutive by exact L2. reflexivity.
    - rewrite Q2, Ed, flat_map_app. reflexivity.
    - intros n i o I. apply in_app_or in I. destruct I as [I | I].
      + apply in_rev in I. now apply (M2 n).
      + apply (made_ext (da_drv D)); [now apply (Md n) | exact (ext_trans _ _ _ X1 X2)].
    - rewrite !map_app, assign_app, As. rewrite assign_app.
      replace (map fst (map (fun z : nat * node * option string => (ds_nm S (OFrame (n_frame (snd (fst z)))), snd z)) (combine (rev l) ks))) with (map (fun x : nat * node => ds_nm S (OFrame (n_frame (snd x)))) (rev l)).
      2: { rewrite <- (map_fst_combine (rev l) ks L1) at 1. rewrite !map_map. reflexivity. }
      rewrite A1.
      replace (map fst (map (fun z : nat * item * option dnode => (item_name (snd (fst z)), id_of (snd z))) (combine (rev k) os))) with (map (fun x : nat * item => item_name (snd x)) (rev k)).
      2: { rewrite <- (map_fst_combine (rev k) os L2) at 1. rewrite !map_map. reflexivity. }
      rewrite A2. f_equal. f_equal. f_equal.
      + rewrite map_map. cbn [snd]. symmetry. now apply map_snd_combine.
      + rewrite map_map. cbn [snd]. rewrite <- (map_snd_combine (rev k) os L2) at 1. now rewrite map_map.
    - rewrite !map_app, !map_rev. rewrite Pm. rewrite <- !app_assoc.
      set (a := map _ NL). set (b := map _ IL). set (c := map _ (combine (rev l) ks)). set (e := map _ (combine (rev k) os)).
      rewrite <- (Permutation_rev c), <- (Permutation_rev e). rewrite (Permutation_app_comm e b). rewrite (app_assoc a b), (app_assoc c a). rewrite (app_assoc (a ++ b)), (app_assoc (c ++ a)). apply Permutation_app_tail.
      rewrite (Permutation_app_comm c a), <- !app_assoc. apply Permutation_app_head, Permutation_app_comm.
  Qed.
  Lemma doc_steps flat evs : forall D D', ~ In EInit evs -> doc_inv D -> dae_events flat evs D = Ok D' -> doc_inv D' /\ draw_events S flat evs (da_draw D) = Ok (da_draw D') /\ da_up D' = da_up D /\ ext (da_drv D) (da_drv D').
  Proof.
    induction evs as [ | ev evs IH]; intros D D' Ni In E; cbn [Model_Dae.dae_events draw_events] in *.
    - injection E as <-. split; [exact In | ]. split; [reflexivity | ]. split; [reflexivity | apply ext_refl].
    - destruct (dae_event flat ev D) as [D1 | ] eqn:E1; [ | discriminate]. cbn [rbind] in E. destruct (doc_step flat ev D D1) as (I1 & Q1 & U1 & X1); [intros ->; apply Ni; now left | exact In | exact E1 | ].
      destruct (IH D1 D') as (I2 & Q2 & U2 & X2); [intros A; apply Ni; now right | exact I1 | exact E | ]. rewrite Q1. cbn [rbind]. split; [exact I2 | ]. split; [exact Q2 | ]. split; [congruence | exact (ext_trans _ _ _ X1 X2)].
  Qed.
  (** the whole document *)
  Lemma doc_world flat fuel h up cs scale update evs D : parse (ds_e S) fuel h = Ok (EInit :: evs) -> ~ In EInit evs ->
    dae_world argsort eigvals eig daenim S geo flat fuel h up cs scale update = Ok D ->
    doc_inv D /\ draw_world S flat fuel h cs = Ok (da_draw D) /\ set_up_axis up = Ok (da_up D) /\ v_opt (da_drv D) = default_options scale.
  Proof.
    intros Ep Ni E. unfold dae_world in E. destruct (set_up_axis up) as [a | ]; [ | discriminate]. cbn [rbind] in E. unfold draw_world. rewrite Ep in *. cbn [rbind Model_Dae.dae_events draw_events] in *.
    destruct (dae_event flat EInit _) as [D1 | ] eqn:E1; [ | discriminate]. cbn [rbind] in E. unfold Model_Dae.dae_event in E1. cbn [draw_event rbind da_draw new_draw d_nodes d_items length Nat.sub firstn rev added number_nodes Model_Dae.draw_items] in E1. unfold added in E1. cbn in E1.
    assert (I1 : doc_inv D1). { injection E1 as <-. exists [], [], []. cbn. repeat split; try reflexivity. intros ? ? ? []. }
    destruct (doc_steps flat evs D1 D Ni I1 E) as (I2 & Q2 & U2 & X2). split; [exact I2 | ]. injection E1 as <-. cbn in Q2, U2, X2. split; [exact Q2 | ]. split; [now rewrite U2 | apply X2].
  Qed.
End Doc.
