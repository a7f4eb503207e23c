(** C58: the colours chosen by a ColorGenerator. *)
From Coq Require Import Lra Lia.
From Verif Require Import Model_Color Model_Linalg.
From Verif Require Import Proof_SE3 Props_Color.
Open Scope R_scope.

Definition body_obj (b : nat) : obj := OFrame (FBody b).
(** the frames (bodies among them) and the shapes are the objects which are coloured *)
Definition of_body (e : env) (o : obj) (b : nat) : Prop :=
  (exists f, o = OFrame f /\ frame_body e f = b) \/ (exists s, o = OShape s /\ frame_body e (shape_frame e s) = b).
(** a colour is given in the dict [m] for the object or for its name *)
Definition own_color (m : list (ckey * rgb)) (nm : obj -> option string) (o : obj) : Prop :=
  exists k c, In (k, c) m /\ (k = KObj o \/ k = KName (nm o)).
Definition valid_rgb (c : rgb) : Prop := let '(r, g, b) := c in 0 <= r <= 1 /\ 0 <= g <= 1 /\ 0 <= b <= 1.

Lemma color_ok_valid c : color_ok c = true <-> valid_rgb c.
Proof.
  destruct c as ((r, g), b). unfold color_ok, valid_rgb. rewrite !andb_true_iff, !Rleb_true. tauto.
Qed.
Lemma parent_of_body e o b : get_parent_body e o = Ok b <-> of_body e o b.
Proof.
  unfold of_body. split.
  - destruct o; cbn; try discriminate; intros E; injection E as <-; eauto.
  - intros [(f & -> & <-) | (s & -> & <-)]; reflexivity.
Qed.

(** the lookups of get_color, without the generation of a colour *)
Definition lookup (e : env) (nm : obj -> option string) (o : obj) (st : colors) : option rgb :=
  match c_map st (KObj o) with
  | Some c => Some c
  | None => match c_map st (KName (nm o)) with
            | Some c => Some c
            | None => match get_parent_body e o with
                      | Ok b => match c_map st (KObj (body_obj b)) with Some c => Some c | None => c_map st (KName (nm (body_obj b))) end
                      | Err _ => None
                      end
            end
  end.
Lemma get_lookup e nm o st : get_color e nm o st =
  match lookup e nm o st with
  | Some c => Ok (c, st)
  | None => let* b := get_parent_body e o in let (c, st1) := generate_color st in let* st2 := set_color (KObj (body_obj b)) c st1 in Ok (c, st2)
  end.
Proof.
  unfold get_color, lookup, body_obj. assert (G : forall b, get_body_color nm b st = match (match c_map st (KObj (OFrame (FBody b))) with Some c => Some c | None => c_map st (KName (nm (OFrame (FBody b)))) end) with Some c => Ok (c, st) | None => let (c, st1) := generate_color st in let* st2 := set_color (KObj (OFrame (FBody b))) c st1 in Ok (c, st2) end).
  { intros b. unfold get_body_color. destruct (c_map st (KObj (OFrame (FBody b)))); [reflexivity | ]. destruct (c_map st (KName _)); reflexivity. }
  destruct o as [[b | s | s] | j | s | c | a | ]; cbn [get_parent_body frame_body]; unfold rbind at 1; rewrite ?G;
    repeat match goal with |- context [match c_map st ?k with _ => _ end] => destruct (c_map st k) eqn:? end; try reflexivity; congruence.
Qed.
Lemma generate_map st : c_map (snd (generate_color st)) = c_map st.
Proof. unfold generate_color. destruct (rev (c_palette st)); reflexivity. Qed.

(** what a call to get_color does *)
Lemma get_cases e nm o st c st' : get_color e nm o st = Ok (c, st') ->
  (lookup e nm o st = Some c /\ st' = st) \/
  exists b st1, get_parent_body e o = Ok b /\ lookup e nm o st = None /\ c_map st (KObj (body_obj b)) = None /\ c_map st (KName (nm (body_obj b))) = None /\
    generate_color st = (c, st1) /\ color_ok c = true /\
    st' = Colors (c_palette st1) (fun k => if ckey_eq_dec k (KObj (body_obj b)) then Some c else c_map st k).
Proof.
  rewrite get_lookup. destruct (lookup e nm o st) as [c0 | ] eqn:L; [intros E; left; split; congruence | ]. intros E. right.
  destruct (get_parent_body e o) as [b | ] eqn:P; [ | discriminate]. cbn [rbind] in E. destruct (generate_color st) as (c1, st1) eqn:G.
  unfold set_color in E. destruct (color_ok c1) eqn:K; cbn [passert rbind] in E; [ | discriminate]. injection E as -> <-.
  assert (M := generate_map st). rewrite G in M. cbn [snd] in M. rewrite M.
  exists b, st1. split; [reflexivity | ]. split; [reflexivity | ].
  unfold lookup in L. rewrite P in L. destruct (c_map st (KObj o)); [discriminate | ]. destruct (c_map st (KName (nm o))); [discriminate | ]. destruct (c_map st (KObj (body_obj b))); [discriminate | ].
  repeat split; auto.
Qed.
(** once coloured, an object keeps its colour *)
Lemma lookup_ext e nm o st st' c : lookup e nm o st = Some c ->
  (c_map st' (KObj o) = c_map st (KObj o) \/ (exists b, o = body_obj b /\ c_map st (KObj o) = None /\ c_map st (KName (nm o)) = None)) ->
  c_map st' (KName (nm o)) = c_map st (KName (nm o)) ->
  (forall b, get_parent_body e o = Ok b -> (c_map st' (KObj (body_obj b)) = c_map st (KObj (body_obj b)) \/ (c_map st (KObj (body_obj b)) = None /\ c_map st (KName (nm (body_obj b))) = None)) /\
     c_map st' (KName (nm (body_obj b))) = c_map st (KName (nm (body_obj b)))) ->
  lookup e nm o st' = Some c.
Proof.
  intros L A B C. unfold lookup in *. rewrite B. destruct A as [A | (b & -> & A1 & A2)].
  - rewrite A. destruct (c_map st (KObj o)); [exact L | ]. destruct (c_map st (KName (nm o))); [exact L | ]. destruct (get_parent_body e o) as [b | ]; [ | exact L].
    destruct (C b eq_refl) as ([D | (D1 & D2)] & D3).
    + rewrite D, D3. exact L.
    + rewrite D1, D2 in L. discriminate.
  - rewrite A1, A2 in L. destruct (C b eq_refl) as ([D | (D1 & D2)] & D3).
    + cbn [get_parent_body body_obj frame_body] in L. fold (body_obj b) in L. rewrite A1, A2 in L. discriminate.
    + cbn [get_parent_body body_obj frame_body] in L. fold (body_obj b) in L. rewrite A1, A2 in L. discriminate.
Qed.
Definition unrelated (e : env) (nm : obj -> option string) (o : obj) (k : ckey) : Prop :=
  k <> KObj o /\ k <> KName (nm o) /\ forall b, of_body e o b -> k <> KObj (body_obj b) /\ k <> KName (nm (body_obj b)).
Lemma step_lookup e nm o st st' c op : lookup e nm o st = Some c -> cstep e nm op st = Ok st' ->
  (forall k c', op = SetColor k c' -> unrelated e nm o k) -> lookup e nm o st' = Some c.
Proof.
  intros L E U. destruct op as [o' | k c']; cbn [cstep] in E.
  - destruct (get_color e nm o' st) as [(c', st2) | ] eqn:G; [ | discriminate]. cbn in E. injection E as <-.
    destruct (get_cases _ _ _ _ _ _ G) as [(_ & ->) | (b & st1 & P & L' & N1 & N2 & Gn & _ & ->)]; [exact L | ].
    eapply lookup_ext; [exact L | | | ]; cbn [c_map].
    + destruct (ckey_eq_dec (KObj o) (KObj (body_obj b))) as [E | _]; [ | now left]. right. exists b. injection E as ->. auto.
    + destruct (ckey_eq_dec (KName (nm o)) (KObj (body_obj b))); [discriminate | reflexivity].
    + intros b' _. split; [ | destruct (ckey_eq_dec (KName _) (KObj (body_obj b))); [discriminate | reflexivity]].
      destruct (ckey_eq_dec (KObj (body_obj b')) (KObj (body_obj b))) as [E | _]; [ | now left]. right. injection E as ->. auto.
  - destruct (U k c' eq_refl) as (U1 & U2 & U3). unfold set_color in E. destruct (color_ok c'); [ | discriminate]. cbn in E. injection E as <-.
    eapply lookup_ext; [exact L | | | ]; cbn [c_map].
    + left. destruct (ckey_eq_dec (KObj o) k); [congruence | reflexivity].
    + destruct (ckey_eq_dec (KName (nm o)) k); [congruence | reflexivity].
    + intros b P. destruct (U3 b (proj1 (parent_of_body _ _ _) P)) as (V1 & V2).
      destruct (ckey_eq_dec (KObj (body_obj b)) k); [congruence | ]. destruct (ckey_eq_dec (KName (nm (body_obj b))) k); [congruence | ]. auto.
Qed.
Lemma get_settles e nm o st c st' : get_color e nm o st = Ok (c, st') -> lookup e nm o st' = Some c.
Proof.
  intros G. destruct (get_cases _ _ _ _ _ _ G) as [(L & ->) | (b & st1 & P & L & N1 & N2 & _ & _ & ->)]; [exact L | ].
  unfold lookup in *. cbn [c_map]. rewrite P in *. destruct (ckey_eq_dec (KObj o) (KObj (body_obj b))); [reflexivity | ].
  destruct (ckey_eq_dec (KName (nm o)) (KObj (body_obj b))); [discriminate | ]. destruct (c_map st (KObj o)); [discriminate | ]. destruct (c_map st (KName (nm o))); [discriminate | ].
  destruct (ckey_eq_dec (KObj (body_obj b)) (KObj (body_obj b))); [reflexivity | congruence].
Qed.
Lemma run_lookup e nm o c : forall ops st st', lookup e nm o st = Some c -> crun e nm ops st = Ok st' ->
  (forall k c', In (SetColor k c') ops -> unrelated e nm o k) -> lookup e nm o st' = Some c.
Proof.
  induction ops as [ | op ops IH]; cbn [crun]; intros st st' L E U; [congruence | ].
  destruct (cstep e nm op st) as [st1 | ] eqn:E1; [ | discriminate]. cbn in E. apply (IH st1 st'); [ | exact E | intros; eapply U; right; eassumption].
  apply (step_lookup _ _ _ _ _ _ op L E1). intros k c' ->. apply (U k c'). now left.
Qed.

(** the colour returned for an object is returned by all the later calls, whatever is done in between, except setting explicitly a
    colour for this object, for its body, or for their names *)
Theorem C58_stable : forall e nm o st c st' ops st'', get_color e nm o st = Ok (c, st') ->
  (forall k c', In (SetColor k c') ops -> unrelated e nm o k) -> crun e nm ops st' = Ok st'' ->
  get_color e nm o st'' = Ok (c, st'').
Proof.
  intros e nm o st c st' ops st'' G U R. rewrite get_lookup, (run_lookup e nm o c ops st' st''); auto. exact (get_settles _ _ _ _ _ _ G).
Qed.
Print Assumptions C58_stable.

(** the constructor *)
Lemma rmapM_ok {A B} (f : A -> res B) : forall l, (forall x, In x l -> exists y, f x = Ok y) -> exists ys, rmapM f l = Ok ys /\ Forall2 (fun x y => f x = Ok y) l ys.
Proof.
  induction l as [ | x l IH]; cbn [rmapM]; intros H; [exists []; split; [reflexivity | constructor] | ].
  destruct (H x (or_introl eq_refl)) as (y & E). destruct IH as (ys & Es & F); [intros; apply H; now right | ]. rewrite E. cbn. rewrite Es. cbn. exists (y :: ys). split; [reflexivity | constructor; auto].
Qed.
Lemma hue_lt nb k : (k < nb)%nat -> 0 <= 360 / INR nb * INR k < 360.
Proof.
  intros H. assert (0 < INR nb) by (apply (lt_INR 0); lia). assert (INR k < INR nb) by (apply lt_INR; lia). assert (0 <= INR k) by apply pos_INR.
  replace (360 / INR nb * INR k) with (360 * (INR k / INR nb)) by (field; lra). assert (0 <= INR k / INR nb). { apply Rmult_le_pos; [lra | left; apply Rinv_0_lt_compat; lra]. }
  assert (INR k / INR nb < 1). { apply Rmult_lt_reg_r with (INR nb); [lra | ]. unfold Rdiv. rewrite Rmult_assoc, Rinv_l by lra. lra. } lra.
Qed.
Lemma palette_ok nb : exists p, rmapM (fun k => hsv_to_rgb (360 / INR nb * INR k) (9 / 10) (9 / 10)) (seq 0 nb) = Ok p /\ length p = nb /\ NoDup p /\ Forall valid_rgb p.
Proof.
  destruct (rmapM_ok (fun k => hsv_to_rgb (360 / INR nb * INR k) (9 / 10) (9 / 10)) (seq 0 nb)) as (p & E & F).
  { intros k _. destruct (C57_valid (360 / INR nb * INR k) (9 / 10) (9 / 10)) as (r & g & b & Ek & _); [lra | lra | eauto]. }
  exists p. split; [exact E | ]. assert (L : length (seq 0 nb) = length p) by (clear - F; induction F; cbn; congruence). rewrite seq_length in L. split; [symmetry; exact L | ].
  assert (G : forall l q, Forall2 (fun k c => hsv_to_rgb (360 / INR nb * INR k) (9 / 10) (9 / 10) = Ok c) l q -> NoDup l -> (forall k, In k l -> (k < nb)%nat) -> NoDup q /\ Forall valid_rgb q).
  { clear L. induction 1 as [ | k c l q Ek F' IH]; intros D B; [split; constructor | ]. inversion D; subst. destruct IH as (I1 & I2); [assumption | intros; apply B; now right | ].
    destruct (C57_valid (360 / INR nb * INR k) (9 / 10) (9 / 10)) as (r & g & b & Ek' & V & _); [lra | lra | ]. rewrite Ek in Ek'. injection Ek' as ->.
    split; constructor; auto. intros Hin. assert (X : exists k', In k' l /\ hsv_to_rgb (360 / INR nb * INR k') (9 / 10) (9 / 10) = Ok (r, g, b)).
    { clear - F' Hin. induction F' as [ | k' c' l q E' F IH]; [destruct Hin | ]. destruct Hin as [-> | Hin]; [exists k'; split; [now left | exact E'] | ]. destruct (IH Hin) as (k'' & ? & ?). exists k''. split; [now right | assumption]. }
    destruct X as (k' & Ik' & Ek''). apply (fun q => eq_trans q (eq_sym Ek)) in Ek''. assert (Bk := B k (or_introl eq_refl)). assert (Bk' := B k' (or_intror Ik')).
    apply C57_injective in Ek''; [ | lra | lra | now apply hue_lt | now apply hue_lt]. assert (0 < INR nb) by (apply (lt_INR 0); lia).
    apply Rmult_eq_reg_l in Ek''; [ | apply Rgt_not_eq; apply Rdiv_lt_0_compat; lra]. apply INR_eq in Ek''. subst. contradiction. }
  apply (G _ _ F); [apply seq_NoDup | ]. intros k Hk. apply in_seq in Hk. lia.
Qed.
Lemma set_colors_ok : forall m st, Forall (fun x => valid_rgb (snd x)) m -> exists st', set_colors m st = Ok st' /\ c_palette st' = c_palette st /\
  forall k, (c_map st' k <> None <-> c_map st k <> None \/ In k (map fst m)) /\ (forall c, c_map st' k = Some c -> c_map st k = Some c \/ In (k, c) m).
Proof.
  induction m as [ | (k0, c0) m IH]; intros st F; cbn [set_colors].
  - exists st. cbn. split; [reflexivity | ]. split; [reflexivity | ]. intros k. split; [tauto | auto].
  - inversion F as [ | ? ? F1 F2]; subst. unfold set_color. apply color_ok_valid in F1. cbn [snd] in F1. rewrite F1. cbn [passert rbind].
    destruct (IH (Colors (c_palette st) (fun k' => if ckey_eq_dec k' k0 then Some c0 else c_map st k')) F2) as (st' & E & P & K). exists st'. split; [exact E | ]. split; [exact P | ]. intros k. destruct (K k) as (K1 & K2). cbn [c_map] in K1, K2. cbn [map fst In].
    destruct (ckey_eq_dec k k0) as [-> | N].
    + split; [ | ]. { split; [auto | intros _; apply K1; left; discriminate]. } intros c Hc. destruct (K2 c Hc) as [Q | Q]; [injection Q as ->; auto | auto].
    + split; [rewrite K1; intuition congruence | ]. intros c Hc. destruct (K2 c Hc); auto.
Qed.
Lemma new_ok m nb : Forall (fun x => valid_rgb (snd x)) m -> exists st, new_colors m nb = Ok st /\ length (c_palette st) = nb /\ NoDup (c_palette st) /\ Forall valid_rgb (c_palette st) /\
  forall k, (c_map st k <> None <-> In k (map fst m)) /\ (forall c, c_map st k = Some c -> In (k, c) m).
Proof.
  intros F. unfold new_colors. destruct (palette_ok nb) as (p & -> & L & D & V). cbn [rbind]. destruct (set_colors_ok m (Colors p (fun _ => None)) F) as (st & E & P & K).
  exists st. cbn in P, K. rewrite P. repeat (split; [assumption | ]). intros k. destruct (K k) as (K1 & K2). split; [tauto | ]. intros c Hc. destruct (K2 c Hc); [discriminate | assumption].
Qed.
Lemma new_valid m nb st : new_colors m nb = Ok st -> Forall (fun x => valid_rgb (snd x)) m.
Proof.
  unfold new_colors. destruct (palette_ok nb) as (p & -> & _). cbn [rbind]. generalize (Colors p (fun _ => None)). induction m as [ | (k, c) m IH]; intros s0 E; constructor; cbn [set_colors] in E; unfold set_color in E; destruct (color_ok c) eqn:K; try discriminate; cbn in E.
  - now apply color_ok_valid.
  - exact (IH _ E).
Qed.

(** all the colours of the generator are valid *)
Definition all_valid (st : colors) : Prop := Forall valid_rgb (c_palette st) /\ forall k c, c_map st k = Some c -> valid_rgb c.
Lemma generate_valid st c st1 : all_valid st -> generate_color st = (c, st1) -> valid_rgb c /\ Forall valid_rgb (c_palette st1).
Proof.
  intros (A & _) E. unfold generate_color in E. destruct (rev (c_palette st)) as [ | c0 r] eqn:Er.
  - injection E as <- <-. split; [unfold valid_rgb; lra | exact A].
  - injection E as -> <-. apply Forall_rev in A. rewrite Er in A. inversion A; subst. split; [assumption | ]. cbn. now apply Forall_rev.
Qed.
Lemma lookup_valid e nm o st c : all_valid st -> lookup e nm o st = Some c -> valid_rgb c.
Proof.
  intros (_ & A) L. unfold lookup in L. destruct (c_map st (KObj o)) eqn:E1; [injection L as ->; eauto | ]. destruct (c_map st (KName (nm o))) eqn:E2; [injection L as ->; eauto | ].
  destruct (get_parent_body e o); [ | discriminate]. destruct (c_map st (KObj (body_obj _))) eqn:E3; [injection L as ->; eauto | ]. eauto.
Qed.
Lemma get_valid e nm o b st : all_valid st -> of_body e o b -> exists c st', get_color e nm o st = Ok (c, st') /\ valid_rgb c.
Proof.
  intros A P. apply parent_of_body in P. rewrite get_lookup. destruct (lookup e nm o st) as [c | ] eqn:L; [exists c, st; split; [reflexivity | exact (lookup_valid _ _ _ _ _ A L)] | ].
  rewrite P. cbn [rbind]. destruct (generate_color st) as (c, st1) eqn:G. destruct (generate_valid _ _ _ A G) as (V & _). unfold set_color. rewrite (proj2 (color_ok_valid c) V). cbn. eauto.
Qed.
Lemma step_valid e nm op st st' : all_valid st -> cstep e nm op st = Ok st' -> all_valid st'.
Proof.
  intros A E. destruct op as [o | k c]; cbn [cstep] in E.
  - destruct (get_color e nm o st) as [(c, st2) | ] eqn:G; [ | discriminate]. cbn in E. injection E as <-.
    destruct (get_cases _ _ _ _ _ _ G) as [(_ & ->) | (b & st1 & P & _ & _ & _ & Gn & Ko & ->)]; [exact A | ]. destruct (generate_valid _ _ _ A Gn) as (V & F).
    split; [exact F | ]. cbn. intros k c'. destruct (ckey_eq_dec k _); [intros Q; injection Q as <-; exact V | apply (proj2 A)].
  - unfold set_color in E. destruct (color_ok c) eqn:K; [ | discriminate]. cbn in E. injection E as <-. split; [exact (proj1 A) | ]. cbn. intros k' c'. destruct (ckey_eq_dec k' k); [intros Q; injection Q as <-; now apply color_ok_valid | apply (proj2 A)].
Qed.
Lemma run_valid e nm : forall ops st st', all_valid st -> crun e nm ops st = Ok st' -> all_valid st'.
Proof.
  induction ops as [ | op ops IH]; cbn [crun]; intros st st' A E; [congruence | ]. destruct (cstep e nm op st) as [st1 | ] eqn:E1; [ | discriminate]. exact (IH st1 st' (step_valid _ _ _ _ _ A E1) E).
Qed.
Lemma new_all_valid m nb st : new_colors m nb = Ok st -> all_valid st.
Proof.
  intros E. assert (F := new_valid _ _ _ E). destruct (new_ok m nb F) as (st' & E' & _ & _ & V & K). rewrite E in E'. injection E' as <-. split; [exact V | ]. intros k c Hc. destruct (K k) as (_ & K2). rewrite Forall_forall in F. exact (F _ (K2 c Hc)).
Qed.

(** after any history, each frame and each shape gets a valid colour *)
Theorem C58_total : forall e nm m nb ops st0 st o b, new_colors m nb = Ok st0 -> crun e nm ops st0 = Ok st -> of_body e o b ->
  exists c st', get_color e nm o st = Ok (c, st') /\ valid_rgb c.
Proof. intros e nm m nb ops st0 st o b N R P. apply (get_valid e nm o b); [ | exact P]. exact (run_valid _ _ _ _ _ (new_all_valid _ _ _ N) R). Qed.
Print Assumptions C58_total.

(** get_color colours nothing but bodies *)
Definition gets_only (ops : list cop) : Prop := forall op, In op ops -> exists o, op = GetColor o.
Lemma gets_map e nm o st c st' k : get_color e nm o st = Ok (c, st') -> c_map st' k = c_map st k \/ exists b, k = KObj (body_obj b) /\ c_map st k = None /\ c_map st (KName (nm (body_obj b))) = None.
Proof.
  intros G. destruct (get_cases _ _ _ _ _ _ G) as [(_ & ->) | (b & st1 & _ & _ & N1 & N2 & _ & _ & ->)]; [now left | ]. cbn. destruct (ckey_eq_dec k _) as [-> | ]; [right; eauto | now left].
Qed.
Lemma run_map e nm : forall ops st st' k, gets_only ops -> crun e nm ops st = Ok st' -> c_map st' k = c_map st k \/ exists b, k = KObj (body_obj b) /\ c_map st k = None.
Proof.
  induction ops as [ | op ops IH]; cbn [crun]; intros st st' k H E; [left; congruence | ]. destruct (cstep e nm op st) as [st1 | ] eqn:E1; [ | discriminate]. cbn in E.
  destruct (H op (or_introl eq_refl)) as (o & ->). cbn in E1. destruct (get_color e nm o st) as [(c, st2) | ] eqn:G; [ | discriminate]. cbn in E1. injection E1 as <-.
  destruct (gets_map _ _ _ _ _ _ k G) as [Q | (b & -> & Q & _)]; [ | eauto]. destruct (IH st2 st' k ltac:(intros ? ?; apply H; now right) E) as [Q' | (b & -> & Q')]; [left; congruence | right; exists b; split; [reflexivity | congruence]].
Qed.

(** the frames and the shapes of a body which have no own colour share one colour, the one of the body *)
Theorem C58_shared : forall e nm m nb ops st0 st o o' b, new_colors m nb = Ok st0 -> gets_only ops -> crun e nm ops st0 = Ok st ->
  of_body e o b -> of_body e o' b -> ~ own_color m nm o -> ~ own_color m nm o' ->
  exists c st', get_color e nm o st = Ok (c, st') /\ get_color e nm o' st' = Ok (c, st') /\ get_color e nm (body_obj b) st' = Ok (c, st').
Proof.
  intros e nm m nb ops st0 st o o' b N H R P P' O O'. destruct (get_valid e nm o b st) as (c & st' & G & _); [exact (run_valid _ _ _ _ _ (new_all_valid _ _ _ N) R) | exact P | ].
  exists c, st'. split; [exact G | ]. assert (R' : crun e nm (ops ++ [GetColor o]) st0 = Ok st').
  { clear - R G. revert st0 R. induction ops as [ | op ops IH]; cbn [crun app]; intros st0 R; [injection R as ->; cbn; rewrite G; reflexivity | ]. destruct (cstep e nm op st0); [ | discriminate]. cbn in *. exact (IH _ R). }
  assert (H' : gets_only (ops ++ [GetColor o])). { intros op Hop. apply in_app_or in Hop. destruct Hop as [Hop | [<- | []]]; eauto. }
  destruct (new_ok m nb (new_valid _ _ _ N)) as (st0' & N' & _ & _ & _ & K). rewrite N in N'. injection N' as <-.
  assert (Own : forall x, of_body e x b -> ~ own_color m nm x -> lookup e nm x st' = match c_map st' (KObj (body_obj b)) with Some c => Some c | None => c_map st' (KName (nm (body_obj b))) end).
  { intros x Px Ox. unfold lookup. rewrite (proj2 (parent_of_body _ _ _) Px).
    assert (M : forall k, (k = KObj x \/ k = KName (nm x)) -> c_map st0 k = None). { intros k Hk. destruct (K k) as (_ & K2). destruct (c_map st0 k) as [c0 | ] eqn:E; [exfalso | reflexivity]. apply Ox. exists k, c0. auto. }
    assert (M2 : c_map st' (KName (nm x)) = None). { destruct (run_map _ _ _ _ _ (KName (nm x)) H' R') as [-> | (? & ? & _)]; [auto | discriminate]. } rewrite M2.
    destruct (run_map _ _ _ _ _ (KObj x) H' R') as [-> | (b' & E & _)].
    - rewrite (M _ (or_introl eq_refl)). reflexivity.
    - injection E as ->. apply parent_of_body in Px. cbn in Px. injection Px as ->. fold (body_obj b) in *. destruct (c_map st' (KObj (body_obj b))); [reflexivity | ]. now rewrite M2. }
  assert (Lo := get_settles _ _ _ _ _ _ G). rewrite (Own o P O) in Lo. split; rewrite get_lookup.
  - rewrite (Own o' P' O'), Lo. reflexivity.
  - unfold lookup. cbn [get_parent_body body_obj frame_body]. fold (body_obj b). destruct (c_map st' (KObj (body_obj b))) as [c1 | ]; [congruence | ]. rewrite Lo. reflexivity.
Qed.
Print Assumptions C58_shared.

(** the colours generated so far: [A] lists the bodies in order, with their colours *)
Definition generated (m : list (ckey * rgb)) (nm : obj -> option string) (p0 : list rgb) (bs : list nat) (st : colors) (A : list (nat * rgb)) : Prop :=
  p0 = c_palette st ++ rev (map snd A) /\ NoDup (map fst A) /\ incl (map fst A) bs /\
  (forall b c, In (b, c) A -> c_map st (KObj (body_obj b)) = Some c) /\
  (forall b c, ~ own_color m nm (body_obj b) -> c_map st (KObj (body_obj b)) = Some c -> In (b, c) A) /\
  (forall b, ~ own_color m nm (body_obj b) -> c_map st (KName (nm (body_obj b))) = None).
Lemma gen_step e nm m p0 bs o b st A c st' : (length bs <= length p0)%nat -> generated m nm p0 bs st A -> of_body e o b -> In b bs ->
  get_color e nm o st = Ok (c, st') -> exists A', generated m nm p0 bs st' A'.
Proof.
  intros Lb (Ep & Nd & Ic & M1 & M2 & M3) P Ib G. destruct (get_cases _ _ _ _ _ _ G) as [(_ & ->) | (b' & st1 & P' & _ & N1 & N2 & Gn & _ & ->)]; [exists A; repeat (split; [assumption | ]); assumption | ].
  apply parent_of_body in P. assert (b' = b) by congruence. subst b'.
  assert (Nb : ~ In b (map fst A)). { intros Q. apply in_map_iff in Q. destruct Q as ((b1, c1) & <- & Q). cbn in *. rewrite (M1 _ _ Q) in N1. discriminate. }
  assert (Ll : (length (b :: map fst A) <= length bs)%nat). { apply NoDup_incl_length; [constructor; assumption | ]. intros x [<- | Hx]; [assumption | exact (Ic _ Hx)]. }
  assert (Lp : length p0 = (length (c_palette st) + length A)%nat) by (rewrite Ep, app_length, rev_length, map_length; reflexivity). cbn [length] in Ll. rewrite map_length in Ll.
  unfold generate_color in Gn. destruct (rev (c_palette st)) as [ | c0 r] eqn:Er.
  { exfalso. assert (length (rev (c_palette st)) = 0)%nat by (rewrite Er; reflexivity). rewrite rev_length in *. lia. }
  injection Gn as -> <-. exists (A ++ [(b, c)]). unfold generated. cbn [c_palette c_map]. split; [ | split; [ | split; [ | split; [ | split]]]].
  - rewrite map_app, rev_app_distr. cbn. assert (Q : c_palette st = rev r ++ [c]) by (rewrite <- (rev_involutive (c_palette st)), Er; reflexivity). rewrite Ep, Q, <- app_assoc. reflexivity.
  - rewrite map_app. cbn. apply NoDup_rev in Nd. rewrite <- (rev_involutive (map fst A ++ [b])). apply NoDup_rev. rewrite rev_app_distr. cbn. constructor; [rewrite <- in_rev; exact Nb | exact Nd].
  - rewrite map_app. intros x Hx. apply in_app_or in Hx. destruct Hx as [Hx | [<- | []]]; [exact (Ic _ Hx) | exact Ib].
  - intros b1 c1 Hx. apply in_app_or in Hx. destruct Hx as [Hx | [Q | []]].
    + destruct (ckey_eq_dec _ _) as [Q | _]; [ | exact (M1 _ _ Hx)]. exfalso. apply Nb. injection Q as ->. change b with (fst (b, c1)). now apply in_map.
    + injection Q as <- <-. destruct (ckey_eq_dec _ _); [reflexivity | congruence].
  - intros b1 c1 Ho Hx. apply in_or_app. destruct (ckey_eq_dec _ _) as [Q | _].
    + injection Q as ->. right. left. congruence.
    + left. exact (M2 _ _ Ho Hx).
  - intros b1 Ho. destruct (ckey_eq_dec _ _); [discriminate | ]. exact (M3 _ Ho).
Qed.
Lemma gen_run e nm m p0 bs : (length bs <= length p0)%nat -> forall ops st st' A, generated m nm p0 bs st A ->
  (forall op, In op ops -> exists o b, op = GetColor o /\ of_body e o b /\ In b bs) -> crun e nm ops st = Ok st' -> exists A', generated m nm p0 bs st' A'.
Proof.
  intros Lb. induction ops as [ | op ops IH]; cbn [crun]; intros st st' A G H E; [exists A; congruence | ].
  destruct (H op (or_introl eq_refl)) as (o & b & -> & P & Ib). cbn in E. destruct (get_color e nm o st) as [(c, st1) | ] eqn:Gc; [ | discriminate]. cbn in E.
  destruct (gen_step _ _ _ _ _ _ _ _ _ _ _ Lb G P Ib Gc) as (A1 & G1). apply (IH st1 st' A1 G1); [intros; apply H; now right | exact E].
Qed.
Lemma crun_app e nm : forall ops ops' st, crun e nm (ops ++ ops') st = let* st1 := crun e nm ops st in crun e nm ops' st1.
Proof. induction ops as [ | op ops IH]; cbn [crun app]; intros ops' st; [reflexivity | ]. destruct (cstep e nm op st); cbn; [apply IH | reflexivity]. Qed.

(** as long as at most [nb] bodies (with or without own colour) have been involved, two bodies without own colour have different
    colours, whatever the history *)
Theorem C58_distinct : forall e nm m nb ops st0 st bs b1 b2, new_colors m nb = Ok st0 ->
  (forall op, In op ops -> exists o b, op = GetColor o /\ of_body e o b /\ In b bs) -> crun e nm ops st0 = Ok st ->
  (length bs <= nb)%nat -> In b1 bs -> In b2 bs -> b1 <> b2 -> ~ own_color m nm (body_obj b1) -> ~ own_color m nm (body_obj b2) ->
  exists c1 c2 st1 st2, get_color e nm (body_obj b1) st = Ok (c1, st1) /\ get_color e nm (body_obj b2) st1 = Ok (c2, st2) /\ c1 <> c2.
Proof.
  intros e nm m nb ops st0 st bs b1 b2 N H R Lb I1 I2 Nb O1 O2.
  destruct (new_ok m nb (new_valid _ _ _ N)) as (st0' & N' & Lp & Dp & _ & K). rewrite N in N'. injection N' as <-.
  assert (Own : forall b, ~ own_color m nm (body_obj b) -> c_map st0 (KObj (body_obj b)) = None /\ c_map st0 (KName (nm (body_obj b))) = None).
  { intros b Ob. split; [destruct (K (KObj (body_obj b))) as (_ & K2) | destruct (K (KName (nm (body_obj b)))) as (_ & K2)]; destruct (c_map st0 _) as [c0 | ]; try reflexivity; exfalso; apply Ob; eexists; exists c0; (split; [apply K2; reflexivity | auto]). }
  assert (G0 : generated m nm (c_palette st0) bs st0 []).
  { unfold generated. cbn. rewrite app_nil_r. split; [reflexivity | ]. split; [constructor | ]. split; [intros ? [] | ]. split; [tauto | ]. split; [intros b c Ob E; rewrite (proj1 (Own b Ob)) in E; discriminate | intros b Ob; apply (Own b Ob)]. }
  assert (Vst := run_valid _ _ _ _ _ (new_all_valid _ _ _ N) R). assert (Pb : forall b, of_body e (body_obj b) b) by (intros b; left; exists (FBody b); auto).
  destruct (get_valid e nm (body_obj b1) b1 st Vst (Pb _)) as (c1 & st1 & E1 & _).
  assert (Vst1 : all_valid st1) by (apply (step_valid e nm (GetColor (body_obj b1)) st); [exact Vst | cbn [cstep]; rewrite E1; reflexivity]).
  destruct (get_valid e nm (body_obj b2) b2 st1 Vst1 (Pb _)) as (c2 & st2 & E2 & _). exists c1, c2, st1, st2. split; [exact E1 | ]. split; [exact E2 | ].
  destruct (gen_run e nm m (c_palette st0) bs ltac:(lia) (ops ++ [GetColor (body_obj b1); GetColor (body_obj b2)]) st0 st2 [] G0) as (A & Ep & Nd & _ & M1 & M2 & M3).
  { intros op Hop. apply in_app_or in Hop. destruct Hop as [Hop | [<- | [<- | []]]]; [exact (H op Hop) | eauto 6 | eauto 6]. }
  { rewrite crun_app, R. cbn [rbind crun cstep]. rewrite E1. cbn [rbind rmap snd]. rewrite E2. reflexivity. }
  assert (L1 := get_settles _ _ _ _ _ _ E1). apply (step_lookup _ _ _ _ st2 _ (GetColor (body_obj b2))) in L1; [ | cbn [cstep]; rewrite E2; reflexivity | discriminate].
  assert (L2 := get_settles _ _ _ _ _ _ E2).
  assert (Q : forall b c, ~ own_color m nm (body_obj b) -> lookup e nm (body_obj b) st2 = Some c -> In (b, c) A).
  { intros b c Ob L. apply (M2 b c Ob). unfold lookup in L. cbn [get_parent_body body_obj frame_body] in L. fold (body_obj b) in L. rewrite (M3 b Ob) in L. destruct (c_map st2 (KObj (body_obj b))); [exact L | discriminate]. }
  assert (A1 := Q _ _ O1 L1). assert (A2 := Q _ _ O2 L2). intros <-.
  assert (Ds : NoDup (map snd A)). { rewrite Ep in Dp. apply NoDup_rev in Dp. rewrite rev_app_distr, rev_involutive in Dp. clear - Dp. revert Dp. generalize (rev (c_palette st2)). induction (map snd A); cbn; intros l' D; [constructor | ]. inversion D; subst. constructor; [intros Q; apply H1; apply in_or_app; now left | exact (IHl _ H2)]. }
  clear - A1 A2 Ds Nb. induction A as [ | (b, c) A IH]; [destruct A1 | ]. cbn in Ds. inversion Ds as [ | ? ? D1 D2]; subst. destruct A1 as [A1 | A1], A2 as [A2 | A2].
  - congruence.
  - injection A1 as -> ->. apply D1. change c1 with (snd (b2, c1)). now apply in_map.
  - injection A2 as -> ->. apply D1. change c1 with (snd (b1, c1)). now apply in_map.
  - exact (IH A1 A2 D2).
Qed.
Print Assumptions C58_distinct.

(** when the palette is exhausted, the colours repeat: nb_colors = 0 *)
Example C58_exhausted : forall e nm, exists st0 st1 st2, new_colors [] 0 = Ok st0 /\ get_color e nm (body_obj 1) st0 = Ok ((1, 1, 1), st1) /\ get_color e nm (body_obj 2) st1 = Ok ((1, 1, 1), st2).
Proof.
  intros e nm. assert (V : color_ok (1, 1, 1) = true) by (apply color_ok_valid; unfold valid_rgb; lra).
  exists (Colors [] (fun _ => None)), (Colors [] (fun k => if ckey_eq_dec k (KObj (body_obj 1)) then Some (1, 1, 1) else None)). eexists. split; [reflexivity | ].
  split; rewrite get_lookup; unfold lookup; cbn [c_map get_parent_body body_obj frame_body].
  - cbn [rbind generate_color rev c_palette]. unfold set_color. rewrite V. reflexivity.
  - repeat (destruct (ckey_eq_dec _ _); [discriminate | ]). cbn [rbind generate_color rev c_palette]. unfold set_color. rewrite V. reflexivity.
Qed.
(** a history meeting the hypotheses: a dict gives a colour to the name of frame 0 of body 1, two bodies are coloured in turn *)
Example C58_witness : let e := Env 0 (fun _ => 1%nat) (fun _ => 0%nat) (fun _ => FSub 1) (fun _ => []) (fun _ => 0%nat) in
  let nm := fun o => match o with OFrame (FSub 0) => Some "a"%string | _ => None end in
  let m := [(KName (Some "a"%string), (1, 0, 0))] in
  exists st0 st, new_colors m 20 = Ok st0 /\ crun e nm [GetColor (OFrame (FSub 0)); GetColor (OShape 3); GetColor (body_obj 2)] st0 = Ok st /\
    of_body e (OFrame (FSub 0)) 1 /\ of_body e (OShape 3) 1 /\ own_color m nm (OFrame (FSub 0)) /\ ~ own_color m nm (OShape 3) /\
    ~ own_color m nm (body_obj 1) /\ ~ own_color m nm (body_obj 2) /\
    (exists st', get_color e nm (OFrame (FSub 0)) st = Ok ((1, 0, 0), st')) /\
    (exists c st', get_color e nm (OShape 3) st = Ok (c, st') /\ get_color e nm (body_obj 1) st' = Ok (c, st') /\ c <> (1, 0, 0)).
Proof.
  intros e nm m. assert (F : Forall (fun x => valid_rgb (snd x)) m) by (repeat constructor; cbn; lra).
  destruct (new_ok m 20 F) as (st0 & N & L & D & V & K). assert (A0 := new_all_valid _ _ _ N). exists st0.
  assert (P1 : of_body e (OFrame (FSub 0)) 1) by (left; exists (FSub 0); auto). assert (P2 : of_body e (OShape 3) 1) by (right; exists 3%nat; auto). assert (Pb : forall b, of_body e (body_obj b) b) by (intros b; left; exists (FBody b); auto).
  destruct (get_valid e nm _ _ st0 A0 P1) as (c1 & st1 & E1 & _). assert (A1 : all_valid st1) by (apply (step_valid e nm (GetColor (OFrame (FSub 0))) st0 st1 A0); cbn [cstep]; rewrite E1; reflexivity).
  destruct (get_valid e nm _ _ st1 A1 P2) as (c2 & st2 & E2 & _). assert (A2 : all_valid st2) by (apply (step_valid e nm (GetColor (OShape 3)) st1 st2 A1); cbn [cstep]; rewrite E2; reflexivity).
  destruct (get_valid e nm _ _ st2 A2 (Pb 2%nat)) as (c3 & st3 & E3 & _). exists st3. split; [exact N | ].
  assert (R : crun e nm [GetColor (OFrame (FSub 0)); GetColor (OShape 3); GetColor (body_obj 2)] st0 = Ok st3) by (cbn [crun cstep]; rewrite E1; cbn [rmap snd rbind]; rewrite E2; cbn [rmap snd rbind]; rewrite E3; reflexivity).
  split; [exact R | ]. split; [exact P1 | ]. split; [exact P2 | ].
  assert (No : forall o, nm o = None -> ~ own_color m nm o) by (intros o Ho (k & c & [Q | []] & [-> | ->]); rewrite ?Ho in Q; discriminate).
  split; [exists (KName (Some "a"%string)), (1, 0, 0); split; [now left | now right] | ]. do 3 (split; [apply No; reflexivity | ]).
  assert (G1 : c_map st0 (KName (Some "a"%string)) = Some (1, 0, 0)). { destruct (K (KName (Some "a"%string))) as (K1 & K2). destruct (c_map st0 _) as [c | ] eqn:Ec; [ | exfalso; apply (proj2 K1); [now left | reflexivity]]. destruct (K2 c eq_refl) as [Q | []]. injection Q as <-. reflexivity. }
  assert (G2 : c_map st0 (KObj (OFrame (FSub 0))) = None). { clear G1. destruct (c_map st0 (KObj (OFrame (FSub 0)))) as [c | ] eqn:Ec; [ | reflexivity]. destruct (K (KObj (OFrame (FSub 0)))) as (_ & K2). destruct (K2 c Ec) as [Q | []]. discriminate. }
  assert (C1 : c1 = (1, 0, 0)). { rewrite get_lookup in E1. unfold lookup in E1. rewrite G2 in E1. cbn [nm] in E1. rewrite G1 in E1. injection E1 as <- _. reflexivity. } subst c1.
  split. { exists st3. apply (C58_stable e nm _ _ _ _ [GetColor (OShape 3); GetColor (body_obj 2)] _ E1). { intros k c [Q | [Q | []]]; discriminate. } cbn [crun cstep]. rewrite E2. cbn [rmap snd rbind]. rewrite E3. reflexivity. }
  destruct (C58_shared e nm m 20 [GetColor (OFrame (FSub 0)); GetColor (OShape 3); GetColor (body_obj 2)] st0 st3 (OShape 3) (OShape 3) 1 N) as (c & st' & Gs & _ & Gb); [ | exact R | exact P2 | exact P2 | now apply No | now apply No | ].
  { intros op [<- | [<- | [<- | []]]]; eauto. }
  exists c, st'. split; [exact Gs | ]. split; [exact Gb | ]. assert (Gs3 := C58_stable e nm _ _ _ _ [GetColor (body_obj 2)] st3 E2 ltac:(intros k c' [Q | []]; discriminate) ltac:(cbn [crun cstep]; rewrite E3; reflexivity)).
  rewrite Gs3 in Gs. injection Gs as <- <-. destruct (get_cases _ _ _ _ _ _ E2) as [(Lk & _) | (b & st1' & _ & _ & _ & _ & Gn & _)].
  - assert (st1 = st0) by (rewrite get_lookup in E1; unfold lookup in E1; rewrite G2 in E1; cbn [nm] in E1; rewrite G1 in E1; injection E1 as <-; reflexivity). subst st1.
    exfalso. assert (Z : forall k, k <> KName (Some "a"%string) -> c_map st0 k = None). { intros k Nk. destruct (c_map st0 k) as [c | ] eqn:Ec; [ | reflexivity]. destruct (K k) as (_ & K2). destruct (K2 c Ec) as [Q | []]. congruence. }
    unfold lookup in Lk. cbn in Lk. rewrite !Z in Lk by discriminate. discriminate.
  - assert (st1 = st0) by (rewrite get_lookup in E1; unfold lookup in E1; rewrite G2 in E1; cbn [nm] in E1; rewrite G1 in E1; injection E1 as <-; reflexivity). subst st1.
    unfold generate_color in Gn. assert (Ip : In c2 (c_palette st0)). { rewrite in_rev. destruct (rev (c_palette st0)) as [ | c0 r] eqn:Er; [exfalso; assert (length (rev (c_palette st0)) = 0%nat) by (rewrite Er; reflexivity); rewrite rev_length, L in *; discriminate | ]. injection Gn as -> _. now left. }
    unfold new_colors in N. destruct (palette_ok 20) as (p & Ep & _). rewrite Ep in N. cbn [rbind] in N. destruct (set_colors_ok m (Colors p (fun _ => None)) F) as (st0' & N' & Pp & _). rewrite N in N'. injection N' as <-. cbn in Pp. rewrite Pp in Ip.
    assert (W : forall l q, rmapM (fun k => hsv_to_rgb (360 / INR 20 * INR k) (9 / 10) (9 / 10)) l = Ok q -> ~ In (1, 0, 0) q).
    { clear. induction l as [ | k l IH]; cbn [rmapM]; intros q E; [injection E as <-; intros [] | ]. destruct (C57_valid (360 / INR 20 * INR k) (9 / 10) (9 / 10)) as (r & g & b & Ek & _ & Mx & _); [lra | lra | ]. rewrite Ek in E. cbn [rbind] in E. destruct (rmapM _ l) as [q' | ] eqn:Eq; [ | discriminate]. injection E as <-.
      intros [Q | Q]; [ | exact (IH _ eq_refl Q)]. injection Q as -> -> ->. unfold Rmax in Mx. destruct (Rle_dec 0 0), (Rle_dec 1 0); lra. }
    intros ->. exact (W _ _ Ep Ip).
Qed.
