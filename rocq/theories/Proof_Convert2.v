(** Proofs for C93: the traversal. *)
From Coq Require Import Lia.
From Verif Require Import Spec_Convert Proof_Tree Proof_World Proof_World2 Proof_World3 Proof_Dofs Proof_World4 Proof_Convert.
Import ListNotations.
Open Scope nat_scope.

(** what is kept from a heap to another: children but of [PB], parents but of [PP], frames but of [PJ] *)
Definition keeps (h h' : heap) (PB PP PJ : nat -> Prop) : Prop :=
  (forall b, ~ PB b -> childrenjoints h' b = childrenjoints h b) /\ (forall b, ~ PP b -> parentjoint h' b = parentjoint h b) /\
  (forall j, ~ PJ j -> jframes h' j = jframes h j).
Lemma keeps_refl h PB PP PJ : keeps h h PB PP PJ.
Proof. repeat split. Qed.
Lemma keeps_trans h1 h2 h3 PB PP PJ QB QP QJ (RB RP RJ : nat -> Prop) : keeps h1 h2 PB PP PJ -> keeps h2 h3 QB QP QJ ->
  (forall b, PB b \/ QB b -> RB b) -> (forall b, PP b \/ QP b -> RP b) -> (forall b, PJ b \/ QJ b -> RJ b) -> keeps h1 h3 RB RP RJ.
Proof.
  intros (A1 & A2 & A3) (B1 & B2 & B3) C1 C2 C3. split; [|split]; intros b N.
  - rewrite B1, A1; [reflexivity| |]; intros X; apply N, C1; auto.
  - rewrite B2, A2; [reflexivity| |]; intros X; apply N, C2; auto.
  - rewrite B3, A3; [reflexivity| |]; intros X; apply N, C3; auto.
Qed.
Lemma rep_keeps e (h h' : heap) PB PP PJ t : keeps h h' PB PP PJ -> rep e h t ->
  (forall b, In b (bodies t) -> ~ PB b) -> (forall b, In b (tailb t) -> ~ PP b) -> (forall j, In j (joints t) -> ~ PJ j) -> rep e h' t.
Proof. intros (A & B & C) R X Y Z. apply (rep_ext e h); auto. Qed.

Section P.
  Variables (e : env) (eigvals : m6 -> list R) (J : nat -> jstate) (nm : obj -> option string) (I : bids) (fuel : nat).
  Notation serial := (serial J nm). Notation serial_kid := (serial_kid J nm).

  Lemma in_joints_kid b ks j s i : In (j, s) ks -> i = j \/ In i (joints s) -> In i (joints (Node b ks)).
  Proof. intros Ik X. rewrite joints_eq. apply in_flat_map. exists (j, s). split; [exact Ik|]. destruct X as [->|X]; [left; reflexivity|right; exact X]. Qed.
  Lemma branch_joints js : forall ms s k, branch js ms s = Some k -> fst k :: joints (snd k) = js ++ joints s /\ bodies (snd k) = ms ++ bodies s /\ length js = S (length ms).
  Proof.
    induction js as [|j js IH]; intros ms s k E; [destruct ms; discriminate E|].
    destruct ms as [|m ms].
    - destruct js; [|discriminate E]. injection E as <-. repeat split.
    - assert (E' : option_map (fun k => (j, Node m [k])) (branch js ms s) = Some k) by (destruct js; exact E).
      destruct (branch js ms s) as [k'|] eqn:Eb; [|discriminate E']. injection E' as <-. destruct (IH _ _ _ Eb) as (A & B & C). destruct k' as [j' s']. cbn [fst snd] in *.
      rewrite joints_eq, bodies_eq. cbn [flat_map fst snd]. rewrite !app_nil_r, A, B. cbn [length]. rewrite C. repeat split.
  Qed.
  Lemma in_series_ext h h' f1 js : forall f0 ms, (forall j, In j js -> jframes h' j = jframes h j) -> in_series h f0 js ms f1 -> in_series h' f0 js ms f1.
  Proof.
    induction js as [|j js IH]; intros f0 ms F S0; [destruct ms; exact S0|]. destruct ms as [|m ms].
    - destruct js; [|exact S0]. cbn in *. rewrite F by (left; reflexivity). exact S0.
    - assert (S1 : jframes h j = Some (f0, FBody m) /\ in_series h (FBody m) js ms f1) by (destruct js; exact S0). destruct S1 as [S1 S2].
      assert (S3 : in_series h' (FBody m) js ms f1) by (apply IH; [intros i Ii; apply F; right; exact Ii|exact S2]).
      cbn [in_series]. destruct js; (split; [rewrite F by (left; reflexivity); exact S1|exact S3]).
  Qed.
  Lemma serial_ext h h0 h' h'' new new' t : forall t', serial h h' new t t' ->
    (forall j, In j (joints t) -> jframes h0 j = jframes h j) -> (forall j, In j (joints t ++ joints t') -> jframes h'' j = jframes h' j) -> incl new new' ->
    serial h0 h'' new' t t'.
  Proof.
    induction t as [b ks IH] using tree_rect_in. intros t' S0 F0 F1 In0. inversion S0 as [? ? ks' Fk]; subst. constructor.
    assert (X : forall l l', incl l ks -> incl l' ks' -> Forall2 (serial_kid h h' new) l l' -> Forall2 (serial_kid h0 h'' new') l l').
    { intros l l' Il Il' F2. induction F2 as [|[j s] k l l' Hk Ht IHt]; [constructor|]. constructor; [|apply IHt; [intros x Ix; apply Il; right; exact Ix|intros x Ix; apply Il'; right; exact Ix]].
      assert (Ik : In (j, s) ks) by (apply Il; left; reflexivity). assert (Ik' : In k ks') by (apply Il'; left; reflexivity).
      assert (G0 : forall i, i = j \/ In i (joints s) -> jframes h0 i = jframes h i) by (intros i Ii; apply F0, (in_joints_kid b ks j s i Ik Ii)).
      assert (G1 : forall i, i = j \/ In i (joints s) -> jframes h'' i = jframes h' i) by (intros i Ii; apply F1, in_or_app; left; apply (in_joints_kid b ks j s i Ik Ii)).
      assert (G2 : forall i, i = fst k \/ In i (joints (snd k)) -> jframes h'' i = jframes h' i).
      { intros i Ii. apply F1, in_or_app; right. destruct k as [k1 k2]. apply (in_joints_kid b ks' k1 k2 i Ik' Ii). }
      inversion Hk as [? ? s' Hn Fj Hs|? ? s' js ms f0 f1 ? Hn Fj Nh Nb Sr Jn Hs Br]; subst.
      - apply serial_keep; [exact Hn|rewrite G1, G0 by (left; reflexivity); exact Fj|]. apply (IH j s Ik); [exact Hs|intros i Ii; apply G0; right; exact Ii| |exact In0].
        intros i Ii. apply in_app_or in Ii. destruct Ii as [Ii|Ii]; [apply G1; right; exact Ii|apply G2; right; exact Ii].
      - destruct (branch_joints _ _ _ _ Br) as (Bj & _ & _).
        assert (G3 : forall i, In i (js ++ joints s') -> jframes h'' i = jframes h' i).
        { intros i Ii. apply G2. rewrite <- Bj in Ii. destruct Ii as [<-|Ii]; auto. }
        apply (serial_split J nm _ _ _ j s s' js ms f0 f1 k Hn).
        + rewrite G0 by (left; reflexivity). exact Fj.
        + clear - Nh In0. induction Nh as [|i x l l' H1 H2 IH']; constructor; [apply In0; exact H1|exact IH'].
        + clear - Nb In0. induction Nb; constructor; auto.
        + apply (in_series_ext h'); [intros i Ii; apply G3, in_or_app; left; exact Ii|exact Sr].
        + rewrite G1 by (left; reflexivity). exact Jn.
        + apply (IH j s Ik); [exact Hs|intros i Ii; apply G0; right; exact Ii| |exact In0].
          intros i Ii. apply in_app_or in Ii. destruct Ii as [Ii|Ii]; [apply G1; right; exact Ii|apply G3, in_or_app; right; exact Ii].
        + exact Br. }
    apply (X ks ks' (incl_refl _) (incl_refl _) Fk).
  Qed.

  (** the loop of [_traverse] *)
  Fixpoint conv_loop (n b m idx : nat) (st : cst) {struct m} : cst * res unit :=
    match m with
    | O => (st, Ok tt)
    | S m' =>
        match nth_error (childrenjoints (c_h st) b) idx with
        | None => (st, Ok tt)
        | Some j =>
            match child_body e (c_h st) j with
            | Err x => (st, Err x)
            | Ok c =>
                match conv_joint e eigvals J nm I fuel j st with
                | (st1, Err x) => (st1, Err x)
                | (st1, Ok _) =>
                    match conv_traverse e eigvals J nm I fuel n c st1 with
                    | (st2, Err x) => (st2, Err x)
                    | (st2, Ok _) => conv_loop n b m' (S idx) st2
                    end
                end
            end
        end
    end.
  Lemma traverse_eq n b st : conv_traverse e eigvals J nm I fuel (S n) b st = conv_loop n b (length (childrenjoints (c_h st) b)) 0 st.
  Proof.
    cbn [conv_traverse]. generalize (length (childrenjoints (c_h st) b)) as m. generalize 0 as idx. intros idx m. revert idx st.
    induction m as [|m IH]; intros idx st; [reflexivity|]. cbn [conv_loop].
    destruct (nth_error (childrenjoints (c_h st) b) idx) as [j|]; [|reflexivity]. destruct (child_body e (c_h st) j) as [c|]; [|reflexivity].
    destruct (conv_joint e eigvals J nm I fuel j st) as [st1 [u|]]; [|reflexivity].
    destruct (conv_traverse e eigvals J nm I fuel n c st1) as [st2 [u2|]]; [|reflexivity]. apply IH.
  Qed.

  (** ** One joint *)
  Definition newb (nb nb' x : nat) : Prop := exists k, nb <= k < nb' /\ x = xb I k.
  Definition newj (nj nj' x : nat) : Prop := exists k, nj <= k < nj' /\ x = xj I k.
  Definition free_ids (h : heap) (nb nj : nat) : Prop :=
    (forall k, nb <= k -> unused_body h (xb I k) /\ xb I k <> ground e) /\ (forall k, nj <= k -> unused_joint h (xj I k)).
  Hypothesis Ib : forall i j, xb I i = xb I j -> i = j.
  Hypothesis Ij : forall i j, xj I i = xj I j -> i = j.
  Hypothesis Hm : ismassmatrix eigvals mid_mass true = true.

  Lemma plan_hinges k : map fst (conv_plan k) = hinges_of k /\ map snd (conv_plan k) = map suffix_of (hinges_of k).
  Proof. destruct k; split; reflexivity. Qed.
  Lemma map_inj_nodup (f : nat -> nat) l : (forall i j, f i = f j -> i = j) -> NoDup l -> NoDup (map f l).
  Proof.
    intros Inj. induction 1 as [|x l N _ IH]; constructor; [|exact IH]. intros X. apply in_map_iff in X. destruct X as (y & E & Iy). apply Inj in E. subst y. exact (N Iy).
  Qed.

  Lemma joint_ok g (h : heap) nb nj new gt A B j f0 f1 s :
    reachable 0%R e g h -> free_ids h nb nj -> rep e h gt -> root gt = ground e -> In (frame_body e f0) (bodies gt) -> length (bodies gt) + 2 <= fuel ->
    childrenjoints h (frame_body e f0) = A ++ j :: B -> ~ In j A -> jframes h j = Some (f0, f1) -> parentjoint h (frame_body e f1) = Some j ->
    rep e h s -> root s = frame_body e f1 -> frame_body e f0 <> ground e -> ~ In (frame_body e f0) (bodies s) ->
    exists h' nb' nj' new' js ms gt', conv_joint e eigvals J nm I fuel j (CS h nb nj new) = (CS h' nb' nj' (new ++ new'), Ok tt) /\
      nb <= nb' /\ nj <= nj' /\ reachable 0%R e g h' /\ free_ids h' nb' nj' /\
      (rep e h' gt' /\ root gt' = ground e /\ length (bodies gt') <= length (bodies gt) + 2 /\ incl (bodies gt) (bodies gt')) /\
      length js = S (length ms) /\ childrenjoints h' (frame_body e f0) = A ++ hd 0 js :: B /\
      (forall m, In m ms -> childrenjoints h' m = map l_joint (filter (fun l => Nat.eqb m (l_from e l)) (links f0 js ms f1))) /\
      (forall g0 i g1, In (g0, i, g1) (links f0 js ms f1) -> jframes h' i = Some (g0, g1) /\ parentjoint h' (frame_body e g1) = Some i) /\
      keeps h h' (fun b => b = frame_body e f0 \/ newb nb nb' b) (fun b => b = frame_body e f1 \/ newb nb nb' b) (fun i => i = j \/ newj nj nj' i) /\
      NoDup (frame_body e f0 :: ms) /\ NoDup js /\ (forall m, In m ms -> newb nb nb' m) /\
      ((js = [j] /\ ms = [] /\ hinges_of (jt (J j)) = [] /\ h' = h) \/
       (hinges_of (jt (J j)) <> [] /\ jframes h' j = None /\ (forall i, In i js -> newj nj nj' i) /\
        Forall2 (new_hinge nm new' j) js (hinges_of (jt (J j))) /\ Forall (fun m => In (MkBody m None mid_mass) new') ms)).
  Proof.
    intros Re [Fb Fj] Rg Eg Ig Hf Ch Na Fr Pa Rs Es Ng N0. unfold conv_joint. cbn [c_h c_nb c_nj c_new]. rewrite Fr.
    destruct (Nat.eqb_spec (frame_body e f0) (ground e)) as [X|_]; [contradiction|].
    destruct (plan_hinges (jt (J j))) as [P1 P2].
    destruct (conv_plan (jt (J j))) as [|p ps] eqn:Pl.
    - cbn [map] in P1. exists h, nb, nj, [], [j], [], gt. rewrite app_nil_r. split; [reflexivity|]. split; [lia|]. split; [lia|]. split; [exact Re|]. split; [split; assumption|].
      split; [split; [exact Rg|split; [exact Eg|split; [lia|apply incl_refl]]]|]. split; [reflexivity|]. split; [exact Ch|]. split; [intros m []|].
      split; [intros g0 i g1 [E|[]]; injection E as <- <- <-; auto|]. split; [apply keeps_refl|]. split; [constructor; [intros []|constructor]|]. split; [constructor; [intros []|constructor]|].
      split; [intros m []|]. left. auto.
    - assert (Nn : hinges_of (jt (J j)) <> []) by (rewrite <- P1; discriminate). rewrite <- Pl in *. clear p ps Pl. rewrite Hm. cbn [negb].
      set (n := length (conv_plan (jt (J j)))) in *.
      assert (Hn : n = length (hinges_of (jt (J j)))) by (unfold n; rewrite <- P1, map_length; reflexivity).
      set (js := map (xj I) (seq nj n)). set (ms := map (xb I) (seq nb (n - 1))).
      assert (N2 : 2 <= n <= 3).
      { rewrite Hn. clear - Nn. destruct (jt (J j)); cbn in *; try lia; destruct (Nn eq_refl). }
      assert (Lj : length js = n) by (unfold js; rewrite map_length, seq_length; reflexivity).
      assert (Lm : length ms = n - 1) by (unfold ms; rewrite map_length, seq_length; reflexivity).
      assert (L : length js = S (length ms)) by lia.
      assert (Nj : NoDup js) by (apply map_inj_nodup; [exact Ij|apply seq_NoDup]).
      assert (Nm : NoDup ms) by (apply map_inj_nodup; [exact Ib|apply seq_NoDup]).
      assert (Wj : forall i, In i js -> newj nj (nj + n) i) by (intros i Ii; apply in_map_iff in Ii; destruct Ii as (k & <- & Ik); apply in_seq in Ik; exists k; split; [lia|reflexivity]).
      assert (Wm : forall m, In m ms -> newb nb (nb + (n - 1)) m) by (intros i Ii; apply in_map_iff in Ii; destruct Ii as (k & <- & Ik); apply in_seq in Ik; exists k; split; [lia|reflexivity]).
      assert (Uj : forall i, In i js -> unused_joint h i) by (intros i Ii; destruct (Wj i Ii) as (k & Hk & ->); apply Fj; lia).
      assert (Um : forall m, In m ms -> unused_body h m) by (intros i Ii; destruct (Wm i Ii) as (k & Hk & ->); apply Fb; lia).
      assert (Gm : ~ In (ground e) ms) by (intros X; destruct (Wm _ X) as (k & Hk & Ek); destruct (Fb k) as [_ Q]; [lia|]; exact (Q (eq_sym Ek))).
      assert (M0 : ~ In (frame_body e f0) ms) by (intros X; destruct (Um _ X) as [C _]; rewrite C in Ch; destruct A; discriminate Ch).
      destruct (replace_ok e g fuel h j A B f0 f1 js ms s gt Re Ch Na Fr Pa Rs Es L Nj (fun i Ii => or_intror (Uj i Ii)) Nm Um Rg Eg Ig) as (h' & Er & Re' & Sp & gt' & Rg' & Eg' & Lg & Ic); [lia|exact Gm|].
      rewrite Er. eexists h', (nb + (n - 1)), (nj + n), _, js, ms, gt'. split; [reflexivity|]. split; [lia|]. split; [lia|]. split; [exact Re'|].
      assert (Dj : forall k, nj + n <= k -> ~ In (xj I k) js) by (intros k Hk X; destruct (Wj _ X) as (k' & Hk' & Ek); apply Ij in Ek; lia).
      assert (Dm : forall k, nb + (n - 1) <= k -> ~ In (xb I k) ms) by (intros k Hk X; destruct (Wm _ X) as (k' & Hk' & Ek); apply Ib in Ek; lia).
      split.
      { split.
        - intros k Hk. destruct (Fb k) as [[Uc Up] Ug]; [lia|]. split; [|exact Ug]. split.
          + rewrite (sp_others _ _ _ _ _ _ _ _ _ _ Sp); [exact Uc|]. intros [X|X]; [|exact (Dm k Hk X)]. rewrite X, Uc in Ch. destruct A; discriminate Ch.
          + rewrite (sp_parent _ _ _ _ _ _ _ _ _ _ Sp); [exact Up|exact (Dm k Hk)|]. intros X. rewrite X in Up. rewrite Up in Pa. discriminate Pa.
        - intros k Hk. unfold unused_joint. rewrite (sp_frames _ _ _ _ _ _ _ _ _ _ Sp) by exact (Dj k Hk). destruct (Nat.eqb _ j); [reflexivity|]. apply Fj. lia. }
      split; [split; [exact Rg'|split; [exact Eg'|split; [lia|exact Ic]]]|]. split; [exact L|]. split; [exact (sp_children _ _ _ _ _ _ _ _ _ _ Sp)|].
      split; [exact (sp_mids _ _ _ _ _ _ _ _ _ _ Sp)|]. split; [exact (sp_links _ _ _ _ _ _ _ _ _ _ Sp)|].
      split.
      { split; [|split].
        - intros b Nb. apply (sp_others _ _ _ _ _ _ _ _ _ _ Sp). intros [X|X]; apply Nb; [left; exact (eq_sym X)|right; exact (Wm _ X)].
        - intros b Nb. apply (sp_parent _ _ _ _ _ _ _ _ _ _ Sp); [intros X; apply Nb; right; exact (Wm _ X)|intros X; apply Nb; left; exact X].
        - intros i Ni. rewrite (sp_frames _ _ _ _ _ _ _ _ _ _ Sp) by (intros X; apply Ni; right; exact (Wj _ X)). destruct (Nat.eqb_spec i j) as [->|]; [destruct Ni; left; reflexivity|reflexivity]. }
      split; [constructor; assumption|]. split; [exact Nj|]. split; [exact Wm|]. right. split; [exact Nn|]. split.
      { rewrite (sp_frames _ _ _ _ _ _ _ _ _ _ Sp); [rewrite Nat.eqb_refl; reflexivity|]. intros X. specialize (Uj _ X). unfold unused_joint in Uj. rewrite Uj in Fr. discriminate Fr. }
      split; [exact Wj|]. split.
      + rewrite <- P1.
        assert (Q : forall js' pl, length js' = length pl -> map snd pl = map suffix_of (map fst pl) -> forall extra, incl (map (fun x => MkJoint (fst x) (option_map (fun s => (s ++ snd (snd x))%string) (nm (OJoint j))) (fst (snd x))) (combine js' pl)) extra ->
          Forall2 (new_hinge nm extra j) js' (map fst pl)).
        { clear. induction js' as [|i js' IH]; intros [|[k sx] pl] L S0 extra In0; cbn in L; try discriminate; [constructor|]. cbn [map fst snd] in *. injection S0 as S1 S0. constructor.
          - unfold new_hinge. apply In0. left. cbn [fst snd]. rewrite S1. reflexivity.
          - apply IH; [now injection L|exact S0|]. intros x Ix. apply In0. right; exact Ix. }
        apply Q; [exact Lj|rewrite P2, P1; reflexivity|]. intros x Ix. apply in_or_app. left. exact Ix.
      + apply Forall_forall. intros m Im. apply in_or_app. right. apply in_map_iff. exists m. split; [reflexivity|exact Im].
  Qed.

  (** ** The traversal *)
  Definition conv_post (g : nat -> nat -> R) (h : heap) (nb nj : nat) (s gt : tree) (h' : heap) (nb' nj' : nat) (new' : list cmd) (s' gt' : tree) : Prop :=
    (nb <= nb' /\ nj <= nj') /\ reachable 0%R e g h' /\ free_ids h' nb' nj' /\
    (rep e h' gt' /\ root gt' = ground e /\ length (bodies gt') <= length (bodies gt) + 2 * length (joints s) /\ incl (bodies gt) (bodies gt')) /\
    root s' = root s /\ serial h h' new' s s' /\
    keeps h h' (fun b => In b (bodies s) \/ newb nb nb' b) (fun b => In b (tailb s) \/ newb nb nb' b) (fun i => In i (joints s) \/ newj nj nj' i) /\
    (forall b, In b (tailb s') -> In b (tailb s) \/ newb nb nb' b) /\ (forall i, In i (joints s') -> In i (joints s) \/ newj nj nj' i).

  Lemma tail_used (h : heap) nb nj t x nb1 nb2 : free_ids h nb nj -> nb <= nb1 -> rep e h t -> In x (tailb t) -> ~ newb nb1 nb2 x.
  Proof.
    intros [Fb _] Le Rt Ix (k & Hk & ->). destruct (rep_edge_body e h t _ Rt Ix) as (p & j & [_ P] & _). destruct (Fb k) as [[_ Q] _]; [lia|]. rewrite Q in P. discriminate P.
  Qed.
  Lemma parent_used (h : heap) nb nj x j nb1 nb2 : free_ids h nb nj -> nb <= nb1 -> parentjoint h x = Some j -> ~ newb nb1 nb2 x.
  Proof. intros [Fb _] Le P (k & Hk & ->). destruct (Fb k) as [[_ Q] _]; [lia|]. rewrite Q in P. discriminate P. Qed.
  Lemma child_used (h : heap) nb nj x nb1 nb2 : free_ids h nb nj -> nb <= nb1 -> childrenjoints h x <> [] -> ~ newb nb1 nb2 x.
  Proof. intros [Fb _] Le P (k & Hk & ->). destruct (Fb k) as [[Q _] _]; [lia|]. exact (P Q). Qed.
  Lemma frames_used (h : heap) nb nj i f nj1 nj2 : free_ids h nb nj -> nj <= nj1 -> jframes h i = Some f -> ~ newj nj1 nj2 i.
  Proof. intros [_ Fj] Le P (k & Hk & ->). specialize (Fj k ltac:(lia)). unfold unused_joint in Fj. rewrite Fj in P. discriminate P. Qed.
  Lemma rep_frames (h : heap) t i : rep e h t -> In i (joints t) -> exists f, jframes h i = Some f.
  Proof. intros Rt Ii. destruct (rep_joint_edge e h t i Rt Ii) as (p & c & [(g0 & g1 & G & _) _] & _). eauto. Qed.
  Lemma newb_le a b a' b' x : a' <= a -> b <= b' -> newb a b x -> newb a' b' x.
  Proof. intros L1 L2 (k & Hk & ->). exists k. split; [lia|reflexivity]. Qed.
  Lemma newj_le a b a' b' x : a' <= a -> b <= b' -> newj a b x -> newj a' b' x.
  Proof. intros L1 L2 (k & Hk & ->). exists k. split; [lia|reflexivity]. Qed.
  Lemma newb_apart a b c d x : b <= c -> newb a b x -> ~ newb c d x.
  Proof. intros L (k & Hk & ->) (k' & Hk' & E). apply Ib in E. lia. Qed.
  Lemma newj_apart a b c d x : b <= c -> newj a b x -> ~ newj c d x.
  Proof. intros L (k & Hk & ->) (k' & Hk' & E). apply Ij in E. lia. Qed.
  Lemma links_in js : forall f0 ms f1 g0 i g1, length js = S (length ms) -> In (g0, i, g1) (links f0 js ms f1) ->
    In i js /\ In (frame_body e g0) (frame_body e f0 :: ms) /\ (frame_body e g1 = frame_body e f1 \/ In (frame_body e g1) ms).
  Proof.
    intros f0 ms f1 g0 i g1 L Il. split; [|split].
    - rewrite <- (links_joints js f0 ms f1 L). apply in_map_iff. exists (g0, i, g1). split; [reflexivity|exact Il].
    - destruct (links_from e js f0 ms f1 (g0, i, g1) L Il) as [X|X]; [left; symmetry; exact X|right; exact X].
    - assert (X : In (l_to e (g0, i, g1)) (ms ++ [frame_body e f1])) by (rewrite <- (links_to e js f0 ms f1 L); apply in_map; exact Il).
      unfold l_to in X. cbn [snd] in X. apply in_app_or in X. destruct X as [X|[X|[]]]; auto.
  Qed.
  Lemma links_of_joint js : forall f0 ms f1 i, length js = S (length ms) -> In i js -> exists g0 g1, In (g0, i, g1) (links f0 js ms f1).
  Proof.
    intros f0 ms f1 i L Ii. rewrite <- (links_joints js f0 ms f1 L) in Ii. apply in_map_iff in Ii. destruct Ii as ([[g0 i'] g1] & E & Il). cbn in E. subst i'. eauto.
  Qed.

  Lemma loop_ok g n b todo : (forall j s, In (j, s) todo -> forall h nb nj new gt, rep e h s -> ~ In (ground e) (bodies s) ->
        reachable 0%R e g h -> free_ids h nb nj -> rep e h gt -> root gt = ground e -> In (root s) (bodies gt) -> length (bodies gt) + 2 * length (joints s) <= fuel ->
        exists h' nb' nj' new' s' gt', conv_traverse e eigvals J nm I fuel n (root s) (CS h nb nj new) = (CS h' nb' nj' (new ++ new'), Ok tt) /\
          rep e h' s' /\ conv_post g h nb nj s gt h' nb' nj' new' s' gt') ->
    forall done h nb nj new gt, rep e h (Node b (done ++ todo)) -> ~ In (ground e) (b :: bodies (Node b todo)) ->
      reachable 0%R e g h -> free_ids h nb nj -> rep e h gt -> root gt = ground e -> In b (bodies gt) -> length (bodies gt) + 2 * length (joints (Node b todo)) <= fuel ->
      exists h' nb' nj' new' todo' gt', conv_loop n b (length todo) (length done) (CS h nb nj new) = (CS h' nb' nj' (new ++ new'), Ok tt) /\
        rep e h' (Node b (done ++ todo')) /\ conv_post g h nb nj (Node b todo) gt h' nb' nj' new' (Node b todo') gt'.
  Proof.
    induction todo as [|[j s] todo IHt]; intros IH done h nb nj new gt RT Ng Re Fi Rg Eg Ig Hf.
    - exists h, nb, nj, [], [], gt. rewrite app_nil_r. split; [reflexivity|]. split; [exact RT|]. split; [split; lia|]. split; [exact Re|]. split; [exact Fi|].
      split; [split; [exact Rg|split; [exact Eg|split; [lia|apply incl_refl]]]|]. split; [reflexivity|]. split; [constructor; constructor|]. split; [apply keeps_refl|]. split; intros x Hx; left; exact Hx.
    - pose proof (reachable_forest 0%R e g h Re) as Fo.
      pose proof (forest_nodup e h _ Fo RT) as NT. pose proof (rep_nodup_joints e h _ RT NT) as NJ.
      pose proof (rep_inv e h _ _ RT) as [Ch Fk]. destruct (Fk j s) as [[(f0 & f1 & Fr & B0 & B1) Pa] Rs]; [apply in_or_app; right; left; reflexivity|].
      rewrite map_app in Ch. cbn [map fst] in Ch.
      assert (Hks : forall i u, In (i, u) (done ++ todo) -> In (i, u) (done ++ (j, s) :: todo)) by (intros i u X; apply in_app_or in X; apply in_or_app; destruct X as [X|X]; [left; exact X|right; right; exact X]).
      (* disjointness *)
      rewrite bodies_eq, flat_map_app in NT. cbn [flat_map snd] in NT. rewrite joints_eq, flat_map_app in NJ. cbn [flat_map fst snd] in NJ.
      assert (Nbs : ~ In b (bodies s)).
      { inversion NT as [|? ? X _]. intros Y. apply X. apply in_or_app. right. apply in_or_app. left. exact Y. }
      assert (Dks : forall i u, In (i, u) (done ++ todo) -> ~ In b (bodies u) /\ (forall x, In x (bodies u) -> ~ In x (bodies s)) /\ i <> j /\ ~ In i (joints s) /\ (forall x, In x (joints u) -> x <> j /\ ~ In x (joints s))).
      { intros i u Iu. inversion NT as [|? ? Xb Nd]; subst. rewrite (NoDup_app_iff) in Nd. destruct Nd as (_ & Nd2 & Nd3). rewrite NoDup_app_iff in Nd2. destruct Nd2 as (_ & _ & Nd4).
        rewrite NoDup_app_iff in NJ. destruct NJ as (_ & NJ2 & NJ3). cbn [app] in NJ2. inversion NJ2 as [|? ? NJ4 NJ5]; subst. rewrite NoDup_app_iff in NJ5. destruct NJ5 as (_ & _ & NJ6).
        assert (Fi1 : In (i, u) done -> forall x, In x (bodies u) -> In x (flat_map (fun jt => bodies (snd jt)) done)) by (intros X x Ix; apply in_flat_map; exists (i, u); auto).
        assert (Fi2 : In (i, u) todo -> forall x, In x (bodies u) -> In x (flat_map (fun jt => bodies (snd jt)) todo)) by (intros X x Ix; apply in_flat_map; exists (i, u); auto).
        assert (Gi1 : In (i, u) done -> forall x, x = i \/ In x (joints u) -> In x (flat_map (fun jt => fst jt :: joints (snd jt)) done)) by (intros X x Ix; apply in_flat_map; exists (i, u); split; [exact X|]; destruct Ix as [->|Ix]; [left; reflexivity|right; exact Ix]).
        assert (Gi2 : In (i, u) todo -> forall x, x = i \/ In x (joints u) -> In x (flat_map (fun jt => fst jt :: joints (snd jt)) todo)) by (intros X x Ix; apply in_flat_map; exists (i, u); split; [exact X|]; destruct Ix as [->|Ix]; [left; reflexivity|right; exact Ix]).
        assert (Q1 : forall x, In x (bodies u) -> ~ In x (bodies s)).
        { intros x Ix Is. apply in_app_or in Iu. destruct Iu as [Iu|Iu].
          - apply (Nd3 x (Fi1 Iu x Ix)). apply in_or_app. left. exact Is.
          - exact (Nd4 x Is (Fi2 Iu x Ix)). }
        assert (Q2 : forall x, x = i \/ In x (joints u) -> x <> j /\ ~ In x (joints s)).
        { intros x Ix. apply in_app_or in Iu. destruct Iu as [Iu|Iu].
          - split; intros Y; [subst x; apply (NJ3 j (Gi1 Iu j Ix)); left; reflexivity|apply (NJ3 x (Gi1 Iu x Ix)); right; apply in_or_app; left; exact Y].
          - split; intros Y; [subst x; apply NJ4, in_or_app; right; exact (Gi2 Iu j Ix)|exact (NJ6 x Y (Gi2 Iu x Ix))]. }
        split; [|split; [exact Q1|split; [apply Q2; left; reflexivity|split; [apply Q2; left; reflexivity|intros x Ix; apply Q2; right; exact Ix]]]].
        intros X. apply Xb. apply in_or_app. apply in_app_or in Iu. destruct Iu as [Iu|Iu]; [left; exact (Fi1 Iu _ X)|right; apply in_or_app; right; exact (Fi2 Iu _ X)]. }
      assert (Njs : ~ In j (joints s)).
      { rewrite NoDup_app_iff in NJ. destruct NJ as (_ & NJ2 & _). cbn [app] in NJ2. inversion NJ2 as [|? ? X _]. intros Y. apply X, in_or_app. left. exact Y. }
      assert (Nd : ~ In j (map fst done)).
      { intros X. apply in_map_iff in X. destruct X as ([i u] & E & Iu). cbn in E. subst i. destruct (Dks j u) as (_ & _ & X & _); [apply in_or_app; left; exact Iu|]. exact (X eq_refl). }
      assert (Ns : NoDup (bodies s)) by (apply (forest_nodup e h); assumption).
      assert (Ng0 : b <> ground e) by (intros X; apply Ng; left; exact X).
      assert (Ngs : ~ In (ground e) (bodies s)) by (intros X; apply Ng; right; rewrite bodies_eq; right; cbn [flat_map snd]; apply in_or_app; left; exact X).
      assert (Lj : length (joints (Node b ((j, s) :: todo))) = S (length (joints s)) + length (joints (Node b todo))) by (rewrite !joints_eq; cbn [flat_map fst snd]; rewrite app_length; cbn [length]; lia).
      assert (TailT : forall i u x, In (i, u) (done ++ (j, s) :: todo) -> In x (bodies u) -> In x (tailb (Node b (done ++ (j, s) :: todo)))).
      { intros i u x Iu Ix. rewrite tailb_eq. apply in_flat_map. exists (i, u). auto. }
      (* the joint *)
      destruct (joint_ok g h nb nj new gt (map fst done) (map fst todo) j f0 f1 s Re Fi Rg Eg) as
        (h1 & nb1 & nj1 & new1 & js & ms & gt1 & E1 & Lb1 & Lj1 & Re1 & Fi1 & (Rg1 & Eg1 & Lg1 & Ic1) & L & C1 & Cm1 & Fl1 & K1 & Nd0 & Ndj & Wm & Alt).
      { rewrite B0; exact Ig. } { lia. } { rewrite B0; exact Ch. } { exact Nd. } { exact Fr. } { rewrite B1; exact Pa. } { exact Rs. } { symmetry; exact B1. } { rewrite B0; exact Ng0. } { rewrite B0; exact Nbs. }
      rewrite B0 in C1, K1, Nd0. rewrite B1 in K1.
      assert (Used : forall u x nb', In (fst u, snd u) (done ++ (j, s) :: todo) -> In x (bodies (snd u)) -> ~ newb nb nb' x).
      { intros u x nb' Iu Ix. apply (tail_used h nb nj _ x nb nb' Fi (le_n _) RT). apply (TailT (fst u) (snd u)); assumption. }
      assert (Us : forall x nb', In x (bodies s) -> ~ newb nb nb' x) by (intros x nb' Ix; apply (Used (j, s)); [apply in_or_app; right; left; reflexivity|exact Ix]).
      assert (Ub : forall nb', ~ newb nb nb' b) by (intros nb'; apply (child_used h nb nj b nb nb' Fi (le_n _)); rewrite Ch; destruct (map fst done); discriminate).
      assert (Rs1 : rep e h1 s).
      { apply (rep_keeps e h h1 _ _ _ s K1 Rs).
        - intros x Ix [->|X]; [exact (Nbs Ix)|exact (Us _ _ Ix X)].
        - intros x Ix [->|X].
          + rewrite bodies_tail in Ns. inversion Ns as [|? ? Y _]. exact (Y Ix).
          + apply (Us x nb1); [rewrite bodies_tail; right; exact Ix|exact X].
        - intros i Ii [->|X]; [exact (Njs Ii)|]. destruct (rep_frames h s i Rs Ii) as [f Hi]. exact (frames_used h nb nj i f nj nj1 Fi (le_n _) Hi X). }
      (* what is below *)
      destruct (IH j s (or_introl eq_refl) h1 nb1 nj1 (new ++ new1) gt1 Rs1 Ngs Re1 Fi1 Rg1 Eg1) as
        (h2 & nb2 & nj2 & new2 & s' & gt2 & E2 & Rs2 & (Lb2 & Lj2) & Re2 & Fi2 & (Rg2 & Eg2 & Lg2 & Ic2) & Er2 & Se2 & K2 & Bs2 & Js2).
      { apply Ic1. apply (below_rep e h gt _ Rg). apply (below_rep e h gt _ Rg) in Ig. apply (below_trans e h _ b); [exact Ig|].
        apply (below_step e h b j f0 f1); [rewrite Ch; apply in_or_app; right; left; reflexivity|exact Fr|rewrite B1; constructor]. }
      { lia. }
      assert (Lk1 : forall g0 i g1, In (g0, i, g1) (links f0 js ms f1) -> jframes h2 i = Some (g0, g1) /\ parentjoint h2 (frame_body e g1) = Some i).
      { intros g0 i g1 Il. destruct (Fl1 _ _ _ Il) as [F P]. destruct (links_in js f0 ms f1 g0 i g1 L Il) as (Ii & I0 & I1).
        destruct K2 as (_ & Kp & Kf). rewrite B0 in I0. rewrite B1 in I1. split.
        - rewrite Kf; [exact F|]. intros [X|X].
          + destruct (rep_joint_edge e h1 s i Rs1 X) as (p & c & [(k0 & k1 & G & G0 & _) _] & Ip & _). rewrite F in G. injection G as <- <-. rewrite <- G0 in Ip.
            destruct I0 as [X0|I0]; [rewrite <- X0 in Ip; exact (Nbs Ip)|exact (Us _ _ Ip (Wm _ I0))].
          + exact (frames_used h1 nb1 nj1 i _ nj1 nj2 Fi1 (le_n _) F X).
        - rewrite Kp; [exact P|]. intros [X|X].
          + destruct I1 as [I1|I1].
            * rewrite I1 in X. rewrite bodies_tail in Ns. inversion Ns as [|? ? Y _]. exact (Y X).
            * apply (Us (frame_body e g1) nb1); [rewrite bodies_tail; right; exact X|exact (Wm _ I1)].
          + exact (parent_used h1 nb1 nj1 _ i nb1 nb2 Fi1 (le_n _) P X). }
      assert (Cm2 : forall m, In m ms -> childrenjoints h2 m = map l_joint (filter (fun l => Nat.eqb m (l_from e l)) (links f0 js ms f1))).
      { intros m Im. destruct K2 as (Kc & _ & _). rewrite Kc; [exact (Cm1 m Im)|]. intros [X|X]; [exact (Us _ _ X (Wm _ Im))|exact (newb_apart _ _ _ _ _ (le_n _) (Wm _ Im) X)]. }
      destruct (series_rep e js ms f0 f1 h2 s' L Rs2) as (k2 & Br & Fk2 & Ed2 & Rk2 & Sr2 & Bk2 & Jk2); [rewrite Er2; symmetry; exact B1|rewrite B0; exact Nd0|exact Cm2|exact Lk1|].
      rewrite B0 in Ed2.
      assert (K12 : keeps h h2 (fun x => x = b \/ In x (bodies s) \/ newb nb nb2 x) (fun x => In x (bodies s) \/ newb nb nb2 x) (fun i => i = j \/ In i (joints s) \/ newj nj nj2 i)).
      { apply (keeps_trans h h1 h2 _ _ _ _ _ _ _ _ _ K1 K2).
        - intros x [[X|X]|[X|X]]; [left; exact X|right; right; apply (newb_le nb nb1); [lia|lia|exact X]|right; left; exact X|right; right; apply (newb_le nb1 nb2); [lia|lia|exact X]].
        - intros x [[X|X]|[X|X]]; [left; rewrite X, bodies_tail; left; reflexivity|right; apply (newb_le nb nb1); [lia|lia|exact X]|left; rewrite bodies_tail; right; exact X|right; apply (newb_le nb1 nb2); [lia|lia|exact X]].
        - intros x [[X|X]|[X|X]]; [left; exact X|right; right; apply (newj_le nj nj1); [lia|lia|exact X]|right; left; exact X|right; right; apply (newj_le nj1 nj2); [lia|lia|exact X]]. }
      assert (RT2 : rep e h2 (Node b ((done ++ [k2]) ++ todo))).
      { apply rep_intro.
        - destruct K2 as (Kc & _ & _). rewrite Kc.
          + rewrite C1, <- Fk2, !map_app, <- app_assoc. reflexivity.
          + intros [X|X]; [exact (Nbs X)|]. apply (child_used h1 nb1 nj1 b nb1 nb2 Fi1 (le_n _)); [rewrite C1; destruct (map fst done); discriminate|exact X].
        - intros i u Iu. rewrite <- app_assoc in Iu. apply in_app_or in Iu.
          assert (Iu' : (i, u) = k2 \/ In (i, u) (done ++ todo)).
          { destruct Iu as [Iu|[Iu|Iu]]; [right; apply in_or_app; left; exact Iu|left; symmetry; exact Iu|right; apply in_or_app; right; exact Iu]. }
          clear Iu. destruct Iu' as [<-|Iu]; [split; [exact Ed2|exact Rk2]|].
          destruct (Fk i u (Hks i u Iu)) as [[(k0 & k1 & G & G0 & G1) Gp] Ru]. destruct (Dks i u Iu) as (D1 & D2 & D3 & D4 & D5).
          split.
          + destruct K12 as (_ & Kp & Kf). split.
            * exists k0, k1. split; [|auto]. rewrite Kf; [exact G|]. intros [X|[X|X]]; [exact (D3 X)|exact (D4 X)|exact (frames_used h nb nj i _ nj nj2 Fi (le_n _) G X)].
            * rewrite Kp; [exact Gp|]. intros [X|X]; [|exact (parent_used h nb nj _ i nb nb2 Fi (le_n _) Gp X)]. apply (D2 (root u)); [rewrite bodies_tail; left; reflexivity|exact X].
          + apply (rep_keeps e h h2 _ _ _ u K12 Ru).
            * intros x Ix [->|[X|X]]; [exact (D1 Ix)|exact (D2 x Ix X)|exact (Used (i, u) x nb2 (Hks i u Iu) Ix X)].
            * intros x Ix [X|X]; [apply (D2 x); [rewrite bodies_tail; right; exact Ix|exact X]|]. apply (Used (i, u) x nb2 (Hks i u Iu)); [cbn [snd]; rewrite bodies_tail; right; exact Ix|exact X].
            * intros x Ix [X|[X|X]]; [exact (proj1 (D5 x Ix) X)|exact (proj2 (D5 x Ix) X)|]. destruct (rep_frames h u x Ru Ix) as [f Hx]. exact (frames_used h nb nj x f nj nj2 Fi (le_n _) Hx X). }
      (* the others *)
      destruct (IHt (fun i u X => IH i u (or_intror X)) (done ++ [k2]) h2 nb2 nj2 ((new ++ new1) ++ new2) gt2 RT2) as
        (h3 & nb3 & nj3 & new3 & todo' & gt3 & E3 & R3 & (Lb3 & Lj3) & Re3 & Fi3 & (Rg3 & Eg3 & Lg3 & Ic3) & _ & Se3 & K3 & Bs3 & Js3).
      { intros [X|X]; apply Ng; [left; exact X|right]. rewrite bodies_eq in X |- *. destruct X as [X|X]; [left; exact X|right; cbn [flat_map snd]; apply in_or_app; right; exact X]. }
      { exact Re2. } { exact Fi2. } { exact Rg2. } { exact Eg2. } { apply Ic2, Ic1, Ig. } { lia. }
      exists h3, nb3, nj3, (new1 ++ new2 ++ new3), (k2 :: todo'), gt3. split.
      { cbn [length conv_loop c_h]. rewrite Ch.
        assert (Nth : nth_error (map fst done ++ j :: map fst todo) (length done) = Some j) by (rewrite nth_error_app2 by (rewrite map_length; lia); rewrite map_length, Nat.sub_diag; reflexivity).
        rewrite Nth. unfold child_body. rewrite Fr, B1, E1, E2. rewrite app_length in E3. cbn [length] in E3. rewrite Nat.add_1_r in E3. rewrite E3, !app_assoc. reflexivity. }
      split; [rewrite <- app_assoc in R3; exact R3|].
      split; [split; lia|]. split; [exact Re3|]. split; [exact Fi3|]. split; [split; [exact Rg3|split; [exact Eg3|split; [lia|intros x Ix; apply Ic3, Ic2, Ic1, Ix]]]|].
      split; [reflexivity|].
      (* joints that the end of the loop leaves *)
      assert (NJ2 : NoDup (joints (Node b ((done ++ [k2]) ++ todo)))) by (apply (rep_nodup_joints e h2 _ RT2); apply (forest_nodup e h2 _ (reachable_forest 0%R e g h2 Re2) RT2)).
      assert (Fr3 : forall i, i = j \/ In i (joints s) \/ In i (js ++ joints s') -> jframes h3 i = jframes h2 i).
      { intros i Hi. destruct K3 as (_ & _ & Kf). apply Kf. intros [X|X].
        - rewrite joints_eq in X. destruct Hi as [Hi|[Hi|Hi]].
          + apply in_flat_map in X. destruct X as ([i' u] & Iu & Xi). cbn [fst snd] in Xi. destruct (Dks i' u) as (_ & _ & D3 & D4 & D5); [apply in_or_app; right; exact Iu|]. subst i.
            destruct Xi as [Xi|Xi]; [exact (D3 Xi)|exact (proj1 (D5 _ Xi) eq_refl)].
          + apply in_flat_map in X. destruct X as ([i' u] & Iu & Xi). cbn [fst snd] in Xi. destruct (Dks i' u) as (_ & _ & D3 & D4 & D5); [apply in_or_app; right; exact Iu|].
            destruct Xi as [<-|Xi]; [exact (D4 Hi)|exact (proj2 (D5 _ Xi) Hi)].
          + rewrite joints_eq, !flat_map_app in NJ2. cbn [flat_map] in NJ2. rewrite app_nil_r, Jk2 in NJ2. rewrite <- app_assoc, NoDup_app_iff in NJ2. destruct NJ2 as (_ & NJ2 & _). rewrite NoDup_app_iff in NJ2.
            exact (proj2 (proj2 NJ2) i Hi X).
        - destruct Hi as [->|[Hi|Hi]].
          + exact (frames_used h nb nj j _ nj2 nj3 Fi ltac:(lia) Fr X).
          + destruct (rep_frames h s i Rs Hi) as [f Hx]. exact (frames_used h nb nj i f nj2 nj3 Fi ltac:(lia) Hx X).
          + rewrite <- Jk2 in Hi. destruct (rep_frames h2 (Node b ((done ++ [k2]) ++ todo)) i RT2) as [f Hx]; [|exact (frames_used h2 nb2 nj2 i f nj2 nj3 Fi2 (le_n _) Hx X)].
            destruct k2 as [i2 u2]. apply (in_joints_kid b _ i2 u2); [apply in_or_app; left; apply in_or_app; right; left; reflexivity|]. destruct Hi as [<-|Hi]; auto. }
      assert (Se2' : serial h h3 (new1 ++ new2 ++ new3) s s').
      { apply (serial_ext h1 h h2 h3 new2); [exact Se2| | |].
        - intros i Ii. destruct K1 as (_ & _ & Kf). symmetry. apply Kf. intros [X|X]; [subst i; exact (Njs Ii)|]. destruct (rep_frames h s i Rs Ii) as [f Hx]. exact (frames_used h nb nj i f nj nj1 Fi (le_n _) Hx X).
        - intros i Ii. apply Fr3. apply in_app_or in Ii. destruct Ii as [Ii|Ii]; [right; left; exact Ii|right; right; apply in_or_app; right; exact Ii].
        - intros x Ix. apply in_or_app. right. apply in_or_app. left. exact Ix. }
      split.
      { constructor. constructor.
        - destruct Alt as [(Ej & Em & Hh & Eh)|(Hh & Fj1 & Wj & Nh & Nbm)].
          + subst js ms. cbn [branch] in Br. injection Br as <-. apply serial_keep; [exact Hh| |exact Se2'].
            rewrite Fr3 by (left; reflexivity). cbn [in_series] in Sr2. rewrite Sr2, Fr. reflexivity.
          + apply (serial_split J nm h h3 _ j s s' js ms f0 f1 k2 Hh Fr); [| | | |exact Se2'|exact Br].
            * clear - Nh. induction Nh as [|i x l l' H1 H2 IH']; constructor; [apply in_or_app; left; exact H1|exact IH'].
            * clear - Nbm. induction Nbm as [|x l H1 H2 IH']; constructor; [apply in_or_app; left; exact H1|exact IH'].
            * apply (in_series_ext h2); [|exact Sr2]. intros i Ii. apply Fr3. right; right. apply in_or_app. left. exact Ii.
            * rewrite Fr3 by (left; reflexivity). destruct K2 as (_ & _ & Kf). rewrite Kf; [exact Fj1|]. intros [X|X]; [exact (Njs X)|exact (frames_used h nb nj j _ nj1 nj2 Fi Lj1 Fr X)].
        - assert (X : serial h h3 (new1 ++ new2 ++ new3) (Node b todo) (Node b todo')).
          { apply (serial_ext h2 h h3 h3 new3); [exact Se3| |reflexivity|].
            - intros i Ii. destruct K12 as (_ & _ & Kf). symmetry. apply Kf. rewrite joints_eq in Ii. apply in_flat_map in Ii. destruct Ii as ([i' u] & Iu & Xi). cbn [fst snd] in Xi.
              assert (Iu' : In (i', u) (done ++ todo)) by (apply in_or_app; right; exact Iu). destruct (Dks i' u Iu') as (_ & _ & D3 & D4 & D5).
              destruct (Fk i' u (Hks _ _ Iu')) as [[(k0 & k1 & G & _) _] Ru].
              destruct Xi as [<-|Xi]; intros [X|[X|X]].
              + exact (D3 X). + exact (D4 X). + exact (frames_used h nb nj i' _ nj nj2 Fi (le_n _) G X).
              + exact (proj1 (D5 _ Xi) X). + exact (proj2 (D5 _ Xi) X). + destruct (rep_frames h u i Ru Xi) as [f Hx]. exact (frames_used h nb nj i f nj nj2 Fi (le_n _) Hx X).
            - intros x Ix. apply in_or_app. right. apply in_or_app. right. exact Ix. }
          inversion X; subst. assumption. }
      assert (Tb : forall x, In x (tailb (Node b ((j, s) :: todo))) <-> In x (bodies s) \/ In x (tailb (Node b todo))) by (intros x; rewrite !tailb_eq; cbn [flat_map snd]; apply in_app_iff).
      assert (Tj : forall x, In x (joints (Node b ((j, s) :: todo))) <-> x = j \/ In x (joints s) \/ In x (joints (Node b todo))).
      { intros x. rewrite !joints_eq. cbn [flat_map fst snd app In]. rewrite in_app_iff. split; intros [X|X]; auto. }
      split; [|split].
      + apply (keeps_trans h h2 h3 _ _ _ _ _ _ _ _ _ K12 K3).
        * intros x [[X|[X|X]]|[X|X]].
          -- left. rewrite X, bodies_tail. left; reflexivity.
          -- left. rewrite bodies_tail. right. apply Tb. left; exact X.
          -- right. apply (newb_le nb nb2); [lia|lia|exact X].
          -- left. rewrite bodies_tail in X |- *. destruct X as [X|X]; [left; exact X|right; apply Tb; right; exact X].
          -- right. apply (newb_le nb2 nb3); [lia|lia|exact X].
        * intros x [[X|X]|[X|X]].
          -- left. apply Tb. left; exact X.
          -- right. apply (newb_le nb nb2); [lia|lia|exact X].
          -- left. apply Tb. right; exact X.
          -- right. apply (newb_le nb2 nb3); [lia|lia|exact X].
        * intros x [[X|[X|X]]|[X|X]].
          -- left. apply Tj. left; exact X.
          -- left. apply Tj. right; left; exact X.
          -- right. apply (newj_le nj nj2); [lia|lia|exact X].
          -- left. apply Tj. right; right; exact X.
          -- right. apply (newj_le nj2 nj3); [lia|lia|exact X].
      + intros x Ix. rewrite tailb_eq in Ix. cbn [flat_map] in Ix. rewrite Bk2 in Ix. apply in_app_or in Ix. destruct Ix as [Ix|Ix]; [apply in_app_or in Ix; destruct Ix as [Ix|Ix]|].
        * right. apply (newb_le nb nb1); [lia|lia|exact (Wm _ Ix)].
        * rewrite bodies_tail, Er2 in Ix. destruct Ix as [<-|Ix]; [left; apply Tb; left; rewrite bodies_tail; left; reflexivity|]. destruct (Bs2 x Ix) as [X|X]; [left; apply Tb; left; rewrite bodies_tail; right; exact X|right; apply (newb_le nb1 nb2); [lia|lia|exact X]].
        * destruct (Bs3 x) as [X|X]; [rewrite tailb_eq; exact Ix|left; apply Tb; right; exact X|right; apply (newb_le nb2 nb3); [lia|lia|exact X]].
      + intros x Ix. rewrite joints_eq in Ix. cbn [flat_map] in Ix. rewrite Jk2 in Ix. apply in_app_or in Ix. destruct Ix as [Ix|Ix]; [apply in_app_or in Ix; destruct Ix as [Ix|Ix]|].
        * destruct Alt as [(Ej & _)|(_ & _ & Wj & _)]; [subst js; destruct Ix as [<-|[]]; left; apply Tj; left; reflexivity|right; apply (newj_le nj nj1); [lia|lia|exact (Wj _ Ix)]].
        * destruct (Js2 x Ix) as [X|X]; [left; apply Tj; right; left; exact X|right; apply (newj_le nj1 nj2); [lia|lia|exact X]].
        * destruct (Js3 x) as [X|X]; [rewrite joints_eq; exact Ix|left; apply Tj; right; right; exact X|right; apply (newj_le nj2 nj3); [lia|lia|exact X]].
  Qed.

  Lemma traverse_ok g s : forall n h nb nj new gt, rep e h s -> ~ In (ground e) (bodies s) -> height s < n ->
    reachable 0%R e g h -> free_ids h nb nj -> rep e h gt -> root gt = ground e -> In (root s) (bodies gt) -> length (bodies gt) + 2 * length (joints s) <= fuel ->
    exists h' nb' nj' new' s' gt', conv_traverse e eigvals J nm I fuel n (root s) (CS h nb nj new) = (CS h' nb' nj' (new ++ new'), Ok tt) /\
      rep e h' s' /\ conv_post g h nb nj s gt h' nb' nj' new' s' gt'.
  Proof.
    induction s as [b ks IH] using tree_rect_in. intros n h nb nj new gt Rs Ng Hn Re Fi Rg Eg Ig Hf. destruct n as [|n]; [lia|].
    rewrite traverse_eq. cbn [c_h root]. pose proof (rep_inv e h _ _ Rs) as [Ch _]. rewrite Ch, map_length.
    destruct (loop_ok g n b ks) with (done := @nil (nat * tree)) (h := h) (nb := nb) (nj := nj) (new := new) (gt := gt) as (h' & nb' & nj' & new' & ks' & gt' & E & R' & Po); try assumption.
    - intros j s Is h0 nb0 nj0 new0 gt0 R0 Ng0 Re0 Fi0 Rg0 Eg0 Ig0 Hf0. apply (IH j s Is); try assumption. rewrite height_eq in Hn.
      clear - Hn Is. revert Hn Is. induction ks as [|[j' s'] ks IHk]; intros Hn Is; [destruct Is|]. destruct Is as [E|Is].
      + injection E as -> ->. cbn [fold_right snd] in Hn. lia.
      + apply IHk; [|exact Is]. cbn [fold_right snd] in Hn. lia.
    - intros [X|X]; apply Ng; [rewrite bodies_eq; left; exact X|exact X].
    - exists h', nb', nj', new', (Node b ks'), gt'. split; [exact E|]. split; [exact R'|exact Po].
  Qed.
End P.
