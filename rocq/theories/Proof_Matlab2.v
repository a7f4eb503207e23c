(** Proofs about the generated matlab robots: the indices of the bodies and the branches. *)
From Verif Require Export Proof_Matlab.
Open Scope R_scope.

Section P.
  Variables (e : env) (sc : scene) (h : @heap R) (J : nat -> jstate) (nm : obj -> option string).
  Notation marks := (marks e sc h J nm).
  Notation others := (others e sc h J nm).
  Notation line := (line e sc h J nm).
  Definition attached (j : nat) : Prop := jframes h j <> None.
  Definition below_kids (ks : list (nat * tree)) : list nat := flat_map (fun jt => fst jt :: joints (snd jt)) ks.
  Definition bodies_kids (ks : list (nat * tree)) : list nat := flat_map (fun jt => bodies (snd jt)) ks.

  Lemma body_lines_app a b : body_lines (a ++ b) = body_lines a ++ body_lines b.
  Proof. apply filter_app. Qed.
  Lemma branch_lines_app a b : branch_lines (a ++ b) = branch_lines a ++ branch_lines b.
  Proof. unfold branch_lines. apply flat_map_app. Qed.
  Lemma body_lines_line j br bd : attached j -> body_lines [line j br bd] = [line j br bd].
  Proof. intros A. unfold Proof_Matlab.line. destruct (jframes h j) as [[f0 f1]|] eqn:F; [reflexivity|destruct (A F)]. Qed.
  Lemma branch_lines_line j br bd : branch_lines [line j br bd] = [].
  Proof. unfold Proof_Matlab.line. destruct (jframes h j) as [[f0 f1]|]; reflexivity. Qed.
  Lemma body_lines_cons j br bd l : attached j -> body_lines (line j br bd :: l) = line j br bd :: body_lines l.
  Proof. intros A. change (line j br bd :: l) with ([line j br bd] ++ l). rewrite body_lines_app, (body_lines_line _ _ _ A). reflexivity. Qed.
  Lemma branch_lines_cons j br bd l : branch_lines (line j br bd :: l) = branch_lines l.
  Proof. change (line j br bd :: l) with ([line j br bd] ++ l). rewrite branch_lines_app, branch_lines_line. reflexivity. Qed.
  Lemma branch_lines_branch br p l : branch_lines (MBranch br p :: l) = (br, p) :: branch_lines l.
  Proof. reflexivity. Qed.
  Lemma body_lines_branch br p l : body_lines (MBranch br p :: l) = body_lines l.
  Proof. reflexivity. Qed.

  (** the bodies *)
  Lemma marks_bodies : (forall t p l a br', marks t p l a br' -> map fst a = tl (bodies t)) /\
    (forall ks p br l a br', others ks p br l a br' -> map fst a = bodies_kids ks).
  Proof.
    apply marks_others; intros.
    - reflexivity.
    - rewrite bodies_eq. cbn [map fst tl flat_map snd]. rewrite map_app, H, H0. destruct s; reflexivity.
    - reflexivity.
    - cbn [map fst bodies_kids flat_map snd]. rewrite map_app, H, H0. destruct s; reflexivity.
  Qed.
  (** the lines *)
  Lemma marks_lines : (forall t p l a br', marks t p l a br' -> (forall j, In j (joints t) -> attached j) ->
      Forall2 (fun x (jb : nat * (nat * (nat * nat))) => x = line (fst jb) (fst (snd (snd jb))) (snd (snd (snd jb)))) (body_lines l) (combine (joints t) a) /\
      length a = length (joints t)) /\
    (forall ks p br l a br', others ks p br l a br' -> (forall j, In j (below_kids ks) -> attached j) ->
      Forall2 (fun x (jb : nat * (nat * (nat * nat))) => x = line (fst jb) (fst (snd (snd jb))) (snd (snd (snd jb)))) (body_lines l) (combine (below_kids ks) a) /\
      length a = length (below_kids ks)).
  Proof.
    assert (CA : forall A B (a1 a2 : list A) (b1 b2 : list B), length a1 = length b1 -> combine (a1 ++ a2) (b1 ++ b2) = combine a1 b1 ++ combine a2 b2).
    { intros A B a1. induction a1 as [|x a1 IH]; intros a2 [|y b1] b2 L; try discriminate L; [reflexivity|]. cbn. rewrite IH; [reflexivity|]. cbn in L. lia. }
    apply marks_others.
    - intros b br bd H. cbn. auto.
    - intros b j s ks br bd l1 a1 br1 l2 a2 br2 Mk IH1 Ot IH2 At. rewrite joints_eq in At. cbn [flat_map fst snd] in At.
      destruct IH1 as [F1 L1]; [intros i Hi; apply At; right; apply in_or_app; left; exact Hi|].
      destruct IH2 as [F2 L2]; [intros i Hi; apply At; right; apply in_or_app; right; exact Hi|].
      rewrite joints_eq. cbn [flat_map fst snd]. fold (below_kids ks). rewrite body_lines_cons; [|apply At; left; reflexivity].
      cbn [app combine]. rewrite CA; [|symmetry; exact L1]. rewrite body_lines_app. split.
      + constructor; [reflexivity|]. apply Forall2_app; assumption.
      + cbn [length]. rewrite !app_length, L1, L2. reflexivity.
    - intros p br H. cbn. auto.
    - intros j s ks p br l1 a1 br1 l2 a2 br2 Mk IH1 Ot IH2 At. cbn [below_kids flat_map fst snd] in At.
      destruct IH1 as [F1 L1]; [intros i Hi; apply At; right; apply in_or_app; left; exact Hi|].
      destruct IH2 as [F2 L2]; [intros i Hi; apply At; right; apply in_or_app; right; exact Hi|].
      cbn [below_kids flat_map fst snd]. fold (below_kids ks). rewrite body_lines_branch, body_lines_cons; [|apply At; left; reflexivity].
      cbn [app combine]. rewrite CA; [|symmetry; exact L1]. rewrite body_lines_app. split.
      + constructor; [reflexivity|]. apply Forall2_app; assumption.
      + cbn [length]. rewrite !app_length, L1, L2. reflexivity.
  Qed.
  (** the branches *)
  Lemma marks_branches : (forall t p l a br', marks t p l a br' -> (fst p <= br')%nat /\ map fst (branch_lines l) = seq (S (fst p)) (br' - fst p)) /\
    (forall ks p br l a br', others ks p br l a br' -> (br <= br')%nat /\ map fst (branch_lines l) = seq (S br) (br' - br)).
  Proof.
    apply marks_others; cbn [fst].
    - intros b br bd. split; [lia|]. rewrite Nat.sub_diag. reflexivity.
    - intros b j s ks br bd l1 a1 br1 l2 a2 br2 Mk [I1 B1] Ot [I2 B2]. split; [lia|].
      rewrite branch_lines_cons, branch_lines_app, map_app, B1, B2.
      replace (br2 - br)%nat with ((br1 - br) + (br2 - br1))%nat by lia. rewrite seq_app. f_equal. f_equal. lia.
    - intros p br. split; [lia|]. rewrite Nat.sub_diag. reflexivity.
    - intros j s ks p br l1 a1 br1 l2 a2 br2 Mk [I1 B1] Ot [I2 B2]. split; [lia|].
      rewrite branch_lines_branch, branch_lines_cons, branch_lines_app. cbn [map fst]. rewrite map_app, B1, B2.
      replace (br2 - br)%nat with (S ((br1 - S br) + (br2 - br1)))%nat by lia. cbn [seq]. f_equal. rewrite seq_app. f_equal. f_equal. lia.
  Qed.
  (** the order *)
  Lemma consecutive_app l1 : forall l2 i, consecutive (i :: l1) -> consecutive (last (i :: l1) i :: l2) -> consecutive (i :: l1 ++ l2).
  Proof.
    induction l1 as [|j l1 IH]; intros l2 i C1 C2; [exact C2|]. cbn [app]. destruct C1 as [N C1]. split; [exact N|].
    apply IH; [exact C1|]. replace (last (j :: l1) j) with (last (i :: j :: l1) i); [exact C2|].
    cbn. destruct l1 as [|k l1]; [reflexivity|]. clear. revert k. induction l1 as [|m l1 IH]; intros k; [reflexivity|]. cbn. apply IH.
  Qed.
  Lemma last_dflt {A} (l : list A) : forall x d d', last (x :: l) d = last (x :: l) d'.
  Proof. induction l as [|y l IH]; intros x d d'; [reflexivity|]. cbn [last]. apply IH. Qed.
  Lemma last_app_cons {A} (l1 l2 : list A) : forall x d, last (x :: l1 ++ l2) d = last (last (x :: l1) d :: l2) d.
  Proof.
    induction l1 as [|y l1 IH]; intros x d.
    - reflexivity.
    - change ((y :: l1) ++ l2) with (y :: (l1 ++ l2)).
      change (last (x :: y :: (l1 ++ l2)) d) with (last (y :: (l1 ++ l2)) d). rewrite IH. reflexivity.
  Qed.
  Lemma marks_order : (forall t p l a br', marks t p l a br' -> consecutive (p :: map snd a) /\ fst (last (p :: map snd a) p) = br') /\
    (forall ks p br l a br', others ks p br l a br' -> forall i, fst i = br -> consecutive (i :: map snd a) /\ fst (last (i :: map snd a) i) = br').
  Proof.
    apply marks_others.
    - intros b br bd. cbn. auto.
    - intros b j s ks br bd l1 a1 br1 l2 a2 br2 Mk [C1 L1] Ot H2. cbn [map snd]. rewrite map_app.
      destruct (H2 _ L1) as [C2 L2]. split.
      + split; [left; reflexivity|]. apply consecutive_app; assumption.
      + change (fst (last ((br, S bd) :: map snd a1 ++ map snd a2) (br, bd)) = br2).
        rewrite (last_dflt _ _ _ (br, S bd)), last_app_cons. rewrite <- L2. f_equal. apply last_dflt.
    - intros p br i E. cbn. auto.
    - intros j s ks p br l1 a1 br1 l2 a2 br2 Mk [C1 L1] Ot H2 i E. cbn [map snd]. rewrite map_app.
      destruct (H2 _ L1) as [C2 L2]. split.
      + split; [right; rewrite E; reflexivity|]. apply consecutive_app; assumption.
      + change (fst (last ((S br, 1%nat) :: map snd a1 ++ map snd a2) i) = br2).
        rewrite (last_dflt _ _ _ (S br, 1%nat)), last_app_cons. rewrite <- L2. f_equal. apply last_dflt.
  Qed.
  (** where the bodies are mounted *)
  Lemma mounted_incl l l' i p : (forall x, In x (branch_lines l) -> In x (branch_lines l')) -> mounted l i p -> mounted l' i p.
  Proof. intros S [H|[H1 H2]]; [left; exact H|right; split; [exact H1|apply S; exact H2]]. Qed.
  Definition mounts (l : list mline) (a : list (nat * (nat * nat))) (j : nat) (at0 : list (nat * (nat * nat))) : Prop :=
    forall f0 f1, jframes h j = Some (f0, f1) -> exists ic ip, In (frame_body e f1, ic) a /\ In (frame_body e f0, ip) at0 /\ mounted l ic ip.
  Lemma mounts_incl l l' a a' j at0 at1 : (forall x, In x (branch_lines l) -> In x (branch_lines l')) -> (forall x, In x a -> In x a') -> (forall x, In x at0 -> In x at1) ->
    mounts l a j at0 -> mounts l' a' j at1.
  Proof.
    intros S Sa S0 H f0 f1 F. destruct (H f0 f1 F) as (ic & ip & I1 & I2 & Mo). exists ic, ip.
    split; [apply Sa; exact I1|]. split; [apply S0; exact I2|]. apply (mounted_incl l); assumption.
  Qed.
  Lemma marks_mounted : (forall t p l a br', marks t p l a br' -> rep e h t -> (1 <= snd p)%nat ->
      forall j, In j (joints t) -> mounts l a j ((root t, p) :: a)) /\
    (forall ks p br l a br', others ks p br l a br' -> forall b, (forall j s, In (j, s) ks -> edge e h b j (root s) /\ rep e h s) ->
      forall j, In j (below_kids ks) -> mounts l a j ((b, p) :: a)).
  Proof.
    apply marks_others.
    - intros b br bd R0 P j [].
    - intros b j s ks br bd l1 a1 br1 l2 a2 br2 Mk IH1 Ot IH2 R0 P i Ii. cbn [snd] in P.
      apply rep_inv in R0. destruct R0 as [_ Fk]. destruct (Fk j s (or_introl eq_refl)) as [Ej Rs].
      rewrite joints_eq in Ii. cbn [flat_map fst snd] in Ii. destruct Ii as [<-|Ii].
      + intros f0 f1 F. destruct Ej as [(g0 & g1 & G & B0 & B1) _]. rewrite F in G. injection G as <- <-.
        exists (br, S bd), (br, bd). rewrite B0, B1. split; [left; reflexivity|]. split; [left; reflexivity|].
        left. cbn. split; [lia|]. f_equal. lia.
      + apply in_app_or in Ii. destruct Ii as [Ii|Ii].
        * apply (mounts_incl l1 _ a1 _ i ((root s, (br, S bd)) :: a1)); [| | |apply (IH1 Rs); [cbn; lia|exact Ii]].
          -- intros x Hx. rewrite branch_lines_cons, branch_lines_app. apply in_or_app. left. exact Hx.
          -- intros x Hx. right. apply in_or_app. left. exact Hx.
          -- intros x [<-|Hx]; right; [left; reflexivity|right; apply in_or_app; left; exact Hx].
        * apply (mounts_incl l2 _ a2 _ i ((b, (br, bd)) :: a2)); [| | |apply (IH2 b); [intros j' s' I'; apply Fk; right; exact I'|exact Ii]].
          -- intros x Hx. rewrite branch_lines_cons, branch_lines_app. apply in_or_app. right. exact Hx.
          -- intros x Hx. right. apply in_or_app. right. exact Hx.
          -- intros x [<-|Hx]; [left; reflexivity|right; right; apply in_or_app; right; exact Hx].
    - intros p br b Fk j [].
    - intros j s ks p br l1 a1 br1 l2 a2 br2 Mk IH1 Ot IH2 b Fk i Ii. destruct (Fk j s (or_introl eq_refl)) as [Ej Rs].
      cbn [below_kids flat_map fst snd] in Ii. destruct Ii as [<-|Ii].
      + intros f0 f1 F. destruct Ej as [(g0 & g1 & G & B0 & B1) _]. rewrite F in G. injection G as <- <-.
        exists (S br, 1%nat), p. rewrite B0, B1. split; [left; reflexivity|]. split; [left; reflexivity|].
        right. cbn [fst snd]. split; [reflexivity|]. rewrite branch_lines_branch. left. reflexivity.
      + apply in_app_or in Ii. destruct Ii as [Ii|Ii].
        * apply (mounts_incl l1 _ a1 _ i ((root s, (S br, 1%nat)) :: a1)); [| | |apply (IH1 Rs); [cbn; lia|exact Ii]].
          -- intros x Hx. rewrite branch_lines_branch, branch_lines_cons, branch_lines_app. right. apply in_or_app. left. exact Hx.
          -- intros x Hx. right. apply in_or_app. left. exact Hx.
          -- intros x [<-|Hx]; right; [left; reflexivity|right; apply in_or_app; left; exact Hx].
        * apply (mounts_incl l2 _ a2 _ i ((b, p) :: a2)); [| | |apply (IH2 b); [intros j' s' I'; apply Fk; right; exact I'|exact Ii]].
          -- intros x Hx. rewrite branch_lines_branch, branch_lines_cons, branch_lines_app. right. apply in_or_app. right. exact Hx.
          -- intros x Hx. right. apply in_or_app. right. exact Hx.
          -- intros x [<-|Hx]; [left; reflexivity|right; right; apply in_or_app; right; exact Hx].
  Qed.

  (** joints and bodies of a tree go together *)
  Lemma tree_children t : rep e h t -> Forall2 (fun j c => exists f0 f1, jframes h j = Some (f0, f1) /\ frame_body e f1 = c) (joints t) (tl (bodies t)).
  Proof.
    induction t as [b ks IH] using tree_ind'. intros R0. apply rep_inv in R0. destruct R0 as [_ Fk].
    rewrite joints_eq, bodies_eq. cbn [tl]. induction ks as [|[j s] ks IHk]; [constructor|].
    cbn [flat_map fst snd]. destruct (Fk j s (or_introl eq_refl)) as [[(f0 & f1 & F & B0 & B1) _] Rs].
    assert (Hb : bodies s = root s :: tl (bodies s)) by (destruct s; reflexivity). rewrite Hb. cbn [app]. constructor.
    - exists f0, f1. split; assumption.
    - apply Forall2_app.
      + exact (Forall_inv IH Rs).
      + apply IHk; [exact (Forall_inv_tail IH)|]. intros j' s' I'. apply Fk. right. exact I'.
  Qed.
  Lemma rep_attached t j : rep e h t -> In j (joints t) -> attached j.
  Proof. intros R0 Ij. destruct (rep_joint_edge e h t j R0 Ij) as (b & c & [(f0 & f1 & F & _) _] & _). unfold attached. rewrite F. discriminate. Qed.
End P.
Lemma num_exists (A : list (nat * (nat * nat))) : NoDup (map fst A) -> exists num, forall b i, In (b, i) A -> num b = i.
Proof.
  induction A as [|[b i] A IH]; intros N.
  - exists (fun _ => (0, 0)%nat). intros b i [].
  - cbn in N. apply NoDup_cons_iff in N. destruct N as [N1 N2]. destruct (IH N2) as [num Hn].
    exists (upd num b i). intros b' i' [E|Hi].
    + injection E as <- <-. unfold upd. rewrite Nat.eqb_refl. reflexivity.
    + unfold upd. destruct (Nat.eqb_spec b' b) as [->|Ne]; [|apply Hn; exact Hi].
      exfalso. apply N1. apply in_map_iff. exists (b, i'). split; [reflexivity|exact Hi].
Qed.
