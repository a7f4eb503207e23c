(** Lemmas for C98: collada documents. *)
From Coq Require Import Ascii Lia.
From Verif Require Export Spec_AddShapes.
From Verif Require Import Proof_Linalg.
Open Scope R_scope.

Section G.
  Context {G : Type}.
  Implicit Types (n k c : cnode G) (l kids L : list (cnode G)) (tfs : list tf) (Gs : list (string * G)).
  Section I.
    Variable P : cnode G -> Prop.
    Hypotheses (Hn : forall i tfs kids, Forall P kids -> P (CN i tfs kids)) (Hg : forall i g, P (CG i g)) (Hi : forall n, P n -> P (CI n)).
    Fixpoint cnode_ind' n : P n :=
      match n with
      | CN i tfs kids => Hn i tfs kids ((fix go l : Forall P l := match l with [] => Forall_nil P | c :: l' => Forall_cons c (cnode_ind' c) (go l') end) kids)
      | CG i g => Hg i g
      | CI m => Hi m (cnode_ind' m)
      end.
  End I.
  Lemma fold_and (P : cnode G -> Prop) l : fold_right (fun k Q => P k /\ Q) True l <-> Forall P l.
  Proof. induction l as [ | k l IH]; cbn; [split; auto | ]. rewrite Forall_cons_iff, IH. tauto. Qed.
  Lemma resolved_kids L Gs i tfs kids : resolved L Gs (CN i tfs kids) <-> Forall (resolved L Gs) kids.
  Proof. cbn [resolved]. apply fold_and. Qed.
  Lemma simple_kids i tfs kids : simple_node (CN i tfs kids) <-> Forall (@simple_node G) kids.
  Proof. cbn [simple_node]. apply fold_and. Qed.
  Lemma shows_holds L Gs M n M' g : shows L Gs M n M' g -> resolved L Gs n -> holds M n M' g.
  Proof.
    intros Hs. induction Hs as [M i g g' A | M i tfs kids k M' g Hk Hs IH | M n s n' M' g E F Hs IH]; intros Re.
    - cbn in Re. assert (g' = g) by congruence. subst. constructor.
    - apply resolved_kids in Re. rewrite Forall_forall in Re. econstructor; [exact Hk | auto].
    - destruct Re as ((s' & E' & F') & Re). assert (n' = n) by congruence. subst. constructor. auto.
  Qed.
  Lemma holds_shows L Gs M n M' g : holds M n M' g -> resolved L Gs n -> shows L Gs M n M' g.
  Proof.
    intros Hs. induction Hs as [M i g | M i tfs kids k M' g Hk Hs IH | M n M' g Hs IH]; intros Re.
    - constructor. exact Re.
    - apply resolved_kids in Re. rewrite Forall_forall in Re. econstructor; [exact Hk | auto].
    - destruct Re as ((s & E & F) & Re). econstructor; eauto.
  Qed.
  Definition contents (d : cdoc G) (M : m4) (g : G) : Prop := exists n, In n (d_scene d) /\ holds eye4 n M g.
  Lemma displays_contents d M g : well_formed d -> (displays d M g <-> contents d M g).
  Proof.
    unfold well_formed. rewrite Forall_forall. intros W. split; intros (n & Hn & Hs); exists n; (split; [exact Hn | ]).
    - eapply shows_holds; eauto.
    - eapply holds_shows; eauto.
  Qed.
  Lemma resolved_mono L Gs L' Gs' : (forall q g, assoc q Gs = Some g -> assoc q Gs' = Some g) -> (forall s n, find_node G s L = Some n -> find_node G s L' = Some n) -> forall n, resolved L Gs n -> resolved L' Gs' n.
  Proof.
    intros Hg Hl. induction n as [i tfs kids IH | i g | n IH] using cnode_ind'.
    - rewrite !resolved_kids, !Forall_forall in *. auto.
    - cbn. auto.
    - cbn. intros ((s & E & F) & Re). split; [exists s; auto | auto].
  Qed.
  Lemma simple_resolved L Gs n : simple_node n -> (forall q g, In (q, g) (geoms_of G n) -> assoc q Gs = Some g) -> resolved L Gs n.
  Proof.
    induction n as [i tfs kids IH | i g | n IH] using cnode_ind'; intros Si Ge.
    - apply resolved_kids. apply simple_kids in Si. rewrite Forall_forall in *. intros k Hk. apply IH; [exact Hk | auto | ]. intros s g Hs. apply Ge. cbn. apply in_flat_map. eauto.
    - cbn. apply Ge. now left.
    - destruct Si.
  Qed.

  (** ** ids and poses *)
  Lemma stands_id s M n P : stands s M n P -> In s (ids n).
  Proof. induction 1 as [M tfs kids | M i tfs kids k M' Hk _ IH]; cbn [ids]; [now left | ]. apply in_or_app. right. apply in_flat_map. eauto. Qed.
  Lemma id_stands s n : In s (ids n) -> forall M, exists P, stands s M n P.
  Proof.
    induction n as [i tfs kids IH | i g | n IH] using cnode_ind'; intros Hs M; [ | destruct Hs | destruct Hs]. cbn [ids] in Hs. apply in_app_or in Hs. destruct Hs as [Hs | Hs].
    - destruct i as [t | ]; [ | destruct Hs]. destruct Hs as [-> | []]. eexists. constructor.
    - apply in_flat_map in Hs. destruct Hs as (k & Hk & Hs). rewrite Forall_forall in IH. destruct (IH k Hk Hs (mm4 M (tfs_mat tfs))) as (P & HP). exists P. econstructor; eauto.
  Qed.
  Lemma nodup_same {A} (f : A -> list string) (l : list A) a b s : NoDup (flat_map f l) -> In a l -> In b l -> In s (f a) -> In s (f b) -> a = b.
  Proof.
    induction l as [ | x l IH]; intros N Ha Hb Sa Sb; [destruct Ha | ]. cbn [flat_map] in N.
    assert (D : forall y, In y l -> In s (f x) -> In s (f y) -> False).
    { intros y Hy S1 S2. assert (In s (flat_map f l)) by (apply in_flat_map; eauto). clear - N S1 H. induction (f x) as [ | t r IHr]; [destruct S1 | ]. cbn in N. apply NoDup_cons_iff in N. destruct N as (N1 & N2). destruct S1 as [-> | S1]; [apply N1, in_or_app; now right | auto]. }
    destruct Ha as [<- | Ha], Hb as [<- | Hb]; auto; try (exfalso; eauto; fail). apply IH; auto. clear - N. induction (f x) as [ | t r IHr]; [exact N | ]. cbn in N. apply NoDup_cons_iff in N. tauto.
  Qed.
  Lemma nodup_app_r {A} (a b : list A) : NoDup (a ++ b) -> NoDup b.
  Proof. induction a; [auto | ]. cbn. intros N. apply NoDup_cons_iff in N. tauto. Qed.
  Lemma nodup_flat {A} (f : A -> list string) (l : list A) a : NoDup (flat_map f l) -> In a l -> NoDup (f a).
  Proof.
    induction l as [ | x l IH]; intros N Ha; [destruct Ha | ]. cbn [flat_map] in N. destruct Ha as [<- | Ha]; [ | apply IH; [eapply nodup_app_r; eauto | exact Ha]].
    clear - N. induction (f x) as [ | t r IHr]; [constructor | ]. cbn in N. apply NoDup_cons_iff in N. destruct N as (N1 & N2). constructor; [ | auto]. intros Q. apply N1, in_or_app. now left.
  Qed.
  Lemma stands_unique s M n P : stands s M n P -> NoDup (ids n) -> forall P', stands s M n P' -> P = P'.
  Proof.
    induction 1 as [M tfs kids | M i tfs kids k M' Hk Hs IH]; intros N P' S'.
    - inversion S' as [ | M0 i0 t0 k0 k M1 Hk Hs]; subst; [reflexivity | ]. exfalso. cbn in N. apply NoDup_cons_iff in N. apply (proj1 N). apply in_flat_map. exists k. split; [exact Hk | eapply stands_id; eauto].
    - cbn [ids] in N. inversion S' as [M0 t0 k0 | M0 i0 t0 k0 k' M1 Hk' Hs']; subst.
      + exfalso. cbn in N. apply NoDup_cons_iff in N. apply (proj1 N). apply in_flat_map. exists k. split; [exact Hk | eapply stands_id; eauto].
      + apply nodup_app_r in N. assert (k' = k) by (eapply (nodup_same ids kids); eauto using stands_id). subst. apply IH; [eapply nodup_flat; eauto | exact Hs'].
  Qed.
  Lemma frame_unique l s P P' : distinct l -> frame_at l s P -> frame_at l s P' -> P = P'.
  Proof.
    intros N (n & Hn & Hs) (n' & Hn' & Hs'). assert (n = n') by (eapply (nodup_same ids l); eauto using stands_id). subst n'. eapply stands_unique; eauto. eapply nodup_flat; eauto.
  Qed.
  Lemma frame_id l s : (exists P, frame_at l s P) <-> In s (flat_map ids l).
  Proof.
    rewrite in_flat_map. split.
    - intros (P & n & Hn & Hs). exists n. split; [exact Hn | eapply stands_id; eauto].
    - intros (n & Hn & Hs). destruct (id_stands s n Hs eye4) as (P & HP). exists P, n. auto.
  Qed.

  (** ** adding a child *)
  Lemma add_at_eq s k i tfs kids : add_at G s k (CN i tfs kids) =
    match add_in G s k kids with Some kids' => Some (CN i tfs kids') | None => if match i with Some t => String.eqb t s | None => false end then Some (CN i tfs (kids ++ [k])) else None end.
  Proof.
    cbn [add_at]. match goal with |- match ?f kids with _ => _ end = _ => assert (E : forall l, f l = add_in G s k l) end; [ | rewrite E; reflexivity].
    induction l as [ | c l IH]; [reflexivity | ]. cbn [add_in]. rewrite <- IH. reflexivity.
  Qed.
  Record grows (s : string) (k : cnode G) (l l' : list (cnode G)) : Prop := {
    gr_ids : flat_map ids l' = flat_map ids l;
    gr_stands : forall t M P, (exists n, In n l' /\ stands t M n P) <-> (exists n, In n l /\ stands t M n P);
    gr_holds : forall M, exists P, (exists n, In n l /\ stands s M n P) /\ forall M' g, (exists n, In n l' /\ holds M n M' g) <-> (exists n, In n l /\ holds M n M' g) \/ holds P k M' g;
    gr_res : forall L Gs, Forall (resolved L Gs) l -> resolved L Gs k -> Forall (resolved L Gs) l' }.
  Lemma ex_cons {A} (a : A) (l : list A) (Q : A -> Prop) : (exists n : A, In n (a :: l) /\ Q n) <-> Q a \/ exists n : A, In n l /\ Q n.
  Proof. cbn [In]. split; [intros (n & [<- | Hn] & Hq); eauto | intros [Hq | (n & Hn & Hq)]; eauto]. Qed.
  Lemma grows_later s k c l l' : grows s k l l' -> grows s k (c :: l) (c :: l').
  Proof.
    intros [A B C D]. split.
    - cbn. congruence.
    - intros t M P. rewrite !ex_cons, B. tauto.
    - intros M. destruct (C M) as (P & (n & Hn & Hs) & Ch). exists P. split; [exists n; split; [now right | exact Hs] | ]. intros M' g. rewrite !ex_cons, Ch. tauto.
    - intros L Gs F Rk. apply Forall_cons_iff in F. destruct F. constructor; auto.
  Qed.
  Lemma grows_first s k c c' l : grows s k [c] [c'] -> grows s k (c :: l) (c' :: l).
  Proof.
    intros [A B C D]. split.
    - cbn in *. rewrite !app_nil_r in A. congruence.
    - intros t M P. specialize (B t M P). rewrite !ex_cons in *. cbn [In] in B. assert (N : ~ exists n, In n [] /\ stands t M n P) by (intros (n & [] & _)). cbn [In] in N. tauto.
    - intros M. destruct (C M) as (P & (n & Hn & Hs) & Ch). exists P. split; [exists n; split; [destruct Hn as [<- | []]; now left | exact Hs] | ]. intros M' g. specialize (Ch M' g). rewrite !ex_cons in *.
      assert (N : ~ exists n, In n [] /\ holds M n M' g) by (intros (m & [] & _)). tauto.
    - intros L Gs F Rk. apply Forall_cons_iff in F. destruct F as (F1 & F2). constructor; [ | exact F2]. assert (X := D L Gs (Forall_cons _ F1 (Forall_nil _)) Rk). now apply Forall_inv in X.
  Qed.
  Lemma one {A} (a : A) (Q : A -> Prop) : (exists n : A, In n [a] /\ Q n) <-> Q a.
  Proof. split; [intros (n & [<- | []] & Hq); exact Hq | intros Hq; exists a; split; [now left | exact Hq]]. Qed.
  Lemma stands_node s M i tfs kids P : stands s M (CN i tfs kids) P <-> (i = Some s /\ P = mm4 M (tfs_mat tfs)) \/ exists n, In n kids /\ stands s (mm4 M (tfs_mat tfs)) n P.
  Proof.
    split.
    - intros Hs. inversion Hs; subst; eauto.
    - intros [(-> & ->) | (n & Hn & Hs)]; [constructor | econstructor; eauto].
  Qed.
  Lemma holds_node_iff M i tfs kids M' g : holds M (CN i tfs kids) M' g <-> exists n, In n kids /\ holds (mm4 M (tfs_mat tfs)) n M' g.
  Proof. split; [intros Hs; inversion Hs; subst; eauto | intros (n & Hn & Hs); econstructor; eauto]. Qed.
  Lemma grows_node s k i tfs l l' : grows s k l l' -> grows s k [CN i tfs l] [CN i tfs l'].
  Proof.
    intros [A B C D]. split.
    - cbn. rewrite A. reflexivity.
    - intros t M P. rewrite !one, !stands_node, B. tauto.
    - intros M. destruct (C (mm4 M (tfs_mat tfs))) as (P & Hs & Ch). exists P. split; [apply one, stands_node; now right | ]. intros M' g. rewrite !one, !holds_node_iff. apply Ch.
    - intros L Gs F Rk. constructor; [ | constructor]. apply Forall_inv in F. apply resolved_kids. apply resolved_kids in F. auto.
  Qed.
  Lemma grows_here s k tfs l : ids k = [] -> (forall t M P, ~ stands t M k P) -> grows s k [CN (Some s) tfs l] [CN (Some s) tfs (l ++ [k])].
  Proof.
    intros Ik Sk. split.
    - cbn. rewrite flat_map_app. cbn. rewrite Ik, !app_nil_r. reflexivity.
    - intros t M P. rewrite !one, !stands_node. assert (E : (exists n, In n (l ++ [k]) /\ stands t (mm4 M (tfs_mat tfs)) n P) <-> exists n, In n l /\ stands t (mm4 M (tfs_mat tfs)) n P); [ | tauto].
      split; intros (n & Hn & Hs); [ | exists n; split; [apply in_or_app; now left | exact Hs]]. apply in_app_or in Hn. destruct Hn as [Hn | [<- | []]]; [eauto | exfalso; eapply Sk; eauto].
    - intros M. exists (mm4 M (tfs_mat tfs)). split; [apply one; constructor | ]. intros M' g. rewrite !one, !holds_node_iff. split.
      + intros (n & Hn & Hs). apply in_app_or in Hn. destruct Hn as [Hn | [<- | []]]; eauto.
      + intros [(n & Hn & Hs) | Hs]; [exists n | exists k]; (split; [apply in_or_app; cbn; auto | exact Hs]).
    - intros L Gs F Rk. constructor; [ | constructor]. apply Forall_inv in F. apply resolved_kids. apply resolved_kids in F. apply Forall_app. auto.
  Qed.
  Lemma add_at_grows s k : ids k = [] -> (forall t M P, ~ stands t M k P) -> forall n, (forall n', add_at G s k n = Some n' -> grows s k [n] [n']) /\ (add_at G s k n = None -> ~ In s (ids n)).
  Proof.
    intros Ik Sk. induction n as [i tfs kids IH | i g | n IH] using cnode_ind'; [ | split; [discriminate | intros _ []] | split; [discriminate | intros _ []]].
    rewrite add_at_eq.
    assert (K : (forall l', add_in G s k kids = Some l' -> grows s k kids l') /\ (add_in G s k kids = None -> ~ In s (flat_map ids kids))).
    { clear - IH. induction kids as [ | c l IHl]; [split; [discriminate | intros _ []] | ]. apply Forall_cons_iff in IH. destruct IH as ((C1 & C2) & IH). destruct (IHl IH) as (I1 & I2). cbn [add_in flat_map].
      destruct (add_in G s k l) as [r | ]; [split; [intros l' E; injection E as <-; apply grows_later; auto | discriminate] | ].
      destruct (add_at G s k c) as [c' | ]; [split; [intros l' E; injection E as <-; apply grows_first; auto | discriminate] | split; [discriminate | ]]. intros _ Q. apply in_app_or in Q. destruct Q as [Q | Q]; [now apply C2 | now apply I2]. }
    destruct K as (K1 & K2). destruct (add_in G s k kids) as [kids' | ]; [split; [intros n' E; injection E as <-; apply grows_node; auto | discriminate] | ].
    destruct i as [t | ]; cbn [ids]; [destruct (String.eqb_spec t s) as [-> | D] | ].
    - split; [intros n' E; injection E as <-; now apply grows_here | discriminate].
    - split; [discriminate | ]. intros _ [Q | Q]; [congruence | now apply K2].
    - split; [discriminate | ]. intros _. apply K2. reflexivity.
  Qed.
  Lemma add_in_grows s k l : ids k = [] -> (forall t M P, ~ stands t M k P) -> (forall l', add_in G s k l = Some l' -> grows s k l l') /\ (add_in G s k l = None -> ~ In s (flat_map ids l)).
  Proof.
    intros Ik Sk. induction l as [ | c l (I1 & I2)]; [split; [discriminate | intros _ []] | ]. destruct (add_at_grows s k Ik Sk c) as (C1 & C2). cbn [add_in flat_map].
    destruct (add_in G s k l) as [r | ]; [split; [intros l' E; injection E as <-; apply grows_later; auto | discriminate] | ].
    destruct (add_at G s k c) as [c' | ]; [split; [intros l' E; injection E as <-; apply grows_first; auto | discriminate] | split; [discriminate | ]]. intros _ Q. apply in_app_or in Q. destruct Q as [Q | Q]; [now apply C2 | now apply I2].
  Qed.
  Lemma add_in_some s k l : ids k = [] -> (forall t M P, ~ stands t M k P) -> ((exists l', add_in G s k l = Some l') <-> In s (flat_map ids l)).
  Proof.
    intros Ik Sk. destruct (add_in_grows s k l Ik Sk) as (A & B). split.
    - intros (l' & E). assert (X := A l' E). destruct (gr_holds _ _ _ _ X eye4) as (P & (n & Hn & Hs) & _). apply in_flat_map. exists n. split; [exact Hn | eapply stands_id; eauto].
    - intros Hs. destruct (add_in G s k l) as [l' | ]; [eauto | exfalso; now apply B].
  Qed.
  Lemma void_ids tfs kids : Forall (fun k => @ids G k = []) kids -> ids (CN None tfs kids) = [].
  Proof. cbn. induction 1 as [ | x l E _ IH]; cbn; [reflexivity | ]. now rewrite E. Qed.
  Lemma void_stands tfs c : forall t M P, ~ stands t M (CN None tfs [CI c]) P.
  Proof. intros t M P Hs. apply stands_id in Hs. destruct Hs. Qed.
  Lemma void_stands0 : forall t M P, ~ stands t M (CN None [] [] : cnode G) P.
  Proof. intros t M P Hs. apply stands_id in Hs. destruct Hs. Qed.

  (** ** finding a node *)
  Lemma all_nodes_simple n : simple_node n -> map fst (all_nodes G n) = ids n /\ forall s m, In (s, m) (all_nodes G n) <-> named_node s n m.
  Proof.
    induction n as [i tfs kids IH | i g | n IH] using cnode_ind'; intros Si; [ | split; [reflexivity | ]; intros s m; split; [intros [] | intros Q; inversion Q] | destruct Si].
    apply simple_kids in Si. assert (K : map fst (flat_map (all_nodes G) kids) = flat_map ids kids /\ forall s m, In (s, m) (flat_map (all_nodes G) kids) <-> exists k, In k kids /\ named_node s k m).
    { induction kids as [ | c l IHl]; [split; [reflexivity | ]; intros s m; split; [intros [] | intros (k & [] & _)] | ]. apply Forall_cons_iff in IH, Si. destruct IH as (C & IH), Si as (S1 & S2). destruct (C S1) as (C1 & C2), (IHl IH S2) as (L1 & L2). cbn [flat_map]. rewrite map_app, C1, L1. split; [reflexivity | ].
      intros s m. rewrite in_app_iff, C2, L2, ex_cons. tauto. }
    destruct K as (K1 & K2). cbn [all_nodes ids]. rewrite map_app, K1. split; [destruct i; reflexivity | ]. intros s m. rewrite in_app_iff, K2. split.
    - intros [Q | (k & Hk & Hq)]; [ | econstructor; eauto]. destruct i as [t | ]; [ | destruct Q]. destruct Q as [Q | []]. injection Q as <- <-. constructor.
    - intros Q. inversion Q; subst; [left; now left | right; eauto].
  Qed.
  Lemma last_node_spec l s : Forall (@simple_node G) l -> distinct l -> (forall m, last_node G s l = Some m <-> exists r, In r l /\ named_node s r m) .
  Proof.
    intros Si D m. unfold last_node, distinct in *.
    assert (K : map fst (flat_map (all_nodes G) l) = flat_map ids l /\ forall t m, In (t, m) (flat_map (all_nodes G) l) <-> exists k, In k l /\ named_node t k m).
    { clear D. induction l as [ | c l IHl]; [split; [reflexivity | ]; intros t m'; split; [intros [] | intros (k & [] & _)] | ]. apply Forall_cons_iff in Si. destruct Si as (S1 & S2). destruct (all_nodes_simple c S1) as (C1 & C2), (IHl S2) as (L1 & L2). cbn [flat_map]. rewrite map_app, C1, L1. split; [reflexivity | ].
      intros t m'. rewrite in_app_iff, C2, L2, ex_cons. tauto. }
    destruct K as (K1 & K2). rewrite <- K2. rewrite <- K1 in D. revert D. generalize (flat_map (all_nodes G) l). clear. intros l D. split.
    - destruct (find _ (rev l)) as [(t, m') | ] eqn:E; [ | discriminate]. cbn. intros Q. injection Q as ->. apply find_some in E. destruct E as (E1 & E2). cbn in E2. apply String.eqb_eq in E2. subst t. now apply in_rev.
    - intros Hm. apply in_rev in Hm. destruct (find _ (rev l)) as [(t, m') | ] eqn:E.
      + apply find_some in E. destruct E as (E1 & E2). cbn in E2. apply String.eqb_eq in E2. subst t. cbn. f_equal. apply in_rev in E1. apply in_rev in Hm. clear - D E1 Hm. induction l as [ | (a, b) l IH]; [destruct Hm | ]. cbn in D. apply NoDup_cons_iff in D. destruct D as (D1 & D2).
        destruct E1 as [E1 | E1], Hm as [Hm | Hm]; [congruence | | | auto]; exfalso; apply D1; apply in_map_iff; [injection E1 as -> -> | injection Hm as -> ->]; [exists (s, m) | exists (s, m')]; auto.
      + exfalso. assert (X := find_none _ _ E (s, m) Hm). cbn in X. rewrite String.eqb_refl in X. discriminate.
  Qed.
  Lemma named_simple s n m : named_node s n m -> simple_node n -> simple_node m /\ exists tfs kids, m = CN (Some s) tfs kids.
  Proof.
    induction 1 as [tfs kids | i tfs kids k n Hk _ IH]; intros Si; [split; [exact Si | eauto] | ]. apply simple_kids in Si. rewrite Forall_forall in Si. auto.
  Qed.
  Lemma named_geoms s n m : named_node s n m -> forall x, In x (geoms_of G m) -> In x (geoms_of G n).
  Proof. induction 1 as [tfs kids | i tfs kids k n Hk _ IH]; intros x Hx; [exact Hx | ]. cbn. apply in_flat_map. eauto. Qed.

  (** ** libraries *)
  Lemma save_geom_old x Gs q g : assoc q Gs = Some g -> assoc q (save_geom G x Gs) = Some g.
  Proof. unfold save_geom. destruct existsb; [auto | ]. clear. induction Gs as [ | (a, b) Gs IH]; cbn; [discriminate | ]. destruct (String.eqb a q); auto. Qed.
  Lemma assoc_in q g (Gs : list (string * G)) : assoc q Gs = Some g -> In (q, g) Gs.
  Proof. induction Gs as [ | (a, b) Gs IH]; cbn; [discriminate | ]. destruct (String.eqb_spec a q) as [-> | ]; [intros E; injection E as ->; now left | auto]. Qed.
  Lemma save_geom_has q g Gs : exists g', assoc q (save_geom G (q, g) Gs) = Some g'.
  Proof.
    unfold save_geom. cbn [fst]. destruct existsb eqn:E; induction Gs as [ | (a, b) Gs IH]; cbn in *; try discriminate.
    - destruct (String.eqb a q); [eauto | auto].
    - rewrite String.eqb_refl. eauto.
    - destruct (String.eqb a q); [discriminate | auto].
  Qed.
  Lemma save_geom_in x Gs y : In y (save_geom G x Gs) -> In y Gs \/ y = x.
  Proof. unfold save_geom. destruct existsb; [auto | ]. rewrite in_app_iff. cbn. intros [H | [H | []]]; auto. Qed.
  Lemma save_all_old xs : forall Gs q g, assoc q Gs = Some g -> assoc q (fold_left (fun (r : list (string * G)) x => save_geom G x r) xs Gs) = Some g.
  Proof. induction xs as [ | x xs IH]; intros Gs q g E; cbn; [exact E | ]. apply IH, save_geom_old, E. Qed.
  Lemma save_all_has xs q g : In (q, g) xs -> forall Gs, exists g', assoc q (fold_left (fun (r : list (string * G)) x => save_geom G x r) xs Gs) = Some g'.
  Proof.
    induction xs as [ | x xs IH]; intros Hx Gs; [destruct Hx | ]. cbn. destruct Hx as [-> | Hx]; [ | auto]. destruct (save_geom_has q g Gs) as (g' & E). exists g'. now apply save_all_old.
  Qed.
  Lemma save_all_in xs y : forall Gs, In y (fold_left (fun (r : list (string * G)) x => save_geom G x r) xs Gs) -> In y Gs \/ In y xs.
  Proof. induction xs as [ | x xs IH]; intros Gs Hy; cbn in *; [auto | ]. apply IH in Hy. destruct Hy as [Hy | Hy]; [ | auto]. apply save_geom_in in Hy. destruct Hy; auto. Qed.
  Lemma find_node_app s l n : find_node G s (l ++ [n]) = match find_node G s l with Some m => Some m | None => find_node G s [n] end.
  Proof. unfold find_node. induction l as [ | a l IH]; [reflexivity | ]. cbn [app find]. destruct (match node_id G a with Some t => String.eqb t s | None => false end); [reflexivity | exact IH]. Qed.
  Lemma find_node_id s l n : find_node G s l = Some n -> node_id G n = Some s.
  Proof. unfold find_node. intros E. apply find_some in E. destruct E as (_ & E). destruct (node_id G n); [ | discriminate]. apply String.eqb_eq in E. congruence. Qed.
  Lemma save_node_old n L s m : find_node G s L = Some m -> find_node G s (save_node G n L) = Some m.
  Proof. unfold save_node. destruct (node_id G n) as [t | ]; [ | auto]. destruct (find_node G t L); [auto | ]. intros E. rewrite find_node_app, E. reflexivity. Qed.
  Lemma save_node_new n L s m : find_node G s (save_node G n L) = Some m -> find_node G s L = Some m \/ m = n.
  Proof.
    unfold save_node. destruct (node_id G n) as [t | ]; [ | auto]. destruct (find_node G t L); [auto | ]. rewrite find_node_app. destruct (find_node G s L) as [m' | ] eqn:E; [auto | ]. cbn. destruct (match node_id G n with Some _ => _ | None => _ end); [ | discriminate]. intros Q. injection Q as <-. auto.
  Qed.
  Lemma save_node_has n L s : node_id G n = Some s -> (forall m, find_node G s L = Some m -> m = n) -> find_node G s (save_node G n L) = Some n.
  Proof.
    intros E U. unfold save_node. rewrite E. destruct (find_node G s L) as [m | ] eqn:F; [rewrite F; f_equal; auto | ]. rewrite find_node_app, F. cbn. rewrite E, String.eqb_refl. reflexivity.
  Qed.

  (** ** one shape *)
  Record inv (known : string -> G -> Prop) (lib : cnode G -> Prop) (d0 d : cdoc G) : Prop := {
    in_res : well_formed d;
    in_ids : flat_map ids (d_scene d) = flat_map ids (d_scene d0);
    in_frames : forall s P, frame_at (d_scene d) s P <-> frame_at (d_scene d0) s P;
    in_geoms : forall q g, In (q, g) (d_geoms d) -> known q g;
    in_lib : forall s n, find_node G s (d_nodes d) = Some n -> find_node G s (d_nodes d0) = Some n \/ lib n }.
  Lemma attach_step known lib d0 d s tfs c : inv known lib d0 d -> (forall q g g', known q g -> known q g' -> g = g') -> distinct (d_scene d0) ->
    lib c -> (exists t, node_id G c = Some t /\ find_node G t (d_nodes d0) = None) -> (forall c', lib c' -> node_id G c' = node_id G c -> c' = c) -> simple_node c -> (forall q g, In (q, g) (geoms_of G c) -> known q g) ->
    inv known lib d0 (attach G s tfs c d) /\
    forall M g, contents (attach G s tfs c d) M g <-> contents d M g \/ exists P, frame_at (d_scene d0) s P /\ holds (mm4 P (tfs_mat tfs)) c M g.
  Proof.
    intros [Re Id Fr Ge Li] Ku Ds Lc (t & Et & Ft) Lu Si Kg. unfold attach. set (k := CN None tfs [CI c]).
    assert (Ik : ids k = []) by reflexivity. assert (Sk := void_stands tfs c). fold k in Sk. destruct (add_in_grows s k (d_scene d) Ik Sk) as (A & B). destruct (add_in G s k (d_scene d)) as [sc | ] eqn:E.
    - assert (Gr := A sc eq_refl). destruct Gr as [Gi Gs Gh Grs]. set (Gs' := save_geoms G c (d_geoms d)). set (L' := save_node G c (d_nodes d)).
      assert (Gold : forall q g, assoc q (d_geoms d) = Some g -> assoc q Gs' = Some g) by (intros; apply save_all_old; assumption).
      assert (Lold : forall q n, find_node G q (d_nodes d) = Some n -> find_node G q L' = Some n) by (intros; apply save_node_old; assumption).
      assert (Gin : forall q g, In (q, g) Gs' -> known q g) by (intros q g Hq; apply save_all_in in Hq; destruct Hq; auto).
      assert (Rc : resolved L' Gs' c). { apply simple_resolved; [exact Si | ]. intros q g Hq. destruct (save_all_has _ q g Hq (d_geoms d)) as (g' & Eg). fold (save_geoms G c (d_geoms d)) in Eg. fold Gs' in Eg. rewrite Eg. f_equal. apply (Ku q); [apply Gin, assoc_in, Eg | auto]. }
      assert (Fc : find_node G t L' = Some c). { apply save_node_has; [exact Et | ]. intros m Hm. destruct (Li t m Hm) as [Q | Q]; [congruence | ]. apply Lu; [exact Q | ]. rewrite Et. eapply find_node_id; eauto. }
      assert (Rk : resolved L' Gs' k) by (cbn; split; [split; [exists t; auto | exact Rc] | exact Logic.I]).
      split; [split; cbn [d_scene d_nodes d_geoms] | ].
      + apply Grs; [ | exact Rk]. unfold well_formed in Re. rewrite Forall_forall in *. intros n Hn. eapply resolved_mono; eauto.
      + congruence.
      + intros q P. rewrite <- Fr. apply Gs.
      + exact Gin.
      + intros q n Hn. apply save_node_new in Hn. destruct Hn as [Hn | ->]; auto.
      + intros M g. unfold contents. cbn [d_scene]. destruct (Gh eye4) as (P & Hs & Ch). rewrite Ch. assert (FP : frame_at (d_scene d0) s P) by (apply Fr; exact Hs).
        assert (Hk : forall Q, holds Q k M g <-> holds (mm4 Q (tfs_mat tfs)) c M g). { intros Q. unfold k. rewrite holds_node_iff, one. split; [intros X; inversion X; assumption | now constructor]. }
        rewrite Hk. split; (intros [X | X]; [now left | right]); [exists P; auto | ]. destruct X as (P' & FP' & X). assert (P' = P) by (eapply frame_unique; eauto). now subst.
    - split; [split; assumption | ]. intros M g. split; [auto | ]. intros [X | (P & FP & _)]; [exact X | ]. exfalso. apply (B eq_refl). rewrite Id. apply frame_id. eauto.
  Qed.
End G.
