(** Lemmas for C20: the initialisation of a logger. *)
From Verif Require Export Proof_Sim4.
From Verif Require Import Props_Named.
From Coq Require Import Lra ListDec.

Lemma what_of_cons nm x l d : what_of nm (x :: l) d = what_of nm l (dic_set d (name_of nm (fst x)) (snd x)). Proof. reflexivity. Qed.
Lemma what_of_nodup nm l : forall d, NoDup (map fst d) -> NoDup (map fst (what_of nm l d)).
Proof. induction l as [ | x l IH]; intros d N; [exact N | ]. rewrite what_of_cons. apply IH. apply dic_set_keys. exact N. Qed.
Lemma what_of_in nm l : forall d k t, NoDup (map fst d) -> In (k, t) (what_of nm l d) -> In (k, t) d \/ exists x, In (x, t) l /\ name_of nm x = k.
Proof.
  induction l as [ | [x u] l IH]; intros d k t N H; [left; exact H | ]. rewrite what_of_cons in H. cbn [fst snd] in H.
  destruct (dic_set_keys d (name_of nm x) u N) as [N' _]. apply (IH _ _ _ N') in H. destruct H as [H | (y & Hy & E)]; [ | right; exists y; split; [now right | exact E]].
  apply dic_get_in in H; [ | exact N']. rewrite dic_get_set in H. destruct (String.eqb_spec (name_of nm x) k) as [E | _].
  - injection H as ->. right. exists x. split; [now left | exact E].
  - left. apply dic_get_ok_in. exact H.
Qed.
Lemma what_of_get nm l : forall d k t, NoDup (map fst d) -> (forall x t', In (x, t') l -> name_of nm x = k -> t' = t) ->
  (exists x, In (x, t) l /\ name_of nm x = k) \/ dic_get d k = Ok t -> dic_get (what_of nm l d) k = Ok t.
Proof.
  induction l as [ | [x u] l IH]; intros d k t N U H.
  - destruct H as [(x & [] & _) | H]; exact H.
  - rewrite what_of_cons. cbn [fst snd]. destruct (dic_set_keys d (name_of nm x) u N) as [N' _]. apply IH; [exact N' | intros y t' Hy; apply U; now right | ].
    destruct (String.eqb_spec (name_of nm x) k) as [E | Ne].
    + right. rewrite dic_get_set. rewrite E, String.eqb_refl. f_equal. apply (U x u); [now left | exact E].
    + destruct H as [(y & [Hy | Hy] & Ey) | H].
      * injection Hy as -> ->. contradiction.
      * left. exists y. auto.
      * right. rewrite dic_get_set. destruct (String.eqb_spec (name_of nm x) k); [contradiction | exact H].
Qed.
Lemma frames1_ok h js fs : frames1 h js = Ok fs -> Forall2 (fun j f => exists f0, jframes h j = Some (f0, f)) js fs.
Proof.
  revert fs. induction js as [ | j js IH]; cbn; intros fs E; [injection E as <-; constructor | ].
  destruct (jframes h j) as [[f0 f1] | ] eqn:Ej; [ | discriminate]. cbn [rbind] in E. fold (frames1 h js) in E. destruct (frames1 h js) as [l | ] eqn:El; [ | discriminate]. cbn in E. injection E as <-.
  constructor; [exists f0; exact Ej | apply IH; reflexivity].
Qed.
Lemma in_combine2 {A B} (P : A -> B -> Prop) l m : Forall2 P l m -> forall a, In a l -> exists b, In (a, b) (combine l m) /\ P a b.
Proof. induction 1 as [ | x y l m H F IH]; cbn; intros a Ha; [contradiction | ]. destruct Ha as [-> | Ha]; [exists y; auto | ]. destruct (IH a Ha) as (b & Hb & Pb). exists b. auto. Qed.
Lemma in_combine_P {A B} (P : A -> B -> Prop) l m : Forall2 P l m -> forall a b, In (a, b) (combine l m) -> In a l /\ In b m /\ P a b.
Proof. induction 1 as [ | x y l m H F IH]; cbn; intros a b Ha; [contradiction | ]. destruct Ha as [Ha | Ha]; [injection Ha as -> ->; auto | ]. apply IH in Ha. tauto. Qed.
Lemma nodup_map_inj {A B} (f : A -> B) l x y : NoDup (map f l) -> In x l -> In y l -> f x = f y -> x = y.
Proof.
  induction l as [ | a l IH]; cbn; intros N Hx Hy E; [contradiction | ]. inversion N as [ | ? ? Na Nl]; subst.
  destruct Hx as [-> | Hx], Hy as [-> | Hy]; auto; exfalso; apply Na; [rewrite E | rewrite <- E]; apply in_map; assumption.
Qed.
Lemma list_ok_nodup sid nm l nm' : name_all_elements sid nm (IterList l) true = (nm', Ok tt) -> NoDup (map (name_of nm') l).
Proof.
  intros E. destruct (C03_duplicates_on_lists sid nm l) as (_ & B & _). rewrite E in B. cbn [fst snd] in B.
  destruct (ListDec.NoDup_dec string_dec (map (name_of nm') l)) as [N | N]; [exact N | ]. destruct (B N) as (s & Q & _). discriminate.
Qed.
Lemma movs_spec h m : In m (itermovingsubframes h) <-> In (FMov m) (w_subframes h).
Proof.
  unfold itermovingsubframes. rewrite in_flat_map. split.
  - intros (f & Hf & Hm). destruct f; try contradiction. destruct Hm as [-> | []]. exact Hf.
  - intros H. exists (FMov m). split; [exact H | now left].
Qed.

(** the transforms *)
Lemma log_what_ok U h o nm nm' d : log_what_init U h o nm = (nm', Ok d) -> lo_transforms o = true ->
  NoDup (map fst d) /\
  (forall f t, logged U h (lo_flat o) f t -> exists s, nm' (id_frame f) = Some s) /\
  (forall f t, logged U h (lo_flat o) f t -> (forall f' t', logged U h (lo_flat o) f' t' -> name_of nm' (id_frame f') = name_of nm' (id_frame f) -> t' = t) ->
     In (name_of nm' (id_frame f), t) d) /\
  (forall k t, In (k, t) d -> exists f, logged U h (lo_flat o) f t /\ name_of nm' (id_frame f) = k) /\
  (forall f f' j j', logged U h (lo_flat o) f (TJoint j) -> logged U h (lo_flat o) f' (TJoint j') -> name_of nm' (id_frame f) = name_of nm' (id_frame f') -> f = f').
Proof.
  intros E Ht. unfold log_what_init in E. rewrite Ht in E.
  match type of E with (let '(_, _) := ?b in _) = _ => destruct b as [nm1 [d1 | ]] eqn:B end; [ | discriminate].
  destruct (name_all_elements _ nm1 _ _) as [nm2 [[] | ]] eqn:M; [ | discriminate]. injection E as <- <-.
  assert (Mp := name_all_pass _ _ _ _ _ _ M). cbn [consume fst] in Mp. assert (K := name_all_keeps _ _ _ _ _ _ M).
  set (ml := map (fun m => (id_frame (FMov m), TMov m)) (itermovingsubframes h)).
  (* the first listing *)
  assert (S1 : exists L : list (frame * target), d1 = what_of nm1 (map (fun x => (id_frame (fst x), snd x)) L) [] /\
    (forall f t, In (f, t) L -> exists s, nm1 (id_frame f) = Some s) /\
    (forall f t, logged U h (lo_flat o) f t <-> In (f, t) L \/ exists m, In m (itermovingsubframes h) /\ f = FMov m /\ t = TMov m) /\
    (forall f f' j j', In (f, TJoint j) L -> In (f', TJoint j') L -> name_of nm1 (id_frame f) = name_of nm1 (id_frame f') -> f = f') /\
    (forall f t, In (f, t) L -> match t with TMov _ => False | _ => True end)).
  { destruct (lo_flat o).
    - destruct (iterbodies _ _ _) as [bs | ] eqn:Eb; [ | discriminate]. destruct (name_all_elements _ _ _ _) as [m1 [[] | ]] eqn:N1; [ | discriminate]. injection B as <- <-.
      exists (map (fun b => (FBody b, TBody b)) bs). split; [rewrite map_map; reflexivity | ].
      split; [ | split; [ | split]].
      + intros f t H. apply in_map_iff in H. destruct H as (b & H & Hb). injection H as <- <-. rewrite (name_all_pass _ _ _ _ _ _ N1). apply name_pass_named.
        apply in_map_iff. exists b. auto.
      + intros f t. split.
        * intros H. destruct H as [b bs' _ Eb' Hb | j js f0 f1 Ef | m Hm]; [ | discriminate | right; exists m; rewrite movs_spec; auto].
          left. rewrite Eb in Eb'. injection Eb' as <-. apply in_map_iff. exists b. auto.
        * intros [H | (m & Hm & -> & ->)]; [ | constructor; apply movs_spec; exact Hm]. apply in_map_iff in H. destruct H as (b & H & Hb). injection H as <- <-. econstructor; eauto.
      + intros f f' j j' H. apply in_map_iff in H. destruct H as (b & H & Hb). discriminate.
      + intros f t H. apply in_map_iff in H. destruct H as (b & H & Hb). injection H as <- <-. exact Logic.I.
    - destruct (iterjoints _ _ _) as [js | ] eqn:Ej; [ | discriminate]. destruct (frames1 h js) as [fs | ] eqn:Ef; [ | discriminate].
      destruct (name_all_elements _ _ _ _) as [m1 [[] | ]] eqn:N1; [ | discriminate]. injection B as <- <-. apply frames1_ok in Ef.
      exists (map (fun x => (snd x, TJoint (fst x))) (combine js fs)). split; [rewrite map_map; reflexivity | ].
      split; [ | split; [ | split]].
      + intros f t H. apply in_map_iff in H. destruct H as ([j f1] & H & Hb). injection H as <- <-. cbn [snd fst]. apply (in_combine_P _ _ _ Ef) in Hb. destruct Hb as (_ & Hf & _).
        rewrite (name_all_pass _ _ _ _ _ _ N1). apply name_pass_named. cbn. apply in_map. exact Hf.
      + intros f t. split.
        * intros H. destruct H as [b bs' Ff _ _ | j js' f0 f1 _ Ej' Hj Hf | m Hm]; [discriminate | | right; exists m; rewrite movs_spec; auto].
          left. rewrite Ej in Ej'. injection Ej' as <-. destruct (in_combine2 _ _ _ Ef j Hj) as (f & Hc & f0' & Hf'). rewrite Hf in Hf'. injection Hf' as _ <-.
          apply in_map_iff. exists (j, f1). auto.
        * intros [H | (m & Hm & -> & ->)]; [ | constructor; apply movs_spec; exact Hm]. apply in_map_iff in H. destruct H as ([j f1] & H & Hb). injection H as <- <-. cbn [fst snd].
          apply (in_combine_P _ _ _ Ef) in Hb. destruct Hb as (Hj & _ & f0 & Hf). eapply (logged_joint _ _ _ j js f0); auto.
      + intros f f' j j' H H' En. apply in_map_iff in H. destruct H as ([a f1] & H & Hb). apply in_map_iff in H'. destruct H' as ([a' f1'] & H' & Hb'). injection H as <- <-. injection H' as <- <-. cbn [fst snd] in *.
        apply (in_combine_P _ _ _ Ef) in Hb. apply (in_combine_P _ _ _ Ef) in Hb'. destruct Hb as (_ & Hf & _). destruct Hb' as (_ & Hf' & _).
        apply list_ok_nodup in N1. rewrite map_map in N1. eapply (nodup_map_inj _ fs); eassumption.
      + intros f t H. apply in_map_iff in H. destruct H as ([a f1] & H & Hb). injection H as <- <-. exact Logic.I. }
  destruct S1 as (L & -> & Nm & Lg & Ji & Nmov). set (L1 := map (fun x => (id_frame (fst x), snd x)) L).
  assert (N1 : NoDup (map fst (what_of nm1 L1 []))) by (apply what_of_nodup; constructor).
  assert (S : forall f t, In (f, t) L -> name_of nm2 (id_frame f) = name_of nm1 (id_frame f)).
  { intros f t H. destruct (Nm f t H) as (s & Es). destruct (name_of_keeps _ _ _ _ K Es). congruence. }
  assert (InL1 : forall x t, In (x, t) L1 <-> exists f, In (f, t) L /\ x = id_frame f).
  { intros x t. unfold L1. rewrite in_map_iff. split; [intros ([f u] & Q & H); injection Q as <- <-; exists f; auto | intros (f & H & ->); exists (f, t); auto]. }
  assert (InM : forall x t, In (x, t) ml <-> exists m, In m (itermovingsubframes h) /\ x = id_frame (FMov m) /\ t = TMov m).
  { intros x t. unfold ml. rewrite in_map_iff. split; [intros (m & Q & H); injection Q as <- <-; exists m; auto | intros (m & H & -> & ->); exists m; auto]. }
  split; [apply what_of_nodup, N1 | ]. split; [ | split; [ | split]].
  - intros f t H. apply Lg in H. destruct H as [H | (m & Hm & -> & ->)].
    + destruct (Nm f t H) as (s & Es). exists s. apply K, Es.
    + rewrite Mp. apply name_pass_named. apply (in_map (fun m => id_frame (FMov m))). exact Hm.
  - intros f t H Un. apply dic_get_ok_in. apply what_of_get; [exact N1 | | ].
    + intros x t' Hx En. apply InM in Hx. destruct Hx as (m & Hm & -> & ->). apply (Un (FMov m)); [apply Lg; right; exists m; auto | exact En].
    + apply Lg in H. destruct H as [H | (m & Hm & -> & ->)]; [right | left; exists (id_frame (FMov m)); split; [apply InM; exists m; auto | reflexivity]].
      rewrite (S f t H). apply what_of_get; [constructor | | left; exists (id_frame f); split; [apply InL1; exists f; auto | reflexivity]].
      intros x t' Hx En. apply InL1 in Hx. destruct Hx as (f' & Hf' & ->). apply (Un f'); [apply Lg; left; exact Hf' | ]. rewrite (S f' t' Hf'), (S f t H). exact En.
  - intros k t H. apply what_of_in in H; [ | exact N1]. destruct H as [H | (x & Hx & En)].
    + apply what_of_in in H; [ | constructor]. destruct H as [[] | (x & Hx & En)]. apply InL1 in Hx. destruct Hx as (f & Hf & ->). exists f. split; [apply Lg; left; exact Hf | ]. rewrite (S f t Hf). exact En.
    + apply InM in Hx. destruct Hx as (m & Hm & -> & ->). exists (FMov m). split; [apply Lg; right; exists m; auto | exact En].
  - intros f f' j j' H H' En. apply Lg in H. apply Lg in H'. destruct H as [H | (? & _ & _ & Q)]; [ | discriminate]. destruct H' as [H' | (? & _ & _ & Q)]; [ | discriminate].
    rewrite (S _ _ H), (S _ _ H') in En. eapply Ji; eassumption.
Qed.

Lemma fold_rows nm n js : forall d key, (exists j, In j js /\ name_of nm (id_joint j) = key) \/ dic_get d key = Ok (repeat None n) ->
  dic_get (fold_left (fun d j => dic_set d (name_of nm (id_joint j)) (@repeat (option pyval) None n)) js d) key = Ok (repeat None n).
Proof.
  induction js as [ | j js IH]; cbn [fold_left In]; intros d key H; [destruct H as [(j & [] & _) | H]; exact H | ].
  apply IH. destruct (String.eqb_spec (name_of nm (id_joint j)) key) as [E | Ne].
  - right. rewrite dic_get_set. rewrite E, String.eqb_refl. reflexivity.
  - destruct H as [(j' & [-> | Hj'] & E) | H]; [contradiction | left; exists j'; auto | right]. rewrite dic_get_set. destruct (String.eqb_spec (name_of nm (id_joint j)) key); [contradiction | exact H].
Qed.

Lemma log_init_ok U v o tl nm nm' g : log_init U v o tl nm = (nm', Ok g) ->
  let h := s_heap (v_s v) in let key := fun j => name_of nm' (id_joint j) in
  exists js, (lo_state o = true -> iterjoints (su_e U) (su_fuel U) h = Ok js) /\ (forall j, In j js -> exists s, nm' (id_joint j) = Some s) /\
    NoDup (map key js) /\ NoDup (map fst (lg_what g)) /\ map fst (lg_tr g) = map fst (lg_what g) /\
    log_inv U o (length tl - 1) key js (lg_what g) [] g /\
    (lo_transforms o = true -> 
      (forall f t, logged U h (lo_flat o) f t -> exists s, nm' (id_frame f) = Some s) /\
      (forall f t, logged U h (lo_flat o) f t -> (forall f' t', logged U h (lo_flat o) f' t' -> name_of nm' (id_frame f') = name_of nm' (id_frame f) -> t' = t) ->
         In (name_of nm' (id_frame f), t) (lg_what g)) /\
      (forall k t, In (k, t) (lg_what g) -> exists f, logged U h (lo_flat o) f t /\ name_of nm' (id_frame f) = k) /\
      (forall f f' j j', logged U h (lo_flat o) f (TJoint j) -> logged U h (lo_flat o) f' (TJoint j') -> name_of nm' (id_frame f) = name_of nm' (id_frame f') -> f = f')).
Proof.
  intros E h key. unfold log_init in E. set (n := (length tl - 1)%nat) in *. fold h in E.
  destruct (log_state_init U h o n nm) as [nm1 [dp | ]] eqn:E1; [ | discriminate]. destruct (log_what_init U h o nm1) as [nm2 [dw | ]] eqn:E2; [ | discriminate]. injection E as -> <-.
  assert (K2 := log_what_keeps _ _ _ _ _ _ E2).
  assert (Js : exists js, (lo_state o = true -> iterjoints (su_e U) (su_fuel U) h = Ok js) /\ (forall j, In j js -> exists s, nm1 (id_joint j) = Some s) /\
    NoDup (map (fun j => name_of nm1 (id_joint j)) js) /\ forall j, In j js -> dic_get dp (name_of nm1 (id_joint j)) = Ok (repeat None n)).
  { unfold log_state_init in E1. destruct (lo_state o); [ | exists []; injection E1 as <- <-; repeat split; [discriminate | intros ? [] | constructor | intros ? []]].
    destruct (iterjoints _ _ h) as [js | ] eqn:Ej; [ | discriminate]. destruct (name_all_elements _ _ _ _) as [nm1' [[] | ]] eqn:N1; [ | discriminate]. injection E1 as <- <-.
    exists js. split; [auto | ]. split; [ | split].
    - intros j Hj. rewrite (name_all_pass _ _ _ _ _ _ N1). apply name_pass_named. cbn [consume fst]. apply in_map. exact Hj.
    - apply list_ok_nodup in N1. rewrite map_map in N1. exact N1.
    - intros j Hj. apply fold_rows. left. exists j. auto. }
  destruct Js as (js & J1 & J2 & J3 & J4). exists js. split; [exact J1 | ].
  assert (Hk : forall j, In j js -> key j = name_of nm1 (id_joint j)) by (intros j Hj; destruct (J2 j Hj) as (s & Es); unfold key; destruct (name_of_keeps _ _ _ _ K2 Es); congruence).
  split; [intros j Hj; destruct (J2 j Hj) as (s & Es); exists s; apply K2, Es | ].
  split; [rewrite (map_ext_in _ _ _ Hk); exact J3 | ]. cbn [lg_what lg_tr].
  assert (Nw : NoDup (map fst dw)).
  { destruct (lo_transforms o) eqn:Ht; [apply (log_what_ok _ _ _ _ _ _ E2 Ht) | ]. unfold log_what_init in E2. rewrite Ht in E2. injection E2 as _ <-. constructor. }
  split; [exact Nw | ]. split; [rewrite map_map; reflexivity | ]. split.
  - unfold log_inv. cbn [lg_n lg_k lg_what lg_time lg_model lg_pos lg_vel lg_tr map length]. split; [reflexivity | ]. split; [reflexivity | ]. split; [reflexivity | ].
    split; [apply filled_0 | ]. split; [ | split].
    + intros ->. apply filled_0.
    + intros _ j Hj. rewrite (Hk j Hj). split; exists (repeat None n); (split; [apply J4, Hj | apply filled_0]).
    + intros _ k t H. split; [intros ? [] | ]. exists (repeat None n). split; [ | apply filled_0]. apply dic_get_in; [rewrite map_map; exact Nw | ]. apply (in_map (fun x => (fst x, repeat None n)) _ _ H).
  - intros Ht. destruct (log_what_ok _ _ _ _ _ _ E2 Ht) as (_ & A & B & C & D). auto.
Qed.
