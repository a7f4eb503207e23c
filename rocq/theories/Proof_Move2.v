(** Displaced robots: the phases of a step. *)
From Coq Require Import Lra Lia FunctionalExtensionality.
From Verif Require Import Spec_Move Proof_Linalg Proof_SE3 Proof_Tree Proof_World Proof_World2 Proof_World3 Proof_World4 Proof_Dofs Proof_Step Proof_Move.
Open Scope R_scope.

Definition grounded (e : env) (s : store) : Prop := a_pose (s (ground e)) = Some eye4 /\ a_jac (s (ground e)) = Some (fun _ => zero6).
Section Dyn.
  Context (e : env) (sc sc' : scene) (h : @heap R) (J J' : nat -> jstate) (G : m4) (ty : nat -> jtype) (fr : nat -> bool) (t : tree).
  Hypothesis D : displaced e sc sc' h ty fr G.
  Hypothesis HJ : forall j, jt (J j) = ty j.
  Hypothesis HJ' : forall j, J' j = JS (jt (J j)) (if fr j then mm4 G (gposH (J j)) else gposH (J j)) (gpos (J j)) (gvel (J j)).
  Hypothesis Rt : rep e h t.
  Hypothesis Er : root t = ground e.
  Hypothesis ND : NoDup (bodies t).

  Lemma whole fuel st st' :
    match update_dynamic e sc h J fuel (ground e) kin0_ st, update_dynamic e sc' h J' fuel (ground e) kin0_ st' with
    | Ok s, Ok s' => displaced_bodies e t G s s' /\ grounded e s
    | Err x, Err y => x = y
    | _, _ => False
    end.
  Proof.
    assert (NDj := rep_nodup_joints e h t Rt ND). destruct t as [b ks]. cbn [root] in Er. subst b. inversion Rt as [? ? Ec Fk]; subst. clear Rt.
    destruct fuel as [ | n]; [reflexivity | ]. cbn [update_dynamic]. rewrite Ec.
    match goal with |- match ?f _ _ with _ => _ end => set (lp := f) end. match goal with |- match _ with Ok _ => match ?f _ _ with _ => _ end | _ => _ end => set (lp' := f) end.
    match goal with |- match lp _ ?a with _ => _ end => set (s0 := a) end. match goal with |- match _ with Ok _ => match lp' _ ?a with _ => _ end | _ => _ end => set (s0' := a) end.
    assert (X : forall kk, incl (map fst kk) (childrenjoints h (ground e)) -> Forall (fun jt => edge e h (ground e) (fst jt) (root (snd jt)) /\ rep e h (snd jt)) kk ->
        NoDup (flat_map (fun jt => bodies (snd jt)) kk) -> ~ In (ground e) (flat_map (fun jt => bodies (snd jt)) kk) ->
        (forall i, In i (flat_map (fun jt => joints (snd jt)) kk) -> fr i = false) ->
        forall s s', moved_upd G (flat_map (fun jt => bodies (snd jt)) kk) s s' (lp (map fst kk) s) (lp' (map fst kk) s')).
    { induction kk as [ | (j, u) kk IHk]; intros Inc Fkk NDk Ngk Hj s s'; [cbn; split; [intros ? [] | auto] | ]. inversion Fkk as [ | ? ? (Ed & Ru) Fks]; subst. cbn [fst snd] in *.
      cbn [flat_map snd] in NDk, Ngk, Hj |- *. rewrite in_app_iff in Ngk. cbn [map fst lp lp'] in *. fold lp lp'.
      destruct Ed as ((f0 & f1 & Ef & B0 & B1) & _). rewrite Ef.
      assert (G1 : frame_body e f1 <> ground e) by (rewrite B1; intros Q; apply Ngk; left; rewrite <- Q; apply root_in_bodies).
      rewrite (child_root e sc sc' h J J' G ty fr D HJ HJ' j f0 f1 (Inc j (or_introl eq_refl)) Ef G1).
      destruct (child_kin sc h j (J j) f0 f1 kin0_) as [k1 | ]; [ | reflexivity]. cbn [rbind].
      rewrite B1. destruct (proj1 (NoDup_app_iff _ _) NDk) as (NDu & Nds & _).
      assert (IHu := below e sc sc' h J J' G ty fr D u Ru NDu (fun Q => Ngk (or_introl Q)) (fun i Hi => J_same J J' G fr HJ' i (Hj i (in_or_app _ _ _ (or_introl Hi)))) n k1 s s').
      destruct (update_dynamic e sc h J n (root u) k1 s) as [s1 | ]; destruct (update_dynamic e sc' h J' n (root u) (movek G k1) s') as [s1' | ]; try contradiction IHu; cbn [rbind]; [ | exact IHu].
      assert (IHs : moved_upd G (flat_map (fun jt => bodies (snd jt)) kk) s1 s1' (lp (map fst kk) s1) (lp' (map fst kk) s1')).
      { apply IHk; try assumption; [intros i Hi; apply Inc; right; exact Hi | intros Q; apply Ngk; right; exact Q | intros i Hi; apply Hj; apply in_or_app; right; exact Hi]. }
      clear IHk. destruct IHu as [A1 A2]. unfold moved_upd in IHs. destruct (lp (map fst kk) s1) as [s2 | ]; destruct (lp' (map fst kk) s1') as [s2' | ]; try contradiction IHs; [ | exact IHs].
      destruct IHs as [C1 C2]. split.
      - intros c Hc. destruct (in_dec Nat.eq_dec c (flat_map (fun jt => bodies (snd jt)) kk)) as [Ic | Nc]; [auto | ]. apply in_app_iff in Hc. destruct Hc as [Hc | Hc]; [ | contradiction].
        destruct (C2 c Nc) as [-> ->]. auto.
      - intros c Hc. rewrite in_app_iff in Hc. destruct (C2 c ltac:(tauto)) as [-> ->]. apply A2. tauto. }
    rewrite bodies_eq in ND. inversion ND as [ | ? ? Nb NDk]; subst.
    assert (Hfr : forall i, In i (flat_map (fun jt => joints (snd jt)) ks) -> fr i = false).
    { intros i Hi. destruct (fr i) eqn:Ei; [ | reflexivity]. exfalso. destruct (dp_free _ _ _ _ _ _ _ D i Ei) as [_ Ii]. rewrite Ec in Ii. rewrite joints_eq in NDj. clear - Hi Ii NDj.
      induction ks as [ | (j, u) ks IH]; [destruct Ii | ]. cbn [flat_map map fst snd] in *. apply in_app_iff in Hi. cbn [app] in NDj. inversion NDj as [ | ? ? N1 N2]; subst. apply NoDup_app_iff in N2. destruct N2 as (N3 & N4 & N5).
      assert (Sub1 : forall x, In x (map fst ks) -> In x (flat_map (fun jt : nat * tree => fst jt :: joints (snd jt)) ks)) by (intros x Hx; apply in_map_iff in Hx; destruct Hx as (p & <- & Hp); apply in_flat_map; exists p; split; [exact Hp | left; reflexivity]).
      assert (Sub2 : forall x, In x (flat_map (fun jt : nat * tree => joints (snd jt)) ks) -> In x (flat_map (fun jt : nat * tree => fst jt :: joints (snd jt)) ks)) by (intros x Hx; apply in_flat_map in Hx; destruct Hx as (p & Hp & Hx); apply in_flat_map; exists p; split; [exact Hp | right; exact Hx]).
      destruct Ii as [<- | Ii]; destruct Hi as [Hi | Hi].
      - apply N1. apply in_app_iff. left. exact Hi.
      - apply N1. apply in_app_iff. right. auto.
      - apply (N5 i); auto.
      - apply IH; auto. }
    specialize (X ks (fun i Hi => eq_ind_r (fun l => In i l) Hi Ec) Fk NDk Nb Hfr s0 s0'). unfold moved_upd in X.
    destruct (lp (map fst ks) s0) as [s1 | ]; destruct (lp' (map fst ks) s0') as [s1' | ]; try contradiction X; [ | exact X]. destruct X as [X1 X2].
    split; [ | unfold grounded; destruct (X2 _ Nb) as [-> _]; unfold s0, upd; rewrite !Nat.eqb_refl; split; reflexivity].
    intros c Hc. rewrite bodies_eq in Hc. destruct (Nat.eqb_spec c (ground e)) as [-> | Nc].
    - destruct (X2 _ Nb) as [-> ->]. unfold s0, s0', upd. rewrite !Nat.eqb_refl. cbn [a_pose a_jac a_djac a_twist a_nle]. rewrite (dp_mass _ _ _ _ _ _ _ D). auto.
    - destruct Hc as [<- | Hc]; [contradiction | ]. exact (X1 c Hc).
  Qed.
  Lemma accumulate_same st st' bs : (forall b, In b bs -> a_jac (st' b) = a_jac (st b) /\ a_djac (st' b) = a_djac (st b) /\ a_nle (st' b) = a_nle (st b)) -> forall d, accumulate sc' st' bs d = accumulate sc st bs d.
  Proof.
    induction bs as [ | b bs IH]; intros H d; [reflexivity | ]. cbn [accumulate]. destruct (H b (or_introl eq_refl)) as (-> & -> & ->).
    destruct (a_jac (st b)); [ | reflexivity]. destruct (a_djac (st b)); [ | reflexivity]. destruct (a_nle (st b)); [ | reflexivity].
    rewrite (dp_mass _ _ _ _ _ _ _ D), (dp_visc _ _ _ _ _ _ _ D). apply IH. intros c Hc. apply H. right. exact Hc.
  Qed.
  Lemma world_dyn fuel st st' :
    match world_update_dynamic e sc h J fuel st, world_update_dynamic e sc' h J' fuel st' with
    | Ok (s, d), Ok (s', d') => displaced_bodies e t G s s' /\ grounded e s /\ d' = d
    | Err x, Err y => x = y
    | _, _ => False
    end.
  Proof.
    unfold world_update_dynamic. change (Kin eye4 (fun _ => zero6) (fun _ => zero6) zero6) with kin0_. assert (W := whole fuel st st').
    destruct (update_dynamic e sc h J fuel (ground e) kin0_ st) as [s | x]; destruct (update_dynamic e sc' h J' fuel (ground e) kin0_ st') as [s' | x']; try contradiction W; cbn [rbind]; [ | exact W].
    destruct (iter_descendant_bodies e fuel h (ground e)) as [bs | ] eqn:Eb; [ | reflexivity]. cbn [rbind]. rewrite <- Er in Eb. apply (iter_bodies_fuel e h t Rt) in Eb. subst bs.
    rewrite (accumulate_same s s') by (intros b Hb; destruct (proj1 W b) as (_ & A1 & A2 & _ & A3); [rewrite bodies_tail; right; exact Hb | auto]).
    destruct (accumulate sc s (tailb t) wdyn0); cbn [rbind]; [destruct W; auto | reflexivity].
  Qed.
End Dyn.
