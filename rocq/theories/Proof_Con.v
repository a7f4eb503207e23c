(** The Gauss-Seidel resolution of the constraints. *)
From Verif Require Import Spec_Step Proof_Dyn Proof_Dyn2 Proof_Matrix Proof_Step.
From Coq Require Import Lra.

Section G.
  Context {C : Type} (ops : cops C).
  Notation entry := (C * option nat)%type.

  Fixpoint slices (n : nat) (l : list entry) (m : nat) : Prop :=
    match l with
    | [] => n = m
    | (c, None) :: l' => slices n l' m
    | (c, Some a) :: l' => a = n /\ slices (n + c_ndol ops c) l' m
    end.
  Lemma slices_le l : forall n m, slices n l m -> (n <= m)%nat.
  Proof. induction l as [ | [c [a | ]] l IH]; cbn; intros n m H; [lia | | auto]. destruct H as [_ H]. apply IH in H. lia. Qed.

  Lemma activate_slices dt cs : forall n l m, activate ops dt n cs = Ok (l, m) -> slices n l m.
  Proof.
    induction cs as [ | c cs IH]; cbn [activate]; intros n l m H; [injection H as <- <-; reflexivity | ].
    destruct (c_enabled ops c).
    - destruct (c_update ops c dt) as [c1 | ]; [ | discriminate]. cbn [rbind] in H. destruct (c_active ops c1).
      + destruct (activate ops dt (n + c_ndol ops c1) cs) as [[l' m'] | ] eqn:E; [ | discriminate]. injection H as <- <-. split; auto.
      + destruct (activate ops dt n cs) as [[l' m'] | ] eqn:E; [ | discriminate]. injection H as <- <-. cbn. auto.
    - destruct (activate ops dt n cs) as [[l' m'] | ] eqn:E; [ | discriminate]. injection H as <- <-. cbn. auto.
  Qed.

  (** rows of the stacked jacobian *)
  Definition rows (l : list entry) (jac : mat) : Prop := forall c a, In (c, Some a) l ->
    exists A, c_jac ops c = Ok A /\ forall k, (k < c_ndol ops c)%nat -> jac (a + k)%nat = A k.

  Lemma stack_rows l : forall n m jac0 jac, slices n l m -> stack ops l jac0 = Ok jac ->
    (forall i, (i < n)%nat -> jac i = jac0 i) /\ rows l jac.
  Proof.
    induction l as [ | [c [a | ]] l IH]; cbn [stack slices]; intros n m jac0 jac Hs H.
    - injection H as <-. split; auto. intros c a [].
    - destruct Hs as [-> Hs]. destruct (c_jac ops c) as [A | ] eqn:EA; [ | discriminate]. cbn [rbind] in H.
      destruct (IH _ _ _ _ Hs H) as [P Q]. split.
      + intros i Li. rewrite P by lia. destruct (Nat.leb_spec n i); [lia | reflexivity].
      + intros c' a' [X | X]; [ | apply (Q c' a' X)]. injection X as <- <-. exists A. split; auto. intros k Lk.
        rewrite P by lia. destruct (Nat.leb_spec n (n + k)); [ | lia]. destruct (Nat.ltb_spec (n + k) (n + c_ndol ops c)); [ | lia].
        cbn. f_equal. lia.
    - destruct (IH _ _ _ _ Hs H) as [P Q]. split; auto. intros c' a' [X | X]; [discriminate | apply (Q c' a' X)].
  Qed.

  (** total generalized force of the kept constraints *)
  Definition cf (c : C) (i : nat) : R := match c_jac ops c with Ok A => sumR (c_ndol ops c) (fun k => A k i * c_force ops c k) | Err _ => 0 end.
  Lemma add_gforces_ok l : forall f g, add_gforces ops l f = Ok g -> forall i, g i = f i + sumlist (fun c => cf c i) (acting l).
  Proof.
    induction l as [ | [c [a | ]] l IH]; cbn [add_gforces]; intros f g H i.
    - injection H as <-. cbn. lra.
    - unfold c_gforce in H. destruct (c_jac ops c) as [A | ] eqn:EA; [ | discriminate]. cbn [rbind] in H.
      rewrite (IH _ _ H i). cbn [acting flat_map snd fst app sumlist]. fold (acting l). unfold vplus, mvn, trans. unfold cf at 2. rewrite EA. lra.
    - apply (IH _ _ H i).
  Qed.

  Definition same_shape (x y : entry) : Prop := snd x = snd y /\ (snd x = None -> fst x = fst y) /\
    c_ndol ops (fst x) = c_ndol ops (fst y) /\ c_jac ops (fst x) = c_jac ops (fst y) /\ c_active ops (fst x) = c_active ops (fst y) /\ c_enabled ops (fst x) = c_enabled ops (fst y).
  Lemma same_refl x : same_shape x x. Proof. repeat split; auto. Qed.
  Lemma same_refl_list l : Forall2 same_shape l l. Proof. induction l; constructor; auto. apply same_refl. Qed.
  Lemma same_trans l1 : forall l2 l3, Forall2 same_shape l1 l2 -> Forall2 same_shape l2 l3 -> Forall2 same_shape l1 l3.
  Proof.
    induction l1 as [ | x l1 IH]; intros l2 l3 H1 H2; inversion H1; subst; inversion H2; subst; constructor; [ | eauto].
    destruct H3 as (? & U & ? & ? & ? & ?), H4 as (? & W & ? & ? & ? & ?). unfold same_shape. repeat split; try congruence.
    intros E. rewrite U by auto. apply W. congruence.
  Qed.
  Lemma same_rows l l' jac : Forall2 same_shape l l' -> rows l jac -> rows l' jac.
  Proof.
    intros H. induction H as [ | x y l l' Hxy H IH]; intros R c a I; [destruct I | ].
    assert (Rl : rows l jac) by (intros c' a' I'; apply R; right; exact I').
    destruct I as [-> | I]; [ | apply (IH Rl c a I)].
    destruct x as [c0 o]. destruct Hxy as (E1 & _ & E2 & E3 & _ & _). cbn [fst snd] in *. subst o.
    destruct (R c0 a (or_introl eq_refl)) as (A & EA & HA). exists A. rewrite <- E3, <- E2. split; auto.
  Qed.

  (** effect of a change of generalized force on the constraint velocities *)
  Definition eff (n : nat) (jac adm : mat) (f : vec) : vec := mvn n jac (mvn n adm f).
  Lemma eff_plus n jac adm f g i : eff n jac adm (vplus f g) i = eff n jac adm f i + eff n jac adm g i.
  Proof. unfold eff. rewrite <- mvn_plus. apply mvn_ext; auto. intros k L. apply mvn_plus. Qed.
  Lemma eff_ext n jac adm f g i : (forall k, f k = g k) -> eff n jac adm f i = eff n jac adm g i.
  Proof. intros E. unfold eff. apply mvn_ext; auto. intros k L. apply mvn_ext; auto. intros q Lq. apply E. Qed.

  Lemma sweep_spec (OK : forall c, increments ops c) dt n jac adm l : rows l jac -> forall vel l' vel',
    sweep ops dt (mmn n jac (mmn n adm (trans jac))) l vel = Ok (l', vel') ->
    Forall2 same_shape l l' /\ forall i, vel' i + eff n jac adm (fun p => sumlist (fun c => cf c p) (acting l)) i =
                                          vel i + eff n jac adm (fun p => sumlist (fun c => cf c p) (acting l')) i.
  Proof.
    induction l as [ | [c [a | ]] l IH]; cbn [sweep]; intros Rw vel l' vel' H.
    - injection H as <- <-. split; [constructor | reflexivity].
    - destruct (c_solve ops c _ _ dt) as [[c1 df] | ] eqn:ES; [ | discriminate]. cbn [rbind] in H.
      destruct (sweep ops dt _ l _) as [[r v] | ] eqn:EW; [ | discriminate]. cbn [rbind] in H. injection H as <- <-.
      destruct (OK c _ _ _ _ _ ES) as (En & Ej & Ea & Ee & Ef).
      assert (Rl : rows l jac) by (intros c' a' I'; apply Rw; right; exact I').
      destruct (IH Rl _ _ _ EW) as [Sh Hv]. split; [constructor; [repeat split; auto; discriminate | exact Sh] | ].
      intros i. specialize (Hv i). cbn [acting flat_map snd fst app sumlist] in *. fold (acting l) in *. fold (acting r) in *.
      destruct (Rw c a (or_introl eq_refl)) as (A & EA & HA).
      pose (u := fun p => sumR (c_ndol ops c) (fun k => A k p * df k)).
      assert (Ec : forall p, cf c1 p = cf c p + u p).
      { intros p. unfold cf. rewrite Ej, EA, En. unfold u. rewrite <- sumR_add. apply sumR_ext. intros k Lk. rewrite Ef by exact Lk. lra. }
      assert (Eu : eff n jac adm u i = sumR (c_ndol ops c) (fun k => mmn n jac (mmn n adm (trans jac)) i (a + k)%nat * df k)).
      { unfold eff. transitivity (mvn (c_ndol ops c) (mmn n jac (mmn n adm (trans A))) df i).
        - rewrite mvn_mmn. apply mvn_ext; auto. intros p Lp. rewrite mvn_mmn. apply mvn_ext; auto. intros q Lq. reflexivity.
        - unfold mvn. apply sumR_ext. intros k Lk. f_equal. unfold mmn. apply sumR_ext. intros p Lp. f_equal. apply sumR_ext. intros q Lq.
          unfold trans. rewrite HA by exact Lk. reflexivity. }
      rewrite <- Eu in Hv.
      rewrite (eff_plus n jac adm (fun p => cf c p) (fun p => sumlist (fun c0 => cf c0 p) (acting l))).
      rewrite (eff_plus n jac adm (fun p => cf c1 p) (fun p => sumlist (fun c0 => cf c0 p) (acting r))).
      rewrite (eff_ext n jac adm (fun p => cf c1 p) (vplus (cf c) u) i) by exact Ec. rewrite eff_plus.
      change (eff n jac adm (fun p => cf c p) i) with (eff n jac adm (cf c) i). lra.
    - destruct (sweep ops dt _ l _) as [[r v] | ] eqn:EW; [ | discriminate]. cbn [rbind] in H. injection H as <- <-.
      assert (Rl : rows l jac) by (intros c' a' I'; apply Rw; right; exact I').
      destruct (IH Rl _ _ _ EW) as [Sh Hv]. split; [constructor; [apply same_refl | exact Sh] | ]. exact Hv.
  Qed.

  Lemma relax_spec (OK : forall c, increments ops c) dt tol m n jac adm iters : forall k l vel prev l' vel', rows l jac ->
    relax ops dt tol m (mmn n jac (mmn n adm (trans jac))) iters k l vel prev = Ok (l', vel') ->
    Forall2 same_shape l l' /\ forall i, vel' i + eff n jac adm (fun p => sumlist (fun c => cf c p) (acting l)) i =
                                          vel i + eff n jac adm (fun p => sumlist (fun c => cf c p) (acting l')) i.
  Proof.
    induction iters as [ | iters IH]; cbn [relax]; intros k l vel prev l' vel' Rw H.
    - injection H as <- <-. split; [apply same_refl_list | reflexivity].
    - destruct (sweep ops dt _ l vel) as [[l1 v1] | ] eqn:EW; [ | discriminate]. cbn [rbind] in H.
      destruct (sweep_spec OK dt n jac adm l Rw _ _ _ EW) as [S1 H1].
      destruct (Nat.ltb 0 k && _).
      + injection H as <- <-. auto.
      + destruct (IH _ _ _ _ _ _ (same_rows _ _ _ S1 Rw) H) as [S2 H2]. split; [eapply same_trans; eauto | ].
        intros i. specialize (H1 i). specialize (H2 i). lra.
  Qed.

  Lemma activate_who dt cs : forall n l m, activate ops dt n cs = Ok (l, m) ->
    Forall2 (fun c x => (c_enabled ops c = false /\ x = (c, None)) \/
                        (c_enabled ops c = true /\ c_update ops c dt = Ok (fst x) /\ (snd x <> None <-> c_active ops (fst x) = true))) cs l.
  Proof.
    induction cs as [ | c cs IH]; cbn [activate]; intros n l m H; [injection H as <- <-; constructor | ].
    destruct (c_enabled ops c) eqn:En.
    - destruct (c_update ops c dt) as [c1 | ] eqn:Eu; [ | discriminate]. cbn [rbind] in H. destruct (c_active ops c1) eqn:Ea.
      + destruct (activate ops dt (n + c_ndol ops c1) cs) as [[l' m'] | ] eqn:E; [ | discriminate]. injection H as <- <-.
        constructor; [right | eapply IH; eauto]. cbn [fst snd]. split; auto. split; auto. split; auto. discriminate.
      + destruct (activate ops dt n cs) as [[l' m'] | ] eqn:E; [ | discriminate]. injection H as <- <-.
        constructor; [right | eapply IH; eauto]. cbn [fst snd]. split; auto. split; auto. split; congruence.
    - destruct (activate ops dt n cs) as [[l' m'] | ] eqn:E; [ | discriminate]. injection H as <- <-.
      constructor; [left | eapply IH; eauto]. auto.
  Qed.
End G.
