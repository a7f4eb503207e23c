(** Proofs about the generated matlab robots: what [gen_traverse] writes, as a relation on trees. *)
From Verif Require Export Spec_Matlab Proof_World.
From Verif Require Import Proof_Linalg.
Open Scope R_scope.

Section P.
  Variables (e : env) (sc : scene) (h : @heap R) (J : nat -> jstate) (nm : obj -> option string).
  Notation gen_traverse := (gen_traverse e sc h J nm).
  Definition line (j br bd : nat) : mline :=
    match jframes h j with
    | None => MMad
    | Some (f0, f1) => MBody br bd (nm (OJoint j)) (body_name nm (frame_body e f1)) (axes (J j)) (bpose sc f0) (bpose sc f1) (flip (b_mass sc (frame_body e f1)))
    end.
  Inductive marks : tree -> nat * nat -> list mline -> list (nat * (nat * nat)) -> nat -> Prop :=
  | mk_leaf b br bd : marks (Node b []) (br, bd) [] [] br
  | mk_first b j s ks br bd l1 a1 br1 l2 a2 br2 :
      marks s (br, S bd) l1 a1 br1 -> others ks (br, bd) br1 l2 a2 br2 ->
      marks (Node b ((j, s) :: ks)) (br, bd) (line j br (S bd) :: l1 ++ l2) ((root s, (br, S bd)) :: a1 ++ a2) br2
  with others : list (nat * tree) -> nat * nat -> nat -> list mline -> list (nat * (nat * nat)) -> nat -> Prop :=
  | ot_nil p br : others [] p br [] [] br
  | ot_cons j s ks p br l1 a1 br1 l2 a2 br2 :
      marks s (S br, 1%nat) l1 a1 br1 -> others ks p br1 l2 a2 br2 ->
      others ((j, s) :: ks) p br (MBranch (S br) p :: line j (S br) 1 :: l1 ++ l2) ((root s, (S br, 1%nat)) :: a1 ++ a2) br2.
  Scheme marks_mut := Induction for marks Sort Prop with others_mut := Induction for others Sort Prop.
  Combined Scheme marks_others from marks_mut, others_mut.

  Definition named (a : list (nat * (nat * nat))) : list (option string * (nat * nat)) := map (fun x => (body_name nm (fst x), snd x)) a.

  Lemma axis_ok s br bd : hinge (jt s) -> gen_axis (jt s) br bd = Ok (axes s).
  Proof.
    intros H. unfold axes, dof_order. unfold hinge in H. cbn in H.
    destruct H as [H|[H|[H|[]]]]; rewrite <- H; cbn; unfold jacobian; rewrite <- H; cbn; reflexivity.
  Qed.
  Lemma axis_free s : jt s = FreeJoint -> gen_axis (jt s) 1 1 = Ok (axes s).
  Proof. intros H. unfold axes, dof_order. rewrite H. cbn. unfold jacobian. rewrite H. cbn. reflexivity. Qed.

  Lemma link_ok j br bd g b f0 f1 : jframes h j = Some (f0, f1) -> frame_body e f1 = b -> gen_axis (jt (J j)) br bd = Ok (axes (J j)) ->
    gen_link e sc h J nm j br bd g = (Gen ((body_name nm b, (br, bd)) :: g_map g) (g_js g), [line j br bd], Ok b).
  Proof. intros F B A. unfold gen_link, line. rewrite F, A, B. reflexivity. Qed.

  Definition after (a : list (nat * (nat * nat))) (js : list nat) (g : gen) : gen := Gen (rev (named a) ++ g_map g) (g_js g ++ map J js).
  Lemma after_app a1 a2 j1 j2 g : after a2 j2 (after a1 j1 g) = after (a1 ++ a2) (j1 ++ j2) g.
  Proof.
    unfold after. cbn [g_map g_js]. unfold named. rewrite !map_app, rev_app_distr, !app_assoc. reflexivity.
  Qed.

  Lemma traverse_ok t : forall n br bd g, rep e h t -> (height t < n)%nat -> (forall j, In j (joints t) -> hinge (jt (J j))) ->
    exists l a br', marks t (br, bd) l a br' /\ gen_traverse n (childrenjoints h (root t)) br (S bd) g = (after a (joints t) g, l, Ok br').
  Proof.
    induction t as [b ks IH] using tree_ind'. intros n br bd g R0 Hn Hh.
    apply rep_inv in R0. destruct R0 as [Ck Fk]. cbn [root]. rewrite Ck.
    destruct n as [|n]; [lia|].
    rewrite height_eq in Hn.
    destruct ks as [|[j s] ks].
    - exists [], [], br. split; [constructor|]. cbn. unfold after. cbn. rewrite app_nil_r. destruct g; reflexivity.
    - rewrite Forall_forall in IH.
      assert (One : forall i u, In (i, u) ((j, s) :: ks) -> forall br bd g, exists l a br',
        marks u (br, S bd) l a br' /\
        match gen_link e sc h J nm i br (S bd) g with
        | (g1, l1, Err x) => (g1, l1, Err x)
        | (g1, l1, Ok c) =>
            match gen_traverse n (childrenjoints h c) br (S (S bd)) (Gen (g_map g1) (g_js g1 ++ [J i])) with
            | (g2, l2, r) => (g2, l1 ++ l2, r)
            end
        end = (after ((root u, (br, S bd)) :: a) (i :: joints u) g, line i br (S bd) :: l, Ok br')).
      { intros i u Iu br0 bd0 g0.
        destruct (Fk _ _ Iu) as [[(f0 & f1 & F & B0 & B1) _] Ru]. cbn in F, B1, Ru.
        assert (Hi : hinge (jt (J i))) by (apply Hh; rewrite joints_eq, in_flat_map; exists (i, u); split; [exact Iu|left; reflexivity]).
        rewrite (link_ok i br0 (S bd0) g0 _ _ _ F B1 (axis_ok _ _ _ Hi)). cbn [g_map g_js].
        assert (Hu : (height u < n)%nat).
        { clear - Hn Iu. revert Hn Iu. generalize ((j, s) :: ks). intros k. induction k as [|[i' u'] k IHk]; intros Hn Iu; [destruct Iu|].
          cbn [fold_right snd] in Hn. destruct Iu as [E|Iu]; [injection E as -> ->; lia|]. apply IHk; [lia|exact Iu]. }
        destruct (IH _ Iu n br0 (S bd0) (Gen ((body_name nm (root u), (br0, S bd0)) :: g_map g0) (g_js g0 ++ [J i])) Ru Hu) as (l & a & br' & Mk & Tr).
        { intros i' Ii'. apply Hh. rewrite joints_eq, in_flat_map. exists (i, u). split; [exact Iu|right; exact Ii']. }
        exists l, a, br'. split; [exact Mk|]. cbn [snd] in Tr. rewrite Tr. cbn [app]. f_equal. f_equal. unfold after. cbn [g_map g_js named map rev fst snd].
        fold (named a). rewrite <- !app_assoc. reflexivity. }
      assert (Loop : forall k, (forall x, In x k -> In x ((j, s) :: ks)) -> forall br1 g1 out, exists l a br',
        others k (br, bd) br1 l a br' /\
        (fix loop (js : list nat) (br0 : nat) (g : gen) (out : list mline) {struct js} : gen * list mline * res nat :=
                   match js with
                   | [] => (g, out, Ok br0)
                   | j :: js' =>
                       match
                         match gen_link e sc h J nm j (S br0) 1 g with
                         | (g1, l1, Ok c) =>
                             match gen_traverse n (childrenjoints h c) (S br0) 2 (Gen (g_map g1) (g_js g1 ++ [J j])) with
                             | (g2, l2, r) => (g2, l1 ++ l2, r)
                             end
                         | (g1, l1, Err x) => (g1, l1, Err x)
                         end
                       with
                       | (g1, l1, Ok br1) => loop js' br1 g1 (out ++ MBranch (S br0) (br, (S bd - 1)%nat) :: l1)
                       | (g1, l1, Err x) => (g1, out ++ MBranch (S br0) (br, (S bd - 1)%nat) :: l1, Err x)
                       end
                   end) (map fst k) br1 g1 out = (after a (flat_map (fun jt => fst jt :: joints (snd jt)) k) g1, out ++ l, Ok br')).
      { induction k as [|[i u] k IHk]; intros Sub br1 g1 out.
        - exists [], [], br1. split; [constructor|]. cbn. unfold after. cbn. rewrite !app_nil_r. destruct g1; reflexivity.
        - cbn [map fst].
          destruct (One i u (Sub _ (or_introl eq_refl)) (S br1) 0%nat g1) as (l & a & br' & Mk & Eq). rewrite Eq.
          destruct (IHk (fun x Hx => Sub x (or_intror Hx)) br' (after ((root u, (S br1, 1%nat)) :: a) (i :: joints u) g1)
            (out ++ MBranch (S br1) (br, (S bd - 1)%nat) :: line i (S br1) 1 :: l)) as (l2 & a2 & br2 & Ot & Eq2).
          rewrite Eq2. eexists _, _, _. split; [exact (ot_cons i u k _ br1 l a br' l2 a2 br2 Mk Ot)|].
          rewrite after_app. cbn [flat_map fst snd]. cbn [app]. replace (S bd - 1)%nat with bd by lia. rewrite <- app_assoc. cbn [app]. reflexivity. }
      destruct (One j s (or_introl eq_refl) br bd g) as (l & a & br' & Mk & Eq).
      destruct (Loop ks (fun x Hx => or_intror Hx) br' (after ((root s, (br, S bd)) :: a) (j :: joints s) g) (line j br (S bd) :: l)) as (l2 & a2 & br2 & Ot & Eq2).
      exists (line j br (S bd) :: l ++ l2), ((root s, (br, S bd)) :: a ++ a2), br2. split; [exact (mk_first b j s ks br bd l a br' l2 a2 br2 Mk Ot)|].
      cbn [map fst Model_Matlab.gen_traverse]. rewrite Eq, Eq2, after_app, joints_eq. reflexivity.
  Qed.
End P.
