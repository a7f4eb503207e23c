(** Proofs about the generated matlab robots: the robots that are refused. *)
From Verif Require Export Proof_Matlab2.
Open Scope R_scope.

Lemma hinge_dec k : hinge k \/ ~ hinge k.
Proof. unfold hinge. cbn. destruct k; auto 6; right; intros [H|[H|[H|[]]]]; discriminate H. Qed.
Lemma axis_err k br bd : ~ hinge k -> (br, bd) <> (1, 1)%nat -> gen_axis k br bd = Err RuntimeError.
Proof.
  intros Nh Ne. unfold hinge in Nh. cbn in Nh. destruct k; try reflexivity; try (exfalso; apply Nh; auto 6; fail).
  cbn. destruct (Nat.eqb_spec br 1) as [->|], (Nat.eqb_spec bd 1) as [->|]; try reflexivity. destruct (Ne eq_refl).
Qed.

Section P.
  Variables (e : env) (sc : scene) (h : @heap R) (J : nat -> jstate) (nm : obj -> option string).
  Notation gen_traverse := (gen_traverse e sc h J nm).
  Definition one_link (n i br bd : nat) (g : gen) : gen * list mline * res nat :=
    match gen_link e sc h J nm i br bd g with
    | (g1, l1, Err x) => (g1, l1, Err x)
    | (g1, l1, Ok c) =>
        match gen_traverse n (childrenjoints h c) br (S bd) (Gen (g_map g1) (g_js g1 ++ [J i])) with
        | (g2, l2, r) => (g2, l1 ++ l2, r)
        end
    end.
  Fixpoint loop_links (n : nat) (p : nat * nat) (js : list nat) (br : nat) (g : gen) (out : list mline) {struct js} : gen * list mline * res nat :=
    match js with
    | [] => (g, out, Ok br)
    | j :: js' =>
        match one_link n j (S br) 1 g with
        | (g1, l1, Err x) => (g1, out ++ MBranch (S br) p :: l1, Err x)
        | (g1, l1, Ok br1) => loop_links n p js' br1 g1 (out ++ MBranch (S br) p :: l1)
        end
    end.
  Lemma traverse_step n j js br bd g : gen_traverse (S n) (j :: js) br bd g =
    match one_link n j br bd g with
    | (g1, l1, Err x) => (g1, l1, Err x)
    | (g1, l1, Ok br1) => loop_links n (br, (bd - 1)%nat) js br1 g1 l1
    end.
  Proof.
    cbn [Model_Matlab.gen_traverse]. fold (one_link n j br bd g). destruct (one_link n j br bd g) as [[g1 l1] [br1|x]]; [|reflexivity].
    revert br1 g1 l1. induction js as [|i js IH]; intros br1 g1 l1; [reflexivity|]. cbn [loop_links]. fold (one_link n i (S br1) 1 g1).
    destruct (one_link n i (S br1) 1 g1) as [[g2 l2] [br2|x]]; [apply IH|reflexivity].
  Qed.
  Definition good (t : tree) : Prop := forall j, In j (joints t) -> hinge (jt (J j)).
  Lemma good_dec t : good t \/ exists j, In j (joints t) /\ ~ hinge (jt (J j)).
  Proof.
    unfold good. induction (joints t) as [|j js IH]; [left; intros j []|].
    destruct (hinge_dec (jt (J j))) as [H|H]; [|right; exists j; split; [left; reflexivity|exact H]].
    destruct IH as [IH|(i & Ii & Hi)]; [left; intros i [<-|Hi]; auto|right; exists i; split; [right; exact Ii|exact Hi]].
  Qed.
  Lemma one_good n i u b br bd g : edge e h b i (root u) -> rep e h u -> (height u < n)%nat -> hinge (jt (J i)) -> good u -> (1 <= br)%nat ->
    exists g' l br', one_link n i br bd g = (g', l, Ok br') /\ (br <= br')%nat.
  Proof.
    intros [(f0 & f1 & F & B0 & B1) _] Ru Hu Hi Gu Hb. unfold one_link.
    rewrite (link_ok e sc h J nm i br bd g _ _ _ F B1 (axis_ok _ _ _ Hi)). cbn [g_map g_js].
    match goal with |- context [Model_Matlab.gen_traverse _ _ _ _ _ n _ br (S bd) ?g] =>
      destruct (traverse_ok e sc h J nm u n br bd g Ru Hu Gu) as (l & a & br' & Mk & Tv) end.
    rewrite Tv. eexists _, _, br'. split; [reflexivity|]. exact (proj1 (proj1 (marks_branches e sc h J nm) _ _ _ _ _ Mk)).
  Qed.
  Lemma traverse_err t : forall n br bd g, rep e h t -> (height t < n)%nat -> (1 <= br)%nat -> (1 <= bd)%nat ->
    (exists j, In j (joints t) /\ ~ hinge (jt (J j))) ->
    exists g' l, gen_traverse n (childrenjoints h (root t)) br (S bd) g = (g', l, Err RuntimeError).
  Proof.
    induction t as [b ks IH] using tree_rect_in. intros n br bd g R0 Hn Hbr Hbd Bad.
    apply rep_inv in R0. destruct R0 as [Ck Fk]. cbn [root]. rewrite Ck.
    destruct n as [|n]; [lia|]. rewrite height_eq in Hn.
    assert (Hk : forall i u, In (i, u) ks -> (height u < n)%nat).
    { clear - Hn. induction ks as [|[i' u'] k IHk]; intros i u Iu; [destruct Iu|].
      cbn [fold_right snd] in Hn. destruct Iu as [E|Iu]; [injection E as -> ->; lia|]. apply (IHk ltac:(lia) i u Iu). }
    assert (BadOne : forall i u, In (i, u) ks -> forall br bd g, (1 <= br)%nat -> (1 <= bd)%nat -> (br, bd) <> (1, 1)%nat ->
      (~ hinge (jt (J i)) \/ exists j, In j (joints u) /\ ~ hinge (jt (J j))) -> exists g' l, one_link n i br bd g = (g', l, Err RuntimeError)).
    { intros i u Iu br0 bd0 g0 H1 H2 H3 Hbad. destruct (Fk _ _ Iu) as [[(f0 & f1 & F & B0 & B1) Pj] Ru]. unfold one_link.
      destruct (hinge_dec (jt (J i))) as [Hi|Hi].
      - rewrite (link_ok e sc h J nm i br0 bd0 g0 _ _ _ F B1 (axis_ok _ _ _ Hi)). cbn [g_map g_js].
        destruct Hbad as [Hbad|Hbad]; [destruct (Hbad Hi)|].
        match goal with |- context [Model_Matlab.gen_traverse _ _ _ _ _ n _ br0 (S bd0) ?g] =>
          destruct (IH i u Iu n br0 bd0 g Ru (Hk i u Iu) H1 H2 Hbad) as (g' & l & Tv) end.
        rewrite Tv. eexists _, _. reflexivity.
      - unfold gen_link. rewrite F, (axis_err _ _ _ Hi H3). eexists _, _. reflexivity. }
    assert (Loop : forall k, (forall x, In x k -> In x ks) -> forall br1 g1 out p, (1 <= br1)%nat ->
      (exists j, In j (flat_map (fun jt => fst jt :: joints (snd jt)) k) /\ ~ hinge (jt (J j))) ->
      exists g' l, loop_links n p (map fst k) br1 g1 out = (g', l, Err RuntimeError)).
    { induction k as [|[i u] k IHk]; intros Sub br1 g1 out p H1 (j & Ij & Hj); [destruct Ij|].
      cbn [map fst loop_links]. assert (Iu : In (i, u) ks) by (apply Sub; left; reflexivity).
      assert (BO : (~ hinge (jt (J i)) \/ exists j, In j (joints u) /\ ~ hinge (jt (J j))) -> exists g' l, one_link n i (S br1) 1 g1 = (g', l, Err RuntimeError)).
      { apply (BadOne i u Iu); [lia|lia|]. intros E. injection E as E. lia. }
      destruct (hinge_dec (jt (J i))) as [Hi|Hi]; [|destruct (BO (or_introl Hi)) as (g' & l & ->); eexists _, _; reflexivity].
      destruct (good_dec u) as [Gu|Bu]; [|destruct (BO (or_intror Bu)) as (g' & l & ->); eexists _, _; reflexivity].
      destruct (Fk _ _ Iu) as [Ei Ru].
      destruct (one_good n i u b (S br1) 1 g1 Ei Ru (Hk i u Iu) Hi Gu ltac:(lia)) as (g' & l & br' & -> & Hle).
      apply IHk; [intros x Hx; apply Sub; right; exact Hx|lia|].
      exists j. split; [|exact Hj]. cbn [flat_map fst snd] in Ij. destruct Ij as [<-|Ij]; [destruct (Hj Hi)|].
      apply in_app_or in Ij. destruct Ij as [Ij|Ij]; [destruct (Hj (Gu j Ij))|exact Ij]. }
    destruct Bad as (j & Ij & Hj). rewrite joints_eq in Ij. destruct ks as [|[i u] ks]; [destruct Ij|].
    cbn [map fst]. rewrite traverse_step.
    assert (Iu : In (i, u) ((i, u) :: ks)) by (left; reflexivity).
    assert (BO : (~ hinge (jt (J i)) \/ exists j, In j (joints u) /\ ~ hinge (jt (J j))) -> exists g' l, one_link n i br (S bd) g = (g', l, Err RuntimeError)).
    { apply (BadOne i u Iu); [lia|lia|]. intros E. injection E as E. lia. }
    destruct (hinge_dec (jt (J i))) as [Hi|Hi]; [|destruct (BO (or_introl Hi)) as (g' & l & ->); eexists _, _; reflexivity].
    destruct (good_dec u) as [Gu|Bu]; [|destruct (BO (or_intror Bu)) as (g' & l & ->); eexists _, _; reflexivity].
    destruct (Fk _ _ Iu) as [Ei Ru].
    destruct (one_good n i u b br (S bd) g Ei Ru (Hk i u Iu) Hi Gu ltac:(lia)) as (g' & l & br' & -> & Hle).
    apply Loop; [intros x Hx; right; exact Hx|lia|].
    exists j. split; [|exact Hj]. cbn [flat_map fst snd] in Ij. destruct Ij as [<-|Ij]; [destruct (Hj Hi)|].
    apply in_app_or in Ij. destruct Ij as [Ij|Ij]; [destruct (Hj (Gu j Ij))|exact Ij].
  Qed.
  (** the whole call, for a robot of hinges *)
  Lemma make_robot_run geo fuel root t name g : robot e h root t -> (height t < fuel)%nat -> jt (J root) = FreeJoint -> good t ->
    exists l a br', marks e sc h J nm t (1, 1)%nat l a br' /\
      let m := rev (named nm ((Spec_Tree.root t, (1, 1)%nat) :: a)) ++ g_map g in
      let js := g_js g ++ J root :: map J (joints t) in
      let hd := [MTree name; MBranch 1 (0, 0)%nat; line e sc h J nm root 1 1] ++ l in
      make_robot e sc h J nm geo (S fuel) root name g =
        match gen_all_shapes e sc h nm geo m with
        | (l2, Err x) => (Gen m js, hd ++ l2 ++ [MMad], Err x)
        | (l2, Ok _) => match gen_finish js with Err x => (Gen m js, hd ++ l2 ++ [MMad], Err x) | Ok s => (Gen m js, hd ++ l2 ++ [s], Ok tt) end
        end.
  Proof.
    intros (R0 & Nd & f0 & f1 & F & B1) Hf Tr Gt.
    assert (Ax : gen_axis (jt (J root)) 1 1 = Ok (axes (J root))) by (apply axis_free; exact Tr).
    destruct (traverse_ok e sc h J nm t fuel 1%nat 1%nat (Gen ((body_name nm (Spec_Tree.root t), (1, 1)%nat) :: g_map g) (g_js g ++ [J root])) R0 Hf Gt) as (l & a & br' & Mk & Tv).
    exists l, a, br'. split; [exact Mk|]. cbv zeta. unfold make_robot. rewrite Tr, traverse_step. unfold one_link.
    rewrite (link_ok e sc h J nm root 1 1 g _ f0 f1 F B1 Ax). cbn [g_map g_js]. rewrite Tv. cbn [loop_links map]. unfold after. cbn [g_map g_js].
    assert (E1 : rev (named nm ((Spec_Tree.root t, (1, 1)%nat) :: a)) ++ g_map g = rev (named nm a) ++ (body_name nm (Spec_Tree.root t), (1, 1)%nat) :: g_map g).
    { cbn [named map rev fst snd]. rewrite <- app_assoc. reflexivity. }
    assert (E2 : (g_js g ++ [J root]) ++ map J (joints t) = g_js g ++ J root :: map J (joints t)) by (rewrite <- app_assoc; reflexivity).
    rewrite E1, E2. destruct (gen_all_shapes _ _ _ _ _ _) as [l2 [u|x]]; cbn [app]; [|reflexivity].
    destruct (gen_finish _) as [s|x]; reflexivity.
  Qed.
End P.
