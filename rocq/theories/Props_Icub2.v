(** C74: masses of the iCub. *)
From Coq Require Import Lra Lia.
From Verif Require Import Spec_Icub.
From Verif Require Import Proof_Linalg Proof_SE3 Proof_Tree Proof_World Proof_World2 Proof_Register Proof_World4 Proof_World3 Props_Dyn Proof_Dyn2 Props_Mass Proof_Robots2 Props_Robots2 Proof_Build Proof_Build2 Proof_Build3 Proof_Human36 Props_Human36 Props_Human36_2 Props_Human36_3 Props_Checks Props_Arm Proof_Icub Props_Icub.
Open Scope R_scope.

Lemma mass_app b a c : mass_in b (a ++ c) = match mass_in b c with Some M => Some M | None => mass_in b a end.
Proof. induction a as [ | x a IH]; cbn [app mass_in]; [now destruct (mass_in b c) | ]. rewrite IH. destruct (mass_in b c); [reflexivity | ]. reflexivity. Qed.
Lemma mass_none b cs : (forall n M, ~ In (MkBody b n M) cs) -> (forall M, ~ In (SetMass b M) cs) -> mass_in b cs = None.
Proof.
  intros N1 N2. induction cs as [ | c cs IH]; [reflexivity | ]. cbn [mass_in]. rewrite IH; [ | intros n M H; eapply N1; right; exact H | intros M H; eapply N2; right; exact H].
  destruct c; try reflexivity; (destruct (Nat.eqb_spec b b0); [subst | reflexivity]); [destruct (N1 name M); now left | destruct (N2 M); now left].
Qed.
(** the sum of the parts *)
Lemma dot6_m6add u A B v : dot6 u (mv6 (m6add A B) v) = dot6 u (mv6 A v) + dot6 u (mv6 B v).
Proof. destruct u as [[? ? ?] [? ? ?]], v as [[? ? ?] [? ? ?]], A as [[] [] [] []], B as [[] [] [] []]. unfold m6add. unf. ring. Qed.
Lemma sum_energy parts : forall M u v, dot6 u (mv6 (sum_m6 parts M) v) = dot6 u (mv6 M v) + sum_list (map (fun d => dot6 u (mv6 (part_tr d) v)) parts).
Proof. induction parts as [ | d parts IH]; intros M u v; unfold sum_m6 in *; cbn [fold_left map]; [unfold sum_list; cbn; ring | ]. rewrite IH, dot6_m6add. unfold sum_list. cbn [fold_right]. ring. Qed.
Lemma part_mass_of d : part_ok d -> mass_of (snd (fst d)) (part_tr d).
Proof. destruct d as ((dims, m), H). intros (_ & P2 & P3). cbn [fst snd part_tr]. apply transport_mass; [exact P2 | now apply SE3_inv]. Qed.
Lemma sum_ll parts : forall M a, Forall part_ok parts -> ll M = mscal a eye3 -> ll (sum_m6 parts M) = mscal (a + sum_list (map (fun d => snd (fst d)) parts)) eye3.
Proof.
  induction parts as [ | d parts IH]; intros M a P E; unfold sum_m6 in *; cbn [fold_left map]; [unfold sum_list; cbn; now rewrite Rplus_0_r | ]. inversion P as [ | ? ? P1 P2]; subst.
  rewrite (IH _ (a + snd (fst d)) P2). { unfold sum_list. cbn [fold_right]. now rewrite Rplus_assoc. }
  assert (Q := proj2 (proj2 (part_mass_of d P1))). unfold m6add. cbn [ll]. rewrite E, Q. unf. entries; ring.
Qed.
Lemma body_mass_of parts : parts <> [] -> Forall part_ok parts -> mass_of (sum_list (map (fun d => snd (fst d)) parts)) (body_mass parts).
Proof.
  intros N P. assert (Z : forall u v, dot6 u (mv6 (diag6 0 0 0 0 0 0) v) = 0) by (intros [[? ? ?] [? ? ?]] [[? ? ?] [? ? ?]]; unfold diag6; unf; ring). unfold body_mass. split; [ | split].
  - intros u v. rewrite !sum_energy, !Z, !Rplus_0_l. f_equal. apply map_ext_in. intros d Hd. rewrite Forall_forall in P. apply (part_mass_of d (P d Hd)).
  - intros u Hu. rewrite sum_energy, Z, Rplus_0_l. assert (X : forall l, Forall part_ok l -> 0 <= sum_list (map (fun d => dot6 u (mv6 (part_tr d) u)) l)).
    { induction l as [ | d l IH]; intros Q; [apply Rle_refl | ]. inversion Q as [ | ? ? Q1 Q2]; subst. cbn [map sum_list fold_right]. assert (Y := proj1 (proj2 (part_mass_of d Q1)) u Hu). specialize (IH Q2). unfold sum_list in IH. lra. }
    destruct parts as [ | d l]; [contradiction | ]. inversion P as [ | ? ? Q1 Q2]; subst. cbn [map sum_list fold_right]. assert (Y := proj1 (proj2 (part_mass_of d Q1)) u Hu). specialize (X l Q2). unfold sum_list in X. lra.
  - rewrite (sum_ll parts _ 0 P); [now rewrite Rplus_0_l | unfold diag6; cbn [ll]; lin].
Qed.
Lemma body_energy parts u : dot6 u (mv6 (body_mass parts) u) = parts_energy parts u.
Proof.
  unfold body_mass. rewrite sum_energy. assert (Z : dot6 u (mv6 (diag6 0 0 0 0 0 0) u) = 0) by (destruct u as [[? ? ?] [? ? ?]]; unfold diag6; unf; ring). rewrite Z, Rplus_0_l. unfold parts_energy. f_equal. apply map_ext. intros ((dims, m), H). cbn [part_tr]. apply transport_energy.
Qed.
Lemma parts_some : Forall (fun x : string * list (list R * R * m4) => snd x <> []) bodies_data.
Proof. unfold bodies_data. repeat (apply Forall_cons; [cbn [snd]; discriminate | ]). apply Forall_nil. Qed.

Section S.
  Variables (e : env) (I : bids) (fx shp con : bool).
  Variables (B : list (string * list (list R * R * m4))) (J : list (string * (string * m4 * string))) (Sh : list (string * list (list R * m4))) (C : list (string * (string * list R * m4))).
  Hypothesis PB : Permutation B bodies_data.
  Hypothesis Inj : forall k l, xb I k = xb I l -> k = l.
  Notation cs := (icub_cmds e I fx shp con B J Sh C).
  Lemma bcmds_other x b : b <> xb I (bnum (fst x)) -> mass_in b (bcmds I x) = None.
  Proof.
    intros N. apply mass_none.
    - intros n M [H | H]; [injection H as <- _ _; now apply N | ]. apply in_app_iff in H. destruct H as [H | [H | []]]; [ | discriminate]. apply in_map_iff in H. destruct H as (y & H & _). discriminate.
    - intros M [H | H]; [discriminate | ]. apply in_app_iff in H. destruct H as [H | [H | []]]; [ | injection H as <- _; now apply N]. apply in_map_iff in H. destruct H as (y & H & _). discriminate.
  Qed.
  Lemma bcmds_mass x : mass_in (xb I (bnum (fst x))) (bcmds I x) = Some (body_mass (snd x)).
  Proof. unfold bcmds. cbv zeta. rewrite app_comm_cons, mass_app. cbn [mass_in]. now rewrite Nat.eqb_refl. Qed.
  Lemma bodies_mass : forall l, NoDup (map fst l) -> incl l bodies_data -> forall x, In x l -> mass_in (xb I (bnum (fst x))) (flat_map (bcmds I) l) = Some (body_mass (snd x)).
  Proof.
    induction l as [ | y l IH]; intros N Il x Hx; [destruct Hx | ]. cbn [map] in N. inversion N as [ | ? ? N1 N2]; subst. cbn [flat_map]. rewrite mass_app. destruct Hx as [<- | Hx].
    - rewrite (mass_none _ (flat_map _ l)); [apply bcmds_mass | | ].
      + intros n M H. apply in_flat_map in H. destruct H as (z & Hz & H). assert (Q : mass_in (xb I (bnum (fst y))) (bcmds I z) = None).
        { apply bcmds_other. intros E. apply Inj in E. apply N1. apply pos_inj in E; [rewrite E; now apply in_map | apply in_map; apply Il; now left | apply in_map; apply Il; now right]. }
        destruct H as [H | H]; [injection H as E _ _ | ].
        * rewrite <- E in Q. rewrite bcmds_mass in Q. discriminate.
        * apply in_app_iff in H. destruct H as [H | [H | []]]; [ | discriminate]. apply in_map_iff in H. destruct H as (w & H & _). discriminate.
      + intros M H. apply in_flat_map in H. destruct H as (z & Hz & H). assert (Q : mass_in (xb I (bnum (fst y))) (bcmds I z) = None).
        { apply bcmds_other. intros E. apply Inj in E. apply N1. apply pos_inj in E; [rewrite E; now apply in_map | apply in_map; apply Il; now left | apply in_map; apply Il; now right]. }
        destruct H as [H | H]; [discriminate | ]. apply in_app_iff in H. destruct H as [H | [H | []]]; [apply in_map_iff in H; destruct H as (w & H & _); discriminate | ]. injection H as E _. rewrite <- E in Q. rewrite bcmds_mass in Q. discriminate.
    - rewrite IH; auto. intros z Hz. apply Il. now right.
  Qed.
  Lemma icub_mass x : In x bodies_data -> mass_in (xb I (bnum (fst x))) (cs ++ [WInit]) = Some (body_mass (snd x)).
  Proof.
    intros Hx. rewrite mass_app. cbn [mass_in]. unfold icub_cmds. rewrite mass_app.
    rewrite (mass_none _ (rcmds _ _ _ ++ _)).
    - apply bodies_mass; [eapply Permutation_NoDup; [symmetry; apply Permutation_map; exact PB | exact bodies_nodup] | intros z Hz; eapply Permutation_in; [exact PB | exact Hz] | eapply Permutation_in; [symmetry; exact PB | exact Hx]].
    - intros n M H. rewrite !in_app_iff in H. destruct H as [H | [H | [H | H]]].
      + unfold rcmds in H. destruct fx; [destruct H | ]. destruct H as [H | [H | []]]; discriminate.
      + apply in_flat_map in H. destruct H as (z & _ & [H | [H | [H | []]]]); discriminate.
      + destruct shp; [ | destruct H]. apply in_flat_map in H. destruct H as (z & _ & H). apply in_flat_map in H. destruct H as (y & _ & [H | [H | [H | []]]]); discriminate.
      + destruct con; [ | destruct H]. apply in_flat_map in H. destruct H as (z & _ & [H | [H | [H | []]]]); discriminate.
    - intros M H. rewrite !in_app_iff in H. destruct H as [H | [H | [H | H]]].
      + unfold rcmds in H. destruct fx; [destruct H | ]. destruct H as [H | [H | []]]; discriminate.
      + apply in_flat_map in H. destruct H as (z & _ & [H | [H | [H | []]]]); discriminate.
      + destruct shp; [ | destruct H]. apply in_flat_map in H. destruct H as (z & _ & H). apply in_flat_map in H. destruct H as (y & _ & [H | [H | [H | []]]]); discriminate.
      + destruct con; [ | destruct H]. apply in_flat_map in H. destruct H as (z & _ & [H | [H | [H | []]]]); discriminate.
  Qed.
End S.

(** the calls of a construction *)
Lemma icub_script_inv e eigvals I fx shp con B J Sh C cs : eigs_ok eigvals -> Permutation B bodies_data -> Permutation Sh (shapes_data bodies_data) -> icub_script e eigvals I fx shp con B J Sh C = (cs, Ok tt) ->
  cs = icub_cmds e I fx shp con B J Sh C ++ [WInit].
Proof. intros Ev PB PS H. rewrite icub_script_ok in H; [injection H as <-; reflexivity | exact Ev | intros x Hx; eapply Permutation_in; [exact PB | exact Hx] | apply (shapes_ok Sh PS)]. Qed.
(** the mass of a body is that of the solids it is made of; all the bodies have a positive definite mass matrix *)
Theorem C74_masses : forall e eigvals I fx shp con B J Sh C cs, eigs_ok eigvals -> (forall k l, xb I k = xb I l -> k = l) ->
  Permutation B bodies_data -> Permutation Sh (shapes_data bodies_data) -> icub_script e eigvals I fx shp con B J Sh C = (cs, Ok tt) ->
  forall n parts, In (n, parts) bodies_data -> exists b M, body_called cs "" n b /\ mass_in b cs = Some M /\ mass_of (sum_list (map (fun d => snd (fst d)) parts)) M /\
    (forall u, dot6 u (mv6 M u) = parts_energy parts u) /\
    (* every part is a homogeneous solid with its centre of mass at the origin of its frame *)
    forall dims m H, In (dims, m, H) parts -> 0 < m /\ SE3 H /\ ((exists x y z, dims = [x; y; z] /\ homogeneous_inertia (box_integral x y z) m (solid dims m)) \/
      (exists l r, dims = [l; r] /\ homogeneous_inertia (cylinder_integral l r) m (solid dims m)) \/ (exists r, dims = [r] /\ homogeneous_inertia (ellipsoid_integral r r r) m (solid dims m))).
Proof.
  intros e eigvals I fx shp con B J Sh C cs Ev Inj PB PS Es n parts Hn. apply icub_script_inv in Es; [ | assumption..]. subst cs. exists (xb I (bnum n)), (body_mass parts).
  assert (P := proj1 (Forall_forall _ _) parts_ok _ Hn). cbn [snd] in P.
  split; [apply body_called_icub; [exact PB | exact (in_map fst _ _ Hn)] | ]. split; [exact (icub_mass e I fx shp con B J Sh C PB Inj (n, parts) Hn) | ]. split; [apply body_mass_of; [exact (proj1 (Forall_forall _ _) parts_some _ Hn) | exact P] | ].
  split; [apply body_energy | ].
  assert (D : Forall (fun x : string * list (list R * R * m4) => Forall (fun d => 0 < snd (fst d) /\ Forall (fun x => 0 < x) (fst (fst d)) /\ fst (fst d) <> [] /\ (length (fst (fst d)) <= 3)%nat) (snd x)) bodies_data).
  { clear. unfold bodies_data. repeat first [apply Forall_nil | apply Forall_cons; cbn [snd]]. all: cbn [fst snd]; (split; [lra | ]); (split; [repeat (apply Forall_cons; [lra | ]); apply Forall_nil | ]); (split; [discriminate | cbn; lia]). }
  assert (Q := proj1 (Forall_forall _ _) D _ Hn). cbn [snd] in Q. intros dims m H Hd. rewrite Forall_forall in P, Q. destruct (P _ Hd) as (_ & _ & P3). destruct (Q _ Hd) as (Q1 & Q2 & Q3 & Q4). cbn [fst snd] in *.
  split; [exact Q1 | ]. split; [exact P3 | ]. destruct dims as [ | a [ | b [ | c [ | f d]]]]; [contradiction | right; right | right; left | left | cbn in Q4; lia].
  - inversion Q2; subst. exists a. split; [reflexivity | ]. cbn [solid]. assert (X := C36_mass_constructors a a a a 1 m). destruct X as (_ & _ & _ & X & _ & _ & _ & E); try lra. now rewrite E.
  - inversion Q2 as [ | ? ? Q5 Q6]; subst. inversion Q6; subst. exists a, b. split; [reflexivity | ]. assert (X := C36_mass_constructors 1 1 1 b a m). apply X; lra.
  - inversion Q2 as [ | ? ? Q5 Q6]; subst. inversion Q6 as [ | ? ? Q7 Q8]; subst. inversion Q8; subst. exists a, b, c. split; [reflexivity | ]. assert (X := C36_mass_constructors a b c 1 1 m). apply X; lra.
Qed.
(** the robot weighs 27.197066 kg, the waist included *)
Lemma sum_perm l l' : Permutation l l' -> sum_list l = sum_list l'.
Proof. unfold sum_list. induction 1; cbn; lra. Qed.
Theorem C74_weight : forall e eigvals I fx shp con B J Sh C cs sc Js bs, eigs_ok eigvals -> (forall k l, xb I k = xb I l -> k = l) ->
  Permutation B bodies_data -> Permutation Sh (shapes_data bodies_data) -> icub_script e eigvals I fx shp con B J Sh C = (cs, Ok tt) -> scene_of sc Js cs ->
  NoDup bs -> (forall b, In b bs <-> exists n, In n (icub_bodies fx) /\ body_called cs "" n b) ->
  sum_list (map (fun b => m00 (ll (b_mass sc b))) bs) = if fx then 26.994096 else 27.197066.
Proof.
  intros e eigvals I fx shp con B J Sh C cs sc Js bs Ev Inj PB PS Es Sc Nb Hb. apply icub_script_inv in Es; [ | assumption..]. subst cs.
  set (T := if fx then tl bodies_data else bodies_data).
  assert (It : forall x, In x T -> In x bodies_data) by (intros x; unfold T; destruct fx; [intros Hx; apply (or_intror (A := (hd x bodies_data) = x)) in Hx; exact Hx | auto]).
  assert (Nt : map fst T = icub_bodies fx) by (unfold T, icub_bodies; destruct fx; reflexivity).
  assert (P : Permutation bs (map (fun x => xb I (bnum (fst x))) T)).
  { apply NoDup_Permutation; [exact Nb | | ].
    - replace (map (fun x => xb I (bnum (fst x))) T) with (map (xb I) (map (fun x => bnum (fst x)) T)) by now rewrite map_map. apply NoDup_map_inj; [exact Inj | ]. unfold T. destruct fx.
      + change (map (fun x : string * list (list R * R * m4) => bnum (fst x)) (tl bodies_data)) with (seq 1 32). apply seq_NoDup.
      + rewrite bodies_num. apply seq_NoDup.
    - intros b. rewrite Hb, in_map_iff, <- Nt. split.
      + intros (n & Hn & H). apply in_map_iff in Hn. destruct Hn as (x & <- & Hx). apply body_called_inv in H; [ | exact PB]. exists x. split; [symmetry; apply H | exact Hx].
      + intros (x & <- & Hx). exists (fst x). split; [now apply in_map | ]. apply body_called_icub; [exact PB | ]. apply in_map. auto. }
  rewrite (sum_perm _ _ (Permutation_map _ P)), map_map.
  transitivity (sum_list (map (fun x : string * list (list R * R * m4) => sum_list (map (fun d => snd (fst d)) (snd x))) T)).
  { f_equal. apply map_ext_in. intros x Hx. apply It in Hx. destruct Sc as (Sm & _). rewrite (Sm _ _ (icub_mass e I fx shp con B J Sh C PB Inj x Hx)).
    destruct (body_mass_of (snd x)) as (_ & _ & Q); [exact (proj1 (Forall_forall _ _) parts_some _ Hx) | exact (proj1 (Forall_forall _ _) parts_ok _ Hx) | ]. rewrite Q. unf. ring. }
  unfold T, bodies_data, sum_list. destruct fx; cbn [tl map fold_right fst snd]; lra.
Qed.
Print Assumptions C74_weight.
