(** The humanoid: its script. *)
From Coq Require Import Lra Lia.
From Verif Require Import Spec_Human36.
From Verif Require Import Proof_Linalg Proof_SE3 Proof_Tree Proof_World Proof_Dyn2 Props_Mass Proof_Robots2 Proof_Build.
Open Scope R_scope.

(** ** Names *)
Lemma pfx_eqb p a b : String.eqb (pfx p a) (pfx p b) = String.eqb a b.
Proof. unfold pfx. induction p as [ | c p IH]; cbn; [reflexivity | ]. now rewrite Ascii.eqb_refl. Qed.
Fixpoint index (n : string) (l : list string) (k : nat) : option nat :=
  match l with [] => None | m :: l' => if String.eqb m n then Some k else index n l' (S k) end.
Lemma named_index {A} p id n (l : list (string * A)) : named (pfx p n) (human_dict p id l) = match index n (map fst l) 0 with Some k => Ok (id k) | None => Err KeyError end.
Proof.
  unfold human_dict. generalize 0%nat. induction l as [ | (m, x) l IH]; intros k; cbn [number map named index fst snd]; [reflexivity | ]. rewrite pfx_eqb. destruct (String.eqb m n); [reflexivity | apply IH].
Qed.
Definition bnames : list string := ["LPT"; "ThighR"; "ShankR"; "FootR"; "ThighL"; "ShankL"; "FootL"; "UPT"; "ScapulaR"; "ArmR"; "ForearmR"; "HandR"; "ScapulaL"; "ArmL"; "ForearmL"; "HandL"; "Head"]%string.
Lemma bodies_names L mass : map fst (human_bodies L mass) = bnames.
Proof. reflexivity. Qed.
Definition tnames : list string := map (fun x => fst (fst x)) (human_tags (fun _ => 0) 0).
Lemma tags_names L h : map fst (map (fun x => (fst (fst x), tt)) (human_tags L h)) = tnames.
Proof. reflexivity. Qed.

(** ** Masses *)
Definition human_mass (m : R) (c r : v3) : m6 :=
  rigid_mass m c (madd (diag3 (V3 (m * vx r ^ 2) (m * vy r ^ 2) (m * vz r ^ 2))) (mscal m (mm (skew c) (tr (skew c))))).
Lemma add_body_ok m c r : add_body_mass m c r = Ok (human_mass m c r).
Proof.
  unfold add_body_mass. assert (SH : SE3 (M4 eye3 c (V3 0 0 0) 1)) by (destruct c as [x y z]; exact (transl_SE3 x y z)). unfold inv. rewrite (ishom_SE3 _ SH). cbn [rbind].
  assert (SI := SE3_inv _ SH). unfold adjoint. rewrite (ishom_SE3 _ SI). cbn [rbind]. f_equal. unfold human_mass, rigid_mass, diag6, diag3, inv_, adjoint_. destruct c, r. clear. unf. entries; ring.
Qed.
Lemma human_mass_diag m c r : human_mass m c r = mm6 (tr6 (adjoint_ (inv_ (M4 eye3 c (V3 0 0 0) 1)))) (mm6 (diag6 (m * vx r ^ 2) (m * vy r ^ 2) (m * vz r ^ 2) m m m) (adjoint_ (inv_ (M4 eye3 c (V3 0 0 0) 1)))).
Proof. unfold human_mass, rigid_mass, diag6, diag3, inv_, adjoint_. destruct c, r. clear. unf. entries; ring. Qed.
Lemma accepts_psd eigvals m M : sym6 M -> psd6 M -> ll M = mscal m eye3 -> eigvals_of M (eigvals M) -> ismassmatrix eigvals M true = true.
Proof.
  intros Sy Ps L Ev. unfold ismassmatrix. rewrite (sym6_tr M Sy). unfold close6. rewrite !close3_refl, L. cbn [andb].
  replace (m00 (mscal m eye3)) with m by (unf; ring). rewrite close3_refl. cbn [andb].
  apply forallb_forall. intros x Ix. apply Ev in Ix. destruct Ix as (u & N & E). specialize (Ps u). rewrite E, dot6_scal_r in Ps.
  unfold Rleb. destruct (Rle_dec 0 x) as [ | H]; auto. exfalso.
  assert (Q : 0 < dot6 u u); [ | nra]. destruct u as [[a1 a2 a3] [b1 b2 b3]]. unf. assert (Z := fun x : R => Rle_0_sqr x). unfold Rsqr in Z. assert (Z1 := Z a1). assert (Z2 := Z a2). assert (Z3 := Z a3). assert (Z4 := Z b1). assert (Z5 := Z b2). assert (Z6 := Z b3).
  assert (P : forall x : R, x <> 0 -> 0 < x * x) by (intros; apply Rsqr_pos_lt; auto).
  destruct (Req_dec a1 0) as [-> | W]; [ | specialize (P a1 W); lra].
  destruct (Req_dec a2 0) as [-> | W]; [ | specialize (P a2 W); lra].
  destruct (Req_dec a3 0) as [-> | W]; [ | specialize (P a3 W); lra].
  destruct (Req_dec b1 0) as [-> | W]; [ | specialize (P b1 W); lra].
  destruct (Req_dec b2 0) as [-> | W]; [ | specialize (P b2 W); lra].
  destruct (Req_dec b3 0) as [-> | W]; [ | specialize (P b3 W); lra]. contradiction N; reflexivity.
Qed.
Lemma human_mass_sym m c r : sym6 (human_mass m c r).
Proof. apply tr_sym6. unfold human_mass, rigid_mass, diag3. destruct c, r. clear. unf. entries; ring. Qed.
Lemma human_mass_psd m c r : 0 <= m -> psd6 (human_mass m c r).
Proof.
  intros Hm u. rewrite human_mass_diag, transport_energy. set (w := mv6 _ u). destruct w as [[a1 a2 a3] [b1 b2 b3]], r as [x y z]. unfold diag6. unf.
  assert (Q := fun t : R => Rmult_le_pos m (t * t) Hm (Rle_0_sqr t)). assert (Q1 := Q (x * a1)). assert (Q2 := Q (y * a2)). assert (Q3 := Q (z * a3)). assert (Q4 := Q b1). assert (Q5 := Q b2). assert (Q6 := Q b3). nra.
Qed.
Lemma human_mass_ll m c r : ll (human_mass m c r) = mscal m eye3.
Proof. reflexivity. Qed.
Lemma human_mass_ok eigvals m c r : eigs_ok eigvals -> 0 <= m -> ismassmatrix eigvals (human_mass m c r) true = true.
Proof. intros E Hm. apply (accepts_psd eigvals m); [apply human_mass_sym | now apply human_mass_psd | apply human_mass_ll | apply E; apply human_mass_sym]. Qed.
(** a negative mass is refused, when the centre of mass is on the y axis *)
Lemma human_mass_neg eigvals m y r : eigs_ok eigvals -> m < 0 -> ismassmatrix eigvals (human_mass m (V3 0 y 0) r) true = false.
Proof.
  intros E Hm. unfold ismassmatrix. match goal with |- ?a && ?b = false => assert (X : b = false); [ | rewrite X; apply andb_false_r] end.
  apply Bool.not_true_iff_false. intros F. rewrite forallb_forall in F.
  assert (In m (eigvals (human_mass m (V3 0 y 0) r))) as Hin.
  { apply (E _ (human_mass_sym m (V3 0 y 0) r)). exists (V6 zero3 (V3 0 1 0)). split; [intros Q; injection Q; lra | ]. unfold human_mass, rigid_mass, diag3. destruct r. clear. unf. entries; ring. }
  apply F in Hin. apply Rleb_true in Hin. lra.
Qed.

(** ** The script *)
Section S.
  Variables (e : env) (I : bids) (p : string).
  Definition bcmd (x : nat * (string * (R * v3 * v3))) : list cmd := let '(k, (n, (m, c, r))) := x in [MkBody (xb I k) (Some (pfx p n)) (human_mass m c r)].
  Definition bid (n : string) : nat := match index n bnames 0 with Some k => k | None => 0%nat end.
  Definition lcmd (x : nat * (option string * v3 * jtype * string * string)) : list cmd :=
    let '(k, (b0, t, ty, n, b1)) := x in
    [MkJoint (xj I k) (Some (pfx p n)) ty; MkSub (xs I k) (match b0 with None => ground e | Some b => xb I (bid b) end) None (transl (vx t) (vy t) (vz t)); Link (FSub (xs I k)) (xj I k) (FBody (xb I (bid b1)))].
  Definition tcmd (x : nat * (string * string * v3)) : list cmd :=
    let '(k, (n, b, t)) := x in [MkSub (xs I k) (xb I (bid b)) (Some (pfx p n)) (transl (vx t) (vy t) (vz t)); Reg (OFrame (FSub (xs I k)))].
  Definition tid (n : string) : nat := match index n tnames 0 with Some k => k | None => 0%nat end.
  Definition pcmd (x : nat * string) : list cmd := let '(k, n) := x in [MkShape (xh I k) (Some (pfx p n)) (FSub (xs I (17 + tid n))) ShPoint; Reg (OShape (xh I k))].
  Definition hcmds (L : lengths) (mass h : R) : list cmd :=
    flat_map bcmd (number 0 (human_bodies L mass)) ++ flat_map lcmd (number 0 (human_links L)) ++ flat_map tcmd (number 17 (human_tags L h)) ++ flat_map pcmd (number 0 human_points).
  Lemma rmapM_ok {A B} (f : A -> res B) g : forall l, Forall (fun x => f x = Ok (g x)) l -> rmapM f l = Ok (map g l).
  Proof. induction 1 as [ | x l E F IH]; cbn [rmapM map]; [reflexivity | ]. rewrite E. cbn [rbind]. rewrite IH. reflexivity. Qed.
  Lemma script_ok L mass h : height_from_anat_lengths L = Ok h -> forall ht, human_script e I p ht mass (Some L) = Ok (hcmds L mass h ++ [WInit]).
  Proof.
    intros Eh ht. unfold human_script. rewrite Eh. cbn [rbind].
    assert (Nb : forall n k, index n bnames 0 = Some k -> named (pfx p n) (human_dict p (xb I) (human_bodies L mass)) = Ok (xb I (bid n))) by (intros n k E; rewrite named_index, bodies_names; unfold bid; now rewrite E).
    assert (E1 : body_cmds I p (human_bodies L mass) = Ok (map bcmd (number 0 (human_bodies L mass)))).
    { apply rmapM_ok. apply Forall_forall. intros (k, (n, ((m, c), r))) _. now rewrite add_body_ok. }
    assert (E2 : link_cmds e I p (human_dict p (xb I) (human_bodies L mass)) (human_links L) = Ok (map lcmd (number 0 (human_links L)))).
    { apply rmapM_ok. cbn [human_links number]. repeat constructor; cbn [rbind]; repeat (erewrite Nb by reflexivity; cbn [rbind]); reflexivity. }
    assert (E3 : tag_cmds I p (length (human_links L)) (human_dict p (xb I) (human_bodies L mass)) (human_tags L h) = Ok (map tcmd (number 17 (human_tags L h)))).
    { change (length (human_links L)) with 17%nat. apply rmapM_ok. unfold human_tags. cbn [number]. repeat constructor; cbn [rbind]; repeat (erewrite Nb by reflexivity; cbn [rbind]); reflexivity. }
    assert (E4 : point_cmds I p (human_dict p (fun k => xs I (length (human_links L) + k)%nat) (map (fun x => (fst (fst x), tt)) (human_tags L h))) human_points = Ok (map pcmd (number 0 human_points))).
    { change (length (human_links L)) with 17%nat. apply rmapM_ok. unfold human_points. cbn [number]. repeat constructor; rewrite named_index, tags_names; reflexivity. }
    rewrite E1, E2, E3, E4. cbn [rbind]. unfold hcmds. rewrite <- !flat_map_concat_map, <- !app_assoc. reflexivity.
  Qed.
End S.
