(** The calls made to build the iCub. *)
From Coq Require Import Lra Lia.
From Verif Require Import Spec_Icub.
From Verif Require Import Proof_Linalg Proof_SE3 Proof_Tree Proof_World Proof_World4 Proof_World3 Props_Dyn Proof_Dyn2 Props_Mass Proof_Robots2 Props_Robots2 Proof_Build Proof_Build2 Proof_Build3 Proof_Human36 Props_Human36 Props_Human36_2 Props_Human36_3 Props_Checks Props_Arm.
Open Scope R_scope.

(** ** Positions in the tables *)
Lemma pos_in {A} (l : list (string * A)) : NoDup (map fst l) -> forall x, In x l -> nth_error l (pos_of (fst x) l) = Some x.
Proof.
  induction l as [ | (n, a) l IH]; intros N x Hx; [destruct Hx | ]. cbn [map fst] in N. inversion N as [ | ? ? N1 N2]; subst. cbn [pos_of]. destruct (String.eqb_spec n (fst x)) as [E | E].
  - destruct Hx as [<- | Hx]; [reflexivity | ]. destruct N1. rewrite E. now apply in_map.
  - destruct Hx as [<- | Hx]; [now destruct E | ]. cbn. auto.
Qed.
Lemma pos_name {A} (l : list (string * A)) n : In n (map fst l) -> (pos_of n l < length l)%nat /\ nth_error (map fst l) (pos_of n l) = Some n.
Proof.
  induction l as [ | (m, a) l IH]; intros H; [destruct H | ]. cbn [pos_of map fst length]. destruct (String.eqb_spec m n) as [-> | E]; [split; [lia | reflexivity] | ].
  destruct H as [H | H]; [now destruct E | ]. destruct (IH H) as (H1 & H2). split; [lia | exact H2].
Qed.
Lemma pos_inj {A} (l : list (string * A)) n m : In n (map fst l) -> In m (map fst l) -> pos_of n l = pos_of m l -> n = m.
Proof. intros H1 H2 E. destruct (pos_name l n H1) as (_ & A1). destruct (pos_name l m H2) as (_ & A2). rewrite E in A1. congruence. Qed.

Lemma bodies_nodup : NoDup (map fst bodies_data).
Proof. apply nodupb_ok. reflexivity. Qed.
Lemma joints_nodup : NoDup (map fst joints_data).
Proof. apply nodupb_ok. reflexivity. Qed.
Lemma contacts_nodup : NoDup (map fst contact_data).
Proof. apply nodupb_ok. reflexivity. Qed.
Lemma children_num : map (fun x => bnum (snd (snd x))) joints_data = seq 1 32.
Proof. reflexivity. Qed.
Lemma joints_num : map (fun x : string * (string * m4 * string) => jnum (fst x)) joints_data = seq 0 32.
Proof. reflexivity. Qed.
Lemma bodies_num : map (fun x : string * list (list R * R * m4) => bnum (fst x)) bodies_data = seq 0 33.
Proof. reflexivity. Qed.
Lemma skeleton_table : icub_skeleton = map (fun x : string * (string * m4 * string) => (fst x, fst (fst (snd x)), snd (snd x))) joints_data.
Proof. reflexivity. Qed.
Lemma bodies_names_icub : map fst bodies_data = "waist"%string :: map snd icub_skeleton.
Proof. reflexivity. Qed.
Lemma parents_num : forallb (fun x => Nat.ltb (bnum (fst (fst (snd x)))) (bnum (snd (snd x)))) joints_data = true.
Proof. reflexivity. Qed.
Lemma parents_names : forallb (fun x => existsb (String.eqb (fst (fst (snd x)))) (map fst bodies_data)) joints_data = true.
Proof. reflexivity. Qed.

(** ** The solids *)
Lemma T_DH_eq d t r a : T_DH d t r a = mm4 (rotz t) (mm4 (transl r 0 d) (rotx a)).
Proof. unfold T_DH, rotz, transl, rotx. cbn zeta. lin. Qed.
Lemma T_DH_SE3 d t r a : SE3 (T_DH d t r a).
Proof. rewrite T_DH_eq. apply SE3_mm4; [apply rotz_SE3 | apply SE3_mm4; [apply transl_SE3 | apply rotx_SE3]]. Qed.
Ltac se3 := first [exact SE3_eye | apply T_DH_SE3 | apply transl_SE3 | apply rotx_SE3 | apply roty_SE3 | apply rotz_SE3 | apply SE3_mm4; se3].
Definition part_ok (d : list R * R * m4) : Prop := let '(dims, m, H) := d in part_mass dims m = Ok (solid dims m) /\ mass_of m (solid dims m) /\ SE3 H.
Lemma box_part x y z m H : 0 < x -> 0 < y -> 0 < z -> 0 < m -> SE3 H -> part_ok ([x; y; z], m, H).
Proof. intros. split; [reflexivity | ]. split; [ | assumption]. assert (X := C36_mass_constructors x y z 1 1 m). apply X; lra. Qed.
Lemma cyl_part l r m H : 0 < l -> 0 < r -> 0 < m -> SE3 H -> part_ok ([l; r], m, H).
Proof. intros. split; [reflexivity | ]. split; [ | assumption]. assert (X := C36_mass_constructors 1 1 1 r l m). apply X; lra. Qed.
Lemma ball_part r m H : 0 < r -> 0 < m -> SE3 H -> part_ok ([r], m, H).
Proof. intros. split; [reflexivity | ]. split; [ | assumption]. assert (X := C36_mass_constructors 1 1 1 r 1 m). apply X; lra. Qed.
Lemma parts_ok : Forall (fun x : string * list (list R * R * m4) => Forall part_ok (snd x)) bodies_data.
Proof.
  unfold bodies_data. repeat first [apply Forall_nil | apply Forall_cons; cbn [snd]].
  all: first [apply box_part; [lra | lra | lra | lra | se3] | apply cyl_part; [lra | lra | lra | se3] | apply ball_part; [lra | lra | se3]].
Qed.
Lemma mounts_ok : Forall (fun x : string * (string * m4 * string) => SE3 (snd (fst (snd x)))) joints_data.
Proof. unfold joints_data. repeat (apply Forall_cons; [cbn [fst snd]; se3 | ]). apply Forall_nil. Qed.
Lemma contact_poses_ok : Forall (fun x : string * (string * list R * m4) => SE3 (snd (snd x))) contact_data.
Proof. unfold contact_data. repeat (apply Forall_cons; [cbn [fst snd]; se3 | ]). apply Forall_nil. Qed.

(** ** The script *)
Definition part_tr (d : list R * R * m4) : m6 := let '(dims, m, H) := d in mm6 (tr6 (adjoint_ (inv_ H))) (mm6 (solid dims m) (adjoint_ (inv_ H))).
Definition sum_m6 (parts : list (list R * R * m4)) (M : m6) : m6 := fold_left (fun A d => m6add A (part_tr d)) parts M.
Definition body_mass (parts : list (list R * R * m4)) : m6 := sum_m6 parts (diag6 0 0 0 0 0 0).
Lemma inv_ok H : SE3 H -> inv H = Ok (inv_ H).
Proof. intros S. unfold inv. now rewrite (ishom_SE3 _ S). Qed.
Lemma sfor_ok {A} (f : A -> scr unit) (c : A -> list cmd) l : (forall x, In x l -> f x = (c x, Ok tt)) -> sfor l f = (flat_map c l, Ok tt).
Proof.
  induction l as [ | x l IH]; intros H; [reflexivity | ]. cbn [sfor flat_map]. rewrite (H x) by now left. rewrite sbind_ok, IH by (intros; apply H; now right). reflexivity.
Qed.

Section M.
  Variables (e : env) (eigvals : m6 -> list R) (I : bids).
  Hypothesis Ev : eigs_ok eigvals.
  Definition parts_cmds (k i : nat) (parts : list (list R * R * m4)) : list cmd := map (fun y : nat * (list R * R * m4) => MkSub (xs I (100 + 4 * k + fst y)) (xb I k) None (snd (snd y))) (enum i parts).
  Lemma sum_parts_ok k : forall parts i M, Forall part_ok parts -> sum_parts eigvals I k i parts M = (parts_cmds k i parts, Ok (sum_m6 parts M)).
  Proof.
    induction parts as [ | ((dims, m), H) parts IH]; intros i M P; [reflexivity | ]. inversion P as [ | ? ? P0 P4]; subst. destruct P0 as (P1 & P2 & P3). cbn [sum_parts].
    unfold scall at 1. rewrite sbind_ok. cbv beta. rewrite P1, sbind_lift, (inv_ok H P3), sbind_lift. rewrite (transport_eq eigvals m _ _ P2 (Ev _ (proj1 P2)) (SE3_inv _ P3)), sbind_lift, IH by exact P4. reflexivity.
  Qed.
  Definition bcmds (x : string * list (list R * R * m4)) : list cmd :=
    let k := bnum (fst x) in MkBody (xb I k) (Some (fst x)) (diag6 0 0 0 0 0 0) :: parts_cmds k 0 (snd x) ++ [SetMass (xb I k) (body_mass (snd x))].
  Lemma icub_body_ok x : In x bodies_data -> icub_body eigvals I x = (bcmds x, Ok tt).
  Proof.
    intros H. assert (P := proj1 (Forall_forall _ _) parts_ok x H). cbn beta in P. unfold icub_body. unfold scall at 1. rewrite sbind_ok. cbv beta. rewrite (sum_parts_ok _ _ _ _ P), sbind_ok. reflexivity.
  Qed.
  Variables (fx : bool).
  Definition rcmds : list cmd := if fx then [] else [MkJoint (xj I 32) (Some "root"%string) FreeJoint; Link (FBody (ground e)) (xj I 32) (FBody (xb I 0))].
  Lemma icub_root_ok : icub_root e I fx = (rcmds, Ok tt).
  Proof. unfold icub_root, rcmds. destruct fx; reflexivity. Qed.
  Definition jcmds (x : string * (string * m4 * string)) : list cmd :=
    let k := jnum (fst x) in [MkSub (xs I k) (body_of e I fx (fst (fst (snd x)))) None (snd (fst (snd x))); MkJoint (xj I k) (Some (fst x)) RzJoint; Link (FSub (xs I k)) (xj I k) (FBody (body_of e I fx (snd (snd x))))].
  Lemma icub_joint_ok x : icub_joint e I fx x = (jcmds x, Ok tt).
  Proof. destruct x as (n, ((p, H), c)). reflexivity. Qed.
  Definition sh_cmds (n : string) (y : nat * (list R * m4)) : list cmd :=
    let k := bnum n in [MkSub (xs I (300 + 4 * k + fst y)) (body_of e I fx n) None (snd (snd y)); MkShape (xh I (4 * k + fst y)) (Some (n ++ ".body_shape")%string) (FSub (xs I (300 + 4 * k + fst y))) (solid_shape (fst (snd y))); Reg (OShape (xh I (4 * k + fst y)))].
  Definition scmds (x : string * list (list R * m4)) : list cmd := flat_map (sh_cmds (fst x)) (enum 0 (snd x)).
  Definition shape_ok (d : list R * m4) : Prop := shape_of (fst d) = Ok (solid_shape (fst d)) /\ SE3 (snd d).
  Lemma in_enum {A} (y : nat * A) : forall l k, In y (enum k l) -> In (snd y) l.
  Proof. induction l as [ | a l IH]; intros k H; [destruct H | ]. destruct H as [<- | H]; [now left | right; eapply IH; exact H]. Qed.
  Lemma icub_shape_ok x : Forall shape_ok (snd x) -> icub_shape e I fx x = (scmds x, Ok tt).
  Proof.
    intros P. unfold icub_shape, scmds. apply sfor_ok. intros (i, (dims, H)) Hy. apply in_enum in Hy. cbn [snd] in Hy. rewrite Forall_forall in P. destruct (P _ Hy) as (P1 & _). cbn [fst] in P1.
    unfold scall at 1. rewrite sbind_ok. cbv beta. rewrite P1, sbind_lift. reflexivity.
  Qed.
  Definition ccmds (x : string * (string * list R * m4)) : list cmd :=
    let k := cnum (fst x) in [MkSub (xs I (500 + k)) (body_of e I fx (fst (fst (snd x)))) (Some (fst x)) (snd (snd x)); MkShape (xh I (200 + k)) (Some (fst x)) (FSub (xs I (500 + k))) (solid_shape (snd (fst (snd x)))); Reg (OShape (xh I (200 + k)))].
  Lemma contact_solid d : contact_shape d = solid_shape d.
  Proof. destruct d as [ | a [ | b [ | c [ | f d]]]]; reflexivity. Qed.
  Lemma icub_contact_ok x : icub_contact e I fx x = (ccmds x, Ok tt).
  Proof. destruct x as (n, ((p, d), H)). unfold ccmds. cbn [fst snd]. rewrite <- contact_solid. reflexivity. Qed.
  Variables (shp con : bool).
  Definition icub_cmds B J Sh C : list cmd :=
    flat_map bcmds B ++ rcmds ++ flat_map jcmds J ++ (if shp then flat_map scmds Sh else []) ++ (if con then flat_map ccmds C else []).
  Lemma icub_script_ok B J Sh C : (forall x, In x B -> In x bodies_data) -> (forall x, In x Sh -> Forall shape_ok (snd x)) -> icub_script e eigvals I fx shp con B J Sh C = (icub_cmds B J Sh C ++ [WInit], Ok tt).
  Proof.
    intros HB HS. unfold icub_script, icub_cmds. rewrite (sfor_ok _ bcmds) by (intros; apply icub_body_ok; auto). rewrite sbind_ok. cbv beta. rewrite icub_root_ok, sbind_ok. cbv beta.
    rewrite (sfor_ok _ jcmds) by (intros; apply icub_joint_ok). rewrite sbind_ok. cbv beta.
    assert (E1 : (if shp then sfor Sh (icub_shape e I fx) else sret tt) = ((if shp then flat_map scmds Sh else []), Ok tt)) by (destruct shp; [apply sfor_ok; intros; apply icub_shape_ok; auto | reflexivity]).
    assert (E2 : (if con then sfor C (icub_contact e I fx) else sret tt) = ((if con then flat_map ccmds C else []), Ok tt)) by (destruct con; [apply sfor_ok; intros; apply icub_contact_ok | reflexivity]).
    rewrite E1, sbind_ok. cbv beta. rewrite E2, sbind_ok. cbn [fst snd scall]. rewrite <- !app_assoc. reflexivity.
  Qed.

  (** ** What it contains *)
  Lemma in_cmds B J Sh C c : In c (icub_cmds B J Sh C) <-> (exists x, In x B /\ In c (bcmds x)) \/ In c rcmds \/ (exists x, In x J /\ In c (jcmds x)) \/ (shp = true /\ exists x, In x Sh /\ In c (scmds x)) \/ (con = true /\ exists x, In x C /\ In c (ccmds x)).
  Proof.
    unfold icub_cmds. rewrite !in_app_iff, !in_flat_map. apply or_iff_compat_l, or_iff_compat_l, or_iff_compat_l. destruct shp, con; rewrite ?in_flat_map; cbn [In]; split; intros H; intuition (try discriminate).
  Qed.
  Lemma links_flat {A} (c : A -> list cmd) l : links_in (flat_map c l) = flat_map (fun x => links_in (c x)) l.
  Proof. induction l as [ | x l IH]; [reflexivity | ]. cbn [flat_map]. unfold links_in in *. now rewrite flat_map_app, IH. Qed.
  Lemma flat_nil {A B} (c : A -> list B) l : (forall x, In x l -> c x = []) -> flat_map c l = [].
  Proof. induction l as [ | x l IH]; intros H; [reflexivity | ]. cbn. rewrite (H x) by now left. apply IH. intros; apply H; now right. Qed.
  Definition root_link : list link := if fx then [] else [(FBody (ground e), xj I 32, FBody (xb I 0))].
  Definition jlink (x : string * (string * m4 * string)) : link := (FSub (xs I (jnum (fst x))), xj I (jnum (fst x)), FBody (body_of e I fx (snd (snd x)))).
  Lemma icub_links B J Sh C : links_in (icub_cmds B J Sh C) = root_link ++ map jlink J.
  Proof.
    unfold icub_cmds. unfold links_in at 1. rewrite !flat_map_app. fold (links_in (flat_map bcmds B)) (links_in rcmds) (links_in (flat_map jcmds J)) (links_in (if shp then flat_map scmds Sh else [])) (links_in (if con then flat_map ccmds C else [])).
    assert (E1 : links_in (flat_map bcmds B) = []).
    { rewrite links_flat. apply flat_nil. intros x _. unfold bcmds, links_in. cbn [flat_map app]. rewrite flat_map_app. cbn [flat_map app]. rewrite app_nil_r. unfold parts_cmds. generalize (enum 0 (snd x)). intros l. induction l; [reflexivity | exact IHl]. }
    assert (E2 : links_in rcmds = root_link) by (unfold rcmds, root_link; destruct fx; reflexivity).
    assert (E3 : links_in (flat_map jcmds J) = map jlink J).
    { rewrite links_flat. clear. induction J as [ | x J IH]; [reflexivity | ]. cbn [flat_map map]. now rewrite IH. }
    assert (E4 : links_in (if shp then flat_map scmds Sh else []) = []).
    { destruct shp; [ | reflexivity]. rewrite links_flat. apply flat_nil. intros x _. unfold scmds. rewrite links_flat. apply flat_nil. reflexivity. }
    assert (E5 : links_in (if con then flat_map ccmds C else []) = []).
    { destruct con; [ | reflexivity]. rewrite links_flat. apply flat_nil. reflexivity. }
    rewrite E1, E2, E3, E4, E5, app_nil_r. reflexivity.
  Qed.
  Lemma child_body x : In x joints_data -> body_of e I fx (snd (snd x)) = xb I (bnum (snd (snd x))).
  Proof.
    intros H. unfold body_of. assert (X : forallb (fun x => negb (String.eqb (snd (snd x)) "waist")) joints_data = true) by reflexivity. rewrite forallb_forall in X. specialize (X x H). apply negb_true_iff in X. rewrite X, andb_false_r. reflexivity.
  Qed.
  Definition icub_bs : list nat := map (xb I) (if fx then seq 1 32 else seq 0 33).
  Variables (h0 : @heap R).
  Hypothesis Ni : new_ids I h0 e.
  Lemma bs_new' b : In b icub_bs -> childrenjoints h0 b = [] /\ parentjoint h0 b = None /\ b <> ground e.
  Proof. unfold icub_bs. intros H. apply in_map_iff in H. destruct H as (k & <- & _). destruct Ni as (_ & _ & N). destruct (N k) as (? & ? & ? & ?). auto. Qed.
  Lemma bs_nodup' : NoDup icub_bs.
  Proof. apply NoDup_map_inj; [apply Ni | destruct fx; apply seq_NoDup]. Qed.
  Lemma bs_length' : length icub_bs = if fx then 32%nat else 33%nat.
  Proof. unfold icub_bs. rewrite map_length. destruct fx; rewrite seq_length; reflexivity. Qed.
  Lemma to_perm J : Permutation J joints_data -> Permutation (map (l_to e) (root_link ++ map jlink J)) icub_bs.
  Proof.
    intros P. rewrite map_app, map_map. assert (E : Permutation (map (fun x => l_to e (jlink x)) J) (map (xb I) (seq 1 32))).
    { transitivity (map (fun x => l_to e (jlink x)) joints_data); [now apply Permutation_map | ]. rewrite <- children_num, map_map. erewrite map_ext_in; [reflexivity | ]. intros x Hx. unfold l_to, jlink. cbn [snd frame_body]. now apply child_body. }
    unfold root_link, icub_bs. destruct fx; cbn [map app]; [exact E | ]. unfold l_to at 1. cbn [snd frame_body]. change (seq 0 33) with (0%nat :: seq 1 32). cbn [map]. now constructor.
  Qed.
  Definition icub_js : list nat := map (xj I) (if fx then seq 0 32 else 32%nat :: seq 0 32).
  Lemma joint_perm J : Permutation J joints_data -> Permutation (map l_joint (root_link ++ map jlink J)) icub_js.
  Proof.
    intros P. rewrite map_app, map_map. assert (E : Permutation (map (fun x => l_joint (jlink x)) J) (map (xj I) (seq 0 32))).
    { transitivity (map (fun x => l_joint (jlink x)) joints_data); [now apply Permutation_map | ]. rewrite <- joints_num, map_map. reflexivity. }
    unfold root_link, icub_js. destruct fx; cbn [map app]; [exact E | ]. now constructor.
  Qed.
  Lemma js_nodup : NoDup icub_js.
  Proof. apply NoDup_map_inj; [apply Ni | ]. destruct fx; [apply seq_NoDup | ]. constructor; [ | apply seq_NoDup]. rewrite in_seq. lia. Qed.
  Lemma child_num x : In x joints_data -> (1 <= bnum (snd (snd x)) <= 32)%nat.
  Proof. intros H. assert (X : In (bnum (snd (snd x))) (seq 1 32)) by (rewrite <- children_num; apply (in_map (fun x => bnum (snd (snd x)))); exact H). apply in_seq in X. lia. Qed.
  Lemma parent_lt x : In x joints_data -> (bnum (fst (fst (snd x))) < bnum (snd (snd x)))%nat.
  Proof. intros H. assert (X := parents_num). rewrite forallb_forall in X. specialize (X x H). now apply Nat.ltb_lt in X. Qed.
  Lemma joint_num x : In x joints_data -> (jnum (fst x) < 32)%nat.
  Proof. intros H. assert (X : In (jnum (fst x)) (seq 0 32)) by (rewrite <- joints_num; apply (in_map (fun x : string * (string * m4 * string) => jnum (fst x))); exact H). apply in_seq in X. lia. Qed.
  Lemma body_num n : In n (map fst bodies_data) -> (bnum n < 33)%nat.
  Proof. intros H. apply (pos_name bodies_data n H). Qed.
  Lemma parent_in x : In x joints_data -> In (fst (fst (snd x))) (map fst bodies_data).
  Proof. intros H. assert (X := parents_names). rewrite forallb_forall in X. specialize (X x H). apply existsb_exists in X. destruct X as (n & Hn & E). apply String.eqb_eq in E. now rewrite E. Qed.
  Lemma body_of_cases n : In n (map fst bodies_data) -> (body_of e I fx n = ground e /\ fx = true /\ n = "waist"%string) \/ (body_of e I fx n = xb I (bnum n) /\ In (xb I (bnum n)) icub_bs).
  Proof.
    intros H. unfold body_of, icub_bs. assert (L := body_num n H). destruct fx; cbn [andb]; [ | right; split; [reflexivity | apply in_map, in_seq; lia]].
    destruct (String.eqb_spec n "waist") as [-> | N]; [left; auto | right]. split; [reflexivity | ]. apply in_map, in_seq. assert (bnum n <> 0%nat); [ | lia]. intros Q. apply N. apply (pos_inj bodies_data); [exact H | now left | exact Q].
  Qed.
  Variables (B : list (string * list (list R * R * m4))) (J : list (string * (string * m4 * string))) (Sh : list (string * list (list R * m4))) (C : list (string * (string * list R * m4))).
  Hypothesis PB : Permutation B bodies_data.
  Hypothesis PJ : Permutation J joints_data.
  Hypothesis PS : Permutation Sh (shapes_data bodies_data).
  Hypothesis PC : Permutation C contact_data.
  Notation cs := (icub_cmds B J Sh C).
  Hypothesis Mk : forall c, In c cs -> made e h0 c.
  Lemma jcmds_in x c : In x joints_data -> In c (jcmds x) -> In c cs.
  Proof. intros H Hc. apply in_cmds. right. right. left. exists x. split; [eapply Permutation_in; [symmetry; exact PJ | exact H] | exact Hc]. Qed.
  Lemma bcmds_in x c : In x bodies_data -> In c (bcmds x) -> In c cs.
  Proof. intros H Hc. apply in_cmds. left. exists x. split; [eapply Permutation_in; [symmetry; exact PB | exact H] | exact Hc]. Qed.
  Lemma mount_sub x : In x joints_data -> sub_body e (xs I (jnum (fst x))) = body_of e I fx (fst (fst (snd x))).
  Proof. intros H. apply (Mk (MkSub (xs I (jnum (fst x))) (body_of e I fx (fst (fst (snd x)))) None (snd (fst (snd x))))). apply (jcmds_in x); [exact H | now left]. Qed.
  Lemma link_cases l : In l (links_in cs) -> exists k, In (xb I k) icub_bs /\ (k < 33)%nat /\ l_to e l = xb I k /\ (exists j, l_joint l = xj I j) /\ (l_from e l = ground e \/ exists i, (i < k)%nat /\ l_from e l = xb I i /\ In (xb I i) icub_bs).
  Proof.
    intros Hl. rewrite icub_links in Hl. apply in_app_iff in Hl. destruct Hl as [Hl | Hl].
    - unfold root_link in Hl. destruct fx eqn:Q; [destruct Hl | ]. destruct Hl as [<- | []]. exists 0%nat. unfold icub_bs. rewrite Q. split; [apply in_map, in_seq; lia | ]. split; [lia | ]. split; [reflexivity | ]. split; [eexists; reflexivity | now left].
    - apply in_map_iff in Hl. destruct Hl as (x & <- & Hx). apply (Permutation_in _ PJ) in Hx. exists (bnum (snd (snd x))). assert (X := child_num x Hx). split; [unfold icub_bs; apply in_map; destruct fx; apply in_seq; lia | ]. split; [lia | ]. unfold l_to, l_joint, l_from, jlink. cbn [fst snd frame_body].
      split; [now apply child_body | ]. split; [eexists; reflexivity | ]. rewrite (mount_sub x Hx). destruct (body_of_cases _ (parent_in x Hx)) as [(E & _) | (E & Q)]; [now left | right]. rewrite E. exists (bnum (fst (fst (snd x)))). split; [now apply parent_lt | auto].
  Qed.
  Lemma icub_fits : fits e h0 icub_bs (rank_of I 33) (links_in cs).
  Proof.
    split; [ | split].
    - intros l Hl. destruct (link_cases l Hl) as (k & Hk & Lk & Et & (j & Ej) & Fr). split; [now rewrite Et | ]. split.
      + intros Hin. destruct Fr as [Q | (i & Hi & Q & _)]; [rewrite Q in Hin; apply bs_new' in Hin; tauto | ]. rewrite Et, Q. unfold rank_of. rewrite !posn_map by (try apply Ni; lia). lia.
      + rewrite Ej. destruct Ni as (_ & _ & N). destruct (N j) as (? & ? & ? & ?). auto.
    - rewrite icub_links. eapply Permutation_NoDup; [symmetry; apply (to_perm J PJ) | apply bs_nodup'].
    - rewrite icub_links. eapply Permutation_NoDup; [symmetry; apply (joint_perm J PJ) | apply js_nodup].
  Qed.
  Lemma parts_shape_ok parts : Forall part_ok parts -> Forall shape_ok (map (fun d => (fst (fst d), snd d)) parts).
  Proof.
    intros H. induction H as [ | ((dims, m), H1) l P _ IH]; [constructor | ]. constructor; [ | exact IH]. destruct P as (P1 & _ & P3). split; [ | exact P3]. cbn [fst snd]. destruct dims as [ | a [ | b [ | c [ | f d]]]]; try discriminate P1; reflexivity.
  Qed.
  Lemma shapes_ok : forall x, In x Sh -> Forall shape_ok (snd x).
  Proof.
    intros x Hx. apply (Permutation_in _ PS) in Hx. unfold shapes_data in Hx. apply in_map_iff in Hx. destruct Hx as (y & <- & Hy). cbn [snd]. assert (P := proj1 (Forall_forall _ _) parts_ok y Hy). cbn beta in P. apply Forall_app. split; [now apply parts_shape_ok | ].
    destruct (String.eqb (fst y) "head"); repeat constructor; cbn [fst snd]; try apply transl_SE3; reflexivity.
  Qed.
  Lemma zero_mass_ok : ismassmatrix eigvals (diag6 0 0 0 0 0 0) true = true.
  Proof.
    apply (accepts_psd eigvals 0); [apply tr_sym6; unfold diag6; lin | | unfold diag6; cbn [ll]; lin | apply Ev; apply tr_sym6; unfold diag6; lin]. intros u. destruct u as [[a1 a2 a3] [b1 b2 b3]]. unfold diag6. unf. apply Req_le. ring.
  Qed.
  Lemma icub_pass : Forall (passes eigvals) cs.
  Proof.
    apply Forall_forall. intros c Hc. apply in_cmds in Hc. destruct Hc as [(x & Hx & Hc) | [Hc | [(x & Hx & Hc) | [(_ & x & Hx & Hc) | (_ & x & Hx & Hc)]]]].
    - apply (Permutation_in _ PB) in Hx. unfold bcmds in Hc. cbv zeta in Hc. destruct Hc as [<- | Hc]; [exact zero_mass_ok | ]. apply in_app_iff in Hc. destruct Hc as [Hc | [<- | []]]; [ | exact Logic.I].
      unfold parts_cmds in Hc. apply in_map_iff in Hc. destruct Hc as ((i, ((dims, m), H)) & <- & Hy). apply in_enum in Hy. cbn [snd] in *. cbn [passes]. assert (P := proj1 (Forall_forall _ _) parts_ok x Hx). cbn beta in P. rewrite Forall_forall in P. apply (P _ Hy).
    - unfold rcmds in Hc. destruct fx; [destruct Hc | ]. destruct Hc as [<- | [<- | []]]; exact Logic.I.
    - apply (Permutation_in _ PJ) in Hx. destruct Hc as [<- | [<- | [<- | []]]]; cbn [passes]; auto. exact (proj1 (Forall_forall _ _) mounts_ok x Hx).
    - unfold scmds in Hc. apply in_flat_map in Hc. destruct Hc as (y & Hy & Hc). apply in_enum in Hy. assert (P := shapes_ok x Hx). rewrite Forall_forall in P. destruct Hc as [<- | [<- | [<- | []]]]; cbn [passes]; auto. apply (P _ Hy).
    - apply (Permutation_in _ PC) in Hx. destruct Hc as [<- | [<- | [<- | []]]]; cbn [passes]; auto. exact (proj1 (Forall_forall _ _) contact_poses_ok x Hx).
  Qed.
  Lemma build_icub g0 t fuel : reachable 0 e g0 h0 -> rep e h0 t -> root t = ground e -> (length (bodies t) + (if fx then 32 else 33) < fuel)%nat ->
    exists h' t', exec_all e eigvals fuel (cs ++ [WInit]) h0 = (h', Ok tt) /\ reachable 0 e g0 h' /\ ready e h' t' /\ (height t' < fuel)%nat /\
      (forall b, In b (bodies t') <-> In b (bodies t) \/ In b icub_bs) /\ Permutation (joints t') (joints t ++ icub_js) /\
      w_ndof h' = (total_ndof e (joints t) + total_ndof e icub_js)%nat /\
      (forall l, In l (links_in cs) -> jframes h' (l_joint l) = Some (fst (fst l), snd l)) /\
      (forall j, ~ In j icub_js -> jframes h' j = jframes h0 j) /\
      (forall j, joint_gvel h' j = joint_gvel h0 j) /\
      reg_le h0 h' /\ (forall x, In (Reg x) cs -> registered h' x).
  Proof.
    intros R Rt Er Fu. assert (Pj : Permutation (map l_joint (links_in cs)) icub_js) by (rewrite icub_links; apply (joint_perm J PJ)). assert (Pt : Permutation (map (l_to e) (links_in cs)) icub_bs) by (rewrite icub_links; apply (to_perm J PJ)).
    destruct (build_ok e g0 eigvals h0 icub_bs (rank_of I 33) bs_new' cs t R Rt Er bs_nodup' icub_pass icub_fits) with (fuel := fuel) as (h' & t' & H1 & H2 & H3 & H4 & H5 & H6 & H7 & H8 & H9 & H10).
    - intros l Hl. destruct (link_cases l Hl) as (k & _ & _ & _ & _ & [Q | (i & _ & Q & Hin)]); [now right | left; now rewrite Q].
    - intros b Hb. eapply Permutation_in; [symmetry; exact Pt | exact Hb].
    - now rewrite bs_length'.
    - exists h', t'. split; [exact H1 | ]. split; [exact H2 | ]. split; [exact H3 | ]. split; [exact H4 | ]. split; [exact H5 | ]. split; [rewrite H6; now apply Permutation_app_head | ]. split.
      + rewrite H7. f_equal. unfold total_ndof, list_sum. clear - Pj. induction Pj; cbn; lia.
      + split; [exact H8 | ]. split; [ | exact H10]. intros j Hj. apply H9. intros Q. apply Hj. eapply Permutation_in; [exact Pj | exact Q].
  Qed.
End M.
