(** C97: the limits of the joints of an URDF robot; C62, C67 on documents. *)
From Verif Require Export Props_UrdfShapes.
From Coq Require Import Lia Lra Psatz.
From Verif Require Import Spec_Dyn Props_Urdf Props_Urdf2.
Open Scope R_scope.
Local Notation ELink := Model_UrdfXml.ELink.
Local Notation EJoint := Model_UrdfXml.EJoint.

Section S.
  Context {V : Type}.
  Variables (c : converter) (g : xlimit -> option V).
  Definition lim_step (d : list (string * V)) (x : string * xjoint) : res (list (string * V)) :=
    match j_limits (snd x) with None => Err AttributeError | Some l => match g l with Some v => Ok (dset (named c (fst x)) v d) | None => Ok d end end.
  Lemma named_inj a b : named c a = named c b -> a = b.
  Proof.
    unfold named. intros E. apply mesh_inj in E. revert b E. induction a as [ | x a IH]; intros [ | y b] E; cbn in E; try reflexivity.
    - exfalso. apply (f_equal String.length) in E. cbn in E. rewrite slen_app in E. lia.
    - exfalso. apply (f_equal String.length) in E. cbn in E. rewrite slen_app in E. lia.
    - injection E as <- E. f_equal. auto.
  Qed.
  Lemma lim_ok l : forall d, NoDup (map fst d) -> NoDup (map fst l) -> (forall n, In n (map fst l) -> ~ In (named c n) (map fst d)) ->
    (forall x, In x l -> j_limits (snd x) <> None) ->
    exists d', foldM lim_step l d = Ok d' /\ NoDup (map fst d') /\ forall k v, In (k, v) d' <-> In (k, v) d \/ exists n j x, k = named c n /\ In (n, j) l /\ j_limits j = Some x /\ g x = Some v.
  Proof.
    induction l as [ | (n, j) l IH]; intros d Nd Nl Fr Ok_; cbn [foldM]; [exists d; split; [reflexivity | ]; split; [exact Nd | ]; intros k v; split; [auto | intros [Hk | (n & j & x & _ & [] & _)]; exact Hk] | ].
    cbn [map fst] in Nl. apply NoDup_cons_iff in Nl. destruct Nl as (N1 & N2). unfold lim_step at 1. cbn [fst snd]. destruct (j_limits j) as [x | ] eqn:Ej; [ | exfalso; apply (Ok_ (n, j)); [now left | exact Ej]].
    destruct (g x) as [v | ] eqn:Eg; cbn [rbind].
    - destruct (IH (dset (named c n) v d)) as (d' & E & Nd' & M).
      + now apply nodup_dset.
      + exact N2.
      + intros m Hm Hi. apply in_map_iff in Hi. destruct Hi as ((k, w) & Ek & Hi). cbn in Ek. subst k. apply in_dset in Hi. destruct Hi as [(Q & _) | (_ & Hi)].
        * apply named_inj in Q. subst m. contradiction.
        * apply (Fr m); [now right | ]. apply in_map_iff. exists (named c m, w). auto.
      + intros y Hy. apply Ok_. now right.
      + exists d'. split; [exact E | ]. split; [exact Nd' | ]. intros k w. rewrite M, in_dset. split.
        * intros [[(-> & ->) | (_ & Hd)] | (m & j' & x' & A & B & C & D)]; [right; exists n, j, x; repeat split; auto; now left | left; exact Hd | right; exists m, j', x'; repeat split; auto; now right].
        * intros [Hd | (m & j' & x' & -> & [Q | Hb] & C & D)].
          -- left. right. split; [ | exact Hd]. intros ->. apply (Fr n); [now left | ]. apply in_map_iff. exists (named c n, w). auto.
          -- injection Q as <- <-. left. left. split; [reflexivity | congruence].
          -- right. exists m, j', x'. auto.
    - destruct (IH d Nd N2) as (d' & E & Nd' & M).
      + intros m Hm. apply Fr. now right.
      + intros y Hy. apply Ok_. now right.
      + exists d'. split; [exact E | ]. split; [exact Nd' | ]. intros k w. rewrite M. split; (intros [Hd | (m & j' & x' & A & B & C & D)]; [now left | right]).
        * exists m, j', x'. repeat split; auto. now right.
        * destruct B as [Q | B]; [injection Q as <- <-; congruence | ]. exists m, j', x'. auto.
  Qed.
  Lemma lim_bad l x : In x l -> j_limits (snd x) = None -> forall d, foldM lim_step l d = Err AttributeError.
  Proof.
    intros Hx N. induction l as [ | y l IH]; [destruct Hx | ]. intros d. cbn [foldM]. unfold lim_step at 1. destruct Hx as [-> | Hx]; [rewrite N; reflexivity | ].
    destruct (j_limits (snd y)); [ | reflexivity]. destruct (g _); cbn [rbind]; auto.
  Qed.
End S.
Lemma foldM_ext {A B} (f f' : B -> A -> res B) l : (forall b a, f b a = f' b a) -> forall b, foldM f l b = foldM f' l b.
Proof. intros H. induction l as [ | a l IH]; intros b; cbn [foldM]; [reflexivity | ]. rewrite H. destruct (f' b a); cbn [rbind]; auto. Qed.
Lemma joint_limits_fold c u : cv_robot c = Some u -> get_joint_limits c = foldM (lim_step c (fun x => match x_lower x, x_upper x with Some lo, Some up => Some (lo, up) | _, _ => None end)) (u_joints u) [].
Proof. intros E. unfold get_joint_limits. rewrite E. apply foldM_ext. intros d (n, j). unfold lim_step. cbn [fst snd]. destruct (j_limits j) as [[e v [lo | ] [up | ]] | ]; reflexivity. Qed.
Lemma limits_fold field c u : cv_robot c = Some u -> get_limits field c = foldM (lim_step c (fun x => Some (field x))) (u_joints u) [].
Proof. intros E. unfold get_limits. rewrite E. apply foldM_ext. intros d (n, j). unfold lim_step. cbn [fst snd]. destruct (j_limits j); reflexivity. Qed.

(** When every joint of the document has a limit element, the three dictionaries associate to each joint, under its name with the prefix and the suffix,
    its limits (those of the joints that lack one of the two position limits are left out), and contain nothing else. *)
Theorem C97_limits : forall load f prefix suffix num d u c, load f = parse_document num d -> load f = Ok u -> new_converter load (Some f) prefix suffix = Ok c ->
  (forall n j, In (n, j) (u_joints u) -> j_limits j <> None) ->
  (exists jl, get_joint_limits c = Ok jl /\ NoDup (map fst jl) /\ forall k lo up, In (k, (lo, up)) jl <-> exists n, k = (prefix ++ n ++ suffix)%string /\ range_given u n lo up) /\
  (exists el, get_effort_limits c = Ok el /\ NoDup (map fst el) /\ forall k v, In (k, v) el <-> exists n, k = (prefix ++ n ++ suffix)%string /\ limit_given u x_effort n v) /\
  (exists vl, get_velocity_limits c = Ok vl /\ NoDup (map fst vl) /\ forall k v, In (k, v) vl <-> exists n, k = (prefix ++ n ++ suffix)%string /\ limit_given u x_velocity n v).
Proof.
  intros load f prefix suffix num d u c L0 L E Lim. unfold new_converter, parseURDF in E. cbn in E. rewrite L in E. cbn in E. injection E as <-.
  assert (Nj : NoDup (map fst (u_joints u))). { rewrite L in L0. symmetry in L0. apply C94_contents in L0. exact (proj1 (rs_joints _ _ _ L0)). }
  assert (Lim' : forall x, In x (u_joints u) -> j_limits (snd x) <> None) by (intros (n, j) Hx; exact (Lim n j Hx)).
  unfold get_effort_limits, get_velocity_limits.
  split; [ | split].
  - rewrite (joint_limits_fold (Conv (Some f) (Some u) prefix suffix) u eq_refl). destruct (lim_ok (Conv (Some f) (Some u) prefix suffix) (fun x => match x_lower x, x_upper x with Some lo, Some up => Some (lo, up) | _, _ => None end) (u_joints u) [] (NoDup_nil _) Nj (fun _ _ H => H) Lim') as (d' & E & Nd & M).
    exists d'. split; [exact E | ]. split; [exact Nd | ]. intros k lo up. rewrite M. unfold named, range_given. cbn [cv_prefix cv_suffix]. split.
    + intros [[] | (n & j & x & -> & Hj & Ex & Eg)]. exists n. split; [reflexivity | ]. exists j, x. destruct (x_lower x), (x_upper x); try discriminate Eg. injection Eg as -> ->. auto.
    + intros (n & -> & j & x & Hj & Ex & E1 & E2). right. exists n, j, x. rewrite E1, E2. auto.
  - rewrite (limits_fold _ (Conv (Some f) (Some u) prefix suffix) u eq_refl). destruct (lim_ok (Conv (Some f) (Some u) prefix suffix) (fun x => Some (x_effort x)) (u_joints u) [] (NoDup_nil _) Nj (fun _ _ H => H) Lim') as (d' & E & Nd & M).
    exists d'. split; [exact E | ]. split; [exact Nd | ]. intros k v. rewrite M. unfold named, limit_given. cbn [cv_prefix cv_suffix]. split.
    + intros [[] | (n & j & x & -> & Hj & Ex & Eg)]. exists n. split; [reflexivity | ]. exists j, x. injection Eg as ->. auto.
    + intros (n & -> & j & x & Hj & Ex & <-). right. exists n, j, x. auto.
  - rewrite (limits_fold _ (Conv (Some f) (Some u) prefix suffix) u eq_refl). destruct (lim_ok (Conv (Some f) (Some u) prefix suffix) (fun x => Some (x_velocity x)) (u_joints u) [] (NoDup_nil _) Nj (fun _ _ H => H) Lim') as (d' & E & Nd & M).
    exists d'. split; [exact E | ]. split; [exact Nd | ]. intros k v. rewrite M. unfold named, limit_given. cbn [cv_prefix cv_suffix]. split.
    + intros [[] | (n & j & x & -> & Hj & Ex & Eg)]. exists n. split; [reflexivity | ]. exists j, x. injection Eg as ->. auto.
    + intros (n & -> & j & x & Hj & Ex & <-). right. exists n, j, x. auto.
Qed.
Print Assumptions C97_limits.
(** A joint without a limit element (a fixed, floating or continuous joint need not have one) and the three functions raise AttributeError for the whole robot. *)
Theorem C97_fixed_refuted : forall load f prefix suffix u c n j, load f = Ok u -> new_converter load (Some f) prefix suffix = Ok c -> In (n, j) (u_joints u) -> j_limits j = None ->
  get_joint_limits c = Err AttributeError /\ get_effort_limits c = Err AttributeError /\ get_velocity_limits c = Err AttributeError.
Proof.
  intros load f prefix suffix u c n j L E Hj N. unfold new_converter, parseURDF in E. cbn in E. rewrite L in E. cbn in E. injection E as <-. unfold get_effort_limits, get_velocity_limits.
  rewrite (joint_limits_fold (Conv (Some f) (Some u) prefix suffix) u eq_refl), !(limits_fold _ (Conv (Some f) (Some u) prefix suffix) u eq_refl). split; [ | split]; apply (lim_bad _ _ _ (n, j) Hj N).
Qed.
Print Assumptions C97_fixed_refuted.
Theorem C97_witness : exists c, new_converter (fun _ => parse_document xm_num xm_doc) (Some "crane.urdf"%string) "" "_1" = Ok c /\ (forall n j, In (n, j) (u_joints xm_urdf) -> j_limits j <> None) /\
  get_joint_limits c = Ok [("shoulder_1"%string, (-1, 1))] /\ get_effort_limits c = Ok [("shoulder_1"%string, 1)] /\ get_velocity_limits c = Ok [("shoulder_1"%string, 1)].
Proof.
  eexists. split; [reflexivity | ]. split; [ | repeat split]. intros n j [E | []]. injection E as <- <-. discriminate.
Qed.
Print Assumptions C97_witness.

(** ** From a document to the world *)
Lemma map_dset {A B} (f : A -> B) k v d : map (fun x => (fst x, f (snd x))) (dset k v d) = dset k (f v) (map (fun x => (fst x, f (snd x))) d).
Proof. unfold dset. cbn [map fst snd]. f_equal. induction d as [ | (m, w) d IH]; [reflexivity | ]. cbn [filter map fst snd]. destruct (negb (String.eqb k m)); cbn [map fst snd]; congruence. Qed.
Lemma seen_build num n es : Forall attached es -> robot_of num (build n es) = parse_urdf (flat_map (seen num) es) /\ forall x, In x (u_parent_map (build n es)) -> fst x <> None.
Proof.
  induction es as [ | x es IH] using rev_ind; intros F; [split; [reflexivity | intros x []] | ]. apply Forall_app in F. destruct F as (F & Fx). apply Forall_cons_iff in Fx. destruct Fx as (Fx & _). destruct (IH F) as (E & K). clear IH. rewrite build_app, flat_map_app. cbn [flat_map]. rewrite app_nil_r.
  unfold parse_urdf in *. rewrite fold_left_app, <- E. clear E. destruct (build n es) as [a b cl cj cm pm]. cbn [u_parent_map] in K. destruct x as [l | j | m]; cbn [seen add_xelement].
  - split; [ | exact K]. cbn [fold_left add_element]. unfold robot_of. cbn [u_links u_joints u_parent_map r_links r_joints r_parent_map]. rewrite map_dset. reflexivity.
  - destruct Fx as (Fp & Fc). destruct (j_parent j) as [p | ] eqn:Ep; [ | congruence]. destruct (j_child j) as [ch | ] eqn:Ec; [ | congruence]. cbn [fold_left add_element]. split.
    + unfold robot_of. cbn [u_links u_joints u_parent_map r_links r_joints r_parent_map uj_child uj_parent joint_of]. f_equal.
      * rewrite (map_dset (fun j => joint_of num (text_of (j_parent j)) (text_of (j_child j)) j)), Ep, Ec. reflexivity.
      * unfold oset, dset. cbn [map fst snd text_of]. f_equal. clear - K. induction pm as [ | (k, (m, q)) pm IH]; [reflexivity | ]. cbn [filter map fst snd]. assert (Kk := K _ (or_introl eq_refl)). cbn in Kk. destruct k as [k | ]; [ | congruence]. cbn [oeqb text_of].
        assert (IH' := IH (fun x Hx => K x (or_intror Hx))). destruct (String.eqb ch k); cbn [negb map fst snd]; [exact IH' | f_equal; exact IH'].
    + cbn [u_parent_map]. unfold oset. intros x [<- | Hx]; [discriminate | ]. apply filter_In in Hx. apply K. tauto.
  - split; [reflexivity | exact K].
Qed.
(** A document all of whose joints have a parent and a child: the robot that load_in_world, get_root and get_chain see is the one of its elements, so what
    C62, C66 and C67 say of them holds of the document. *)
Theorem C67_document : forall num d u, parse_document num d = Ok u -> Forall attached (u_elements u) -> robot_of num u = parse_urdf (flat_map (seen num) (u_elements u)).
Proof.
  intros num d u E F. destruct (parse_build num d u E) as (m & at_ & k & es & _ & -> & _). rewrite (proj2 (build_fields _ es)) in *. now apply seen_build.
Qed.
Print Assumptions C67_document.
(** From the text of the file to the world: a document that describes a tree of links whose elements are all complete is read, and loaded in a new world
    (by a converter without prefix nor suffix): C62_load and C62_position say what this world is. *)
Theorem C62_document : forall num d u, parse_document num d = Ok u -> Forall attached (u_elements u) -> tree_file (flat_map (seen num) (u_elements u)) ->
  (forall l, In (ELink l) (u_elements u) -> loadable_link (link_of l)) ->
  (forall j, In (EJoint j) (u_elements u) -> loadable_joint (joint_of num (text_of (j_parent j)) (text_of (j_child j)) j)) ->
  loadable (robot_of num u) /\
  (forall n, In n (map fst (r_links (robot_of num u))) <-> exists l, In (ELink l) (u_elements u) /\ l_name l = n) /\
  (forall n j, In (n, j) (r_joints (robot_of num u)) <-> exists x, In (EJoint x) (u_elements u) /\ j_name x = n /\ j = joint_of num (text_of (j_parent x)) (text_of (j_child x)) x).
Proof.
  intros num d u E F T Ll Lj. rewrite (C67_document num d u E F). destruct (C67_parse _ T) as (Tr & IL & IJ).
  assert (SL : forall n l, In (ELinkOf n l) (flat_map (seen num) (u_elements u)) <-> exists x, In (ELink x) (u_elements u) /\ l_name x = n /\ l = link_of x).
  { intros n l. rewrite in_flat_map. split.
    - intros ([x | x | x] & Hx & Hs); cbn in Hs.
      + destruct Hs as [Q | []]. injection Q as <- <-. eauto.
      + destruct (j_parent x), (j_child x); try contradiction Hs. destruct Hs as [Q | []]. discriminate Q.
      + contradiction Hs.
    - intros (x & Hx & <- & ->). exists (ELink x). split; [exact Hx | now left]. }
  assert (SJ : forall n j, In (EJointOf n j) (flat_map (seen num) (u_elements u)) <-> exists x, In (EJoint x) (u_elements u) /\ j_name x = n /\ j = joint_of num (text_of (j_parent x)) (text_of (j_child x)) x).
  { intros n j. rewrite in_flat_map. rewrite Forall_forall in F. split.
    - intros ([x | x | x] & Hx & Hs); cbn in Hs.
      + destruct Hs as [Q | []]. discriminate Q.
      + destruct (j_parent x) eqn:Ep, (j_child x) eqn:Ec; try contradiction Hs. destruct Hs as [Q | []]. injection Q as <- <-. exists x. rewrite Ep, Ec. auto.
      + contradiction Hs.
    - intros (x & Hx & <- & ->). exists (EJoint x). split; [exact Hx | ]. assert (A := F _ Hx). cbn in A. cbn. destruct (j_parent x), (j_child x); cbn; tauto. }
  split; [split; [exact Tr | split] | split].
  - intros n l Hl. apply IL, SL in Hl. destruct Hl as (x & Hx & _ & ->). auto.
  - intros n j Hj. apply IJ, SJ in Hj. destruct Hj as (x & Hx & _ & ->). auto.
  - intros n. rewrite in_map_iff. split.
    + intros ((m, l) & Em & Hl). cbn in Em. subst m. apply IL, SL in Hl. destruct Hl as (x & Hx & Hn & _). eauto.
    + intros (l & Hl & Hn). exists (n, link_of l). split; [reflexivity | ]. apply IL, SL. eauto.
  - intros n j. rewrite IJ. apply SJ.
Qed.
Print Assumptions C62_document.
Theorem C62_document_witness : Forall attached (u_elements xm_urdf) /\ tree_file (flat_map (seen xm_num) (u_elements xm_urdf)) /\
  (forall l, In (ELink l) (u_elements xm_urdf) -> loadable_link (link_of l)) /\
  (forall j, In (EJoint j) (u_elements xm_urdf) -> loadable_joint (joint_of xm_num (text_of (j_parent j)) (text_of (j_child j)) j)).
Proof.
  assert (Eu : u_elements xm_urdf = [EMaterial (XMaterial (Some "grey"%string) (Some (1, 1, 1, 2)) None);
   ELink (XLink "base" None (Some (XInertial 1 0 0 1 0 1 1 None)) (Some (XCollision (Some (XBox (Some (1, 2, 1)))) (Some (XPose (Some [0; 0; 1]) (Some [0; 0; 0]))))));
   ELink (XLink "arm" None None None);
   EJoint (XJoint "shoulder" (Some "base"%string) (Some "arm"%string) "revolute" (Some "0 1 0"%string) (Some (XPose (Some [0; 0; 1]) (Some [0; 0; 0]))) (Some (XLimit 1 1 (Some (-1)) (Some 1))) None None None None)]) by reflexivity.
  rewrite Eu. clear Eu. split; [repeat constructor; discriminate | ]. split; [ | split].
  - constructor; cbn.
    + repeat constructor; cbn; intuition discriminate.
    + repeat constructor; cbn; intuition discriminate.
    + intros n j [Hj | [Hj | [Hj | []]]]; try discriminate Hj. injection Hj as <- <-. eexists. left. reflexivity.
    + intros n j [Hj | [Hj | [Hj | []]]]; try discriminate Hj. injection Hj as <- <-. eexists. right. left. reflexivity.
    + repeat constructor; cbn; intuition discriminate.
    + exists ur_rank. intros n j [Hj | [Hj | [Hj | []]]]; try discriminate Hj. injection Hj as <- <-. cbn. lia.
    + exists "base"%string. eexists. split; [left; reflexivity | ]. split.
      * intros n j [Hj | [Hj | [Hj | []]]]; try discriminate Hj. injection Hj as <- <-. discriminate.
      * intros x w [Hj | [Hj | [Hj | []]]] Dx; try discriminate Hj; injection Hj as <- <-; [congruence | ]. do 2 eexists. split; [right; right; left; reflexivity | reflexivity].
  - intros l [Hl | [Hl | [Hl | [Hl | []]]]]; try discriminate Hl; injection Hl as <-; split; cbn; auto.
    + split; [exact Logic.I | ]. intros (x, y, z) N. unfold dot3, mv. cbn. rewrite !Rmax_right by lra. assert (Hp : x * x + y * y + z * z <> 0). { intros Q. apply N. unfold zero3. assert (x = 0 /\ y = 0 /\ z = 0) as (-> & -> & ->) by (repeat split; nra). reflexivity. } nra.
    + split; [discriminate | split; [discriminate | split; discriminate]].
  - intros j [Hj | [Hj | [Hj | [Hj | []]]]]; try discriminate Hj; injection Hj as <-. split; [split; discriminate | ]. cbn. split; [discriminate | ]. eexists. split; [reflexivity | ].
    split; [unfold norm3, dot3; cbn; transitivity (sqrt 1); [f_equal; lra | apply sqrt_1] | left; right; now left].
Qed.
Print Assumptions C62_document_witness.
