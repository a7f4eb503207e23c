(** The physics model of the collada document: one rigid_body for each body with a mass. *)
From Coq Require Import Lra Lia Permutation.
From Verif Require Import Spec_Dae Proof_SE3 Proof_Linalg Proof_Dae2 Proof_Dae3 Proof_Dae4.
Open Scope R_scope.

Section Phys.
  Variables (argsort : v3 -> nat * nat * nat) (eigvals : m6 -> list R) (eig : m3 -> v3 * m3) (daenim : bool) (S : dscene) (geo : nat -> geom).
  Notation create_item := (create_item argsort eigvals eig daenim S geo).
  Notation draw_items := (draw_items argsort eigvals eig daenim S geo).
  Notation dae_event := (dae_event argsort eigvals eig daenim S geo).
  Notation dae_events := (dae_events argsort eigvals eig daenim S geo).

  (** the sid given to the rigid_body of body [b] *)
  Definition sid_of (b : nat) : option string := if daenim then Some EmptyString else ds_nm S (OFrame (FBody b)).
  Definition phys_ok (l : list nat) (k : list rigid) : Prop := Forall2 (fun b r => rigid_of eigvals eig (b_mass (ds_sc S) b) (sid_of b) = Ok r) l k.

  Lemma get_node_phys o v i v' : get_node o v = (i, v') -> v_phys v' = v_phys v.
  Proof. unfold get_node. destruct (collada_id _ _). intros E. injection E as <- <-. reflexivity. Qed.
  Lemma geometry_phys o c g l ds v N v' : geometry o c g l ds v = (N, v') -> v_phys v' = v_phys v.
  Proof.
    unfold geometry. destruct (get_node o v) as (i, v1) eqn:G. apply get_node_phys in G. unfold material. destruct (color_index _ _); intros E; injection E as <- <-; exact G.
  Qed.
  Lemma number_nodes_phys l : forall ids v ids' v', number_nodes S l ids v = (ids', v') -> v_phys v' = v_phys v.
  Proof.
    induction l as [ | (n, x) l IH]; intros ids v ids' v' E; cbn [number_nodes] in E; [now injection E as <- <- | ].
    destruct (get_node _ v) as (i, v1) eqn:G. apply get_node_phys in G. rewrite (IH _ _ _ _ E). exact G.
  Qed.
  Lemma create_item_phys n i v o v' : create_item i v = Ok (o, v') -> exists k, v_phys v' = v_phys v ++ k /\ phys_ok (item_bodies [(n, i)]) k.
  Proof.
    destruct i as [ | p c | b c | s c]; cbn [Model_Dae.create_item item_bodies flat_map snd app]; intros E.
    - injection E as <- <-. exists []. rewrite app_nil_r. split; [reflexivity | constructor].
    - exists []. rewrite app_nil_r. split; [ | constructor]. unfold create_line in E. destruct daenim; [ | now injection E as <- <-]. cbv zeta in E. destruct (Rltb _ _); [ | discriminate]. destruct (zaligned_ _ _); [ | discriminate]. cbn [rbind] in E.
      destruct (geometry _ _ _ _ _ _) as (N, v1) eqn:G. injection E as <- <-. exact (geometry_phys _ _ _ _ _ _ _ _ G).
    - rewrite create_inertia_eq in E; unfold create_inertia_base in E. unfold phys_ok, sid_of. destruct daenim.
      + destruct (rigid_of _ _ _ _) as [r | ] eqn:Er; [ | discriminate]. cbn [rbind] in E. destruct (principalframe _ _ _) as [H | ]; [ | discriminate]. cbn [rbind] in E. destruct (transport _ _ _) as [Mc | ]; [ | discriminate]. cbn [rbind] in E.
        destruct (ds_nm S _) as [s | ]; [ | discriminate]. destruct (geometry _ _ _ _ _ _) as (N, v1) eqn:G. injection E as <- <-. exists [r]. rewrite (geometry_phys _ _ _ _ _ _ _ _ G). split; [reflexivity | ]. constructor; [exact Er | constructor].
      + destruct (rigid_of _ _ _ _) as [r | ] eqn:Er; [ | discriminate]. cbn [rbind] in E. injection E as <- <-. exists [r]. split; [reflexivity | ]. constructor; [exact Er | constructor].
    - exists []. rewrite app_nil_r. split; [ | constructor]. destruct (create_shape _ _ _ _ _ _) as [(N, v1) | ] eqn:G; [ | discriminate]. cbn [rbind] in E. injection E as <- <-. destruct (geo s) as [n0 d | | he | l r | r]; cbn [create_shape] in G.
      all: try (apply (f_equal (fun x => match x with Ok y => y | Err _ => (N, v) end)) in G; exact (geometry_phys _ _ _ _ _ _ _ _ G)).
      unfold create_plane in G. destruct (zaligned_ _ _) as [H | ]; [ | discriminate]. cbn [rbind] in G. destruct (op_plane _) as (hx, hy). apply (f_equal (fun x => match x with Ok y => y | Err _ => (N, v) end)) in G. exact (geometry_phys _ _ _ _ _ _ _ _ G).
  Qed.
  Lemma draw_items_phys l : forall its v its' v', draw_items l its v = Ok (its', v') -> exists k, v_phys v' = v_phys v ++ k /\ phys_ok (item_bodies l) k.
  Proof.
    induction l as [ | (n, i) l IH]; intros its v its' v' E; cbn [Model_Dae.draw_items] in E.
    - injection E as <- <-. exists []. rewrite app_nil_r. split; [reflexivity | constructor].
    - destruct (create_item i v) as [(o, v1) | ] eqn:C; [ | discriminate]. cbn [rbind] in E. destruct (create_item_phys n i v o v1 C) as (k1 & E1 & P1). destruct (IH _ _ _ _ E) as (k2 & E2 & P2).
      exists (k1 ++ k2). split; [rewrite E2, E1, app_assoc; reflexivity | ]. change ((n, i) :: l) with ([(n, i)] ++ l). unfold item_bodies. rewrite flat_map_app. apply Forall2_app; assumption.
  Qed.
  Definition phys_inv (D : dae) : Prop := phys_ok (item_bodies (rev (d_items (da_draw D)))) (v_phys (da_drv D)).
  Lemma phys_steps flat evs : forall D D', ~ In EInit evs -> phys_inv D -> dae_events flat evs D = Ok D' -> phys_inv D'.
  Proof.
    induction evs as [ | ev evs IH]; intros D D' Ni Pi E; cbn [Model_Dae.dae_events] in E; [now injection E as <- | ].
    destruct (dae_event flat ev D) as [D1 | ] eqn:E1; [ | discriminate]. cbn [rbind] in E. apply (IH D1 D'); [intros A; apply Ni; now right | | exact E]. clear IH E.
    unfold Model_Dae.dae_event in E1. destruct (draw_event S flat ev (da_draw D)) as [d | ] eqn:Dr; [ | discriminate]. cbn [rbind] in E1.
    destruct (draw_grows S flat ev (da_draw D) d) as (l & k & Gl & Gk & _); [intros ->; apply Ni; now left | exact Dr | ]. rewrite Gl, Gk, !added_app in E1.
    destruct (number_nodes S (rev l) _ _) as (ids, v1) eqn:Nn. destruct (draw_items (rev k) _ _) as [(its, v2) | ] eqn:Di; [ | discriminate]. cbn [rbind] in E1. injection E1 as <-. unfold phys_inv. cbn [da_draw da_drv].
    destruct (draw_items_phys _ _ _ _ _ Di) as (q & Eq & Pq). rewrite (number_nodes_phys _ _ _ _ _ Nn) in Eq. rewrite Gk, Eq, rev_app_distr. unfold item_bodies. rewrite flat_map_app. apply Forall2_app; [exact Pi | exact Pq].
  Qed.
  Lemma phys_world flat fuel h up cs scale update evs D : parse (ds_e S) fuel h = Ok (EInit :: evs) -> ~ In EInit evs ->
    dae_world argsort eigvals eig daenim S geo flat fuel h up cs scale update = Ok D -> phys_inv D.
  Proof.
    intros Ep Ni E. unfold dae_world in E. destruct (set_up_axis up) as [a | ]; [ | discriminate]. cbn [rbind] in E. rewrite Ep in *. cbn [rbind Model_Dae.dae_events] in *.
    destruct (dae_event flat EInit _) as [D1 | ] eqn:E1; [ | discriminate]. cbn [rbind] in E. unfold Model_Dae.dae_event in E1. unfold added in E1. cbn in E1.
    apply (phys_steps flat evs D1 D Ni); [ | exact E]. injection E1 as <-. constructor.
  Qed.
End Phys.
