(** arboris/visu/dae_writer.py:add_shapes_to_dae and its helpers, on collada documents as trees of nodes with their libraries.  Not modelled: the XML text;
    materials and effects (they are copied as the geometries are); the pycollada library, of which is used: reading a file gives nodes that hold the
    geometries and the nodes they refer to; writing a node that refers to another object writes the id of this object only; libraries are lists indexed by
    id.  The nodes of the input file inside the instances of its library are not looked for (_get_all_nodes also lists them). *)
From Coq Require Import Ascii.
From Verif Require Export Model_UrdfShapes.
Open Scope R_scope.

Section G.
  (** the contents of a geometry *)
  Variable G : Type.
  (** Node, GeometryNode (its geometry: id, contents), NodeNode (the node it refers to) *)
  Inductive cnode := CN (id : option string) (tfs : list tf) (kids : list cnode) | CG (gid : string) (g : G) | CI (n : cnode).
  Definition node_id (n : cnode) : option string := match n with CN i _ _ => i | CG _ _ => None | CI (CN i _ _) => i | CI _ => None end.
  (** a file: the nodes of its scene, library_nodes, library_geometries *)
  Record cdoc := Doc { d_scene : list cnode; d_nodes : list cnode; d_geoms : list (string * G) }.

  (** [_get_all_nodes], dae_writer.py:262-277: a dict; for an id met several times the last one remains *)
  Fixpoint all_nodes (n : cnode) : list (string * cnode) :=
    match n with
    | CN i _ kids => match i with Some s => [(s, n)] | None => [] end ++ flat_map all_nodes kids
    | CG _ _ => []
    | CI m => match all_nodes m with (s, _) :: r => (s, CI m) :: r | [] => [] end
    end.
  Definition last_node (s : string) (l : list cnode) : option cnode := option_map snd (find (fun x => String.eqb (fst x) s) (rev (flat_map all_nodes l))).
  (** [dae_nodes[s].children.append(k)]; None if there is no such node *)
  Fixpoint add_at (s : string) (k : cnode) (n : cnode) : option cnode :=
    match n with
    | CN i tfs kids =>
        match (fix go (l : list cnode) : option (list cnode) :=
                 match l with
                 | [] => None
                 | c :: l' => match go l' with Some r => Some (c :: r) | None => match add_at s k c with Some c' => Some (c' :: l') | None => None end end
                 end) kids with
        | Some kids' => Some (CN i tfs kids')
        | None => if match i with Some t => String.eqb t s | None => false end then Some (CN i tfs (kids ++ [k])) else None
        end
    | _ => None
    end.
  Fixpoint add_in (s : string) (k : cnode) (l : list cnode) : option (list cnode) :=
    match l with
    | [] => None
    | c :: l' => match add_in s k l' with Some r => Some (c :: r) | None => match add_at s k c with Some c' => Some (c' :: l') | None => None end end
    end.

  (** [_get_good_id_uri], dae_writer.py:311-314 *)
  Definition char_is (n : nat) (c : ascii) : bool := Nat.eqb (nat_of_ascii c) n.
  Fixpoint good_chars (s : string) : string :=
    match s with
    | EmptyString => EmptyString
    | String c s' => ((if char_is 92 c || char_is 47 c then "_" else if char_is 35 c || char_is 58 c then ".." else String c EmptyString) ++ good_chars s')%string
    end.
  Definition good_id (s : string) : string := ("node_" ++ good_chars s)%string.
  (** [shape_path.partition("#")], the first and last parts *)
  Fixpoint partition (s : string) : string * string :=
    match s with
    | EmptyString => (EmptyString, EmptyString)
    | String c s' => if char_is 35 c then (EmptyString, s') else let (a, b) := partition s' in (String c a, b)
    end.

  (** [_save_all_descendant_geometryNode], dae_writer.py:289-308 *)
  Definition save_geom (x : string * G) (l : list (string * G)) : list (string * G) := if existsb (fun y => String.eqb (fst y) (fst x)) l then l else l ++ [x].
  Fixpoint geoms_of (n : cnode) : list (string * G) :=
    match n with CG i g => [(i, g)] | CN _ _ kids => flat_map geoms_of kids | CI m => geoms_of m end.
  Definition save_geoms (n : cnode) (l : list (string * G)) : list (string * G) := fold_left (fun l x => save_geom x l) (geoms_of n) l.
  Definition find_node (s : string) (l : list cnode) : option cnode := find (fun n => match node_id n with Some t => String.eqb t s | None => false end) l.
  Definition save_node (n : cnode) (l : list cnode) : list cnode := match node_id n with Some s => match find_node s l with Some _ => l | None => l ++ [n] end | None => l end.
  (** the common part, dae_writer.py:175-188 and 221-241: an instance of [child], below [tfs], under the node [s] *)
  Definition attach (s : string) (tfs : list tf) (child : cnode) (d : cdoc) : cdoc :=
    match add_in s (CN None tfs [CI child]) (d_scene d) with
    | None => d
    | Some sc => Doc sc (save_node child (d_nodes d)) (save_geoms child (d_geoms d))
    end.

  (** what follows the frame and the mesh in an item, 196-201 *)
  Inductive arg := AMat (H : m4) | AScale (s : vscale).
  Definition dict_args (transform : option m4) (scale : option vscale) : list arg :=
    match transform with Some H => [AMat H] | None => [] end ++ match scale with Some s => [AScale s] | None => [] end.
  (** dae_writer.py:230-241; [*scale] with another number of elements raises TypeError *)
  Definition tfs_of (l : list arg) : res (list tf) :=
    match l with
    | [] => Ok []
    | AScale _ :: _ => Err AttributeError
    | AMat H :: [] => Ok [TMat H]
    | AMat H :: AScale s :: _ => match scale_of s with Some v => Ok [TMat H; TScale v] | None => Err TypeError end
    | AMat H :: AMat _ :: _ => Err TypeError
    end.
  Record item := Item { it_frame : string; it_mesh : string; it_args : list arg }.
  Variable load : string -> res (list cnode).              (* collada.Collada(file).scene.nodes *)
  (** the shape, dae_writer.py:203-205, 212-228; None: it cannot be found; a NodeNode has no transforms *)
  Definition child_of (path : string) : res (option cnode) :=
    let (file, id) := partition path in
    let* src := load file in
    if String.eqb id "" then Ok (Some (CN (Some ""%string) [] src))
    else match last_node id src with
         | None => Ok None
         | Some (CN _ tfs kids) => Ok (Some (CN (Some (good_id path)) tfs kids))
         | Some _ => Err AttributeError
         end.
  Definition add_item (d : cdoc) (i : item) : res cdoc :=
    match add_in (it_frame i) (CN None [] []) (d_scene d) with
    | None => let* _ := load (fst (partition (it_mesh i))) in Ok d
    | Some _ =>
        let* c := child_of (it_mesh i) in
        match c with
        | None => Ok d
        | Some child => let* tfs := tfs_of (it_args i) in Ok (attach (it_frame i) tfs child d)
        end
    end.
  (** a list of items, dae_writer.py:193-241 *)
  Definition add_items (l : list item) (d : cdoc) : res cdoc := foldM add_item l d.
  (** a whole file, 170-191; [keys]: the ids of the input file in the order of the dict *)
  Definition add_named (path : string) (src : list cnode) (d : cdoc) (s : string) : res cdoc :=
    match last_node s src with
    | None => Ok d
    | Some (CN _ tfs kids) => Ok (attach s [] (CN (Some (good_id (path ++ ".." ++ s)%string)) tfs kids) d)
    | Some _ => Err AttributeError
    end.
  Definition add_file (path : string) (keys : list string) (d : cdoc) : res cdoc := let* src := load path in foldM (add_named path src) keys d.
End G.
Arguments CN {G}. Arguments CG {G}. Arguments CI {G}. Arguments Doc {G}. Arguments d_scene {G}. Arguments d_nodes {G}. Arguments d_geoms {G}.
