(** Model of the topology layer of the MSTK framework: class Mesh_MSTK, src/mesh/mesh_mstk/Mesh_MSTK.cc:1250-2397 (queries) and
    3380-4117, 4479-4575 (numbering, lists of owned and ghost entities, directions of ghost faces and edges, cell types).

    The MSTK library itself is not modelled: a record [mstk] holds what its calls answer on one MPI rank.  Entities are handles
    ([nat]); ids are [nat] (Entity_ID is int).  MSTK directions 0/1 are booleans, Jali directions (dir_t) are [Z]. *)
From Verif Require Import Base Loop Defs Factory Cache.
Set Implicit Arguments.

(** kinds of MSTK entities, and the parallel type of an entity *)
Inductive mkind := MVERTEX | MEDGE | MFACE | MREGION.
Inductive par_type := PINTERIOR | POVERLAP | PGHOST.
Definition mkind_eqb (a b : mkind) : bool :=
  match a, b with MVERTEX, MVERTEX | MEDGE, MEDGE | MFACE, MFACE | MREGION, MREGION => true | _, _ => false end.
Definition is_pghost (p : par_type) : bool := match p with PGHOST => true | _ => false end.

(** the MSTK mesh of one rank *)
Record mstk := Mstk {
  k_dim : nat;                              (* manifold_dimension(): 2 or 3 *)
  k_all : mkind -> list nat;                (* MESH_Next_Vertex, _Edge, _Face, _Region: the entities of a kind in order *)
  k_ptype : mkind -> nat -> par_type;       (* MEnt_PType *)
  k_gid : mkind -> nat -> nat;              (* MEnt_GlobalID; 0 if it has none *)
  k_bghost : nat -> bool;                   (* attribute "bndry_ghost" of a cell *)
  k_ev : nat -> nat * nat;                  (* ME_Vertex(e, 0), ME_Vertex(e, 1) *)
  k_fe : nat -> list (nat * bool);          (* MF_Edges(f, 1, 0) with MF_EdgeDir_i(f, i) *)
  k_fe_rev : nat -> list nat;               (* MF_Edges(f, 0, 0) *)
  k_fv : nat -> list nat;                   (* MF_Vertices(f, 1, 0) *)
  k_fv_rev : nat -> list nat;               (* MF_Vertices(f, 0, 0) *)
  k_rf : nat -> list (nat * bool);          (* MR_Faces(r) with MR_FaceDir_i(r, i) *)
  k_re : nat -> list nat;                   (* MR_Edges(r) *)
  k_rv : nat -> list nat;                   (* MR_Vertices(r) *)
  k_ve : nat -> list nat; k_vf : nat -> list nat; k_vr : nat -> list nat;  (* MV_Edges, MV_Faces, MV_Regions *)
  k_ef : nat -> list nat;                   (* ME_Faces *)
  k_fr : nat -> list nat;                   (* MF_Regions *)
  k_side : nat -> nat -> option nat }.      (* MF_Region(f, 0), MF_Region(f, 1) *)

(** the MSTK kind of a Jali face and of a Jali cell: [(manifold_dimension() == 2) ? ... : ...], Mesh_MSTK.cc:3681, 3709 and so on *)
Definition face_kind (m : mstk) : mkind := if k_dim m =? 2 then MEDGE else MFACE.
Definition cell_kind (m : mstk) : mkind := if k_dim m =? 2 then MFACE else MREGION.

(** init_pvert_lists, init_pedge_lists, init_pface_lists: two sets filled in the order of the mesh, Mesh_MSTK.cc:3737-3755,
    3760-3777, 3851-3887 *)
Definition ghost_list (m : mstk) (k : mkind) : list nat := filter (fun h => is_pghost (k_ptype m k h)) (k_all m k).
Definition owned_list (m : mstk) (k : mkind) : list nat := filter (fun h => negb (is_pghost (k_ptype m k h))) (k_all m k).
(** init_pcell_lists, Mesh_MSTK.cc:4052-4111 *)
Definition is_bghost (m : mstk) (bg : bool) (h : nat) : bool := bg && k_bghost m h.
Definition owned_cells (m : mstk) (bg : bool) : list nat :=
  filter (fun h => negb (is_pghost (k_ptype m (cell_kind m) h)) && negb (is_bghost m bg h)) (k_all m (cell_kind m)).
Definition bghost_cells (m : mstk) (bg : bool) : list nat :=
  filter (fun h => negb (is_pghost (k_ptype m (cell_kind m) h)) && is_bghost m bg h) (k_all m (cell_kind m)).

(** MEnt_ID of every entity *)
Definition mids := mkind -> nat -> nat.
Definition upd (i : mids) (k : mkind) (h lid : nat) : mids := fun k' h' => if mkind_eqb k' k && (h' =? h) then lid else i k' h'.
(** [while ((ent = MSet_Next_Entry(set, &idx))) { MEnt_Set_ID(ent, lid); id_to_handle[lid-1] = ent; lid++; }],
    Mesh_MSTK.cc:3617-3629, 3650-3662, 3686-3698, 3714-3736 *)
Definition set_ids (k : mkind) (hs : list nat) (s : mids * list nat * nat) : outcome (mids * list nat * nat) :=
  foldM hs (fun h s => let '(i, vec, lid) := s in vec <- wr vec (lid - 1) h ;; Ok (upd i k h lid, vec, lid + 1)) s.
(** init_vertex_id2handle_maps, init_edge_..., init_face_..., init_cell_id2handle_maps, Mesh_MSTK.cc:3603-3736: the table is resized to
    the number of entities of the mesh (new entries are null, here 0), then owned entities, then the others *)
Definition id2handle (k : mkind) (n : nat) (groups : list (list nat)) (i : mids) : outcome (mids * list nat) :=
  r <- foldM groups (fun hs s => set_ids k hs s) (i, repeat 0 n, 1) ;; Ok (fst (fst r), snd (fst r)).

(** the id lists of the base class for one kind of entity *)
Record id_lists := IdLists { il_owned : list nat; il_ghost : list nat; il_bghost : list nat; il_all : list nat }.
(** [resize(n); while ((ment = MSet_Next_Entry(set, &idx))) { id = MEnt_ID(ment)-1; xs[i++] = id; all[j++] = id; }] *)
Definition fill (i : nat -> nat) (hs : list nat) (all : list nat) (j : nat) : outcome (list nat * list nat * nat) :=
  r <- foldM hs (fun h s => let '(xs, k, all, j) := s in
         xs <- wr xs k (i h - 1) ;; all <- wr all j (i h - 1) ;; Ok (xs, k + 1, all, j + 1)) (repeat 0 (length hs), 0, all, j) ;;
  let '(xs, _, all, j) := r in Ok (xs, all, j).
(** Mesh_MSTK.cc:3425-3448, 3478-3500, 3529-3551, 3571-3597 *)
Definition fill_lists (i : nat -> nat) (owned ghost bghost : list nat) : outcome id_lists :=
  a <- fill i owned (repeat 0 (length owned + length ghost + length bghost)) 0 ;;
  b <- fill i ghost (snd (fst a)) (snd a) ;;
  c <- fill i bghost (snd (fst b)) (snd b) ;;
  Ok (IdLists (fst (fst a)) (fst (fst b)) (fst (fst c)) (snd (fst c))).

(** ** directions of ghost edges and faces *)
(** what MEnt_Get_AttVal answers on a ghost entity after MESH_UpdateAttributes: the two values its owner set *)
Definition received := mkind -> nat -> nat * nat.
(** the values the owner sets: end points of an edge (Mesh_MSTK.cc:3799-3807, 3989-3998); regions of a face (3935-3945), 0 if there is none *)
Definition sent (m : mstk) (k : mkind) (h : nat) : nat * nat :=
  match k_ptype m k h with
  | PINTERIOR => (0, 0)                     (* never set: MSTK's default *)
  | _ => match k with
         | MEDGE => (k_gid m MVERTEX (fst (k_ev m h)), k_gid m MVERTEX (snd (k_ev m h)))
         | _ => (match k_side m h 0 with Some r => k_gid m MREGION r | None => 0 end,
                 match k_side m h 1 with Some r => k_gid m MREGION r | None => 0 end)
         end
  end.
(** the same two values of the local copy, Mesh_MSTK.cc:3827-3828, 3960-3963, 4015-4018 *)
Definition local_pair (m : mstk) (k : mkind) (h : nat) : nat * nat :=
  match k with
  | MEDGE => (k_gid m MVERTEX (fst (k_ev m h)), k_gid m MVERTEX (snd (k_ev m h)))
  | _ => (match k_side m h 0 with Some r => k_gid m MREGION r | None => 0 end,
          match k_side m h 1 with Some r => k_gid m MREGION r | None => 0 end)
  end.
(** [remote1 == local0 || remote0 == local1] *)
Definition reversed (r l : nat * nat) : bool := (snd r =? fst l) || (fst r =? snd l).
(** [remote1 != local1 && remote0 != local0] *)
Definition mismatch (r l : nat * nat) : bool := negb (snd r =? snd l) && negb (fst r =? fst l).
(** one ghost entity, Mesh_MSTK.cc:3821-3846, 3953-3982 (with the sanity check), 4008-4022 (without) *)
Definition flip_one (check : bool) (m : mstk) (rcv : received) (i : mids) (k : mkind) (h : nat) (flips : list bool) : outcome (list bool) :=
  if reversed (rcv k h) (local_pair m k h) then wr flips (i k h - 1) true
  else if check && mismatch (rcv k h) (local_pair m k h) then Thrown else Ok flips.
(** init_pedge_dirs (check), init_pface_dirs (check in 3D only), Mesh_MSTK.cc:3780-3848, 3893-4027 *)
Definition init_dirs (serial check : bool) (m : mstk) (rcv : received) (i : mids) (k : mkind) : outcome (list bool) :=
  let none := repeat false (length (k_all m k)) in
  if serial then Ok none else foldM (ghost_list m k) (flip_one check m rcv i k) none.

(** ** construction *)
(** the Mesh_MSTK object after post_create_steps_ *)
Record jmesh := JMesh {
  j_mesh : mstk; j_serial : bool; j_bg : bool; j_faces : bool; j_edges : bool;    (* faces_initialized, edges_initialized *)
  j_ids : mids;
  vtx_h : list nat; edge_h : list nat; face_h : list nat; cell_h : list nat;      (* xxx_id_to_handle *)
  edgeflip : list bool; faceflip : list bool;
  node_ids : id_lists; edge_ids : id_lists; face_ids : id_lists; cell_ids : id_lists }.
Definition no_ids : id_lists := IdLists [] [] [] [].
Definition ids0 : mids := fun _ _ => 0.
(** init_nodes, Mesh_MSTK.cc:3411-3449 *)
Definition init_nodes (m : mstk) (i : mids) : outcome (mids * list nat * id_lists) :=
  r <- id2handle MVERTEX (length (k_all m MVERTEX)) [owned_list m MVERTEX; ghost_list m MVERTEX] i ;;
  l <- fill_lists (fst r MVERTEX) (owned_list m MVERTEX) (ghost_list m MVERTEX) [] ;; Ok (fst r, snd r, l).
(** init_edges, Mesh_MSTK.cc:3454-3501 *)
Definition init_edges (serial : bool) (m : mstk) (rcv : received) (i : mids) : outcome (mids * list nat * list bool * id_lists) :=
  r <- id2handle MEDGE (length (k_all m MEDGE)) [owned_list m MEDGE; ghost_list m MEDGE] i ;;
  fl <- init_dirs serial true m rcv (fst r) MEDGE ;;
  l <- fill_lists (fst r MEDGE) (owned_list m MEDGE) (ghost_list m MEDGE) [] ;; Ok (fst r, snd r, fl, l).
(** init_faces, Mesh_MSTK.cc:3506-3551; init_pface_dirs, 3893-3907 *)
Definition init_faces (serial : bool) (m : mstk) (rcv : received) (i : mids) : outcome (mids * list nat * list bool * id_lists) :=
  let k := face_kind m in
  r <- id2handle k (length (k_all m k)) [owned_list m k; ghost_list m k] i ;;
  fl <- init_dirs serial (k_dim m =? 3) m rcv (fst r) k ;;
  l <- fill_lists (fst r k) (owned_list m k) (ghost_list m k) [] ;; Ok (fst r, snd r, fl, l).
(** init_cells, Mesh_MSTK.cc:3556-3599 *)
Definition init_cells (bg : bool) (m : mstk) (i : mids) : outcome (mids * list nat * id_lists) :=
  let k := cell_kind m in
  let own := owned_cells m bg in let gho := ghost_list m k in let bgh := if bg then bghost_cells m bg else [] in
  r <- id2handle k (length (k_all m k)) ([own; gho] ++ (if bg then [bgh] else [])) i ;;
  l <- fill_lists (fst r k) own gho bgh ;; Ok (fst r, snd r, l).
(** post_create_steps_, Mesh_MSTK.cc:3363-3395: nodes, edges and faces if requested, cells.  [create_boundary_ghosts] has been called before: its
    cells are in [m].  Sets, caches and tiles are modelled elsewhere. *)
Definition construct (serial bg faces edges : bool) (m : mstk) (rcv : received) : outcome jmesh :=
  n <- init_nodes m ids0 ;;
  e <- (if edges then init_edges serial m rcv (fst (fst n)) else Ok (fst (fst n), [], [], no_ids)) ;;
  f <- (if faces then init_faces serial m rcv (fst (fst (fst e))) else Ok (fst (fst (fst e)), [], [], no_ids)) ;;
  c <- init_cells bg m (fst (fst (fst f))) ;;
  Ok (JMesh m serial bg faces edges (fst (fst c)) (snd (fst n)) (snd (fst (fst e))) (snd (fst (fst f))) (snd (fst c))
        (snd (fst e)) (snd (fst f)) (snd n) (snd e) (snd f) (snd c)).

(** ** queries *)
Section Query.
Variable j : jmesh.
Let m := j_mesh j.
(** MEnt_ID(ent)-1 *)
Definition id_of (k : mkind) (h : nat) : nat := j_ids j k h - 1.
(** a face of a cell with its direction: [2*dir-1], or [(dir == 1) ? 1 : -1], negated if faceflip[lid], Mesh_MSTK.cc:1348-1357, 1477-1482,
    1504-1507 *)
Definition face_dir (k : mkind) (fd : nat * bool) : outcome (nat * Z) :=
  fl <- rd (faceflip j) (id_of k (fst fd)) ;;
  let d := if snd fd then 1%Z else (-1)%Z in Ok (id_of k (fst fd), if fl then (- d)%Z else d).
(** cell_get_faces_and_dirs_unordered, Mesh_MSTK.cc:1419-1513 *)
Definition cell_faces_unordered (c : nat) : outcome (list (nat * Z)) :=
  h <- rd (cell_h j) c ;;
  if k_dim m =? 3 then mapM (face_dir MFACE) (k_rf m h) else mapM (face_dir MEDGE) (k_fe m h).
(** MFace_Celltype, MRegion_Celltype, label_celltype, cell_get_type, Mesh_MSTK.cc:4479-4575, 1250-1262.  MF_Num_Vertices = MF_Num_Edges *)
Definition face_celltype (h : nat) : cell_type := match length (k_fe m h) with 3 => TRI | 4 => QUAD | _ => POLYGON end.
Definition nquads (h : nat) : nat := length (filter (fun fd => length (k_fe m (fst fd)) =? 4) (k_rf m h)).
Definition region_celltype (h : nat) : cell_type :=
  match length (k_rf m h) with
  | 4 => TET
  | 5 => match nquads h with 1 => PYRAMID | 3 => PRISM | _ => POLYHED end
  | 6 => if nquads h =? 6 then HEX else POLYHED
  | _ => POLYHED
  end.
Definition cell_get_type (c : nat) : outcome cell_type :=
  h <- rd (cell_h j) c ;; Ok (if k_dim m =? 2 then face_celltype h else region_celltype h).
(** the base face, Mesh_MSTK.cc:1311-1337; none found: null pointer *)
Definition base_face (ct : cell_type) (rf : list (nat * bool)) : outcome (nat * bool) :=
  let first n := match find (fun fd => length (k_fe m (fst fd)) =? n) (firstn 5 rf) with Some fd => Ok fd | None => UB end in
  match ct with TET | HEX => rd rf 0 | PRISM => first 3 | PYRAMID => first 4 | _ => UB end.
Definition has (l : list nat) (x : nat) : bool := existsb (Nat.eqb x) l.
(** the lateral faces: for each edge of the base face, the faces of the cell not yet listed that use it, Mesh_MSTK.cc:1344-1384.
    State: the arrays, nf, the list of processed faces *)
Definition lateral (rf : list (nat * bool)) (f0 : nat) (es : list nat) (s : list (nat * Z) * nat * list nat) :
    outcome (list (nat * Z) * nat * list nat) :=
  foldM es (fun e s => foldM rf (fun fd s => let '(out, nf, don) := s in
    if negb (fst fd =? f0) && negb (has don (fst fd)) then
      if has (map fst (k_fe m (fst fd))) e then
        x <- face_dir MFACE fd ;; out <- wr out nf x ;; Ok (out, nf + 1, don ++ [fst fd])
      else Ok s
    else Ok s) s) s.
(** cell_get_faces_and_dirs_ordered, Mesh_MSTK.cc:1279-1416; the arrays are fresh (an entry never written is (0, 0)) *)
Definition cell_faces_ordered (c : nat) : outcome (list (nat * Z)) :=
  if k_dim m =? 3 then
    ct <- cell_get_type c ;;
    match ct with
    | TET | HEX | PYRAMID | PRISM =>
        h <- rd (cell_h j) c ;;
        let rf := k_rf m h in
        b <- base_face ct rf ;;
        let es := if snd b then k_fe_rev m (fst b) else map fst (k_fe m (fst b)) in     (* MF_Edges(face0, !fdir0, 0) *)
        s <- lateral rf (fst b) es (repeat (0, 0%Z) (length rf), 0, [fst b]) ;;
        let '(out, nf, don) := s in
        x <- face_dir MFACE b ;; out <- wr out nf x ;;
        match find (fun fd => negb (fst fd =? fst b) && negb (has don (fst fd))) rf with
        | Some fd => x <- face_dir MFACE fd ;; wr out (nf + 1) x
        | None => Ok out
        end
    | _ => cell_faces_unordered c
    end
  else cell_faces_unordered c.
(** cell_get_faces_and_dirs_internal, Mesh_MSTK.cc:1517-1527 *)
Definition cell_faces (ordered : bool) (c : nat) : outcome (list (nat * Z)) :=
  asserting (j_faces j) (if ordered then cell_faces_ordered c else cell_faces_unordered c).
(** cell_get_edges_internal, Mesh_MSTK.cc:1530-1600 *)
Definition cell_edges (c : nat) : outcome (list nat) :=
  asserting (j_edges j) (h <- rd (cell_h j) c ;; Ok (map (id_of MEDGE) (if k_dim m =? 3 then k_re m h else map fst (k_fe m h)))).
(** cell_2D_get_edges_and_dirs_internal, Mesh_MSTK.cc:1605-1664: edgeflip is not looked at *)
Definition cell_2D_edges (c : nat) : outcome (list (nat * Z)) :=
  asserting (k_dim m =? 2) (asserting (j_edges j) (h <- rd (cell_h j) c ;;
    Ok (map (fun ed : nat * bool => (id_of MEDGE (fst ed), if snd ed then 1%Z else (-1)%Z)) (k_fe m h)))).
(** cell_get_nodes, Mesh_MSTK.cc:1677-1731 *)
Definition cell_nodes (c : nat) : outcome (list nat) :=
  h <- rd (cell_h j) c ;; Ok (map (id_of MVERTEX) (if k_dim m =? 3 then k_rv m h else k_fv m h)).
(** face_get_edges_and_dirs_internal, Mesh_MSTK.cc:1736-1804: in 3D edgeflip is looked at, faceflip is not *)
Definition face_edges (f : nat) : outcome (list (nat * Z)) :=
  asserting (j_faces j) (asserting (j_edges j) (h <- rd (face_h j) f ;;
    if k_dim m =? 3 then
      mapM (fun ed : nat * bool => fl <- rd (edgeflip j) (id_of MEDGE (fst ed)) ;;
              let d := if snd ed then 1%Z else (-1)%Z in Ok (id_of MEDGE (fst ed), if fl then (- d)%Z else d)) (k_fe m h)
    else Ok [(id_of MEDGE h, 1%Z)])).
(** face_get_nodes, Mesh_MSTK.cc:1813-1862 *)
Definition face_nodes (f : nat) : outcome (list nat) :=
  asserting (j_faces j) (h <- rd (face_h j) f ;; fl <- rd (faceflip j) f ;;
    if k_dim m =? 3 then Ok (map (id_of MVERTEX) (if fl then k_fv_rev m h else k_fv m h))
    else let a := id_of MVERTEX (fst (k_ev m h)) in let b := id_of MVERTEX (snd (k_ev m h)) in Ok (if fl then [b; a] else [a; b])).
(** edge_get_nodes_internal, Mesh_MSTK.cc:1867-1883 *)
Definition edge_nodes (e : nat) : outcome (nat * nat) :=
  asserting (j_edges j) (h <- rd (edge_h j) e ;; fl <- rd (edgeflip j) e ;;
    let a := id_of MVERTEX (fst (k_ev m h)) in let b := id_of MVERTEX (snd (k_ev m h)) in Ok (if fl then (b, a) else (a, b))).
(** the test of the entity type around every list of neighbours: [if (MEnt_PType(ment) == PGHOST) { if (ptype == PARALLEL_GHOST ||
    ptype == ALL) ... } else { if (ptype == PARALLEL_OWNED || ptype == ALL) ... }], Mesh_MSTK.cc:1941-1960 and so on *)
Definition wanted (ty : entity_type) (p : par_type) : bool :=
  match p with
  | PGHOST => match ty with PARALLEL_GHOST | TYPE_ALL => true | _ => false end
  | _ => match ty with PARALLEL_OWNED | TYPE_ALL => true | _ => false end
  end.
Definition of_type (ty : entity_type) (k : mkind) (hs : list nat) : list nat :=
  map (id_of k) (filter (fun h => wanted ty (k_ptype m k h)) hs).
(** node_get_cells, Mesh_MSTK.cc:1890-1971 *)
Definition node_cells (n : nat) (ty : entity_type) : outcome (list nat) :=
  h <- rd (vtx_h j) n ;; Ok (if k_dim m =? 3 then of_type ty MREGION (k_vr m h) else of_type ty MFACE (k_vf m h)).
(** node_get_faces, Mesh_MSTK.cc:1979-2060 *)
Definition node_faces (n : nat) (ty : entity_type) : outcome (list nat) :=
  asserting (j_faces j) (h <- rd (vtx_h j) n ;; Ok (if k_dim m =? 3 then of_type ty MFACE (k_vf m h) else of_type ty MEDGE (k_ve m h))).
(** node_get_cell_faces, Mesh_MSTK.cc:2069-2149 *)
Definition node_cell_faces (n c : nat) (ty : entity_type) : outcome (list nat) :=
  asserting (j_faces j) (v <- rd (vtx_h j) n ;; h <- rd (cell_h j) c ;;
    Ok (if k_dim m =? 3 then of_type ty MFACE (filter (fun f => has (k_fv m f) v) (map fst (k_rf m h)))
        else of_type ty MEDGE (filter (fun e => (fst (k_ev m e) =? v) || (snd (k_ev m e) =? v)) (map fst (k_fe m h))))).
(** face_get_cells_internal, Mesh_MSTK.cc:2155-2217 *)
Definition face_cells (f : nat) (ty : entity_type) : outcome (list nat) :=
  asserting (j_faces j) (h <- rd (face_h j) f ;;
    Ok (if k_dim m =? 3 then of_type ty MREGION (k_fr m h) else of_type ty MFACE (k_ef m h))).
(** cell_get_face_adj_cells, Mesh_MSTK.cc:2227-2304 *)
Definition face_adj_cells (c : nat) (ty : entity_type) : outcome (list nat) :=
  asserting (j_faces j) (h <- rd (cell_h j) c ;;
    Ok (if k_dim m =? 3
        then flat_map (fun fd => of_type ty MREGION (filter (fun h2 => negb (h2 =? h)) (k_fr m (fst fd)))) (k_rf m h)
        else flat_map (fun ed => of_type ty MFACE (filter (fun h2 => negb (h2 =? h)) (k_ef m (fst ed)))) (k_fe m h))).
(** cell_get_node_adj_cells, Mesh_MSTK.cc:2313-2394: [cell_list] keeps the cells met so far *)
Definition gather (h : nat) (groups : list (list nat)) : list nat :=
  fold_left (fun seen g => fold_left (fun seen h2 => if negb (h2 =? h) && negb (has seen h2) then seen ++ [h2] else seen) g seen) groups [].
Definition node_adj_cells (c : nat) (ty : entity_type) : outcome (list nat) :=
  h <- rd (cell_h j) c ;;
  Ok (if k_dim m =? 3 then of_type ty MREGION (gather h (map (k_vr m) (k_rv m h)))
      else of_type ty MFACE (gather h (map (k_vf m) (k_fv m h)))).
(** GID, Mesh_MSTK.cc:3325-3355: an entity without global id has MEnt_GlobalID 0 *)
Definition gid_of (k : mkind) (h : nat) : Z :=
  if j_serial j then (if negb (k_gid m k h =? 0) then Z.of_nat (k_gid m k h) - 1 else Z.of_nat (id_of k h)) else Z.of_nat (k_gid m k h) - 1.
Definition GID (i : nat) (k : entity_kind) : outcome Z :=
  match k with
  | NODE => h <- rd (vtx_h j) i ;; Ok (gid_of MVERTEX h)
  | EDGE => h <- rd (edge_h j) i ;; Ok (gid_of MEDGE h)
  | FACE => h <- rd (face_h j) i ;; Ok (gid_of (face_kind m) h)
  | CELL => h <- rd (cell_h j) i ;; Ok (gid_of (cell_kind m) h)
  | _ => UB                                  (* [ent] is uninitialised *)
  end.
(** what the base class gets (the model of its caches is in Cache.v) *)
Definition topo_of : topo :=
  Topo (k_dim m) (il_owned (cell_ids j)) (il_ghost (cell_ids j)) (il_bghost (cell_ids j))
    (il_owned (node_ids j)) (il_ghost (node_ids j)) (il_owned (face_ids j)) (il_ghost (face_ids j))
    (il_owned (edge_ids j)) (il_ghost (edge_ids j))
    (cell_faces false) (fun f => face_cells f TYPE_ALL) face_edges edge_nodes cell_nodes.
End Query.
