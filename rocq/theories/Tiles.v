(** Model of class MeshTile (src/mesh/MeshTile.cc:86-549, src/mesh/MeshTile.hh:100-741) and of the tile data of class Mesh
    (src/mesh/Mesh.hh:342-411, 1311-1360, src/mesh/Mesh.cc:598-634).  The mesh is seen through its queries.
    Master tile ids are [int]s (-1: none). *)
From Coq Require Import String.
From Verif Require Import Base Loop Defs Factory MeshSet.
Set Implicit Arguments.

(** the queries of the parent mesh used by tiles; an assert in a query (kind not requested) is an AssertFail answer *)
Record tmesh := TMesh {
  tm_ncells : nat; tm_nnodes : nat; tm_nfaces : nat; tm_nedges : nat;   (* num_cells(), ... *)
  tm_flags : flags;                                                      (* faces_requested, ... *)
  tm_adj : nat -> outcome (list nat);          (* cell_get_node_adj_cells(c, ALL) *)
  tm_nodes : nat -> outcome (list nat);        (* cell_get_nodes *)
  tm_faces : nat -> outcome (list nat);        (* cell_get_faces *)
  tm_edges : nat -> outcome (list nat);        (* cell_get_edges *)
  tm_sides : nat -> outcome (list nat);        (* cell_get_sides *)
  tm_wedges : nat -> outcome (list nat);       (* cell_get_wedges *)
  tm_corners : nat -> outcome (list nat) }.    (* cell_get_corners *)

(** the three lists MeshTile keeps for a kind: xxxids_owned_, xxxids_ghost_, xxxids_all_ *)
Record elist := EList { el_owned : list nat; el_ghost : list nat; el_all : list nat }.
Definition el_empty := EList [] [] [].
Record tile := Tile {
  t_id : nat; t_cells : elist; t_nodes : elist; t_faces : elist; t_edges : elist;
  t_sides : elist; t_wedges : elist; t_corners : elist }.

(** tile data members of Mesh, Mesh.hh:1357-1360 *)
Record tdata := TData {
  td_init : bool; td_node : list Z; td_edge : list Z; td_face : list Z; td_cell : list Z; td_tiles : list tile }.
Definition no_tiles : tdata := TData false [] [] [] [] [].

(** vector::resize(n, -1) *)
Definition resize_m1 (l : list Z) (n : nat) : list Z := firstn n l ++ repeat (-1)%Z (n - length l).
(** init_tiles, Mesh.cc:621-627 *)
Definition init_tiles (m : tmesh) (d : tdata) : tdata :=
  TData true (resize_m1 (td_node d) (tm_nnodes m))
    (if fl_edges (tm_flags m) then resize_m1 (td_edge d) (tm_nedges m) else td_edge d)
    (if fl_faces (tm_flags m) then resize_m1 (td_face d) (tm_nfaces m) else td_face d)
    (resize_m1 (td_cell d) (tm_ncells m)) (td_tiles d).

(** master_tile_ID_of_*, Mesh.hh:388-399 *)
Definition master (init : bool) (arr : list Z) (e : nat) : outcome Z := if init then rd arr e else Ok (-1)%Z.

(** halo layers, MeshTile.cc:100-130 *)
Definition push_nbr (all : list nat) (next : list nat) (c : nat) : list nat :=
  if memb c next then next else if memb c all then next else next ++ [c].
Definition halo_layer (m : tmesh) (all : list nat) : outcome (list nat) :=
  foldM all (fun c next => nbrs <- tm_adj m c ;; Ok (fold_left (push_nbr all) nbrs next)) [].
Fixpoint halos (m : tmesh) (k : nat) (all ghost : list nat) : outcome (list nat * list nat) :=
  match k with
  | O => Ok (all, ghost)
  | S k => next <- halo_layer m all ;; halos m k (all ++ next) (ghost ++ next)
  end.

(** one entity of an owned cell, MeshTile.cc:141-154 (nodes), 181-194 (faces), 220-233 (edges) *)
Definition claim1 (init : bool) (id : nat) (e : nat) (s : elist * list Z) : outcome (elist * list Z) :=
  let '(l, arr) := s in
  t <- master init arr e ;;
  if (t =? -1)%Z then
    arr' <- wr arr e (Z.of_nat id) ;; Ok (EList (el_owned l ++ [e]) (el_ghost l) (el_all l), arr')
  else if negb (t =? Z.of_nat id)%Z && negb (memb e (el_ghost l)) then
    Ok (EList (el_owned l) (el_ghost l ++ [e]) (el_all l), arr)
  else Ok s.
(** one entity of a ghost cell, MeshTile.cc:160-166, 200-205, 239-244 *)
Definition ghost1 (init : bool) (id : nat) (arr : list Z) (e : nat) (l : elist) : outcome elist :=
  t <- master init arr e ;;
  if negb (t =? Z.of_nat id)%Z && negb (memb e (el_ghost l)) then Ok (EList (el_owned l) (el_ghost l ++ [e]) (el_all l)) else Ok l.
(** nodes (faces, edges) of the tile, MeshTile.cc:138-171, 177-210, 216-249 *)
Definition claim (ent : nat -> outcome (list nat)) (init : bool) (id : nat) (owned ghost : list nat) (arr : list Z)
    : outcome (elist * list Z) :=
  r <- foldM owned (fun c s => es <- ent c ;; foldM es (claim1 init id) s) (el_empty, arr) ;;
  let '(l, arr) := r in
  l <- foldM ghost (fun c l => es <- ent c ;; foldM es (ghost1 init id arr) l) l ;;
  Ok (EList (el_owned l) (el_ghost l) (el_owned l ++ el_ghost l), arr).

(** sides (wedges, corners) of the tile, MeshTile.cc:252-270, 272-290, 292-310 *)
Definition collect (ent : nat -> outcome (list nat)) (cells : list nat) : outcome (list nat) :=
  foldM cells (fun c l => es <- ent c ;; Ok (l ++ es)) [].
Definition gather (ent : nat -> outcome (list nat)) (owned ghost : list nat) : outcome elist :=
  o <- collect ent owned ;; g <- collect ent ghost ;; Ok (EList o g (o ++ g)).

Definition only_if {A} (b : bool) (d : A) (x : outcome A) : outcome A := if b then x else Ok d.

(** MeshTile::MeshTile, MeshTile.cc:86-311 and make_meshtile, MeshTile.cc:317-346 with add_tile, Mesh.cc:632-634.
    [req] are the request_* arguments.  The sides are collected under request_wedges (line 252), not under request_sides. *)
Definition make_meshtile (m : tmesh) (d : tdata) (cells : list nat) (num_halo_layers : Z) (req : flags) : outcome tdata :=
  let d := match td_tiles d with [] => init_tiles m d | _ => d end in
  let id := length (td_tiles d) in
  h <- (if (0 <? num_halo_layers)%Z then halos m (Z.to_nat num_halo_layers) cells [] else Ok (cells, [])) ;;
  let '(call, cghost) := h in
  carr <- foldM cells (fun c arr => wr arr c (Z.of_nat id)) (td_cell d) ;;
  n <- claim (tm_nodes m) (td_init d) id cells cghost (td_node d) ;;
  f <- only_if (fl_faces req) (el_empty, td_face d) (claim (tm_faces m) (td_init d) id cells cghost (td_face d)) ;;
  e <- only_if (fl_edges req) (el_empty, td_edge d) (claim (tm_edges m) (td_init d) id cells cghost (td_edge d)) ;;
  s <- only_if (fl_wedges req) el_empty (gather (tm_sides m) cells cghost) ;;
  w <- only_if (fl_wedges req) el_empty (gather (tm_wedges m) cells cghost) ;;
  k <- only_if (fl_corners req) el_empty (gather (tm_corners m) cells cghost) ;;
  Ok (TData (td_init d) (snd n) (snd e) (snd f) carr
        (td_tiles d ++ [Tile id (EList cells cghost call) (fst n) (fst f) (fst e) s w k])).

(** build_tiles, Mesh.cc:598-613, after get_partitioning; the tiles are asked for what the mesh was asked for *)
Definition build_tiles (m : tmesh) (parts : list (list nat)) (num_ghost_layers : Z) : outcome tdata :=
  foldM parts (fun p d => make_meshtile m d p num_ghost_layers (tm_flags m)) no_tiles.

(** the lists: nodes<type>() etc., MeshTile.hh:577-741; other types: dummy_list_ *)
Definition el_get (l : elist) (ty : entity_type) : list nat :=
  match ty with PARALLEL_OWNED => el_owned l | PARALLEL_GHOST => el_ghost l | TYPE_ALL => el_all l | _ => [] end.
Definition t_list (t : tile) (k : entity_kind) : elist :=
  match k with
  | NODE => t_nodes t | EDGE => t_edges t | FACE => t_faces t | CELL => t_cells t
  | SIDE => t_sides t | WEDGE => t_wedges t | CORNER => t_corners t | _ => el_empty end.
Definition tile_entities (t : tile) (k : entity_kind) (ty : entity_type) : list nat := el_get (t_list t k) ty.
(** num_entities, MeshTile.hh:330-569: ALL is the sum of the parts *)
Definition tile_num_entities (t : tile) (k : entity_kind) (ty : entity_type) : nat :=
  match ty with
  | PARALLEL_OWNED => length (el_owned (t_list t k))
  | PARALLEL_GHOST => length (el_ghost (t_list t k))
  | TYPE_ALL => length (el_owned (t_list t k)) + length (el_ghost (t_list t k))
  | _ => 0
  end.
(** get_set_entities and get_*_of_set, MeshTile.cc:351-549: the mesh's answer for (name, kind, type), filtered by the tile's
    list of that type; other types: an error message and no entities *)
Definition tile_get_set_entities (t : tile) (h : nat -> mset) (reg : list nat) (name : string) (k : entity_kind) (ty : entity_type)
    : list nat :=
  match k with
  | NODE | EDGE | FACE | SIDE | WEDGE | CORNER | CELL =>
    match ty with
    | PARALLEL_OWNED | PARALLEL_GHOST | TYPE_ALL =>
        filter (fun x => memb x (tile_entities t k ty)) (get_set_entities h reg name k ty)
    | _ => []
    end
  | _ => []
  end.

(** the public master tile queries after construction, Mesh.hh:388-411 *)
Definition master_tile_ID (d : tdata) (k : entity_kind) (e : nat) : outcome Z :=
  match k with
  | NODE => master (td_init d) (td_node d) e | EDGE => master (td_init d) (td_edge d) e
  | FACE => master (td_init d) (td_face d) e | CELL => master (td_init d) (td_cell d) e
  | _ => UB            (* side, wedge, corner: through their cell; not modelled *)
  end.
