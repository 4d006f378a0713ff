(** Model of the edges of cells: cache_cell2edge_info, face_to_cell_edge_map, cell_get_edges, cell_2D_get_edges_and_dirs,
    cell_get_num_faces; src/mesh/Mesh.cc:182-200, 574-577, 646-656, 823-915. *)
From Verif Require Import Base Loop Defs Factory Cache.
Set Implicit Arguments.

(** the framework's virtual functions cell_get_edges_internal and cell_2D_get_edges_and_dirs_internal, Mesh.hh:1171-1186 *)
Record edge_fw := EdgeFw { fw_cell_edges : nat -> outcome (list nat); fw_cell_edges_2D : nat -> outcome (list (nat * Z)) }.
(** cell_edge_ids, cell_2D_edge_dirs (Mesh.hh) *)
Record cell_edge_tab := CellEdgeTab { ce_ids : list (list nat); ce_dirs : list (list Z) }.

(** cache_cell2edge_info, Mesh.cc:182-200.  [sd] is space_dim_, which may differ from the manifold dimension: a surface mesh has sd = 3
    and manifold dimension 2.  [for (c : cells())] over the ALL list. *)
Definition cache_cell2edge_info (sd : nat) (t : topo) (F : edge_fw) : outcome cell_edge_tab :=
  let ids0 := repeat [] (ncells t) in
  match sd with
  | 1 => ids <- foldM (cells_all t) (fun c tab => l <- fw_cell_nodes t c ;; wr tab c l) ids0 ;; Ok (CellEdgeTab ids [])
  | 2 => foldM (cells_all t) (fun c tab => l <- fw_cell_edges_2D F c ;; ids <- wr (ce_ids tab) c (map fst l) ;; dirs <- wr (ce_dirs tab) c (map snd l) ;;
           Ok (CellEdgeTab ids dirs)) (CellEdgeTab ids0 (repeat [] (ncells t)))
  | 3 => ids <- foldM (cells_all t) (fun c tab => l <- fw_cell_edges F c ;; wr tab c l) ids0 ;; Ok (CellEdgeTab ids [])
  | _ => Ok (CellEdgeTab ids0 [])
  end.
(** a mesh with this table, cached when edges are requested (Mesh.cc:574-577); None: cell2edge_info_cached is false *)
Record emesh := EMesh { em : cmesh; em_ce : option cell_edge_tab }.

(** cell_get_edges, Mesh.cc:868-888 *)
Definition cell_get_edges (m : emesh) (c : nat) : outcome (list nat) := ce <- need (em_ce m) ;; rd (ce_ids ce) c.
(** cell_2D_get_edges_and_dirs, Mesh.cc:891-915 *)
Definition cell_2D_get_edges_and_dirs (m : emesh) (c : nat) : outcome (list nat * list Z) :=
  ce <- need (em_ce m) ;; ids <- rd (ce_ids ce) c ;; dirs <- rd (ce_dirs ce) c ;; Ok (ids, dirs).
(** cell_get_num_faces, Mesh.cc:646-656 *)
Definition cell_get_num_faces (m : cmesh) (c : nat) : outcome nat := cf <- need (cm_cf m) ;; l <- rd cf c ;; Ok (length l).
(** the inner loop with break, Mesh.cc:838-843: the first position of the edge *)
Fixpoint first_pos (l : list nat) (e : nat) : option nat :=
  match l with [] => None | a :: r => if e =? a then Some 0 else option_map S (first_pos r e) end.
(** std::vector<int>::resize(n): cut, or grow by zeros *)
Definition resize0 (l : list nat) (n : nat) : list nat := firstn n l ++ repeat 0 (n - length l).
(** face_to_cell_edge_map, Mesh.cc:823-845.  [map] is what the caller's vector holds before the call. *)
Definition face_to_cell_edge_map (m : emesh) (f c : nat) (map : list nat) : outcome (list nat) :=
  fe <- need (cm_fe (em m)) ;; ce <- need (em_ce m) ;;
  fes <- rd fe f ;;
  for_lt (length fes) (fun i map =>
    e <- rd fes i ;; l <- rd (ce_ids ce) c ;;
    match first_pos l (fst e) with Some k => wr map i k | None => Ok map end) (resize0 map (length fes)).
(** construction with this table: cache_extra_variables, Mesh.cc:565-593 (the real order interleaves the caches; whether all succeed and what they hold is the same) *)
Definition cache_with_edges (sd : nat) (t : topo) (F : edge_fw) (fl : flags) : outcome emesh :=
  m <- cache_extra_variables t fl ;; ce <- when (fl_edges fl) (cache_cell2edge_info sd t F) ;; Ok (EMesh m ce).
