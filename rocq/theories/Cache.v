(** Model of the caches of class Mesh: src/mesh/Mesh.cc:79-593 (cache_*_info, cache_extra_variables), the queries on them
    (Mesh.cc:672-1010, 2308-2352; Mesh.hh:1555-1810, 2001-2177).  JALI_CACHE_VARS is 1 (Mesh.hh:74), so the cached branches are
    the ones compiled.  Ids are [nat] (Entity_ID is int); only side_opp_side_id and face_cell_ids, which really hold -1, are [Z].
    The -1 that resize() puts in side_edge_id, side_face_id, side_cell_id, wedge_corner_id is a 0 here. *)
From Verif Require Import Base Loop Defs Factory.
Set Implicit Arguments.

(** What the framework (Mesh_simple, Mesh_MSTK) provides: entity id lists and the virtual *_internal functions.
    A list of pairs stands for the id list together with the dir list. *)
Record topo := Topo {
  tp_mdim : nat;                                   (* manifold_dim_ (= space_dim_: surface meshes are not modelled) *)
  cells_owned : list nat; cells_ghost : list nat; cells_bghost : list nat;
  nodes_owned : list nat; nodes_ghost : list nat;
  faces_owned : list nat; faces_ghost : list nat;
  edges_owned : list nat; edges_ghost : list nat;
  fw_cell_faces : nat -> outcome (list (nat * Z));   (* cell_get_faces_and_dirs_internal *)
  fw_face_cells : nat -> outcome (list nat);         (* face_get_cells_internal, type ALL *)
  fw_face_edges : nat -> outcome (list (nat * Z));   (* face_get_edges_and_dirs_internal *)
  fw_edge_nodes : nat -> outcome (nat * nat);        (* edge_get_nodes_internal *)
  fw_cell_nodes : nat -> outcome (list nat) }.       (* cell_get_nodes *)

(** cells(), nodes(), faces(), edges(): the ALL lists are filled as owned, ghost, boundary ghost
    (Mesh_simple.cc:330,361,611,635; Mesh_MSTK.cc:3427-3443, 3478-3494, 3526-3542, 3570-3595) *)
Definition cells_all (t : topo) : list nat := cells_owned t ++ cells_ghost t ++ cells_bghost t.
Definition nodes_all (t : topo) : list nat := nodes_owned t ++ nodes_ghost t.
Definition faces_all (t : topo) : list nat := faces_owned t ++ faces_ghost t.
Definition edges_all (t : topo) : list nat := edges_owned t ++ edges_ghost t.
(** num_cells<ALL> etc., Mesh.hh:1555-1722 *)
Definition ncells (t : topo) : nat := length (cells_owned t) + length (cells_ghost t) + length (cells_bghost t).
Definition nnodes (t : topo) : nat := length (nodes_owned t) + length (nodes_ghost t).
Definition nfaces (t : topo) : nat := length (faces_owned t) + length (faces_ghost t).
Definition nedges (t : topo) : nat := length (edges_owned t) + length (edges_ghost t).

(** [for (x : ids) v[x] = ty;] *)
Definition set_types (ids : list nat) (ty : entity_type) (v : list entity_type) : outcome (list entity_type) :=
  foldM ids (fun x v => wr v x ty) v.
(** resize() on the enum gives value 0 = DELETED (MeshDefs.hh:160-167) *)
Definition cache_types (n : nat) (owned ghost bghost : list nat) : outcome (list entity_type) :=
  v <- set_types owned PARALLEL_OWNED (repeat DELETED n) ;;
  v <- set_types ghost PARALLEL_GHOST v ;;
  set_types bghost BOUNDARY_GHOST v.
(** cache_type_info, Mesh.cc:79-111 *)
Definition cache_cell_type (t : topo) := cache_types (ncells t) (cells_owned t) (cells_ghost t) (cells_bghost t).
Definition cache_face_type (t : topo) := cache_types (nfaces t) (faces_owned t) (faces_ghost t) [].
Definition cache_edge_type (t : topo) := cache_types (nedges t) (edges_owned t) (edges_ghost t) [].
Definition cache_node_type (t : topo) := cache_types (nnodes t) (nodes_owned t) (nodes_ghost t) [].

(** cache_cell2face_info, Mesh.cc:119-130 *)
Definition cache_cell2face_info (t : topo) : outcome (list (list (nat * Z))) := mapM (fw_cell_faces t) (seq 0 (ncells t)).
(** body of cache_face2cell_info, Mesh.cc:144-153: resize(2), copy all of fcells (past 2: UB), fill with -1 *)
Definition face2cell_row (fcells : list nat) : outcome (list Z) :=
  row <- for_lt (length fcells) (fun i row => c <- rd fcells i ;; wr row i (Z.of_nat c)) [0%Z; 0%Z] ;;
  foldM (seq (length fcells) (2 - length fcells)) (fun i row => wr row i (-1)%Z) row.
(** cache_face2cell_info, Mesh.cc:138-156 *)
Definition cache_face2cell_info (t : topo) : outcome (list (list Z)) :=
  mapM (fun f => fc <- fw_face_cells t f ;; face2cell_row fc) (seq 0 (nfaces t)).
(** cache_face2edge_info, Mesh.cc:164-174 *)
Definition cache_face2edge_info (t : topo) : outcome (list (list (nat * Z))) := mapM (fw_face_edges t) (seq 0 (nfaces t)).
(** cache_edge2node_info, Mesh.cc:209-225 *)
Definition cache_edge2node_info (t : topo) : outcome (list (nat * nat)) :=
  foldM (edges_all t) (fun e tab =>
    en <- (if tp_mdim t =? 1 then Ok (e, e) else fw_edge_nodes t e) ;; wr tab e en) (repeat (0, 0) (nedges t)).

(** the data members cache_side_info fills (Mesh.hh: side_*, sideids_*, cell_side_ids) *)
Record side_info := SideInfo {
  sideids_all : list nat; sideids_owned : list nat; sideids_ghost : list nat; sideids_bghost : list nat;
  side_edge_id : list nat; side_edge_use : list bool; side_face_id : list nat; side_cell_id : list nat;
  side_opp_side_id : list Z; side_node_ids : list (nat * nat); cell_side_ids : list (list nat) }.

(** loop state of Mesh.cc:338-426: the members above, the local sides_of_edge and the counters *)
Record side_loop := SideLoop {
  sl_info : side_info; sl_soe : list (list nat);
  sl_sideid : nat; sl_iall : nat; sl_iown : nat; sl_ighost : nat; sl_ibndry : nat }.

(** counts of sides by type, Mesh.cc:241-277 (2D/3D branch): (all, owned, ghost, boundary ghost) *)
Definition add_sides (ty : entity_type) (n : nat) (k : nat * nat * nat * nat) : nat * nat * nat * nat :=
  let '(a, o, g, b) := k in
  match ty with
  | PARALLEL_OWNED => (a + n, o + n, g, b)
  | PARALLEL_GHOST => (a + n, o, g + n, b)
  | BOUNDARY_GHOST => (a + n, o, g, b + n)
  | _ => (a + n, o, g, b)
  end.
Definition count_sides (t : topo) (ctype : list entity_type) (cf fe : list (list (nat * Z))) : outcome (nat * nat * nat * nat) :=
  foldM (cells_all t) (fun c k =>
    cfaces <- rd cf c ;;
    foldM cfaces (fun fd k => fedges <- rd fe (fst fd) ;; ty <- rd ctype c ;; Ok (add_sides ty (length fedges) k)) k)
    (0, 0, 0, 0).

(** the side's nodes and use flag, Mesh.cc:361-385 *)
Definition side_orient (mdim : nat) (fdir edir : Z) (en : nat * nat) : (nat * nat) * bool :=
  if mdim =? 2 then
    ((if (fdir =? 1)%Z then fst en else snd en, if (fdir =? 1)%Z then snd en else fst en), (fdir =? 1)%Z)
  else
    let fdir01 := Z.quot (fdir + 1) 2 in
    let edir01 := Z.quot (edir + 1) 2 in
    let dir := negb (Z.lxor fdir01 edir01 =? 0)%Z in
    ((if dir then fst en else snd en, if dir then snd en else fst en), dir).

(** search for the opposite side among the sides already attached to the edge, Mesh.cc:403-410 *)
Fixpoint find_opp (sedge sface scell : list nat) (l : list nat) (e f c : nat) : outcome (option nat) :=
  match l with
  | [] => Ok None
  | s2 :: r =>
      e2 <- rd sedge s2 ;;
      if negb (e2 =? e) then find_opp sedge sface scell r e f c else
      f2 <- rd sface s2 ;;
      if negb (f2 =? f) then find_opp sedge sface scell r e f c else
      c2 <- rd scell s2 ;;
      if negb (c2 =? c) then Ok (Some s2) else find_opp sedge sface scell r e f c
  end.

(** [v[i].push_back(x)] *)
Definition push_at {A} (v : list (list A)) (i : nat) (x : A) : outcome (list (list A)) := r <- rd v i ;; wr v i (r ++ [x]).

(** one iteration of the edge loop, Mesh.cc:352-418 *)
Definition side_body (mdim : nat) (ctype : list entity_type) (en_tab : list (nat * nat)) (c f : nat) (fdir : Z) (ed : nat * Z)
    (s : side_loop) : outcome side_loop :=
  let i := sl_info s in let sid := sl_sideid s in let e := fst ed in
  en <- rd en_tab e ;;
  let nu := side_orient mdim fdir (snd ed) en in
  nodes <- wr (side_node_ids i) sid (fst nu) ;;
  use <- wr (side_edge_use i) sid (snd nu) ;;
  sedge <- wr (side_edge_id i) sid e ;;
  sface <- wr (side_face_id i) sid f ;;
  scell <- wr (side_cell_id i) sid c ;;
  cs <- push_at (cell_side_ids i) c sid ;;
  all <- wr (sideids_all i) (sl_iall s) sid ;;
  ty <- rd ctype c ;;
  lists <- match ty with
           | PARALLEL_OWNED => o <- wr (sideids_owned i) (sl_iown s) sid ;; Ok (o, sideids_ghost i, sideids_bghost i)
           | BOUNDARY_GHOST => b <- wr (sideids_bghost i) (sl_ibndry s) sid ;; Ok (sideids_owned i, sideids_ghost i, b)
           | _ => g <- wr (sideids_ghost i) (sl_ighost s) sid ;; Ok (sideids_owned i, g, sideids_bghost i)
           end ;;
  cand <- rd (sl_soe s) e ;;
  opp_s <- find_opp sedge sface scell cand e f c ;;
  opp <- match opp_s with
         | Some s2 => o1 <- wr (side_opp_side_id i) sid (Z.of_nat s2) ;; wr o1 s2 (Z.of_nat sid)
         | None => Ok (side_opp_side_id i)
         end ;;
  soe <- push_at (sl_soe s) e sid ;;
  Ok (SideLoop
        (SideInfo all (fst (fst lists)) (snd (fst lists)) (snd lists) sedge use sface scell opp nodes cs) soe
        (S sid) (S (sl_iall s))
        (match ty with PARALLEL_OWNED => S (sl_iown s) | _ => sl_iown s end)
        (match ty with PARALLEL_OWNED | BOUNDARY_GHOST => sl_ighost s | _ => S (sl_ighost s) end)
        (match ty with BOUNDARY_GHOST => S (sl_ibndry s) | _ => sl_ibndry s end)).

(** empty members of the right sizes, Mesh.cc:236, 285-296 *)
Definition side_init (t : topo) (k : nat * nat * nat * nat) : side_info :=
  let '(a, o, g, b) := k in
  SideInfo (repeat 0 a) (repeat 0 o) (repeat 0 g) (repeat 0 b) (repeat 0 a) (repeat true a) (repeat 0 a) (repeat 0 a)
    (repeat (-1)%Z a) (repeat (0, 0) a) (repeat [] (ncells t)).

(** cache_side_info, 2D/3D branches, Mesh.cc:229-277, 285-296, 338-426 *)
Definition cache_side_info_nd (t : topo) (ctype : list entity_type) (cf fe : list (list (nat * Z))) (en_tab : list (nat * nat))
    : outcome side_info :=
  k <- count_sides t ctype cf fe ;;
  r <- foldM (cells_all t) (fun c s =>
         cfaces <- rd cf c ;;
         foldM cfaces (fun fd s =>
           fedges <- rd fe (fst fd) ;;
           foldM fedges (fun ed s => side_body (tp_mdim t) ctype en_tab c (fst fd) (snd fd) ed s) s) s)
       (SideLoop (side_init t k) (repeat [] (nedges t)) 0 0 0 0 0) ;;
  Ok (sl_info r).

(** one cell of the 1D branch, Mesh.cc:300-336.  [nall] is num_sides_all. *)
Definition side_body_1d (t : topo) (ctype : list entity_type) (nall : nat) (c : nat) (s : side_loop) : outcome side_loop :=
  let i := sl_info s in let sid := 2 * c in
  nodeids <- fw_cell_nodes t c ;;
  cs <- push_at (cell_side_ids i) c sid ;;
  cs <- push_at cs c (sid + 1) ;;
  all <- wr (sideids_all i) (sl_iall s) sid ;;
  all <- wr all (S (sl_iall s)) (sid + 1) ;;
  ty <- rd ctype c ;;
  lists <- match ty with
           | PARALLEL_OWNED => o <- wr (sideids_owned i) (sl_iown s) sid ;; o <- wr o (S (sl_iown s)) (sid + 1) ;;
                               Ok (o, sideids_ghost i, sideids_bghost i)
           | PARALLEL_GHOST => g <- wr (sideids_ghost i) (sl_ighost s) sid ;; g <- wr g (S (sl_ighost s)) (sid + 1) ;;
                               Ok (sideids_owned i, g, sideids_bghost i)
           | BOUNDARY_GHOST => b <- wr (sideids_bghost i) (sl_ibndry s) sid ;; b <- wr b (S (sl_ibndry s)) (sid + 1) ;;
                               Ok (sideids_owned i, sideids_ghost i, b)
           | _ => Ok (sideids_owned i, sideids_ghost i, sideids_bghost i)
           end ;;
  n0 <- rd nodeids 0 ;;
  n1 <- rd nodeids 1 ;;
  nodes <- wr_all [(sid, (n0, n0)); (sid + 1, (n1, n1))] (side_node_ids i) ;;
  sedge <- wr_all [(sid, n0); (sid + 1, n1)] (side_edge_id i) ;;
  sface <- wr_all [(sid, n0); (sid + 1, n1)] (side_face_id i) ;;
  scell <- wr_all [(sid, c); (sid + 1, c)] (side_cell_id i) ;;
  opp <- wr_all [(sid, if sid =? 0 then (-1)%Z else (Z.of_nat sid - 1)%Z);
                 (sid + 1, if (Z.of_nat (sid + 1) =? Z.of_nat nall - 1)%Z then (-1)%Z else (Z.of_nat sid + 2)%Z)]
                (side_opp_side_id i) ;;
  Ok (SideLoop
        (SideInfo all (fst (fst lists)) (snd (fst lists)) (snd lists) sedge (side_edge_use i) sface scell opp nodes cs) (sl_soe s)
        (sl_sideid s) (sl_iall s + 2)
        (match ty with PARALLEL_OWNED => sl_iown s + 2 | _ => sl_iown s end)
        (match ty with PARALLEL_GHOST => sl_ighost s + 2 | _ => sl_ighost s end)
        (match ty with BOUNDARY_GHOST => sl_ibndry s + 2 | _ => sl_ibndry s end)).
(** cache_side_info, 1D branch, Mesh.cc:242-250, 285-336 *)
Definition cache_side_info_1d (t : topo) (ctype : list entity_type) : outcome side_info :=
  let k := (2 * ncells t, 2 * length (cells_owned t), 2 * length (cells_ghost t), 2 * length (cells_bghost t)) in
  r <- foldM (cells_all t) (side_body_1d t ctype (2 * ncells t)) (SideLoop (side_init t k) [] 0 0 0 0 0) ;;
  Ok (sl_info r).

(** wedge members (wedge_corner_id is filled by cache_corner_info) *)
Record wedge_info := WedgeInfo {
  wedgeids_all : list nat; wedgeids_owned : list nat; wedgeids_ghost : list nat; wedgeids_bghost : list nat }.
Record wedge_loop := WedgeLoop { wl_own : list nat; wl_ghost : list nat; wl_b : list nat; wl_iown : nat; wl_ighost : nat; wl_ib : nat }.
(** loop body of cache_wedge_info, Mesh.cc:449-463 *)
Definition wedge_body (ctype : list entity_type) (scell : list nat) (s : nat) (w : wedge_loop) : outcome wedge_loop :=
  c <- rd scell s ;;
  ty <- rd ctype c ;;
  match ty with
  | PARALLEL_OWNED => o <- wr_all [(wl_iown w, 2 * s); (S (wl_iown w), 2 * s + 1)] (wl_own w) ;;
                      Ok (WedgeLoop o (wl_ghost w) (wl_b w) (wl_iown w + 2) (wl_ighost w) (wl_ib w))
  | PARALLEL_GHOST => g <- wr_all [(wl_ighost w, 2 * s); (S (wl_ighost w), 2 * s + 1)] (wl_ghost w) ;;
                      Ok (WedgeLoop (wl_own w) g (wl_b w) (wl_iown w) (wl_ighost w + 2) (wl_ib w))
  | BOUNDARY_GHOST => b <- wr_all [(wl_ib w, 2 * s); (S (wl_ib w), 2 * s + 1)] (wl_b w) ;;
                      Ok (WedgeLoop (wl_own w) (wl_ghost w) b (wl_iown w) (wl_ighost w) (wl_ib w + 2))
  | _ => Ok w
  end.
(** cache_wedge_info, Mesh.cc:431-474 *)
Definition cache_wedge_info (ctype : list entity_type) (si : side_info) : outcome wedge_info :=
  r <- foldM (sideids_all si) (wedge_body ctype (side_cell_id si))
        (WedgeLoop (repeat 0 (2 * length (sideids_owned si))) (repeat 0 (2 * length (sideids_ghost si)))
                   (repeat 0 (2 * length (sideids_bghost si))) 0 0 0) ;;
  Ok (WedgeInfo (wl_own r ++ wl_ghost r ++ wl_b r) (wl_own r) (wl_ghost r) (wl_b r)).
(** num_sides<ALL>, Mesh.hh:1638-1642 *)
Definition nsides (si : side_info) : nat := length (sideids_owned si) + length (sideids_ghost si) + length (sideids_bghost si).

(** side_get_node, Mesh.hh:2052-2064 (asserts in [api_*] below) *)
Definition side_node (si : side_info) (en_tab : list (nat * nat)) (s inode : nat) : outcome nat :=
  e <- rd (side_edge_id si) s ;;
  en <- rd en_tab e ;;
  use <- rd (side_edge_use si) s ;;
  Ok (if use : bool then (if inode =? 0 then fst en else snd en) else (if inode =? 0 then snd en else fst en)).
(** wedge_get_node, Mesh.hh:2098-2105 *)
Definition wedge_node (si : side_info) (en_tab : list (nat * nat)) (w : nat) : outcome nat := side_node si en_tab (w / 2) (w mod 2).
(** cell_get_wedges, Mesh.cc:932-945 *)
Definition cell_wedges (si : side_info) (c : nat) : outcome (list nat) :=
  cs <- rd (cell_side_ids si) c ;; Ok (flat_map (fun s => [2 * s; 2 * s + 1]) cs).

(** corner members *)
Record corner_info := CornerInfo {
  cornerids_all : list nat; cornerids_owned : list nat; cornerids_ghost : list nat; cornerids_bghost : list nat;
  cell_corner_ids : list (list nat); node_corner_ids : list (list nat);
  corner_wedge_ids : list (list nat); wedge_corner_id : list nat }.
Record corner_loop := CornerLoop {
  cl_own : list nat; cl_ghost : list nat; cl_b : list nat; cl_cell : list (list nat); cl_node : list (list nat);
  cl_cw : list (list nat); cl_wc : list nat; cl_id : nat; cl_iown : nat; cl_ighost : nat; cl_ib : nat }.
(** counts of corners, Mesh.cc:496-508 *)
Definition count_corners (t : topo) (ctype : list entity_type) : outcome (nat * nat * nat * nat) :=
  foldM (cells_all t) (fun c k => cn <- fw_cell_nodes t c ;; ty <- rd ctype c ;; Ok (add_sides ty (length cn) k)) (0, 0, 0, 0).
(** the wedge loop for one corner, Mesh.cc:533-539 *)
Definition corner_wedge_body (si : side_info) (en_tab : list (nat * nat)) (n k w : nat) (st : list (list nat) * list nat)
    : outcome (list (list nat) * list nat) :=
  n2 <- wedge_node si en_tab w ;;
  if n =? n2 then cw <- push_at (fst st) k w ;; wc <- wr (snd st) w k ;; Ok (cw, wc) else Ok st.
(** one corner, Mesh.cc:522-541 *)
Definition corner_body (ctype : list entity_type) (si : side_info) (en_tab : list (nat * nat)) (cwedges : list nat) (c n : nat)
    (s : corner_loop) : outcome corner_loop :=
  let k := cl_id s in
  cc <- push_at (cl_cell s) c k ;;
  nc <- push_at (cl_node s) n k ;;
  ty <- rd ctype c ;;
  lists <- match ty with
           | PARALLEL_OWNED => o <- wr (cl_own s) (cl_iown s) k ;; Ok (o, cl_ghost s, cl_b s)
           | PARALLEL_GHOST => g <- wr (cl_ghost s) (cl_ighost s) k ;; Ok (cl_own s, g, cl_b s)
           | BOUNDARY_GHOST => b <- wr (cl_b s) (cl_ib s) k ;; Ok (cl_own s, cl_ghost s, b)
           | _ => Ok (cl_own s, cl_ghost s, cl_b s)
           end ;;
  r <- foldM cwedges (corner_wedge_body si en_tab n k) (cl_cw s, cl_wc s) ;;
  Ok (CornerLoop (fst (fst lists)) (snd (fst lists)) (snd lists) cc nc (fst r) (snd r) (S k)
        (match ty with PARALLEL_OWNED => S (cl_iown s) | _ => cl_iown s end)
        (match ty with PARALLEL_GHOST => S (cl_ighost s) | _ => cl_ighost s end)
        (match ty with BOUNDARY_GHOST => S (cl_ib s) | _ => cl_ib s end)).
(** cache_corner_info, Mesh.cc:477-554.  wedge_corner_id has 2*nsides entries (Mesh.cc:446) *)
Definition cache_corner_info (t : topo) (ctype : list entity_type) (si : side_info) (en_tab : list (nat * nat)) : outcome corner_info :=
  k <- count_corners t ctype ;;
  let '(a, o, g, b) := k in
  r <- foldM (cells_all t) (fun c s =>
         cnodes <- fw_cell_nodes t c ;;
         cwedges <- cell_wedges si c ;;
         foldM cnodes (corner_body ctype si en_tab cwedges c) s)
       (CornerLoop (repeat 0 o) (repeat 0 g) (repeat 0 b) (repeat [] (ncells t)) (repeat [] (nnodes t)) (repeat [] a)
          (repeat 0 (2 * nsides si)) 0 0 0 0) ;;
  Ok (CornerInfo (cl_own r ++ cl_ghost r ++ cl_b r) (cl_own r) (cl_ghost r) (cl_b r) (cl_cell r) (cl_node r) (cl_cw r) (cl_wc r)).

(** ** The mesh object after cache_extra_variables (geometry aside) *)
Record cmesh := CMesh {
  cm_topo : topo; cm_flags : flags;
  cm_ctype : list entity_type; cm_ntype : list entity_type;
  cm_ftype : option (list entity_type); cm_etype : option (list entity_type);   (* None: not requested *)
  cm_cf : option (list (list (nat * Z))); cm_fc : option (list (list Z));        (* None: not cached *)
  cm_fe : option (list (list (nat * Z))); cm_en : option (list (nat * nat));
  cm_sides : option side_info; cm_wedges : option wedge_info; cm_corners : option corner_info }.

(** cached table needed but absent: the assert at the head of the query fails *)
Definition need {A} (o : option A) : outcome A := match o with Some a => Ok a | None => AssertFail end.
Definition when {A} (b : bool) (x : outcome A) : outcome (option A) := if b then v <- x ;; Ok (Some v) else Ok None.

(** cache_side_info, Mesh.cc:229-426.  Outside 1D it calls cell_get_faces and face_get_edges_and_dirs, which assert that
    their tables are cached, and edge_get_nodes; in 1D it needs no table. *)
Definition cache_side_info (t : topo) (ctype : list entity_type) (cf fe : option (list (list (nat * Z)))) (en_tab : option (list (nat * nat)))
    : outcome side_info :=
  if tp_mdim t =? 1 then cache_side_info_1d t ctype
  else cf <- need cf ;; fe <- need fe ;; en <- need en_tab ;; cache_side_info_nd t ctype cf fe en.

(** cache_extra_variables, Mesh.cc:565-593, up to update_geometric_quantities; [fl] are the flags after the constructor's
    closure (Factory.close_flags).  cell_edge_ids and the geometry are not part of this model. *)
Definition cache_extra_variables (t : topo) (fl : flags) : outcome cmesh :=
  ct <- cache_cell_type t ;;
  ft <- when (fl_faces fl) (cache_face_type t) ;;
  et <- when (fl_edges fl) (cache_edge_type t) ;;
  nt <- cache_node_type t ;;
  cf <- when (fl_faces fl) (cache_cell2face_info t) ;;
  fc <- when (fl_faces fl) (cache_face2cell_info t) ;;
  fe <- when (fl_edges fl) (cache_face2edge_info t) ;;
  en <- when (fl_edges fl) (cache_edge2node_info t) ;;
  si <- when (fl_sides fl || fl_wedges fl || fl_corners fl) (cache_side_info t ct cf fe en) ;;
  wi <- when (fl_wedges fl || fl_corners fl) (s <- need si ;; cache_wedge_info ct s) ;;
  ci <- when (fl_corners fl) (s <- need si ;; e <- need en ;; cache_corner_info t ct s e) ;;
  Ok (CMesh t fl ct nt ft et cf fc fe en si wi ci).

(** ** Queries *)
Definition asserting {A} (b : bool) (x : outcome A) : outcome A := if b then x else AssertFail.

(** cell_get_faces_and_dirs (ordered = false), Mesh.cc:672-703 *)
Definition cell_get_faces_and_dirs (m : cmesh) (c : nat) : outcome (list (nat * Z)) := cf <- need (cm_cf m) ;; rd cf c.
(** face_get_edges_and_dirs, Mesh.cc:788-815 *)
Definition face_get_edges_and_dirs (m : cmesh) (f : nat) : outcome (list (nat * Z)) := fe <- need (cm_fe m) ;; rd fe f.
(** face_get_cells, Mesh.cc:712-746.  The switch handles ALL, PARALLEL_OWNED and PARALLEL_GHOST only. *)
Definition fc_test (m : cmesh) (ty : entity_type) (c : Z) : outcome bool :=
  if (c =? -1)%Z then Ok false else
  match ty with
  | TYPE_ALL => Ok true
  | _ => t <- rdz (cm_ctype m) c ;; Ok (type_eqb t ty)
  end.
Definition face_get_cells (m : cmesh) (f : nat) (ty : entity_type) : outcome (list Z) :=
  fc <- need (cm_fc m) ;;
  match ty with
  | TYPE_ALL | PARALLEL_OWNED | PARALLEL_GHOST =>
      for_lt 2 (fun i out => row <- rd fc f ;; c <- rd row i ;; b <- fc_test m ty c ;; Ok (if b : bool then out ++ [c] else out)) []
  | _ => Ok []
  end.
(** side_get_*, Mesh.hh:2015-2071 *)
Definition side_get_wedge (m : cmesh) (s iw : nat) : outcome nat :=
  asserting (fl_wedges (cm_flags m)) (Ok (if iw =? 0 then 2 * s else 2 * s + 1)).
Definition side_get_face (m : cmesh) (s : nat) : outcome nat :=
  asserting (fl_sides (cm_flags m)) (si <- need (cm_sides m) ;; rd (side_face_id si) s).
Definition side_get_edge (m : cmesh) (s : nat) : outcome nat :=
  asserting (fl_sides (cm_flags m)) (si <- need (cm_sides m) ;; rd (side_edge_id si) s).
Definition side_get_edge_use (m : cmesh) (s : nat) : outcome bool :=
  asserting (fl_sides (cm_flags m)) (si <- need (cm_sides m) ;; rd (side_edge_use si) s).
Definition side_get_cell (m : cmesh) (s : nat) : outcome nat :=
  asserting (fl_sides (cm_flags m)) (si <- need (cm_sides m) ;; rd (side_cell_id si) s).
Definition side_get_node (m : cmesh) (s inode : nat) : outcome nat :=
  asserting (fl_sides (cm_flags m)) (si <- need (cm_sides m) ;; en <- need (cm_en m) ;;
    asserting ((inode =? 0) || (inode =? 1)) (side_node si en s inode)).
Definition side_get_opposite_side (m : cmesh) (s : nat) : outcome Z :=
  asserting (fl_sides (cm_flags m)) (si <- need (cm_sides m) ;; rd (side_opp_side_id si) s).
(** wedge_get_*, Mesh.hh:2074-2153 *)
Definition wedge_get_side (w : nat) : nat := w / 2.
Definition sw (m : cmesh) : bool := fl_sides (cm_flags m) && fl_wedges (cm_flags m).
Definition wedge_get_cell (m : cmesh) (w : nat) : outcome nat := asserting (sw m) (side_get_cell m (w / 2)).
Definition wedge_get_face (m : cmesh) (w : nat) : outcome nat := asserting (sw m) (side_get_face m (w / 2)).
Definition wedge_get_edge (m : cmesh) (w : nat) : outcome nat := asserting (sw m) (side_get_edge m (w / 2)).
Definition wedge_get_node (m : cmesh) (w : nat) : outcome nat := asserting (sw m) (side_get_node m (w / 2) (w mod 2)).
Definition wedge_get_corner (m : cmesh) (w : nat) : outcome nat :=
  (* with corners not requested the vector holds -1 everywhere; that case is UB here *)
  asserting (sw m) (match cm_corners m with Some ci => rd (wedge_corner_id ci) w | None => UB end).
Definition wedge_get_adjacent_wedge (m : cmesh) (w : nat) : outcome nat :=
  asserting (fl_wedges (cm_flags m)) (Ok (if w mod 2 =? 0 then w + 1 else w - 1)).
Definition wedge_get_opposite_wedge (m : cmesh) (w : nat) : outcome Z :=
  asserting (fl_wedges (cm_flags m)) (si <- need (cm_sides m) ;; o <- rd (side_opp_side_id si) (w / 2) ;;
    Ok (if (o =? -1)%Z then (-1)%Z else if w mod 2 =? 0 then (2 * o + 1)%Z else (2 * o)%Z)).
(** corner_get_*, Mesh.hh:2140-2177 *)
Definition corner_get_wedges (m : cmesh) (k : nat) : outcome (list nat) :=
  asserting (fl_corners (cm_flags m)) (ci <- need (cm_corners m) ;; rd (corner_wedge_ids ci) k).
Definition corner_first_wedge (m : cmesh) (k : nat) : outcome nat :=
  ws <- corner_get_wedges m k ;; match ws with [] => AssertFail | w :: _ => Ok w end.
Definition corner_get_node (m : cmesh) (k : nat) : outcome nat := w <- corner_first_wedge m k ;; wedge_get_node m w.
Definition corner_get_cell (m : cmesh) (k : nat) : outcome nat := w <- corner_first_wedge m k ;; wedge_get_cell m w.
(** cell_get_sides / wedges / corners, Mesh.cc:920-957 *)
Definition cell_get_sides (m : cmesh) (c : nat) : outcome (list nat) :=
  asserting (fl_sides (cm_flags m)) (si <- need (cm_sides m) ;; rd (cell_side_ids si) c).
Definition cell_get_wedges (m : cmesh) (c : nat) : outcome (list nat) :=
  asserting (fl_wedges (cm_flags m)) (si <- need (cm_sides m) ;; cell_wedges si c).
Definition cell_get_corners (m : cmesh) (c : nat) : outcome (list nat) :=
  asserting (fl_corners (cm_flags m)) (ci <- need (cm_corners m) ;; rd (cell_corner_ids ci) c).
(** cell_get_corner_at_node, Mesh.cc:960-975 *)
Fixpoint corner_at_node (m : cmesh) (l : list nat) (n : nat) : outcome Z :=
  match l with [] => Ok (-1)%Z | k :: r => n2 <- corner_get_node m k ;; if n2 =? n then Ok (Z.of_nat k) else corner_at_node m r n end.
Definition cell_get_corner_at_node (m : cmesh) (c n : nat) : outcome Z :=
  asserting (fl_corners (cm_flags m)) (ci <- need (cm_corners m) ;; l <- rd (cell_corner_ids ci) c ;; corner_at_node m l n).
(** node_get_wedges, Mesh.cc:977-993 *)
Definition node_get_wedges (m : cmesh) (n : nat) (ty : entity_type) : outcome (list nat) :=
  asserting (fl_wedges (cm_flags m)) (_ <- need (cm_wedges m) ;; ci <- need (cm_corners m) ;; si <- need (cm_sides m) ;;
    ks <- rd (node_corner_ids ci) n ;;
    foldM ks (fun k out => ws <- rd (corner_wedge_ids ci) k ;;
      foldM ws (fun w out => c <- rd (side_cell_id si) (w / 2) ;;
        match ty with
        | TYPE_ALL => Ok (out ++ [w])
        | _ => t <- rd (cm_ctype m) c ;; Ok (if type_eqb t ty then out ++ [w] else out)
        end) out) []).
(** node_get_corners, Mesh.cc:995-1017 *)
Definition node_get_corners (m : cmesh) (n : nat) (ty : entity_type) : outcome (list nat) :=
  asserting (fl_corners (cm_flags m)) (ci <- need (cm_corners m) ;; si <- need (cm_sides m) ;;
    ks <- rd (node_corner_ids ci) n ;;
    match ty with
    | TYPE_ALL => Ok ks
    | _ => foldM ks (fun k out => ws <- rd (corner_wedge_ids ci) k ;; w0 <- rd ws 0 ;;
             c <- rd (side_cell_id si) (w0 / 2) ;; t <- rd (cm_ctype m) c ;; Ok (if type_eqb t ty then out ++ [k] else out)) []
    end).

(** entity_get_type, Mesh.cc:2308-2352 *)
Definition entity_get_type (m : cmesh) (k : entity_kind) (i : nat) : outcome entity_type :=
  match k with
  | CELL => rd (cm_ctype m) i
  | FACE => if fl_faces (cm_flags m) then match cm_ftype m with Some v => rd v i | None => UB end else Ok TYPE_UNKNOWN
  | EDGE => if fl_edges (cm_flags m) then match cm_etype m with Some v => rd v i | None => UB end else Ok TYPE_UNKNOWN
  | NODE => rd (cm_ntype m) i
  | SIDE => if fl_sides (cm_flags m) then
              match cm_sides m with Some si => c <- rd (side_cell_id si) i ;; rd (cm_ctype m) c | None => UB end
            else Ok TYPE_UNKNOWN
  | WEDGE => if fl_wedges (cm_flags m) then
              match cm_sides m with Some si => c <- rd (side_cell_id si) (i / 2) ;; rd (cm_ctype m) c | None => UB end
            else Ok TYPE_UNKNOWN
  | CORNER => if fl_corners (cm_flags m) then
              match cm_corners m, cm_sides m with
              | Some ci, Some si => ws <- rd (corner_wedge_ids ci) i ;; w <- rd ws 0 ;; c <- rd (side_cell_id si) (w / 2) ;; rd (cm_ctype m) c
              | _, _ => UB end
            else Ok TYPE_UNKNOWN
  | _ => Ok TYPE_UNKNOWN
  end.

(** the id lists: nodes<type>() ... corners<type>(), Mesh.hh:1813-1995; kinds without lists give the empty list *)
Definition opt_list {A} (o : option A) (f : A -> list nat) : list nat := match o with Some a => f a | None => [] end.
Definition ids (m : cmesh) (k : entity_kind) (ty : entity_type) : list nat :=
  let t := cm_topo m in
  match k, ty with
  | NODE, PARALLEL_OWNED => nodes_owned t | NODE, PARALLEL_GHOST => nodes_ghost t | NODE, TYPE_ALL => nodes_all t
  | EDGE, PARALLEL_OWNED => edges_owned t | EDGE, PARALLEL_GHOST => edges_ghost t | EDGE, TYPE_ALL => edges_all t
  | FACE, PARALLEL_OWNED => faces_owned t | FACE, PARALLEL_GHOST => faces_ghost t | FACE, TYPE_ALL => faces_all t
  | CELL, PARALLEL_OWNED => cells_owned t | CELL, PARALLEL_GHOST => cells_ghost t | CELL, BOUNDARY_GHOST => cells_bghost t
  | CELL, TYPE_ALL => cells_all t
  | SIDE, PARALLEL_OWNED => opt_list (cm_sides m) sideids_owned | SIDE, PARALLEL_GHOST => opt_list (cm_sides m) sideids_ghost
  | SIDE, BOUNDARY_GHOST => opt_list (cm_sides m) sideids_bghost | SIDE, TYPE_ALL => opt_list (cm_sides m) sideids_all
  | WEDGE, PARALLEL_OWNED => opt_list (cm_wedges m) wedgeids_owned | WEDGE, PARALLEL_GHOST => opt_list (cm_wedges m) wedgeids_ghost
  | WEDGE, BOUNDARY_GHOST => opt_list (cm_wedges m) wedgeids_bghost | WEDGE, TYPE_ALL => opt_list (cm_wedges m) wedgeids_all
  | CORNER, PARALLEL_OWNED => opt_list (cm_corners m) cornerids_owned | CORNER, PARALLEL_GHOST => opt_list (cm_corners m) cornerids_ghost
  | CORNER, BOUNDARY_GHOST => opt_list (cm_corners m) cornerids_bghost | CORNER, TYPE_ALL => opt_list (cm_corners m) cornerids_all
  | _, _ => []
  end.
(** num_entities(kind, type), Mesh.hh:1725-1810 with the specialisations 1555-1722: ALL is the sum of the parts *)
Definition num_entities (m : cmesh) (k : entity_kind) (ty : entity_type) : nat :=
  let n ty := length (ids m k ty) in
  match k, ty with
  | (NODE | EDGE | FACE), (PARALLEL_OWNED | PARALLEL_GHOST) => n ty
  | (NODE | EDGE | FACE), TYPE_ALL => n PARALLEL_OWNED + n PARALLEL_GHOST
  | (SIDE | WEDGE | CORNER | CELL), (PARALLEL_OWNED | PARALLEL_GHOST | BOUNDARY_GHOST) => n ty
  | (SIDE | WEDGE | CORNER | CELL), TYPE_ALL => n PARALLEL_OWNED + n PARALLEL_GHOST + n BOUNDARY_GHOST
  | _, _ => 0
  end.
