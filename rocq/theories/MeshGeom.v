(** Model of the geometric quantities of class Mesh: src/mesh/Mesh.cc:556-562 (update_geometric_quantities), 1020-1560 (compute_ functions),
    1562-2024 (the queries).  JALI_CACHE_VARS is 1.  Real numbers stand for doubles.
    A function that leaves an out-parameter uninitialised is [UB] here. *)
From Coq Require Import Reals.
From Verif Require Import Base Loop Defs Factory Cache Point Geometry.
Set Implicit Arguments.
Local Open Scope R_scope.

(** The mesh: its caches, space_dim_, geomtype, and for face_get_coordinates and cell_get_coordinates (virtual;
    Mesh_simple.cc:724-763, Mesh_MSTK.cc:2452-2551) the nodes whose coordinates they return, in that order. *)
Record gmesh := GMesh { gm : cmesh; sdim : nat; gtype : geom_type;
  fnodes : nat -> outcome (list nat); cverts : nat -> outcome (list nat) }.
Definition mdim (M : gmesh) : nat := tp_mdim (cm_topo (gm M)).
(** the coordinates of the nodes; node_get_coordinates and node_set_coordinates (virtual) read and write one entry *)
Definition coordinates := list point.
Definition node_get_coordinates (X : coordinates) (n : nat) : outcome point := rd X n.
Definition node_set_coordinates (X : coordinates) (n : nat) (p : point) : outcome coordinates := wr X n p.
Definition face_get_coordinates (M : gmesh) (X : coordinates) (f : nat) : outcome (list point) := ns <- fnodes M f ;; mapM (rd X) ns.
Definition cell_get_coordinates (M : gmesh) (X : coordinates) (c : nat) : outcome (list point) := ns <- cverts M c ;; mapM (rd X) ns.
(** edge_get_nodes, Mesh.hh:2005-2013: reads the cached table without checking that it is there (UB if not) *)
Definition edge_get_nodes (M : gmesh) (e : nat) : outcome (nat * nat) := match cm_en (gm M) with Some en => rd en e | None => UB end.

(** The stored quantities (Mesh.hh:1404-1450) *)
Record geo := Geo {
  g_cvol : list R; g_ccen : list point; g_cok : bool;
  g_farea : list R; g_fcen : list point; g_n0 : list point; g_n1 : list point; g_fok : bool;
  g_elen : list R; g_evec : list point; g_eok : bool;
  g_svol : list R; g_sout : list point; g_smid : list point; g_sok : bool;
  g_kvol : list R; g_kok : bool }.
(** a new mesh object, Mesh.hh:167-169 *)
Definition geo0 : geo := Geo [] [] false [] [] [] [] false [] [] false [] [] [] false [] false.
(** v.resize(n) *)
Definition resize {A} (n : nat) (d : A) (l : list A) : list A := firstn n l ++ repeat d (n - length l).

(** ** cells *)
(** the coordinates of a cell's face, reversed if the face points into the cell, Mesh.cc:1173-1188 *)
Definition cell_face_coordinates (M : gmesh) (X : coordinates) (fd : nat * Z) : outcome (list point) :=
  p <- face_get_coordinates M X (fst fd) ;; Ok (if (snd fd =? 1)%Z then p else rev p).
(** compute_cell_geometry, Mesh.cc:1147-1210 *)
Definition compute_cell_geometry (M : gmesh) (X : coordinates) (c : nat) : outcome (R * point) :=
  match mdim M with
  | 3%nat =>
      cf <- cell_get_faces_and_dirs (gm M) c ;;
      fcs <- mapM (cell_face_coordinates M X) cf ;;
      cc <- cell_get_coordinates M X c ;;
      polyhed (sdim M) cc (length cf) (map (@length _) fcs) (concat fcs)
  | 2%nat => cc <- cell_get_coordinates M X c ;; r <- polygon (sdim M) (sdim M) cc ;; Ok (fst r)
  | 1%nat => cc <- cell_get_coordinates M X c ;; r <- segment (gtype M) cc ;; match r with Some vc => Ok vc | None => UB end
  | _ => UB
  end.
(** loop body of compute_cell_geometric_quantities, Mesh.cc:1027-1039 *)
Definition cell_entry (M : gmesh) (X : coordinates) (c : nat) : outcome (R * point) :=
  ty <- rd (cm_ctype (gm M)) c ;;
  match ty with BOUNDARY_GHOST => Ok (0, pzero (sdim M)) | _ => compute_cell_geometry M X c end.
(** compute_cell_geometric_quantities, Mesh.cc:1020-1044: after resize(n) every entry is written *)
Definition compute_cells (M : gmesh) (X : coordinates) (g : geo) : outcome geo :=
  l <- mapM (cell_entry M X) (seq 0 (ncells (cm_topo (gm M)))) ;;
  Ok (Geo (map fst l) (map snd l) true (g_farea g) (g_fcen g) (g_n0 g) (g_n1 g) (g_fok g) (g_elen g) (g_evec g) (g_eok g)
        (g_svol g) (g_sout g) (g_smid g) (g_sok g) (g_kvol g) (g_kok g)).

(** ** faces *)
(** the search for the face among the cell's faces with the assert, Mesh.cc:1247-1257, 1291-1300, 1332-1341, 1379-1388, 1752-1762 *)
Fixpoint find_dir (l : list (nat * Z)) (f : nat) : outcome Z :=
  match l with [] => AssertFail | (f', d) :: r => if (f' =? f)%nat then Ok d else find_dir r f end.
Definition cell_face_dir (M : gmesh) (c f : nat) : outcome Z := cf <- cell_get_faces_and_dirs (gm M) c ;; find_dir cf f.
(** the loop over the cells of the face that sets normal0 and normal1, Mesh.cc:1239-1263, 1284-1306, 1372-1394 *)
Definition set_normals (M : gmesh) (f : nat) (normal : point) (n0 n1 : point) : outcome (point * point) :=
  cs <- face_get_cells (gm M) f TYPE_ALL ;;
  foldM cs (fun c ns => d <- cell_face_dir M (Z.to_nat c) f ;;
    Ok (if (d =? 1)%Z then (normal, snd ns) else (fst ns, popp normal))) (n0, n1).
(** the same loop on a surface mesh, Mesh.cc:1323-1363.  "Point cellcen;" has dimension 0, so += and /= do nothing to it. *)
Definition surface_normals (M : gmesh) (X : coordinates) (f : nat) (fc0 evec : point) (area : R) (n0 n1 : point) : outcome (point * point) :=
  cs <- face_get_cells (gm M) f TYPE_ALL ;;
  foldM cs (fun c ns => d <- cell_face_dir M (Z.to_nat c) f ;;
    cc <- cell_get_coordinates M X (Z.to_nat c) ;;
    let cellcen := center_of (pzero 0) cc (length cc) in
    let cvec := psub fc0 cellcen in
    let trinormal := cross cvec evec in
    let normal := cross evec trinormal in
    let normal := muleq (diveq normal (norm normal)) area in
    Ok (if (d =? 1)%Z then (normal, snd ns) else (fst ns, normal))) (n0, n1).
(** compute_face_geometry, Mesh.cc:1213-1400: area, centroid, normal0, normal1.  The caller's centroid is Point(space_dim_), and
    stays so for a 1D mesh. *)
Definition compute_face_geometry (M : gmesh) (X : coordinates) (f : nat) : outcome (R * point * (point * point)) :=
  n0 <- pset (pzero (sdim M)) 0 ;;
  n1 <- pset (pzero (sdim M)) 0 ;;
  match mdim M with
  | 3%nat =>
      fc <- face_get_coordinates M X f ;;
      r <- polygon (sdim M) 3 fc ;;
      ns <- set_normals M f (snd r) n0 n1 ;;
      Ok (fst r, ns)
  | 2%nat =>
      fc <- face_get_coordinates M X f ;;
      a <- rd fc 0 ;;
      b <- rd fc 1 ;;
      let evec := psub b a in
      let area := sqrt (dot evec evec) in
      let centroid := smul (/ 2) (padd a b) in
      ns <- (if (sdim M =? 2)%nat then set_normals M f (Pt 2 (p1 evec) (- p0 evec) 0) n0 n1
             else surface_normals M X f a evec area n0 n1) ;;
      Ok (area, centroid, ns)
  | 1%nat =>
      fc <- face_get_coordinates M X f ;;
      r <- face1d_area (gtype M) fc ;;
      match r with
      | None => UB
      | Some area => normal <- pset (pzero (sdim M)) area ;; ns <- set_normals M f normal n0 n1 ;; Ok (area, pzero (sdim M), ns)
      end
  | _ => UB
  end.
(** compute_face_geometric_quantities, Mesh.cc:1048-1080 *)
Definition compute_faces (M : gmesh) (X : coordinates) (g : geo) : outcome geo :=
  l <- mapM (compute_face_geometry M X) (seq 0 (nfaces (cm_topo (gm M)))) ;;
  Ok (Geo (g_cvol g) (g_ccen g) (g_cok g) (map (fun r => fst (fst r)) l) (map (fun r => snd (fst r)) l)
        (map (fun r => fst (snd r)) l) (map (fun r => snd (snd r)) l) true (g_elen g) (g_evec g) (g_eok g)
        (g_svol g) (g_sout g) (g_smid g) (g_sok g) (g_kvol g) (g_kok g)).

(** ** edges *)
(** compute_edge_geometry, Mesh.cc:1403-1425: length, vector, centre.  [ev0]: the dimension of the caller's edge vector *)
Definition compute_edge_geometry (M : gmesh) (X : coordinates) (e : nat) : outcome (R * point * point) :=
  _ <- pset (pzero (sdim M)) 0 ;;
  en <- edge_get_nodes M e ;;
  a <- node_get_coordinates X (fst en) ;;
  b <- node_get_coordinates X (snd en) ;;
  Ok (norm (psub b a), psub b a, smul (/ 2) (padd a b)).
(** compute_edge_geometric_quantities, Mesh.cc:1084-1103 *)
Definition compute_edges (M : gmesh) (X : coordinates) (g : geo) : outcome geo :=
  l <- mapM (compute_edge_geometry M X) (seq 0 (nedges (cm_topo (gm M)))) ;;
  Ok (Geo (g_cvol g) (g_ccen g) (g_cok g) (g_farea g) (g_fcen g) (g_n0 g) (g_n1 g) (g_fok g)
        (map (fun r => fst (fst r)) l) (map (fun r => snd (fst r)) l) true
        (g_svol g) (g_sout g) (g_smid g) (g_sok g) (g_kvol g) (g_kok g)).

(** ** centroid queries.  [re]: recompute *)
(** cell_centroid, Mesh.cc:1661-1674 *)
Definition cell_centroid (M : gmesh) (X : coordinates) (g : geo) (c : nat) (re : bool) : outcome point :=
  asserting (g_cok g) (if re then r <- compute_cell_geometry M X c ;; Ok (snd r) else rd (g_ccen g) c).
(** face_centroid, Mesh.cc:1678-1693 *)
Definition face_centroid (M : gmesh) (X : coordinates) (g : geo) (f : nat) (re : bool) : outcome point :=
  asserting (fl_faces (cm_flags (gm M)) && g_fok g)
    (if re then r <- compute_face_geometry M X f ;; Ok (snd (fst r)) else rd (g_fcen g) f).
(** edge_centroid, Mesh.cc:1820-1832 *)
Definition edge_centroid (M : gmesh) (X : coordinates) (g : geo) (e : nat) : outcome point :=
  asserting (fl_edges (cm_flags (gm M)) && g_eok g)
    (en <- edge_get_nodes M e ;;
     a <- node_get_coordinates X (fst en) ;; b <- node_get_coordinates X (snd en) ;; Ok (pdiv (padd a b) 2)).

(** ** sides *)
(** side_get_coordinates, Mesh.cc:1850-1905 *)
Definition swap01 {A} (l : list A) : outcome (list A) := a <- rd l 0 ;; b <- rd l 1 ;; l <- wr l 0 b ;; wr l 1 a.
Definition side_get_coordinates (M : gmesh) (X : coordinates) (g : geo) (s : nat) (posvol : bool) : outcome (list point) :=
  asserting (fl_sides (cm_flags (gm M)))
    (match mdim M with
     | 3%nat =>
         n0 <- side_get_node (gm M) s 0 ;; a <- node_get_coordinates X n0 ;;
         n1 <- side_get_node (gm M) s 1 ;; b <- node_get_coordinates X n1 ;;
         f <- side_get_face (gm M) s ;; fc <- face_centroid M X g f false ;;
         c <- side_get_cell (gm M) s ;; cc <- cell_centroid M X g c false ;;
         Ok [a; b; fc; cc]
     | 2%nat =>
         n0 <- side_get_node (gm M) s 0 ;; a <- node_get_coordinates X n0 ;;
         n1 <- side_get_node (gm M) s 1 ;; b <- node_get_coordinates X n1 ;;
         c <- side_get_cell (gm M) s ;; cc <- cell_centroid M X g c false ;;
         Ok [a; b; cc]
     | 1%nat =>
         n0 <- side_get_node (gm M) s 0 ;; a <- node_get_coordinates X n0 ;;
         c <- side_get_cell (gm M) s ;; cc <- cell_centroid M X g c false ;;
         if posvol then
           ns <- fw_cell_nodes (cm_topo (gm M)) c ;; m1 <- rd ns 1 ;;
           if (n0 =? m1)%nat then swap01 [a; cc] else Ok [a; cc]
         else Ok [a; cc]
     | _ => Ok []
     end).
(** the 1D volume and normal before the sign is chosen, Mesh.cc:1512-1525; otherwise both keep the caller's values (UB) *)
Definition side_1d (gt : geom_type) (a cc : point) : outcome (R * point) :=
  let vec0 := psub cc a in
  match gt with
  | SPHERICAL => Ok (4 / 3 * PI * Rabs (p0 cc ^ 3 - p0 a ^ 3), smul (p0 a ^ 2) (smul PI (smul 4 (pdiv (popp vec0) (norm vec0)))))
  | CARTESIAN => Ok (norm vec0, pdiv (popp vec0) (norm vec0))
  | CYLINDRICAL => UB
  end.
(** compute_side_geometry, Mesh.cc:1428-1545: volume, outward facet normal, mid facet normal.  [mid]: the caller's point for the
    last (set(0.0) on it in 1D) *)
Definition compute_side_geometry (M : gmesh) (X : coordinates) (g : geo) (s : nat) (mid : point) : outcome (R * point * point) :=
  match mdim M with
  | 3%nat =>
      sc <- side_get_coordinates M X g s false ;;
      q0 <- rd sc 0 ;; q1 <- rd sc 1 ;; q2 <- rd sc 2 ;; q3 <- rd sc 3 ;;
      let cpvec := cross (psub q1 q0) (psub q2 q0) in
      si <- need (cm_sides (gm M)) ;; e <- rd (side_edge_id si) s ;;
      ecen <- edge_centroid M X g e ;;
      Ok (dot cpvec (psub q3 q0) / 6, smul (- / 2) cpvec, smul (/ 2) (cross (psub q2 ecen) (psub q3 ecen)))
  | 2%nat =>
      sc <- side_get_coordinates M X g s false ;;
      q0 <- rd sc 0 ;; q1 <- rd sc 1 ;; q2 <- rd sc 2 ;;
      let vec0 := psub q1 q0 in
      let vec1 := psub q2 q0 in
      si <- need (cm_sides (gm M)) ;; e <- rd (side_edge_id si) s ;;
      ecen <- edge_centroid M X g e ;;
      Ok (norm (cross vec0 vec1) / 2, Pt 2 (p1 vec0) (- p0 vec0) 0, Pt 2 (p1 vec1) (- p0 vec1) 0)
  | 1%nat =>
      sc <- side_get_coordinates M X g s false ;;
      q0 <- rd sc 0 ;; q1 <- rd sc 1 ;;
      r <- side_1d (gtype M) q0 q1 ;;
      si <- need (cm_sides (gm M)) ;; nn <- rd (side_node_ids si) s ;; c <- rd (side_cell_id si) s ;;
      ns <- fw_cell_nodes (cm_topo (gm M)) c ;; m1 <- rd ns 1 ;;
      mid' <- pset mid 0 ;;
      Ok (if (fst nn =? m1)%nat then (- fst r, popp (snd r), mid') else (fst r, snd r, mid'))
  | _ => UB
  end.
(** one iteration of compute_side_geometric_quantities, Mesh.cc:1125-1138; the state holds side_volumes, the two lists that grow by
    push_back, and the two local points *)
Definition side_step (M : gmesh) (X : coordinates) (g : geo) (s : nat) (st : list R * list point * list point * point * point)
    : outcome (list R * list point * list point * point * point) :=
  let '(vol, out, mids, o, mi) := st in
  ty <- entity_get_type (gm M) SIDE s ;;
  r <- match ty with
       | BOUNDARY_GHOST => o' <- pset o 0 ;; m' <- pset mi 0 ;; Ok (0, o', m')
       | _ => compute_side_geometry M X g s mi
       end ;;
  let '(v, o', m') := r in
  vol' <- wr vol s v ;;
  Ok (vol', out ++ [o'], mids ++ [m'], o', m').
(** compute_side_geometric_quantities, Mesh.cc:1106-1142 *)
Definition compute_sides (M : gmesh) (X : coordinates) (g : geo) : outcome geo :=
  let n := num_entities (gm M) SIDE TYPE_ALL in
  r <- foldM (ids (gm M) SIDE TYPE_ALL) (side_step M X g) (resize n 0 (g_svol g), g_sout g, g_smid g, pzero (sdim M), pzero (sdim M)) ;;
  let '(vol, out, mids, _, _) := r in
  Ok (Geo (g_cvol g) (g_ccen g) (g_cok g) (g_farea g) (g_fcen g) (g_n0 g) (g_n1 g) (g_fok g) (g_elen g) (g_evec g) (g_eok g)
        vol out mids true (g_kvol g) (g_kok g)).

(** ** volumes of sides and wedges.  The recomputing branches pass points of dimension 0 *)
(** side_volume, Mesh.cc:1608-1622 *)
Definition side_volume (M : gmesh) (X : coordinates) (g : geo) (s : nat) (re : bool) : outcome R :=
  asserting (fl_sides (cm_flags (gm M)) && g_sok g)
    (if re then r <- compute_side_geometry M X g s (pzero 0) ;; Ok (fst (fst r)) else rd (g_svol g) s).
(** wedge_volume, Mesh.cc:1626-1642 *)
Definition wedge_volume (M : gmesh) (X : coordinates) (g : geo) (w : nat) (re : bool) : outcome R :=
  asserting (fl_wedges (cm_flags (gm M)) && g_sok g)
    (if re then r <- compute_side_geometry M X g (w / 2) (pzero 0) ;; Ok (fst (fst r) / 2) else v <- rd (g_svol g) (w / 2) ;; Ok (v / 2)).

(** ** corners *)
(** compute_corner_geometry, Mesh.cc:1547-1560 *)
Definition compute_corner_geometry (M : gmesh) (X : coordinates) (g : geo) (k : nat) : outcome R :=
  ws <- corner_get_wedges (gm M) k ;;
  foldM ws (fun w v => wv <- wedge_volume M X g w false ;; Ok (v + wv)) 0.
(** compute_corner_geometric_quantities, Mesh.cc:1144-1153 *)
Definition corner_step (M : gmesh) (X : coordinates) (g : geo) (k : nat) (vol : list R) : outcome (list R) :=
  ty <- entity_get_type (gm M) CORNER k ;;
  v <- match ty with BOUNDARY_GHOST => Ok 0 | _ => compute_corner_geometry M X g k end ;;
  wr vol k v.
Definition compute_corners (M : gmesh) (X : coordinates) (g : geo) : outcome geo :=
  let n := num_entities (gm M) CORNER TYPE_ALL in
  vol <- foldM (ids (gm M) CORNER TYPE_ALL) (corner_step M X g) (resize n 0 (g_kvol g)) ;;
  Ok (Geo (g_cvol g) (g_ccen g) (g_cok g) (g_farea g) (g_fcen g) (g_n0 g) (g_n1 g) (g_fok g) (g_elen g) (g_evec g) (g_eok g)
        (g_svol g) (g_sout g) (g_smid g) (g_sok g) vol true).

(** ** update_geometric_quantities, Mesh.cc:556-562; also the last step of construction (Mesh.cc:592) *)
Definition update_geometric_quantities (M : gmesh) (X : coordinates) (g : geo) : outcome geo :=
  let fl := cm_flags (gm M) in
  g <- (if fl_faces fl then compute_faces M X g else Ok g) ;;
  g <- (if fl_edges fl then compute_edges M X g else Ok g) ;;
  g <- compute_cells M X g ;;
  g <- (if fl_sides fl || fl_wedges fl then compute_sides M X g else Ok g) ;;
  if fl_corners fl then compute_corners M X g else Ok g.

(** ** the other queries *)
(** cell_volume, Mesh.cc:1564-1573 *)
Definition cell_volume (M : gmesh) (X : coordinates) (g : geo) (c : nat) (re : bool) : outcome R :=
  if re then r <- compute_cell_geometry M X c ;; Ok (fst r) else rd (g_cvol g) c.
(** face_area, Mesh.cc:1577-1590 *)
Definition face_area (M : gmesh) (X : coordinates) (g : geo) (f : nat) (re : bool) : outcome R :=
  asserting (fl_faces (cm_flags (gm M)) && g_fok g)
    (if re then r <- compute_face_geometry M X f ;; Ok (fst (fst r)) else rd (g_farea g) f).
(** edge_length, Mesh.cc:1594-1606 *)
Definition edge_length (M : gmesh) (X : coordinates) (g : geo) (e : nat) (re : bool) : outcome R :=
  asserting (fl_edges (cm_flags (gm M)) && g_eok g)
    (if re then r <- compute_edge_geometry M X e ;; Ok (fst (fst r)) else rd (g_elen g) e).
(** corner_volume, Mesh.cc:1646-1658 *)
Definition corner_volume (M : gmesh) (X : coordinates) (g : geo) (k : nat) (re : bool) : outcome R :=
  asserting (fl_corners (cm_flags (gm M)) && g_kok g)
    (if re then compute_corner_geometry M X g k else rd (g_kvol g) k).
(** face_normal, Mesh.cc:1713-1777: the normal and the orientation; [cell]: None for cellid = -1 *)
Definition face_normal (M : gmesh) (X : coordinates) (g : geo) (f : nat) (re : bool) (cell : option nat) : outcome (point * Z) :=
  asserting (fl_faces (cm_flags (gm M)) && g_fok g)
    (ns <- (if re then r <- compute_face_geometry M X f ;; Ok (snd r)
            else n0 <- rd (g_n0 g) f ;; n1 <- rd (g_n1 g) f ;; Ok (n0, n1)) ;;
     match cell with
     | None => if Req_EM_T (L22 (fst ns)) 0 then if Req_EM_T (L22 (snd ns)) 0 then AssertFail else Ok (popp (snd ns), 1%Z)
               else Ok (fst ns, 1%Z)
     | Some c => d <- cell_face_dir M c f ;; Ok (if (d =? 1)%Z then (fst ns, d) else (snd ns, d))
     end).
(** edge_vector, Mesh.cc:1782-1815: the vector and the orientation; [node]: None for pointid = -1 *)
Definition edge_vector (M : gmesh) (X : coordinates) (g : geo) (e : nat) (re : bool) (node : option nat) : outcome (point * Z) :=
  asserting (fl_edges (cm_flags (gm M)) && g_eok g)
    (v <- (if re then r <- compute_edge_geometry M X e ;; Ok (snd (fst r)) else rd (g_evec g) e) ;;
     match node with
     | None => Ok (v, 1%Z)
     | Some p => en <- edge_get_nodes M e ;; Ok (if (p =? fst en)%nat then (v, 1%Z) else (popp v, (-1)%Z))
     end).
(** wedge_get_coordinates, Mesh.cc:1922-1960 *)
Definition wedge_get_coordinates (M : gmesh) (X : coordinates) (g : geo) (w : nat) (posvol : bool) : outcome (list point) :=
  asserting (fl_wedges (cm_flags (gm M)))
    (n <- wedge_get_node (gm M) w ;; a <- node_get_coordinates X n ;;
     mids <- match mdim M with
             | 3%nat => e <- wedge_get_edge (gm M) w ;; ec <- edge_centroid M X g e ;;
                        f <- wedge_get_face (gm M) w ;; fc <- face_centroid M X g f false ;; Ok [ec; fc]
             | 2%nat => f <- wedge_get_face (gm M) w ;; fc <- face_centroid M X g f false ;; Ok [fc]
             | _ => Ok []
             end ;;
     c <- wedge_get_cell (gm M) w ;; cc <- cell_centroid M X g c false ;;
     let l := a :: mids ++ [cc] in
     if posvol && negb (w mod 2 =? 0)%nat then
       if (mdim M =? 1)%nat then swap01 l
       else b <- rd l 1 ;; d <- rd l 2 ;; l <- wr l 1 d ;; wr l 2 b
     else Ok l).
(** side_facet_normal, Mesh.cc:1968-1986 *)
Definition side_facet_normal (M : gmesh) (X : coordinates) (g : geo) (s : nat) (re : bool) : outcome point :=
  asserting (fl_sides (cm_flags (gm M)) && g_sok g)
    (if re then r <- compute_side_geometry M X g s (pzero (sdim M)) ;; Ok (snd (fst r)) else rd (g_sout g) s).
(** wedge_facet_normal, Mesh.cc:1999-2024 *)
Definition wedge_facet_normal (M : gmesh) (X : coordinates) (g : geo) (w which : nat) (re : bool) : outcome point :=
  asserting (fl_wedges (cm_flags (gm M)) && g_sok g && ((which =? 0) || (which =? 1))%nat)
    (om <- (if re then r <- compute_side_geometry M X g (w / 2) (pzero (sdim M)) ;; Ok (snd (fst r), snd r)
            else if (which =? 0)%nat then o <- rd (g_sout g) (w / 2) ;; Ok (o, o) else m <- rd (g_smid g) (w / 2) ;; Ok (m, m)) ;;
     Ok (if (which =? 0)%nat then pdiv (fst om) 2 else if (w mod 2 =? 0)%nat then snd om else popp (snd om))).
