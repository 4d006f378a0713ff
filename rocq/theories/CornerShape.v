(** Model of corner_get_facetization (3D, 2D, 1D) and corner_get_coordinates, src/mesh/Mesh.cc:2028-2306. *)
From Coq Require Import Reals.
From Verif Require Import Base Loop Defs Factory Cache Point Geometry MeshGeom.
Set Implicit Arguments.
Local Open Scope R_scope.

(** an entry of point_entity_list: std::pair<Entity_ID, Entity_kind> *)
Definition key := (nat * entity_kind)%type.
Definition key_eqb (a b : key) : bool := (fst a =? fst b)%nat && kind_eqb (snd a) (snd b).
(** the search loops, Mesh.cc:2066-2073, 2080-2087, 2265-2272, 2279-2286: the index of the first equal entry, or the length of the list *)
Fixpoint pos_of (l : list key) (k : key) : nat :=
  match l with [] => 0%nat | a :: r => if key_eqb a k then 0%nat else S (pos_of r k) end.
(** search, and append entry and centre if not found, Mesh.cc:2065-2077, 2079-2091, 2264-2276, 2278-2290: the index and the new lists *)
Definition add_point (k : key) (centre : outcome point) (s : list key * list point) : outcome (nat * (list key * list point)) :=
  let i := pos_of (fst s) k in
  if (i <? length (fst s))%nat then Ok (i, s) else c <- centre ;; Ok (i, (fst s ++ [k], snd s ++ [c])).

(** the body of the loop over the wedges, Mesh.cc:2061-2122 *)
Definition facet_step (M : gmesh) (X : coordinates) (g : geo) (vec0 : point) (w : nat) (s : list key * list point * list (nat * nat * nat))
    : outcome (list key * list point * list (nat * nat * nat)) :=
  let '(ks, pts, facets) := s in
  f <- wedge_get_face (gm M) w ;;
  r <- add_point (f, FACE) (face_centroid M X g f false) (ks, pts) ;;
  let idxe := fst r in
  e <- wedge_get_edge (gm M) w ;;
  r <- add_point (e, EDGE) (edge_centroid M X g e) (snd r) ;;
  let idxf := fst r in
  let pts := snd (snd r) in
  pe <- rd pts idxf ;; pf <- rd pts idxe ;; pn <- rd pts 0 ;;
  let volume := dot (cross (psub pe pn) (psub pf pn)) vec0 in
  Ok (fst (snd r), pts, facets ++ (if gtb volume 0 then [(0%nat, idxe, idxf); (1%nat, idxf, idxe)] else [(0%nat, idxf, idxe); (1%nat, idxe, idxf)])).
(** corner_get_facetization in 3D, Mesh.cc:2028-2124: points and triangles *)
Definition corner_facetization3 (M : gmesh) (X : coordinates) (g : geo) (k : nat) : outcome (list point * list (nat * nat * nat)) :=
  asserting (fl_corners (cm_flags (gm M)) && g_kok g)
    (ws <- corner_get_wedges (gm M) k ;;
     asserting (mdim M =? 3)%nat
       (n <- corner_get_node (gm M) k ;; p <- node_get_coordinates X n ;;
        c <- corner_get_cell (gm M) k ;; ccen <- cell_centroid M X g c false ;;
        r <- foldM ws (facet_step M X g (psub ccen p)) ([(n, NODE); (c, CELL)], [p; ccen], []) ;;
        Ok (snd (fst r), snd r))).
(** corner_get_facetization in 2D, Mesh.cc:2129-2180 *)
Definition corner_facetization2 (M : gmesh) (X : coordinates) (g : geo) (k : nat) : outcome (list point * list (nat * nat)) :=
  asserting (fl_corners (cm_flags (gm M)))
    (ws <- corner_get_wedges (gm M) k ;;
     asserting (mdim M =? 2)%nat
       (n <- corner_get_node (gm M) k ;; p <- node_get_coordinates X n ;;
        c <- corner_get_cell (gm M) k ;; ccen <- cell_centroid M X g c false ;;
        w0 <- rd ws 0 ;; f0 <- wedge_get_face (gm M) w0 ;; fcen0 <- face_centroid M X g f0 false ;;
        w1 <- rd ws 1 ;; f1 <- wedge_get_face (gm M) w1 ;; fcen1 <- face_centroid M X g f1 false ;;
        let cpvec := cross (psub fcen0 p) (psub ccen p) in
        Ok (if gtb (p0 cpvec) 0 then [p; fcen0; ccen; fcen1] else [p; fcen1; ccen; fcen0], [(0, 1); (1, 2); (2, 3); (3, 0)]%nat))).
(** corner_get_facetization in 1D, Mesh.cc:2184-2201: [facets] is what the caller's vector holds before the call - it is not cleared *)
Definition corner_facetization1 (M : gmesh) (X : coordinates) (g : geo) (k : nat) (facets : list nat) : outcome (list point * list nat) :=
  asserting (fl_corners (cm_flags (gm M)))
    (ws <- corner_get_wedges (gm M) k ;; w0 <- rd ws 0 ;; l <- wedge_get_coordinates M X g w0 false ;; Ok (l, facets ++ [0; 1]%nat)).

(** the body of the 3D loop of corner_get_coordinates, Mesh.cc:2259-2293 *)
Definition coord_step (M : gmesh) (X : coordinates) (g : geo) (w : nat) (s : list key * list point) : outcome (list key * list point) :=
  f <- wedge_get_face (gm M) w ;;
  r <- add_point (f, FACE) (face_centroid M X g f false) s ;;
  e <- wedge_get_edge (gm M) w ;;
  r <- add_point (e, EDGE) (edge_centroid M X g e) (snd r) ;;
  Ok (snd r).
(** corner_get_coordinates, Mesh.cc:2206-2306 *)
Definition corner_get_coordinates (M : gmesh) (X : coordinates) (g : geo) (k : nat) : outcome (list point) :=
  asserting (fl_corners (cm_flags (gm M)))
    (ws <- corner_get_wedges (gm M) k ;;
     match mdim M with
     | 1%nat => w0 <- rd ws 0 ;; wedge_get_coordinates M X g w0 true
     | 2%nat =>
         w0 <- rd ws 0 ;; l <- wedge_get_coordinates M X g w0 false ;;
         w1 <- rd ws 1 ;; l1 <- wedge_get_coordinates M X g w1 false ;;
         q <- rd l1 1 ;;
         let l := l ++ [q] in
         a <- rd l 0 ;; b <- rd l 1 ;; d <- rd l 3 ;;
         v <- wedge_volume M X g w0 false ;;
         if ltb (p0 (cross (psub b a) (psub d a)) * v) 0 then l <- wr l 1 d ;; wr l 3 b else Ok l
     | 3%nat =>
         n <- corner_get_node (gm M) k ;; p <- node_get_coordinates X n ;;
         c <- corner_get_cell (gm M) k ;; ccen <- cell_centroid M X g c false ;;
         r <- foldM ws (coord_step M X g) ([(n, NODE)], [p]) ;;
         Ok (snd r ++ [ccen])
     | _ => Ok []
     end).
