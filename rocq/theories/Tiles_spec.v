(** Specification vocabulary for mesh tiles. *)
From Verif Require Import Base Loop Defs Factory Tiles.
Set Implicit Arguments.

(** A query answers [r c] for every cell, with ids below [n]. *)
Definition answers (q : nat -> outcome (list nat)) (ncells : nat) (r : nat -> list nat) (n : nat) : Prop :=
  forall c, c < ncells -> q c = Ok (r c) /\ forall e, In e (r c) -> e < n.

(** the connectivity as plain functions: node-adjacent cells, and the nodes, faces, edges, sides, wedges, corners of a cell *)
Record cellmap := CellMap {
  m_adj : nat -> list nat; m_nodes : nat -> list nat; m_faces : nat -> list nat; m_edges : nat -> list nat;
  m_sides : nat -> list nat; m_wedges : nat -> list nat; m_corners : nat -> list nat }.
(** the mesh answers its queries, those of a kind at least if the kind was requested on the mesh *)
Record tile_mesh (m : tmesh) (g : cellmap) : Prop := {
  tk_adj : answers (tm_adj m) (tm_ncells m) (m_adj g) (tm_ncells m);
  tk_nodes : answers (tm_nodes m) (tm_ncells m) (m_nodes g) (tm_nnodes m);
  tk_faces : fl_faces (tm_flags m) = true -> answers (tm_faces m) (tm_ncells m) (m_faces g) (tm_nfaces m);
  tk_edges : fl_edges (tm_flags m) = true -> answers (tm_edges m) (tm_ncells m) (m_edges g) (tm_nedges m);
  tk_sides : fl_sides (tm_flags m) = true -> forall c, c < tm_ncells m -> tm_sides m c = Ok (m_sides g c);
  tk_wedges : fl_wedges (tm_flags m) = true -> forall c, c < tm_ncells m -> tm_wedges m c = Ok (m_wedges g c);
  tk_corners : fl_corners (tm_flags m) = true -> forall c, c < tm_ncells m -> tm_corners m c = Ok (m_corners g c);
  tk_closed : fl_wedges (tm_flags m) = true -> fl_sides (tm_flags m) = true }.

(** a history of tile requests: make_meshtile(mesh, cells, layers, flags) *)
Record treq := TReq { tr_cells : list nat; tr_layers : Z; tr_flags : flags }.
Definition run_tiles (m : tmesh) (d : tdata) (hist : list treq) : outcome tdata :=
  foldM hist (fun r d => make_meshtile m d (tr_cells r) (tr_layers r) (tr_flags r)) d.
Definition tiles_of (m : tmesh) (hist : list treq) : outcome tdata := run_tiles m no_tiles hist.
(** a tile may ask only for kinds the mesh has, and for cells of the mesh *)
Definition valid_req (m : tmesh) (r : treq) : Prop :=
  (forall c, In c (tr_cells r) -> c < tm_ncells m) /\
  (fl_faces (tr_flags r) = true -> fl_faces (tm_flags m) = true) /\
  (fl_edges (tr_flags r) = true -> fl_edges (tm_flags m) = true) /\
  (fl_wedges (tr_flags r) = true -> fl_wedges (tm_flags m) = true) /\
  (fl_corners (tr_flags r) = true -> fl_corners (tm_flags m) = true).

(** [c] is reached from a cell of [s] in at most [k] steps of node adjacency *)
Inductive within (adj : nat -> list nat) (s : list nat) : nat -> nat -> Prop :=
| w_here k c : In c s -> within adj s k c
| w_step k c c' : within adj s k c -> In c' (adj c) -> within adj s (S k) c'.
(** [e] is an entity (of the kind described by [ent]) of one of [cells] *)
Definition touches (ent : nat -> list nat) (cells : list nat) (e : nat) : Prop := exists c, In c cells /\ In e (ent c).

(** the kinds whose entities are shared between cells *)
Definition ent_of (g : cellmap) (k : entity_kind) : nat -> list nat :=
  match k with NODE => m_nodes g | FACE => m_faces g | EDGE => m_edges g | _ => fun _ => [] end.
Definition asks (k : entity_kind) (f : flags) : bool :=
  match k with NODE => true | FACE => fl_faces f | EDGE => fl_edges f | _ => false end.
Definition shared_kind (k : entity_kind) : Prop := In k [NODE; FACE; EDGE].
(** number of entities of the mesh *)
Definition num_of (m : tmesh) (k : entity_kind) : nat :=
  match k with NODE => tm_nnodes m | FACE => tm_nfaces m | EDGE => tm_nedges m | CELL => tm_ncells m | _ => 0 end.
(** the request [r] asked for kind [k], and [e] is of that kind on one of its own cells *)
Definition wants (g : cellmap) (k : entity_kind) (r : treq) (e : nat) : Prop :=
  asks k (tr_flags r) = true /\ touches (ent_of g k) (tr_cells r) e.
