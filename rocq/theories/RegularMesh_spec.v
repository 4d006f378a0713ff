(** Specification vocabulary for generated regular meshes, from the grid alone. *)
From Coq Require Import Reals.
From Verif Require Import Base RegularMesh.
Set Implicit Arguments.

(** a position of the grid of nodes *)
Definition gpos := (nat * nat * nat)%type.
Definition at_axis (p : gpos) (d : nat) : nat := match d with 0 => fst (fst p) | 1 => snd (fst p) | _ => snd p end.
(** the next node in direction d *)
Definition next (d : nat) (p : gpos) : gpos := let '(x, y, z) := p in match d with 0 => (x + 1, y, z) | 1 => (x, y + 1, z) | _ => (x, y, z + 1) end.
Definition in_box (lo hi p : gpos) : Prop := forall d, d < 3 -> at_axis lo d <= at_axis p d <= at_axis hi d.
(** the nodes, unit edges, unit squares and unit cubes of a box of nodes, each as the list of its corners in the order the framework uses *)
Definition is_node (lo hi : gpos) (l : list gpos) : Prop := exists p, in_box lo hi p /\ l = [p].
Definition is_edge (lo hi : gpos) (l : list gpos) : Prop := exists d p, d < 3 /\ in_box lo hi p /\ in_box lo hi (next d p) /\ l = [p; next d p].
Definition is_square (lo hi : gpos) (l : list gpos) : Prop :=
  exists d e p, d < e /\ e < 3 /\ in_box lo hi p /\ in_box lo hi (next e (next d p)) /\ l = [p; next d p; next e (next d p); next e p].
Definition is_cube (lo hi : gpos) (l : list gpos) : Prop :=
  exists p, in_box lo hi p /\ in_box lo hi (next 2 (next 1 (next 0 p))) /\
    l = [p; next 0 p; next 1 (next 0 p); next 1 p; next 2 p; next 2 (next 0 p); next 2 (next 1 (next 0 p)); next 2 (next 1 p)].
(** the list holds exactly the things with property P, each once *)
Definition exactly {A} (l : list A) (P : A -> Prop) : Prop := NoDup l /\ forall x, In x l <-> P x.
(** g numbers the things with property P from 1 to n *)
Definition numbers {A} (P : A -> Prop) (g : A -> nat) (n : nat) : Prop :=
  (forall x, P x -> 1 <= g x <= n) /\ (forall x y, P x -> P y -> g x = g y -> x = y) /\ (forall i, 1 <= i <= n -> exists x, P x /\ g x = i).
(** the point of a grid node *)
Definition grid_point (a b : R) (n g : nat) : R := (a + INR g / INR n * (b - a))%R.

(** the geometric model of a brick: its 8 vertices (low or high in each direction), 12 edges, 6 faces and interior, numbered as in the
    drawing of Mesh_MSTK.cc:4614-4642 *)
Definition model_vertex (v : nat) : bool * bool * bool :=
  match v with
  | 1 => (false, false, false) | 2 => (true, false, false) | 3 => (false, true, false) | 4 => (true, true, false)
  | 5 => (false, false, true) | 6 => (true, false, true) | 7 => (false, true, true) | _ => (true, true, true)
  end.
(** dimension, number, model vertices *)
Definition model : list (nat * nat * list nat) :=
  map (fun v => (0, v, [v])) [1; 2; 3; 4; 5; 6; 7; 8] ++
  [(1, 1, [1; 2]); (1, 2, [2; 6]); (1, 3, [5; 6]); (1, 4, [1; 5]); (1, 5, [3; 4]); (1, 6, [4; 8]); (1, 7, [7; 8]); (1, 8, [3; 7]);
   (1, 9, [1; 3]); (1, 10, [2; 4]); (1, 11, [6; 8]); (1, 12, [5; 7]);
   (2, 1, [1; 2; 5; 6]); (2, 2, [3; 4; 7; 8]); (2, 3, [1; 2; 3; 4]); (2, 4, [5; 6; 7; 8]); (2, 5, [2; 4; 6; 8]); (2, 6, [1; 3; 5; 7]);
   (3, 1, [1; 2; 3; 4; 5; 6; 7; 8])].
Definition high (v d : nat) : bool := match d with 0 => fst (fst (model_vertex v)) | 1 => snd (fst (model_vertex v)) | _ => snd (model_vertex v) end.
(** a grid node lies on the closed model entity spanned by the model vertices vs: where all of these are low (high), so is the node *)
Definition on_entity (N : gpos) (vs : list nat) (p : gpos) : Prop :=
  forall d, d < 3 -> ((forall v, In v vs -> high v d = false) -> at_axis p d = 0) /\ ((forall v, In v vs -> high v d = true) -> at_axis p d = at_axis N d).
(** (gdim, gid) is the smallest entity of the geometric model M that all the nodes ps lie on *)
Definition classified_in (M : list (nat * nat * list nat)) (N : gpos) (gdim gid : nat) (ps : list gpos) : Prop :=
  (exists vs, In (gdim, gid, vs) M /\ forall p, In p ps -> on_entity N vs p) /\
  forall d i vs, In (d, i, vs) M -> (forall p, In p ps -> on_entity N vs p) -> gdim < d \/ d = gdim /\ i = gid.
Definition classified := classified_in model.
(** what a block of the grid of [N] cells must look like: its nodes from [lo] to [hi], with the point of each node and the numbers the
    entities have in the whole grid.  [pos] says which node each vertex handle is. *)
Record regular_block (N lo hi : gpos) (point : gpos -> R * R * R) (gv ge gf gr : list gpos -> nat) (m : mmesh3) (pos : nat -> gpos) : Prop := RegularBlock {
  rb_nodes : exactly (map (fun h => [pos h]) (seq 0 (length (m_verts m)))) (is_node lo hi);
  rb_node : forall h v, nth_error (m_verts m) h = Some v -> mv_xyz v = point (pos h) /\ mv_glob v = gv [pos h] /\ classified N (mv_gdim v) (mv_gid v) [pos h];
  rb_handles : forall h, In h (flat_map me_verts (m_edges m) ++ flat_map me_verts (m_faces m) ++ flat_map mr_verts (m_regs m)) -> h < length (m_verts m);
  rb_edges : exactly (map (fun e => map pos (me_verts e)) (m_edges m)) (is_edge lo hi);
  rb_edge : forall e, In e (m_edges m) -> let ps := map pos (me_verts e) in me_glob e = ge ps /\ classified N (me_gdim e) (me_gid e) ps;
  rb_faces : exactly (map (fun f => map pos (me_verts f)) (m_faces m)) (is_square lo hi);
  rb_face : forall f, In f (m_faces m) -> let ps := map pos (me_verts f) in me_glob f = gf ps /\ classified N (me_gdim f) (me_gid f) ps;
  rb_regs : exactly (map (fun r => map pos (mr_verts r)) (m_regs m)) (is_cube lo hi);
  rb_reg : forall r, In r (m_regs m) -> mr_glob r = gr (map pos (mr_verts r)) /\ mr_gid r = 1 }.

(** ** in the plane *)
(** the geometric model of a rectangle, on the bottom vertices of the brick: vertices 1 to 4 anticlockwise from the low corner (these are
    1, 2, 4, 3 of the brick), edges 1 bottom, 2 right, 3 top, 4 left, and the interior *)
Definition model2 : list (nat * nat * list nat) :=
  [(0, 1, [1]); (0, 2, [2]); (0, 3, [4]); (0, 4, [3]); (1, 1, [1; 2]); (1, 2, [2; 4]); (1, 3, [4; 3]); (1, 4, [3; 1]); (2, 1, [1; 2; 4; 3])].
(** Plane meshes are in the bottom plane of a brick that is one cell high, so all third indices are 0 and [on_entity], [classified_in] read as
    in the plane. *)
(** an edge without its direction: the end nearer to the origin first *)
Definition undirected (l : list gpos) : list gpos :=
  match l with
  | [(x, y, z); (x', y', z')] => if x + y + z <? x' + y' + z' then l else [(x', y', z'); (x, y, z)]
  | _ => l
  end.
(** the four sides of a square, going round *)
Definition ring (l : list gpos) : list (list gpos) := match l with [a; b; c; d] => [[a; b]; [b; c]; [c; d]; [d; a]] | _ => [] end.
(** side k of a face: the ends of its k-th edge, in the direction the face uses it *)
Definition side_of (es : list ment) (pos : nat -> gpos) (s : nat * bool) : list gpos :=
  match nth_error es (fst s) with Some e => let l := map pos (me_verts e) in if snd s then l else rev l | None => [] end.
Record regular_block2 (N lo hi : gpos) (point : gpos -> R * R * R) (gv ge gf : list gpos -> nat) (m : mmesh2) (pos : nat -> gpos) : Prop := RegularBlock2 {
  r2_nodes : exactly (map (fun h => [pos h]) (seq 0 (length (m2_verts m)))) (is_node lo hi);
  r2_node : forall h v, nth_error (m2_verts m) h = Some v -> mv_xyz v = point (pos h) /\ mv_glob v = gv [pos h] /\ classified_in model2 N (mv_gdim v) (mv_gid v) [pos h];
  r2_handles : forall h, In h (flat_map me_verts (m2_edges m)) -> h < length (m2_verts m);
  r2_edges : exactly (map (fun e => undirected (map pos (me_verts e))) (m2_edges m)) (is_edge lo hi);
  r2_edge : forall e, In e (m2_edges m) -> let ps := map pos (me_verts e) in me_glob e = ge (undirected ps) /\ classified_in model2 N (me_gdim e) (me_gid e) ps;
  r2_faces : exactly (map (fun f => map (side_of (m2_edges m) pos) (mf_edges f)) (m2_faces m)) (fun l => exists s, is_square lo hi s /\ l = ring s);
  r2_face : forall f s, In f (m2_faces m) -> map (side_of (m2_edges m) pos) (mf_edges f) = ring s -> mf_glob f = gf s /\ classified_in model2 N (mf_gdim f) (mf_gid f) s }.
