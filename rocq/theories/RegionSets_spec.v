(** Specification for the sets a mesh makes from regions (C62, C77, C78): which entities a region stands for, in terms of what the mesh and the
    region objects answer. *)
From Coq Require Import Reals String Sorted.
From Verif Require Import Base Loop Defs MeshSet MeshSet_spec Point Regions RegionSets.
Set Implicit Arguments.

(** Jali's numbering: owned entities first, then ghosts, then boundary ghosts *)
Definition numbered (types : list entity_type) : Prop :=
  exists no ng nb, types = owned_first no ng ++ repeat BOUNDARY_GHOST nb.

Definition at_point (ans : nat -> outcome point) (r : rgn) (e : nat) : Prop := exists p, ans e = Ok p /\ inside r p = Ok true.
Definition at_points (ans : nat -> outcome (list point)) (r : rgn) (e : nat) : Prop :=
  exists ps, ans e = Ok ps /\ forall p, In p ps -> inside r p = Ok true.
Definition is_logical (r : rgn) : bool := match rn_shape r with SLogical _ => true | _ => false end.

(** entity e of kind k belongs to the (not logical) region r.  Cells and faces belong to a box when their centroid is in it, to a plane or
    a polygon when all their vertices are on it; nodes belong to a region when they are in it, to a point the first such node only. *)
Definition belongs (V : mview) (r : rgn) (k : entity_kind) (e : nat) : Prop :=
  match k, rn_shape r with
  | CELL, (SBox _ | SColor _) => at_point (v_cell_centroid V) r e
  | CELL, SPlane _ => v_celldim V = 2 /\ at_points (v_cell V) r e
  | FACE, SBox _ => at_point (v_face_centroid V) r e
  | FACE, (SPlane _ | SPolygon _) => at_points (v_face V) r e
  | NODE, (SBox _ | SPlane _ | SPolygon _) => at_point (v_node V) r e
  | NODE, SPoint _ => at_point (v_node V) r e /\ forall e', e' < e -> ~ at_point (v_node V) r e'
  | (CELL | FACE | NODE), SLabeled l => exists o g, v_labeled V l k = Ok (o, g) /\ In e (o ++ g)
  | _, _ => False
  end.
(** the combinations that are supported (cells of a point region are treated separately) *)
Definition supported (r : rgn) (k : entity_kind) : Prop :=
  match k, rn_shape r with
  | CELL, (SBox _ | SColor _ | SPlane _) => True
  | FACE, (SBox _ | SPlane _ | SPolygon _) => True
  | NODE, (SBox _ | SPlane _ | SPolygon _ | SPoint _) => True
  | CELL, SLabeled l => ls_entity l = "CELL"%string \/ ls_entity l = "Entity_kind::CELL"%string
  | FACE, SLabeled l => ls_entity l = "FACE"%string \/ ls_entity l = "Entity_kind::FACE"%string
  | NODE, SLabeled l => ls_entity l = "NODE"%string \/ ls_entity l = "Entity_kind::NODE"%string
  | _, _ => False
  end.
(** the mesh and the region answer all questions (points of the right dimension, quantities computed, ...) *)
Definition point_answers (n : nat) (ans : nat -> outcome point) (r : rgn) : Prop :=
  forall e, e < n -> exists p b, ans e = Ok p /\ inside r p = Ok b.
Definition points_answer (n : nat) (ans : nat -> outcome (list point)) (r : rgn) : Prop :=
  forall e, e < n -> exists ps, ans e = Ok ps /\ forall p, In p ps -> exists b, inside r p = Ok b.
Definition typed (types : list entity_type) (o g : list nat) : Prop :=
  NoDup o /\ NoDup g /\ (forall e, In e o -> nth_error types e = Some PARALLEL_OWNED) /\ (forall e, In e g -> nth_error types e = Some PARALLEL_GHOST).
Definition answered (V : mview) (r : rgn) (k : entity_kind) : Prop :=
  let n := length (v_types V k) in
  match k, rn_shape r with
  | CELL, (SBox _ | SColor _) => point_answers n (v_cell_centroid V) r
  | CELL, SPlane _ => points_answer n (v_cell V) r
  | FACE, SBox _ => point_answers n (v_face_centroid V) r
  | FACE, (SPlane _ | SPolygon _) => points_answer n (v_face V) r
  | NODE, (SBox _ | SPlane _ | SPolygon _ | SPoint _) => point_answers n (v_node V) r
  | (CELL | FACE | NODE), SLabeled l => exists o g, v_labeled V l k = Ok (o, g) /\ typed (v_types V k) o g
  | _, _ => True
  end.

(** the set holds exactly the entities in D, the owned and the ghost ones each in their list *)
Definition holds (types : list entity_type) (D : nat -> Prop) (s : mset) : Prop :=
  forall e, (In e (ms_owned s) <-> nth_error types e = Some PARALLEL_OWNED /\ D e) /\
            (In e (ms_ghost s) <-> nth_error types e = Some PARALLEL_GHOST /\ D e).

(** the sets of [R] are all there in [R'], with the same entities in the same order (their names may differ) *)
Definition same_entities (s s' : mset) : Prop :=
  ms_kind s' = ms_kind s /\ ms_owned s' = ms_owned s /\ ms_ghost s' = ms_ghost s /\ ms_all s' = ms_all s /\ ms_have_rev s' = ms_have_rev s /\
  ms_rev s' = ms_rev s.
Definition entities_kept (R R' : registry) : Prop :=
  (exists ps, regs R' = regs R ++ ps) /\ forall p, p < next R -> same_entities (heap R p) (heap R' p).
(** ... and with the same names *)
Definition sets_kept (R R' : registry) : Prop :=
  (exists ps, regs R' = regs R ++ ps) /\ forall p, p < next R -> heap R' p = heap R p.

(** what the logical operations mean *)
Definition op_means (op : bool_type) (n : nat) (D : string -> nat -> Prop) (names : list string) (e : nat) : Prop :=
  match op with
  | UNION => exists m, In m names /\ D m e
  | INTERSECT => forall m, In m names -> D m e
  | SUBTRACT => match names with [] => False | m0 :: t => D m0 e /\ forall m, In m t -> ~ D m e end
  | COMPLEMENT => e < n /\ forall m, In m names -> ~ D m e
  | NOBOOLEAN => False
  end.
(** region [name] stands for the entities [D] of kind [k] *)
Inductive denotes (V : mview) (G : gmodel) (k : entity_kind) : string -> (nat -> Prop) -> Prop :=
| den_leaf name r : find_rgn (gd_regions G) name = Some r -> is_logical r = false -> supported r k -> answered V r k ->
    denotes V G k name (belongs V r k)
| den_logical name r l op D : find_rgn (gd_regions G) name = Some r -> rn_shape r = SLogical l -> lr_op l = Some op -> op <> NOBOOLEAN -> lr_names l <> [] ->
    (forall m, In m (lr_names l) -> denotes V G k m (D m)) ->
    denotes V G k name (op_means op (length (v_types V k)) D (lr_names l)).

(** every set found under the name of a region holds the entities of the region *)
Definition faithful (V : mview) (G : gmodel) (k : entity_kind) (R : registry) : Prop :=
  forall p n D, In p (regs R) -> ms_kind (heap R p) = k -> ms_name (heap R p) = n -> denotes V G k n D -> holds (v_types V k) D (heap R p).
(** the registry is in order: its pointers are allocated and its sets consistent *)
Definition in_order (V : mview) (R : registry) : Prop :=
  (forall p, In p (regs R) -> p < next R) /\
  (forall p, p < next R -> consistent (v_types V (ms_kind (heap R p))) (heap R p)).
(** the conditions under which the operations are right (see the refuted theorems for what happens otherwise) *)
Definition plain_unions (G : gmodel) : Prop :=
  forall n r l, find_rgn (gd_regions G) n = Some r -> rn_shape r = SLogical l -> lr_op l = Some UNION -> length (lr_names l) <> 1.
Definition plain_subtracts (G : gmodel) : Prop :=
  forall n r l m t, find_rgn (gd_regions G) n = Some r -> rn_shape r = SLogical l -> lr_op l = Some SUBTRACT -> lr_names l = m :: t ->
    t <> [] /\ ~ In m t.
Definition no_complement (G : gmodel) : Prop :=
  forall n r l, find_rgn (gd_regions G) n = Some r -> rn_shape r = SLogical l -> lr_op l <> Some COMPLEMENT.
(** there are no ghosts of kind k *)
Definition all_owned (V : mview) (k : entity_kind) : Prop := exists n, v_types V k = repeat PARALLEL_OWNED n.

(** ** What init_sets_from_geometric_model is asked to make (C78) *)
(** the entity string of a labeled set region names the kind *)
Definition label_means (s : string) (k : entity_kind) : Prop :=
  match k with
  | CELL => s = "CELL"%string \/ s = "Entity_kind::CELL"%string
  | FACE => s = "FACE"%string \/ s = "Entity_kind::FACE"%string
  | NODE => s = "NODE"%string \/ s = "Entity_kind::NODE"%string
  | _ => False
  end.
Definition is_labeled (r : rgn) : Prop := exists l, rn_shape r = SLabeled l.
(** without a request: cells for a region of the dimension of the model, faces for one of at least that dimension less one, nodes always *)
Definition wants_default (V : mview) (G : gmodel) (r : rgn) (ks : list entity_kind) : Prop :=
  forall k, In k ks <-> (k = CELL /\ rn_dim r = gd_dim G) \/ (k = FACE /\ v_faces V = true /\ 0 < gd_dim G <= rn_dim r + 1) \/ k = NODE.
Definition asked (V : mview) (G : gmodel) (req : string -> option (list entity_kind)) (r : rgn) (ks : list entity_kind) : Prop :=
  match req (rn_name r) with Some l => ks = l | None => wants_default V G r ks end.
(** the kinds of entities wanted on a region: as its label says, as requested, or the default; a logical region over a labeled set takes the kind of
    the first such set *)
Inductive wants (V : mview) (G : gmodel) (req : string -> option (list entity_kind)) (r : rgn) : list entity_kind -> Prop :=
| wants_labeled l k : rn_shape r = SLabeled l -> label_means (ls_entity l) k -> wants V G req r [k]
| wants_simple ks : is_logical r = false -> ~ is_labeled r -> asked V G req r ks -> wants V G req r ks
| wants_logical l ks : rn_shape r = SLogical l -> (forall m r', In m (lr_names l) -> find_rgn (gd_regions G) m = Some r' -> ~ is_labeled r') ->
    asked V G req r ks -> wants V G req r ks
| wants_by_label l pre m post r' l' k : rn_shape r = SLogical l -> lr_names l = pre ++ m :: post ->
    (forall m0 r0, In m0 pre -> find_rgn (gd_regions G) m0 = Some r0 -> ~ is_labeled r0) ->
    find_rgn (gd_regions G) m = Some r' -> rn_shape r' = SLabeled l' -> label_means (ls_entity l') k -> wants V G req r [k].
(** region [b] is [a], or one of the regions [a] is made of *)
Inductive made_of (G : gmodel) (a : string) : string -> Prop :=
| mo_self : made_of G a a
| mo_part b r l m : made_of G a b -> find_rgn (gd_regions G) b = Some r -> rn_shape r = SLogical l -> In m (lr_names l) -> made_of G a m.
