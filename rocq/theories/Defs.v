(** Enumerations and their string functions, src/mesh/MeshDefs.hh:66-330. *)
From Coq Require Import String.
From Verif Require Import Base.
Local Open Scope string_scope.
Local Open Scope Z_scope.

(** enum class Entity_kind, MeshDefs.hh:109-122 *)
Inductive entity_kind := ALL_KIND | ANY_KIND | UNKNOWN_KIND
  | NODE | EDGE | FACE | CELL | SIDE | WEDGE | CORNER | FACET | BOUNDARY_FACE.
(** underlying std::int8_t value *)
Definition kind_value (k : entity_kind) : Z :=
  match k with ALL_KIND => -3 | ANY_KIND => -2 | UNKNOWN_KIND => -1 | NODE => 0 | EDGE => 1 | FACE => 2
  | CELL => 3 | SIDE => 4 | WEDGE => 5 | CORNER => 6 | FACET => 7 | BOUNDARY_FACE => 8 end.
Definition kind_eq_dec : forall a b : entity_kind, {a = b} + {a <> b}.
Proof. decide equality. Defined.
Definition kind_eqb (a b : entity_kind) : bool := if kind_eq_dec a b then true else false.

Definition NUM_ENTITY_KINDS : Z := 9.

(** Entity_kind_string, MeshDefs.hh:127-138 *)
Definition entity_kind_strings : list string :=
  ["Entity_kind::NODE"; "Entity_kind::EDGE"; "Entity_kind::FACE"; "Entity_kind::CELL"; "Entity_kind::SIDE";
   "Entity_kind::WEDGE"; "Entity_kind::CORNER"; "Entity_kind::FACET"; "Entity_kind::BOUNDARY_FACE"].
Definition Entity_kind_string (k : entity_kind) : outcome string :=
  let ikind := kind_value k in
  if (0 <=? ikind) && (ikind <? NUM_ENTITY_KINDS) then rdz entity_kind_strings ikind else Ok "".

(** entity_valid_kind, MeshDefs.hh:149-152 *)
Definition entity_valid_kind (k : entity_kind) : bool := (0 <=? kind_value k) && (kind_value k <=? 3).

(** enum class Entity_type, MeshDefs.hh:160-167 *)
Inductive entity_type := TYPE_UNKNOWN | DELETED | PARALLEL_OWNED | PARALLEL_GHOST | BOUNDARY_GHOST | TYPE_ALL.
Definition type_value (t : entity_type) : Z :=
  match t with TYPE_UNKNOWN => -1 | DELETED => 0 | PARALLEL_OWNED => 1 | PARALLEL_GHOST => 2 | BOUNDARY_GHOST => 3
  | TYPE_ALL => 4 end.
Definition type_eq_dec : forall a b : entity_type, {a = b} + {a <> b}.
Proof. decide equality. Defined.
Definition type_eqb (a b : entity_type) : bool := if type_eq_dec a b then true else false.

Definition NUM_ENTITY_TYPES : Z := 6.

(** valid_entity_type, MeshDefs.hh:173-177 *)
Definition valid_entity_type (t : entity_type) : bool :=
  (0 <=? type_value t) && (type_value t <? NUM_ENTITY_TYPES).

(** Entity_type_string, MeshDefs.hh:180-190 *)
Definition entity_type_strings : list string :=
  ["Entity_type::TYPE_UNKNOWN"; "Entity_type::DELETED"; "Entity_type::PARALLEL_OWNED"; "Entity_type::PARALLEL_GHOST";
   "Entity_type::BOUNDARY_GHOST"; "Entity_type::ALL"].
Definition Entity_type_string (t : entity_type) : outcome string :=
  if valid_entity_type t then rdz entity_type_strings (type_value t) else Ok "".

(** enum class Cell_type and Cell_type_string, MeshDefs.hh:204-230 *)
Inductive cell_type := CELLTYPE_UNKNOWN | TRI | QUAD | POLYGON | TET | PRISM | PYRAMID | HEX | POLYHED.
Definition cell_type_value (t : cell_type) : Z :=
  match t with CELLTYPE_UNKNOWN => 0 | TRI => 1 | QUAD => 2 | POLYGON => 3 | TET => 4 | PRISM => 5 | PYRAMID => 6
  | HEX => 7 | POLYHED => 8 end.
Definition cell_type_strings : list string :=
  ["Cell_type::CELLTYPE_UNKNOWN"; "Cell_type::TRI"; "Cell_type::QUAD"; "Cell_type::POLYGON"; "Cell_type::TET";
   "Cell_type::PRISM"; "Cell_type::PYRAMID"; "Cell_type::HEX"; "Cell_type::POLYHED"].
Definition Cell_type_string (t : cell_type) : outcome string :=
  let i := cell_type_value t in
  if (0 <=? i) && (i <? 9) then rdz cell_type_strings i else Ok "".
