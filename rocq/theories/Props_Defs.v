(** C54: names of enumerators (src/mesh/MeshDefs.hh:127-230). *)
From Coq Require Import String.
From Verif Require Import Base Defs.
Local Open Scope string_scope.

(** the documented name of each enumerator, written independently of the lookup tables *)
Definition kind_name (k : entity_kind) : string :=
  match k with
  | ALL_KIND | ANY_KIND | UNKNOWN_KIND => ""
  | NODE => "Entity_kind::NODE" | EDGE => "Entity_kind::EDGE" | FACE => "Entity_kind::FACE"
  | CELL => "Entity_kind::CELL" | SIDE => "Entity_kind::SIDE" | WEDGE => "Entity_kind::WEDGE"
  | CORNER => "Entity_kind::CORNER" | FACET => "Entity_kind::FACET" | BOUNDARY_FACE => "Entity_kind::BOUNDARY_FACE"
  end.
Definition type_name (t : entity_type) : string :=
  match t with
  | TYPE_UNKNOWN => "Entity_type::TYPE_UNKNOWN" | DELETED => "Entity_type::DELETED"
  | PARALLEL_OWNED => "Entity_type::PARALLEL_OWNED" | PARALLEL_GHOST => "Entity_type::PARALLEL_GHOST"
  | BOUNDARY_GHOST => "Entity_type::BOUNDARY_GHOST" | TYPE_ALL => "Entity_type::ALL"
  end.
Definition cell_type_name (t : cell_type) : string :=
  match t with
  | CELLTYPE_UNKNOWN => "Cell_type::CELLTYPE_UNKNOWN" | TRI => "Cell_type::TRI" | QUAD => "Cell_type::QUAD"
  | POLYGON => "Cell_type::POLYGON" | TET => "Cell_type::TET" | PRISM => "Cell_type::PRISM"
  | PYRAMID => "Cell_type::PYRAMID" | HEX => "Cell_type::HEX" | POLYHED => "Cell_type::POLYHED"
  end.

Theorem c54_kind_string_partial : forall k, Entity_kind_string k = Ok (kind_name k).
Proof. destruct k; vm_compute; reflexivity. Qed.
Print Assumptions c54_kind_string_partial.

Theorem c54_cell_type_string_partial : forall t, Cell_type_string t = Ok (cell_type_name t).
Proof. destruct t; vm_compute; reflexivity. Qed.
Print Assumptions c54_cell_type_string_partial.

(** Finding: the table of Entity_type_string starts at TYPE_UNKNOWN (= -1) but is indexed by the enumerator value, so
    the name of EVERY enumerator is wrong: PARALLEL_OWNED prints as DELETED, ALL as BOUNDARY_GHOST ... *)
Theorem c54_type_string_refuted : forall t, exists s, Entity_type_string t = Ok s /\ s <> type_name t.
Proof. destruct t; eexists; (split; [vm_compute; reflexivity|discriminate]). Qed.
Print Assumptions c54_type_string_refuted.

Example c54_owned_prints_deleted : Entity_type_string PARALLEL_OWNED = Ok "Entity_type::DELETED".
Proof. vm_compute; reflexivity. Qed.

(** the valid kinds are exactly node, edge, face and cell *)
Theorem c54_valid_kinds_partial : forall k, entity_valid_kind k = true <-> In k [NODE; EDGE; FACE; CELL].
Proof. intros k. destruct k; cbn; intuition discriminate. Qed.
