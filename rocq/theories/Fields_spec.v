(** Specification vocabulary for the exchange of fields between the state manager and the mesh. *)
From Coq Require Import String.
From Verif Require Import Base Defs MeshSet State State_spec Fields.
Set Implicit Arguments.

(** the dimension of the entities of a kind in a mesh of dimension [md] *)
Definition kind_dim (md : nat) (k : entity_kind) : option nat :=
  match k, md with
  | NODE, _ => Some 0 | CELL, _ => Some md | FACE, _ => Some (md - 1)
  | EDGE, 1 => Some 0 | EDGE, _ => Some 1
  | _, _ => None end.
(** the vectors that can be kept in a mesh: one value per entity, integers, reals and arrays of 2, 3 or 6 reals *)
Definition exportable (v : svec) : Prop :=
  sv_vt v = UNIVAL /\ In (sv_dt v) [DT_int; DT_double; DT_arr2; DT_arr3; DT_arr6].
(** vector [v] is on the mesh, on a kind of entities the mesh knows, and has a value [data] for each entity of dimension [d] *)
Record covers (mi : mesh_info) (st : state) (v : svec) (d : nat) (data : list Z) : Prop := {
  cv_mesh : exists m, sv_dom v = OnMesh m;
  cv_dim : kind_dim (mi_md mi) (sv_kind v) = Some d;
  cv_data : uni_values st v = Some data;
  cv_len : mi_num mi d <= length data }.
(** the field type under which a vector's values are kept: for an array, a vector or a (symmetric) tensor *)
Definition field_type (sd : nat) (dt : dtype) (a : att) (nc : nat) : Prop :=
  match dt with
  | DT_int => a = A_INT | DT_double => a = A_DOUBLE
  | DT_arr2 => a = A_VECTOR /\ nc = 2
  | DT_arr3 => a = (if sd =? 3 then A_VECTOR else A_TENSOR) /\ nc = 3
  | DT_arr6 => a = A_TENSOR /\ nc = 6
  | DT_other _ => False end.

(** the element type of a field in space dimension [sd]: vectors have [sd] components, symmetric tensors [sd*(sd+1)/2] *)
Definition elem_type (sd : nat) (a : att) : option dtype :=
  match a, sd with
  | A_INT, _ => Some DT_int | A_DOUBLE, _ => Some DT_double
  | A_VECTOR, 2 => Some DT_arr2 | A_VECTOR, 3 => Some DT_arr3
  | A_TENSOR, 2 => Some DT_arr3 | A_TENSOR, 3 => Some DT_arr6
  | _, _ => None end.
Definition components (dt : dtype) : nat := match dt with DT_arr2 => 2 | DT_arr3 => 3 | DT_arr6 => 6 | _ => 1 end.
(** the field has a value for each entity, and, if a vector or tensor, the number of components of its space *)
Record good_field (mi : mesh_info) (f : field) : Prop := {
  gf_len : length (f_vals f) = mi_num mi (f_dim f);
  gf_comp : match elem_type (mi_sd mi) (f_att f), f_att f with
            | Some dt, (A_VECTOR | A_TENSOR) => f_ncomp f = components dt
            | _, _ => True end }.
(** the vectors (key and values) to be made from the fields, in order of kind *)
Definition to_import (e : env) (mi : mesh_info) (fs : list field) : list (key * list Z) :=
  flat_map (fun k => flat_map (fun f =>
    match kind_dim (mi_md mi) k, elem_type (mi_sd mi) (f_att f) with
    | Some d, Some dt => if d =? f_dim f then [(Key UNIVAL dt (f_name f) (OnMesh (e_mesh e)) k TYPE_ALL, f_vals f)] else []
    | _, _ => [] end) fs) [NODE; FACE; CELL].
(** the number of entities of the mesh as the state manager sees it *)
Definition sizes_agree (e : env) (mi : mesh_info) : Prop :=
  forall k d, In k [NODE; FACE; CELL] -> kind_dim (mi_md mi) k = Some d -> e_size e (OnMesh (e_mesh e)) k TYPE_ALL = mi_num mi d.
