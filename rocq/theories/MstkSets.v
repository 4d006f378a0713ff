(** Model of labeled sets in the MSTK framework: internal_name_of_set, other_internal_name_of_set, get_labeled_set_entities, init_set_info,
    src/mesh/mesh_mstk/Mesh_MSTK.cc:2965-3135, 4111-4207.

    A set of the mesh file (MSet_ptr) is a record; MSTK's sets hold entities of one kind only (MSet_EntDim).  MESH_MSetByName gives the first set
    of that name.  No entity has been deleted (entities_deleted is false); the test of the DEBUG build for a set empty on all ranks is left out.
    MEnt_ID(ent)-1 is [id_of] of MstkMesh. *)
From Coq Require Import String.
From Verif Require Import Base Loop Defs Factory Cache Point Regions RegionSets MstkMesh.
Set Implicit Arguments.
Local Open Scope string_scope.

(** an MSTK set: MSet_Name, MSet_EntDim, MSet_Next_Entry *)
Record fset := FSet { fs_name : string; fs_dim : mkind; fs_ents : list nat }.
(** MESH_MSetByName; None = null *)
Definition set_by_name (sets : list fset) (n : string) : option fset := find (fun s => String.eqb (fs_name s) n) sets.

(** internal_name_of_set of a labeled set, Mesh_MSTK.cc:2966-2988; other kinds leave the string empty *)
Definition labeled_name (l : labeled) (k : entity_kind) : string :=
  match k with
  | CELL => "matset_" ++ ls_label l
  | FACE => "sideset_" ++ ls_label l
  | EDGE => "edgeset_not_supported"
  | NODE => "nodeset_" ++ ls_label l
  | _ => ""
  end.
(** internal_name_of_set, Mesh_MSTK.cc:2966-2991 *)
Definition internal_name (r : rgn) (k : entity_kind) : string :=
  match rn_shape r with SLabeled l => labeled_name l k | _ => rn_name r end.
(** other_internal_name_of_set of a labeled set, Mesh_MSTK.cc:2996-3014 *)
Definition other_labeled_name (l : labeled) (k : entity_kind) : string :=
  match k with CELL => "elemset_" ++ ls_label l | _ => labeled_name l k end.

Section Sets.
Variable j : jmesh.
Let m := j_mesh j.
Variable sets : list fset.
(** the loop over a set: ghosts to one list, all others to the other, Mesh_MSTK.cc:3051-3058, 3062-3068, 3080-3087, 3099-3106 *)
Definition split_set (s : fset) : list nat * list nat :=
  (map (id_of j (fs_dim s)) (filter (fun h => negb (is_pghost (k_ptype m (fs_dim s) h))) (fs_ents s)),
   map (id_of j (fs_dim s)) (filter (fun h => is_pghost (k_ptype m (fs_dim s) h)) (fs_ents s))).
Definition split_opt (s : option fset) : list nat * list nat := match s with Some s => split_set s | None => ([], []) end.
(** [if (entity_type != "X" && entity_type != "Entity_kind::X") throw], Mesh_MSTK.cc:3033-3036, 3073-3076, 3092-3095 *)
Definition is_label (l : labeled) (n1 n2 : string) : bool := String.eqb (ls_entity l) n1 || String.eqb (ls_entity l) n2.
(** get_labeled_set_entities, Mesh_MSTK.cc:3018-3112: (owned, ghost) *)
Definition get_labeled_set_entities (l : labeled) (k : entity_kind) : outcome (list nat * list nat) :=
  match k with
  | CELL => if negb (is_label l "CELL" "Entity_kind::CELL") then Thrown else
      match set_by_name sets (labeled_name l CELL), set_by_name sets (other_labeled_name l CELL) with
      | Some _, Some _ => Thrown
      | Some s, None => Ok (split_set s)
      | None, s2 => Ok (split_opt s2)
      end
  | FACE => if negb (is_label l "FACE" "Entity_kind::FACE") then Thrown else Ok (split_opt (set_by_name sets (labeled_name l FACE)))
  | NODE => if negb (is_label l "NODE" "Entity_kind::NODE") then Thrown else Ok (split_opt (set_by_name sets (labeled_name l NODE)))
  | _ => Ok ([], [])
  end.
(** the name init_set_info and inherit_labeled_sets look for: only the spelling "Entity_kind::..." is known, otherwise the string stays
    empty, Mesh_MSTK.cc:4138-4143, 5207-5212 *)
Definition prefixed_kind (l : labeled) : option entity_kind :=
  if String.eqb (ls_entity l) "Entity_kind::CELL" then Some CELL
  else if String.eqb (ls_entity l) "Entity_kind::FACE" then Some FACE
  else if String.eqb (ls_entity l) "Entity_kind::NODE" then Some NODE else None.
Definition prefixed_name (l : labeled) : string := match prefixed_kind l with Some k => labeled_name l k | None => "" end.
(** the kind of MSTK entity a labeled set of kind k must hold, Mesh_MSTK.cc:4155-4172 *)
Definition set_dim (k : entity_kind) : mkind :=
  match k with CELL => cell_kind m | FACE => face_kind m | _ => MVERTEX end.
(** one region of init_set_info, Mesh_MSTK.cc:4127-4206; both throws (Errors::Message, std::exception) are Thrown *)
Definition check_region (r : rgn) : outcome unit :=
  match rn_shape r with
  | SLabeled l =>
      match set_by_name sets (prefixed_name l), prefixed_kind l with
      | Some s, Some k => if mkind_eqb (fs_dim s) (set_dim k) then Ok tt else Thrown
      | _, _ => Ok tt
      end
  | _ => Ok tt
  end.
(** init_set_info, Mesh_MSTK.cc:4111-4207 *)
Definition init_set_info (G : gmodel) : outcome unit := foldM (gd_regions G) (fun r _ => check_region r) tt.
End Sets.
