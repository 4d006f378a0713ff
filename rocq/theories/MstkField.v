(** Model of the values of a field of the MSTK framework: the loops of store_field and get_field over the entities of the mesh, src/mesh/mesh_mstk/Mesh_MSTK.cc:5341-5515,
    Mesh_MSTK.hh:842-975.  MESH_Vertex(mesh, i), MESH_Edge, MESH_Face and MESH_Region(mesh, i) give the i-th entity of MSTK's list of the kind ([k_all]).  Names, kinds and
    types of fields and their checks are in Fields.v.  A value (int, double or array) is an integer code. *)
From Coq Require Import ZArith.
From Verif Require Import Base Loop Defs MstkMesh.
Set Implicit Arguments.

(** the values of an attribute (MAttrib_ptr) per entity of its kind *)
Definition attrib := nat -> Z.
(** MEnt_Set_AttVal *)
Definition set_val (a : attrib) (h : nat) (v : Z) : attrib := fun h' => if h' =? h then v else a h'.
(** the loop of store_field, Mesh_MSTK.cc:5449-5470, 5496-5515; Mesh_MSTK.hh:940-972 *)
Definition store_values (m : mstk) (k : mkind) (data : list Z) (a : attrib) : outcome attrib :=
  foldM (seq 0 (length (k_all m k))) (fun i a => h <- rd (k_all m k) i ;; v <- rd data i ;; Ok (set_val a h v)) a.
(** the loop of get_field into the caller's array, Mesh_MSTK.cc:5354-5378, 5398-5422; Mesh_MSTK.hh:867-894 *)
Definition get_values (m : mstk) (k : mkind) (a : attrib) (buf : list Z) : outcome (list Z) :=
  foldM (seq 0 (length (k_all m k))) (fun i d => h <- rd (k_all m k) i ;; wr d i (a h)) buf.
