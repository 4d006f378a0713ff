(** Model of the exchange of fields between the state manager and the mesh: State::init_from_mesh and State::export_to_mesh
    (src/statemanager/JaliState.cc:158-264) with the field functions of Mesh_MSTK (src/mesh/mesh_mstk/Mesh_MSTK.cc:5303-5515,
    Mesh_MSTK.hh:728-748, 842-975).
    - MSTK's attributes are a list of fields, in the order of MESH_Next_Attrib; MESH_AttribByName returns the first of a name.
    - The values are in the order of MSTK's entities (MESH_Vertex(mesh, i), ...), and every entity has one; which entity that is by id is C96 (MstkField.v).
    - A value (int, double or array) is an integer code, as in State.v. *)
From Coq Require Import String.
From Verif Require Import Base Loop Defs MeshSet State.
Set Implicit Arguments.

(** MAttType *)
Inductive att := A_INT | A_DOUBLE | A_VECTOR | A_TENSOR | A_POINTER.
(** an attribute; its entity dimension is 0 MVERTEX, 1 MEDGE, 2 MFACE, 3 MREGION *)
Record field := Field { f_name : string; f_dim : nat; f_att : att; f_ncomp : nat; f_vals : list Z }.
(** the mesh: manifold and space dimension, number of entities of each dimension *)
Record mesh_info := MInfo { mi_md : nat; mi_sd : nat; mi_num : nat -> nat }.

(** entity_kind_to_mtype, Mesh_MSTK.hh:728-748 *)
Definition kind2mtype : list (list nat) := [[0; 0; 0; 0]; [0; 0; 0; 1]; [0; 1; 1; 2]; [0; 1; 2; 3]].
Definition mtype (mi : mesh_info) (k : entity_kind) : outcome nat := r <- rd kind2mtype (mi_md mi) ;; rdz r (kind_value k).
(** MESH_AttribByName *)
Definition by_name (fs : list field) (n : string) : option field := find (fun f => String.eqb (f_name f) n) fs.
(** get_field_info, Mesh_MSTK.cc:5303-5337: names and types *)
Definition get_field_info (mi : mesh_info) (fs : list field) (k : entity_kind) : outcome (list (string * att)) :=
  foldM fs (fun f l => t <- mtype mi k ;; Ok (if t =? f_dim f then l ++ [(f_name f, f_att f)] else l)) [].
(** the data types that get_field and store_field have overloads for, and their number of components *)
Definition ncomps (d : dtype) : option nat :=
  match d with DT_int | DT_double => Some 1 | DT_arr2 => Some 2 | DT_arr3 => Some 3 | DT_arr6 => Some 6 | DT_other _ => None end.
(** the test of the attribute's type and components in get_field, Mesh_MSTK.cc:5349, 5393, Mesh_MSTK.hh:855-863 *)
Definition get_type_ok (d : dtype) (f : field) : bool :=
  match d, f_att f with
  | DT_int, A_INT | DT_double, A_DOUBLE => true
  | DT_arr2, (A_VECTOR | A_TENSOR) => f_ncomp f =? 2
  | DT_arr3, (A_VECTOR | A_TENSOR) => f_ncomp f =? 3
  | DT_arr6, (A_VECTOR | A_TENSOR) => f_ncomp f =? 6
  | _, _ => false end.
(** get_field, Mesh_MSTK.cc:5341-5425, Mesh_MSTK.hh:846-897; None: false, the array is left as it was *)
Definition get_field (mi : mesh_info) (fs : list field) (n : string) (k : entity_kind) (d : dtype) : outcome (option (list Z)) :=
  match by_name fs n with
  | None => Ok None
  | Some f => t <- mtype mi k ;;
    if negb (t =? f_dim f) then Ok None else
    if negb (get_type_ok d f) then Ok None else
    vals <- mapM (rd (f_vals f)) (seq 0 (mi_num mi (f_dim f))) ;; Ok (Some vals)
  end.
(** the test of an existing attribute in store_field, Mesh_MSTK.cc:5439, 5484; Mesh_MSTK.hh:916:
    "atttype != VECTOR || atttype != TENSOR" is always true, so vector and tensor fields are refused *)
Definition store_type_ok (d : dtype) (f : field) : bool :=
  match d, f_att f with DT_int, A_INT | DT_double, A_DOUBLE => true | _, _ => false end.
(** the type of a new attribute, Mesh_MSTK.cc:5446, 5491; Mesh_MSTK.hh:932-933 *)
Definition new_att (mi : mesh_info) (d : dtype) : att :=
  match d with
  | DT_int => A_INT | DT_double => A_DOUBLE | DT_arr2 => A_VECTOR
  | DT_arr3 => if mi_sd mi =? 3 then A_VECTOR else A_TENSOR | _ => A_TENSOR end.
(** store_field, Mesh_MSTK.cc:5429-5515, Mesh_MSTK.hh:903-975; None: false *)
Fixpoint set_first (fs : list field) (n : string) (vals : list Z) : list field :=
  match fs with
  | [] => []
  | f :: r => if String.eqb (f_name f) n then Field (f_name f) (f_dim f) (f_att f) (f_ncomp f) vals :: r else f :: set_first r n vals
  end.
Definition store_field (mi : mesh_info) (fs : list field) (n : string) (k : entity_kind) (d : dtype) (nc : nat) (data : list Z) : outcome (option (list field)) :=
  t <- mtype mi k ;;
  match by_name fs n with
  | Some f =>
    if negb (t =? f_dim f) then Ok None else
    if negb (store_type_ok d f) then Ok None else
    vals <- mapM (rd data) (seq 0 (mi_num mi t)) ;; Ok (Some (set_first fs n vals))
  | None =>
    vals <- mapM (rd data) (seq 0 (mi_num mi t)) ;; Ok (Some (fs ++ [Field n t (new_att mi d) nc vals]))
  end.

(** ** State::export_to_mesh, JaliState.cc:226-264: one vector; a tile's vector fails the cast to UniStateVector<T, Mesh> *)
Definition export_vec (mi : mesh_info) (st : state) (v : svec) (fs : list field) : outcome (list field) :=
  match sv_vt v, ncomps (sv_dt v) with
  | UNIVAL, Some nc =>
    match sv_dom v with
    | OnMesh _ =>
      data <- rd (st_uni st) (sv_data v) ;;
      r <- store_field mi fs (sv_name v) (sv_kind v) (sv_dt v) nc data ;;
      Ok (match r with Some fs' => fs' | None => fs end)
    | OnTile _ => UB
    end
  | _, _ => Ok fs
  end.
Definition export_to_mesh (mi : mesh_info) (st : state) (fs : list field) : outcome (list field) :=
  foldM (st_vecs st) (export_vec mi st) fs.

(** ** State::init_from_mesh, JaliState.cc:162-218 *)
(** the data type read for a field type; None: skipped *)
Definition read_type (mi : mesh_info) (a : att) : option dtype :=
  match a with
  | A_INT => Some DT_int
  | A_DOUBLE => Some DT_double
  | A_VECTOR => if mi_sd mi =? 2 then Some DT_arr2 else if mi_sd mi =? 3 then Some DT_arr3 else None
  | A_TENSOR => if mi_sd mi =? 2 then Some DT_arr3 else if mi_sd mi =? 3 then Some DT_arr6 else None
  | A_POINTER => None end.
Definition field_key (e : env) (n : string) (d : dtype) (k : entity_kind) : key := Key UNIVAL d n (OnMesh (e_mesh e)) k TYPE_ALL.
(** the array of new T[nent] into which get_field writes; when get_field fails, add would copy indeterminate values *)
Definition import_field (e : env) (mi : mesh_info) (fs : list field) (k : entity_kind) (na : string * att) (st : state) : outcome state :=
  match read_type mi (snd na) with
  | None => Ok st
  | Some d =>
    let key := field_key e (fst na) d k in
    g <- get_field mi fs (fst na) k d ;;
    match g with
    | Some vals => if length vals <=? size_of e key then x <- add e st (RPtr key (Some vals)) ;; Ok (fst x) else UB
    | None => match find_t st key with Some _ => Ok st | None => UB end
    end
  end.
Definition init_from_mesh (e : env) (mi : mesh_info) (fs : list field) (st : state) : outcome state :=
  foldM [NODE; FACE; CELL] (fun k st => info <- get_field_info mi fs k ;; foldM info (import_field e mi fs k) st) st.
