(** Model of the extraction of a mesh from another: Mesh_MSTK::extract_mstk_mesh in a serial run, src/mesh/mesh_mstk/Mesh_MSTK.cc:702-961, and the lists of
    source entities the constructors hand to it, Mesh_MSTK.cc:541-574, 605-638, 670-694; entity_get_parent, 3284-3320; inherit_labeled_sets, 5169-5298.

    The source mesh is a record [mstk] (MstkMesh.v) with the coordinates of its vertices.  The new mesh is a list of entities per kind, in the order of
    MV_New, ME_New, MF_New, MR_New; a new entity's handle is its position.  The attribute "copyatt" of the source mesh is [cp]; the attributes
    "vparentatt", ... of the new mesh are kept with its entities.  Classification (GEntDim, GEntID) is left out.
    [MAXPF3], [MAXPV2]: sizes of MSTK's local arrays. *)
From Coq Require Import Reals String.
From Verif Require Import Base Loop Defs Factory Cache Point Regions RegionSets MstkMesh MstkSets.
Set Implicit Arguments.

Definition xyz : Type := (R * R * R)%type.
(** a vertex: parent and coordinates; an edge: parent and vertices; a face made of edges (surface) or of vertices (volume); a region *)
Record xmesh := XMesh {
  x_verts : list (nat * xyz);
  x_edges : list (nat * (nat * nat));
  x_sfaces : list (nat * list (nat * bool));
  x_vfaces : list (nat * list nat);
  x_regs : list (nat * list (nat * bool)) }.
Definition no_xmesh : xmesh := XMesh [] [] [] [] [].
(** the mesh being made and the attribute "copyatt" of the source mesh *)
Record xstate := XState { x_mesh : xmesh; cp : mkind -> nat -> option nat }.
Definition set_cp (c : mkind -> nat -> option nat) (k : mkind) (h n : nat) : mkind -> nat -> option nat :=
  fun k' h' => if mkind_eqb k' k && (h' =? h) then Some n else c k' h'.
(** a loop that appends a result per element to a local array *)
Fixpoint thread {A B S} (f : A -> S -> S * B) (l : list A) (s : S) : S * list B :=
  match l with [] => (s, []) | a :: r => let '(s, b) := f a s in let '(s, bs) := thread f r s in (s, b :: bs) end.

Section Extract.
Variables (MAXPF3 MAXPV2 : nat) (m : mstk) (X : nat -> xyz) (flatten : bool).
(** [if (flatten) xyz[2] = 0.0], Mesh_MSTK.cc:877 *)
Definition flat (p : xyz) : xyz := if flatten then (fst p, 0%R) else p.
(** a vertex: the copy there is, or a new one, Mesh_MSTK.cc:823-835, 869-887 *)
Definition copy_vertex (co : xyz -> xyz) (v : nat) (s : xstate) : xstate * nat :=
  match cp s MVERTEX v with
  | Some n => (s, n)
  | None => let x := x_mesh s in let n := length (x_verts x) in
      (XState (XMesh (x_verts x ++ [(v, co (X v))]) (x_edges x) (x_sfaces x) (x_vfaces x) (x_regs x)) (set_cp (cp s) MVERTEX v n), n)
  end.
(** an edge of a face, Mesh_MSTK.cc:859-897 *)
Definition copy_edge (e : nat) (s : xstate) : xstate * nat :=
  match cp s MEDGE e with
  | Some n => (s, n)
  | None =>
      let '(s, a) := copy_vertex flat (fst (k_ev m e)) s in
      let '(s, b) := copy_vertex flat (snd (k_ev m e)) s in
      let x := x_mesh s in let n := length (x_edges x) in
      (XState (XMesh (x_verts x) (x_edges x ++ [(e, (a, b))]) (x_sfaces x) (x_vfaces x) (x_regs x)) (set_cp (cp s) MEDGE e n), n)
  end.
(** the edge with MF_EdgeDir_i(mf, j), Mesh_MSTK.cc:899 *)
Definition copy_edge_dir (ed : nat * bool) (s : xstate) : xstate * (nat * bool) := let '(s, n) := copy_edge (fst ed) s in (s, (n, snd ed)).
(** a face of the surface, Mesh_MSTK.cc:851-912; more edges than the local arrays hold is undefined *)
Definition copy_sface (f : nat) (s : xstate) : outcome xstate :=
  if MAXPV2 <? length (k_fe m f) then UB else
  let '(s, es) := thread copy_edge_dir (k_fe m f) s in
  let x := x_mesh s in let n := length (x_sfaces x) in
  Ok (XState (XMesh (x_verts x) (x_edges x) (x_sfaces x ++ [(f, es)]) (x_vfaces x) (x_regs x)) (set_cp (cp s) MFACE f n)).
(** a face of a region, by its vertices, Mesh_MSTK.cc:808-845 *)
Definition copy_vface (f : nat) (s : xstate) : outcome (xstate * nat) :=
  match cp s MFACE f with
  | Some n => Ok (s, n)
  | None =>
      if MAXPV2 <? length (k_fv m f) then UB else
      let '(s, vs) := thread (copy_vertex (fun p => p)) (k_fv m f) s in
      let x := x_mesh s in let n := length (x_vfaces x) in
      Ok (XState (XMesh (x_verts x) (x_edges x) (x_sfaces x) (x_vfaces x ++ [(f, vs)]) (x_regs x)) (set_cp (cp s) MFACE f n), n)
  end.
Definition copy_vfaces (fs : list (nat * bool)) (s : xstate) : outcome (xstate * list (nat * bool)) :=
  foldM fs (fun fd a => r <- copy_vface (fst fd) (fst a) ;; Ok (fst r, snd a ++ [(snd r, snd fd)])) (s, []).
(** a region, Mesh_MSTK.cc:799-856 *)
Definition copy_region (r : nat) (s : xstate) : outcome xstate :=
  if MAXPF3 <? length (k_rf m r) then UB else
  a <- copy_vfaces (k_rf m r) s ;;
  let x := x_mesh (fst a) in let n := length (x_regs x) in
  Ok (XState (XMesh (x_verts x) (x_edges x) (x_sfaces x) (x_vfaces x) (x_regs x ++ [(r, snd a)])) (set_cp (cp (fst a)) MREGION r n)).
(** extract_mstk_mesh up to the new mesh, Mesh_MSTK.cc:719-961, with the values of the attribute "copyatt" (inherit_labeled_sets needs them) *)
Definition extract_mstk_mesh (dim : mkind) (extrude : bool) (src : list nat) : outcome xstate :=
  if extrude then Thrown else
  if flatten && (mkind_eqb dim MREGION || mkind_eqb dim MVERTEX) then Thrown else
  match dim with
  | MEDGE => Thrown
  | MVERTEX => Thrown
  | MREGION => foldM src copy_region (XState no_xmesh (fun _ _ => None))
  | MFACE => foldM src copy_sface (XState no_xmesh (fun _ _ => None))
  end.
End Extract.

(** ** The source entities *)
(** MESH_RegionFromID(mesh, id+1) and so on: the entity with that MEnt_ID; none (a null pointer in the list) is undefined *)
Definition from_id (j : jmesh) (k : mkind) (i : nat) : outcome nat :=
  match find (fun h => j_ids j k h =? i + 1) (k_all (j_mesh j) k) with Some h => Ok h | None => UB end.
(** entity_kind_to_mtype, Mesh_MSTK.hh:728-748, in 2D and 3D (the base kinds) *)
Definition kind_to_mtype (m : mstk) (k : entity_kind) : mkind := match k with NODE => MVERTEX | EDGE => MEDGE | FACE => face_kind m | _ => cell_kind m end.
(** the constructor from a list of ids, Mesh_MSTK.cc:670-694: List_Add, repeated ids are repeated *)
Definition sources_of_ids (j : jmesh) (k : entity_kind) (ids : list nat) : outcome (list nat) := mapM (from_id j (kind_to_mtype (j_mesh j) k)) ids.
(** List_ChknAdd *)
Definition chkn_add (l : list nat) (h : nat) : list nat := if has l h then l else l ++ [h].
(** the constructors from names of regions, Mesh_MSTK.cc:541-574, 605-638: the set of the MSTK mesh with the region's internal name, ghosts left out.  FindRegion of an unknown
    name is null: r->type() in internal_name_of_set is undefined.  get_set_size before builds the set in the base class and leaves MSTK's sets alone. *)
Definition sources_of_names (j : jmesh) (sets : list fset) (G : gmodel) (k : entity_kind) (names : list string) : outcome (list nat) :=
  foldM names (fun n l =>
    match find_rgn (gd_regions G) n with
    | None => UB
    | Some r => match set_by_name sets (internal_name r k) with
        | None => Ok l
        | Some s => Ok (fold_left chkn_add (filter (fun h => negb (is_pghost (k_ptype (j_mesh j) (fs_dim s) h))) (fs_ents s)) l)
        end
    end) [].

(** ** Parents *)
(** the attributes vparentatt, eparentatt, fparentatt, rparentatt: None is a null attribute value *)
Definition parent_att (x : xmesh) (k : mkind) (h : nat) : option nat :=
  match k with
  | MVERTEX => option_map fst (nth_error (x_verts x) h)
  | MEDGE => option_map fst (nth_error (x_edges x) h)
  | MFACE => match nth_error (x_sfaces x) h with Some f => Some (fst f) | None => option_map fst (nth_error (x_vfaces x) h) end
  | MREGION => option_map fst (nth_error (x_regs x) h)
  end.
(** entity_get_parent, Mesh_MSTK.cc:3284-3320: [j] the mesh asked, [jp] its parent, [x] the attributes (None: a mesh that was not extracted, null attributes); no
    parent gives 0.  Sides, wedges and corners leave the handle uninitialised. *)
Definition entity_get_parent (j jp : jmesh) (x : option xmesh) (k : entity_kind) (i : nat) : outcome nat :=
  let att (mk : mkind) (h : nat) := match x with None => Ok 0 | Some x => Ok (match parent_att x mk h with Some p => id_of jp mk p | None => 0 end) end in
  match k with
  | CELL => h <- rd (cell_h j) i ;; att (if k_dim (j_mesh j) =? 3 then MREGION else MFACE) h
  | FACE => h <- rd (face_h j) i ;; att (if k_dim (j_mesh j) =? 3 then MFACE else MEDGE) h
  | EDGE => h <- rd (edge_h j) i ;; att MEDGE h
  | NODE => match x with None => Ok 0 | Some _ => h <- rd (vtx_h j) i ;; att MVERTEX h end
  | _ => UB
  end.

(** ** Sets of the new mesh *)
(** [ent] has a copy: MEnt_Get_AttVal(ent, copyatt, ...) *)
Definition add_copy (c : mkind -> nat -> option nat) (k : mkind) (l : list nat) (h : nat) : list nat := match c k h with Some n => l ++ [n] | None => l end.
Definition add_copy_once (c : mkind -> nat -> option nat) (k : mkind) (l : list nat) (h : nat) : list nat := match c k h with Some n => chkn_add l n | None => l end.
(** MType of dimension one less *)
Definition lower (k : mkind) : mkind := match k with MREGION => MFACE | MFACE => MEDGE | _ => MVERTEX end.
(** the new set for a set of the parent, Mesh_MSTK.cc:5218-5294.  [diff]: the new mesh has one dimension less; [src]: the source entities, of kind [dim].  A set of
    edges with diff gives a set of vertices that stays empty. *)
Definition inherit_set (m : mstk) (c : mkind -> nat -> option nat) (diff : bool) (dim : mkind) (src : list nat) (n : string) (sp : fset) : option fset :=
  if diff && mkind_eqb (fs_dim sp) dim && existsb (has (fs_ents sp)) src then None else
  let sub := if mkind_eqb (fs_dim sp) MVERTEX then MVERTEX else if diff then lower (fs_dim sp) else fs_dim sp in
  Some (FSet n sub
    (if mkind_eqb sub (fs_dim sp) then fold_left (add_copy c (fs_dim sp)) (fs_ents sp) [] else
     match fs_dim sp with
     | MREGION => fold_left (fun l h => fold_left (add_copy_once c MFACE) (map fst (k_rf m h)) l) (fs_ents sp) []
     | MFACE => fold_left (fun l h => fold_left (add_copy_once c MEDGE) (map fst (k_fe m h)) l) (fs_ents sp) []
     | _ => []
     end)).
(** inherit_labeled_sets, Mesh_MSTK.cc:5169-5298: the sets of the new mesh, in the order of the regions *)
Definition inherit_labeled_sets (m : mstk) (sets : list fset) (G : gmodel) (c : mkind -> nat -> option nat) (diff : bool) (dim : mkind) (src : list nat) : list fset :=
  flat_map (fun r => match rn_shape r with
    | SLabeled l => match set_by_name sets (prefixed_name l) with
        | Some sp => match inherit_set m c diff dim src (prefixed_name l) sp with Some s => [s] | None => [] end
        | None => []
        end
    | _ => []
    end) (gd_regions G).
