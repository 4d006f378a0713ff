(** Model of the state manager: class State (src/statemanager/JaliState.h:70-1465, JaliState.cc:57-160) and classes
    UniStateVector and MultiStateVector (src/statemanager/JaliStateVector.h:100-990).
    - Element values are integer codes; 0 stands for T() and T(0).  The data type T is a tag.
    - Objects held by shared_ptr are numbers: meshes, tiles, mesh sets, and the data buffers mydata_ ([st_uni] and [st_multi]).
    - Vectors with an expired or null state manager are not modelled.  int and size_t do not overflow. *)
From Coq Require Import String.
From Verif Require Import Base Loop Defs MeshSet.
Set Implicit Arguments.

(** StateVector_type and Data_layout, JaliStateVector.h:64-65 *)
Inductive vtype := UNIVAL | MULTIVAL.
Inductive layout := CELL_CENTRIC | MATERIAL_CENTRIC.
(** the template argument T *)
Inductive dtype := DT_int | DT_double | DT_arr2 | DT_arr3 | DT_arr6 | DT_other (n : nat).
(** shared_ptr<DomainType>: DomainType is Mesh or MeshTile *)
Inductive domain := OnMesh (m : nat) | OnTile (t : nat).
Definition vtype_eqb a b := match a, b with UNIVAL, UNIVAL | MULTIVAL, MULTIVAL => true | _, _ => false end.
Definition dtype_eqb a b := match a, b with
  | DT_int, DT_int | DT_double, DT_double | DT_arr2, DT_arr2 | DT_arr3, DT_arr3 | DT_arr6, DT_arr6 => true
  | DT_other i, DT_other j => i =? j | _, _ => false end.
Definition dom_eqb a b := match a, b with OnMesh i, OnMesh j => i =? j | OnTile i, OnTile j => i =? j | _, _ => false end.

(** a vector object: meta data (JaliStateVector.h:143-157, 250) and the pointer mydata_ (lines 438, 983) *)
Record svec := SVec {
  sv_name : string; sv_dom : domain; sv_kind : entity_kind; sv_etype : entity_type;
  sv_vt : vtype; sv_dt : dtype; sv_data : nat }.

(** the surroundings: the mesh of the state manager, num_entities(kind, type) of every domain, the types of the mesh's cells *)
Record env := Env { e_mesh : nat; e_size : domain -> entity_kind -> entity_type -> nat; e_types : list entity_type }.

(** the members of State (JaliState.h:1438-1463) and the heap *)
Record state := State {
  st_vecs : list svec;                (* state_vectors_ *)
  st_idx : list (list Z);             (* entity_indexes_ *)
  st_names : list string;             (* names_ *)
  st_mats : list nat;                 (* material_cellsets_ *)
  st_cellmats : list (list nat);      (* cell_materials_ *)
  st_uni : list (list Z);             (* data buffers of UniStateVectors *)
  st_multi : list (list (list Z));    (* data buffers of MultiStateVectors: one row per material *)
  st_sets : registry }.               (* the mesh's sets *)
(** State::create, JaliState.h:79-94 with the constructor, 1424-1430 *)
Definition create (sets : registry) : state := State [] (repeat [] 9) [] [] [] [] [] sets.
Definition mat_set (st : state) (p : nat) : mset := heap (st_sets st) p.

(** ** find, JaliState.h:340-762 *)
Fixpoint find_first (p : svec -> bool) (l : list svec) : option nat :=
  match l with [] => None | v :: r => if p v then Some 0 else option_map S (find_first p r) end.
Definition meta_match (name : string) (kind : entity_kind) (ty : entity_type) (v : svec) : bool :=
  String.eqb (sv_name v) name && (kind_eqb kind ANY_KIND || kind_eqb (sv_kind v) kind)
  && (type_eqb ty TYPE_ALL || type_eqb (sv_etype v) ty).
(** by name, 340-357 *)
Definition find_any (st : state) name kind ty := find_first (meta_match name kind ty) (st_vecs st).
(** on a domain, 422-451: the dynamic casts select the vectors whose DomainType is that of [dom] *)
Definition find_dom (st : state) name dom kind ty :=
  find_first (fun v => meta_match name kind ty v && dom_eqb (sv_dom v) dom) (st_vecs st).
(** of a vector type on a domain, 523-555 *)
Definition find_dom_vt (st : state) vt name dom kind ty :=
  find_first (fun v => meta_match name kind ty v && vtype_eqb (sv_vt v) vt && dom_eqb (sv_dom v) dom) (st_vecs st).
(** of data type T, 705-726 (and 632-644) *)
Record key := Key { k_vt : vtype; k_dt : dtype; k_name : string; k_dom : domain; k_kind : entity_kind; k_type : entity_type }.
Definition matches (k : key) (v : svec) : bool :=
  vtype_eqb (sv_vt v) (k_vt k) && dtype_eqb (sv_dt v) (k_dt k) && dom_eqb (sv_dom v) (k_dom k)
  && meta_match (k_name k) (k_kind k) (k_type k) v.
Definition find_t (st : state) (k : key) : option nat := find_first (matches k) (st_vecs st).
(** get into a vector: assignment copies meta data and the pointer, JaliState.h:800-815 with JaliStateVector.h:369-379, 726-736 *)
Definition get (st : state) (k : key) : option svec :=
  match find_t st k with Some i => nth_error (st_vecs st) i | None => None end.

(** ** constructors *)
(** UniStateVector with data pointer, JaliStateVector.h:300-313 (None: nullptr); reading past the caller's array is UB *)
Definition uni_data (num : nat) (data : option (list Z)) : outcome (list Z) :=
  match data with
  | None => Ok (repeat 0%Z num)
  | Some d => if num <=? length d then Ok (firstn num d) else UB
  end.
(** MultiStateVector::allocate, JaliStateVector.h:743-753 *)
Definition multi_alloc (st : state) : list (list Z) := map (fun p => repeat 0%Z (length (ms_all (mat_set st p)))) (st_mats st).
(** MultiStateVector::assign(layout, data), JaliStateVector.h:766-787 *)
Definition multi_data (st : state) (lay : layout) (data : list (list Z)) : outcome (list (list Z)) :=
  mapM (fun mp : nat * nat => let '(m, p) := mp in
    mapM (fun c => match lay with
                   | CELL_CENTRIC => r <- rd data c ;; rd r m
                   | MATERIAL_CENTRIC => r <- rd data m ;; rd r c
                   end) (ms_all (mat_set st p))) (combine (seq 0 (length (st_mats st))) (st_mats st)).
(** MultiStateVector::assign(initval), JaliStateVector.h:800-815 *)
Definition multi_val (st : state) (x : Z) : list (list Z) := map (fun p => repeat x (length (ms_all (mat_set st p)))) (st_mats st).

(** ** add *)
(** entity_indexes_[kind].emplace_back(z): the catch-all kinds are negative *)
Definition push_index (idx : list (list Z)) (kind : entity_kind) (z : Z) : outcome (list (list Z)) :=
  l <- rdz idx (kind_value kind) ;; wrz idx (kind_value kind) (l ++ [z]).
Inductive payload := PUni (l : list Z) | PMulti (rows : list (list Z)).
(** emplace_back of a new vector with its own new buffer; [early]: the index was taken before, so it is one less *)
Definition store (st : state) (k : key) (early : bool) (pl : payload) : outcome (state * nat) :=
  let n := length (st_vecs st) in
  idx <- push_index (st_idx st) (k_kind k) (if early then Z.of_nat n - 1 else Z.of_nat n)%Z ;;
  let p := match pl with PUni _ => length (st_uni st) | PMulti _ => length (st_multi st) end in
  Ok (State (st_vecs st ++ [SVec (k_name k) (k_dom k) (k_kind k) (k_type k) (k_vt k) (k_dt k) p]) idx (st_names st ++ [k_name k])
        (st_mats st) (st_cellmats st)
        (match pl with PUni l => st_uni st ++ [l] | _ => st_uni st end)
        (match pl with PMulti r => st_multi st ++ [r] | _ => st_multi st end) (st_sets st), n).

(** the calls of add: with a key and no data (1102-1136), a data pointer (1156-1188, a UniStateVector; None: nullptr), a 2D
    array (1208-1241, a MultiStateVector), a value (1293-1331), or an existing vector (1345-1406; the code compiles only for
    UniStateVectors on a Mesh, since it uses in_vec[0] and make_shared with mymesh_) *)
Inductive request :=
| RNone (k : key) | RPtr (k : key) (data : option (list Z)) | RArr (k : key) (lay : layout) (data : option (list (list Z)))
| RVal (k : key) (x : Z) | RCopy (v : svec).
Definition vkey (v : svec) : key := Key (sv_vt v) (sv_dt v) (sv_name v) (sv_dom v) (sv_kind v) (sv_etype v).
Definition key_of (r : request) : key :=
  match r with RNone k | RPtr k _ | RArr k _ _ | RVal k _ => k | RCopy v => vkey v end.
Definition compiles (r : request) : Prop :=
  match r with
  | RPtr k _ => k_vt k = UNIVAL | RArr k _ _ => k_vt k = MULTIVAL
  | RCopy v => sv_vt v = UNIVAL /\ exists m, sv_dom v = OnMesh m | _ => True end.
Definition size_of (e : env) (k : key) : nat := e_size e (k_dom k) (k_kind k) (k_type k).
(** State::add; the result is the state and the position of the vector that the returned reference denotes *)
Definition add (e : env) (st : state) (r : request) : outcome (state * nat) :=
  match find_t st (key_of r) with
  | Some i => Ok (st, i)
  | None =>
    match r with
    | RNone k => match k_vt k with
                 | UNIVAL => store st k true (PUni (repeat 0%Z (size_of e k)))
                 | MULTIVAL => store st k true (PMulti (multi_alloc st)) end
    | RPtr k data => d <- uni_data (size_of e k) data ;; store st k true (PUni d)
    | RArr k lay data =>
      rows <- match data with None => Ok (multi_alloc st) | Some d => multi_data st lay d end ;;
      store st k true (PMulti rows)
    | RVal k x => match k_vt k with
                  | UNIVAL => store st k false (PUni (repeat x (size_of e k)))
                  | MULTIVAL => store st k false (PMulti (multi_val st x)) end
    | RCopy v =>
      match sv_vt v, sv_dom v with
      | UNIVAL, OnMesh m =>
        src <- rd (st_uni st) (sv_data v) ;;
        if m =? e_mesh e then store st (vkey v) false (PUni src)
        else let k := Key UNIVAL (sv_dt v) (sv_name v) (OnMesh (e_mesh e)) (sv_kind v) (sv_etype v) in
             d <- uni_data (size_of e k) (Some src) ;; store st k false (PUni d)
      | _, _ => UB     (* does not compile *)
      end
    end
  end.

(** iteration over the vectors (their names) on a kind: entity_begin(kind)..entity_end(kind), names_entity_begin.., JaliState.h:262-304:
    the elements denoted by the indexes in entity_indexes_[kind] *)
Definition entity_range (st : state) (kind : entity_kind) : outcome (list svec) :=
  l <- rdz (st_idx st) (kind_value kind) ;; mapM (fun z => rdz (st_vecs st) z) l.
Definition names_range (st : state) (kind : entity_kind) : outcome (list string) :=
  l <- rdz (st_idx st) (kind_value kind) ;; mapM (fun z => rdz (st_names st) z) l.

(** ** element access *)
(** operator[] of UniStateVector, JaliStateVector.h:413-416 *)
Definition uni_read (st : state) (v : svec) (i : Z) : outcome Z := b <- rd (st_uni st) (sv_data v) ;; rdz b i.
Definition set_uni (st : state) u := State (st_vecs st) (st_idx st) (st_names st) (st_mats st) (st_cellmats st) u (st_multi st) (st_sets st).
Definition set_multi (st : state) u := State (st_vecs st) (st_idx st) (st_names st) (st_mats st) (st_cellmats st) (st_uni st) u (st_sets st).
Definition uni_write (st : state) (v : svec) (i : Z) (x : Z) : outcome state :=
  b <- rd (st_uni st) (sv_data v) ;; b' <- wrz b i x ;; u <- wr (st_uni st) (sv_data v) b' ;; Ok (set_uni st u).
(** copy constructor of UniStateVector, JaliStateVector.h:350-359: new buffer; also a vector made by the user *)
Definition uni_new (st : state) (l : list Z) : state * nat := (set_uni st (st_uni st ++ [l]), length (st_uni st)).
Definition uni_copy (st : state) (v : svec) : outcome (state * svec) :=
  b <- rd (st_uni st) (sv_data v) ;;
  let '(st', p) := uni_new st b in
  Ok (st', SVec (sv_name v) (sv_dom v) (sv_kind v) (sv_etype v) (sv_vt v) (sv_dt v) p).
(** which argument is the material, which the cell, JaliStateVector.h:890-891, 917-918 *)
Definition mat_arg (lay : layout) (i j : nat) := match lay with MATERIAL_CENTRIC => i | CELL_CENTRIC => j end.
Definition cell_arg (lay : layout) (i j : nat) := match lay with MATERIAL_CENTRIC => j | CELL_CENTRIC => i end.
(** operator() const, JaliStateVector.h:888-901 *)
Definition multi_read (st : state) (v : svec) (i j : nat) (lay : layout) : outcome Z :=
  let m := mat_arg lay i j in let c := cell_arg lay i j in
  if m <? length (st_mats st) then
    p <- rd (st_mats st) m ;;
    cloc <- index_in_set (mat_set st p) c ;;
    if (cloc =? -1)%Z then Ok 0%Z
    else rows <- rd (st_multi st) (sv_data v) ;; row <- rd rows m ;; rdz row cloc
  else AssertFail.
(** writing through the reference of operator(), JaliStateVector.h:915-929 *)
Definition multi_write (st : state) (v : svec) (i j : nat) (lay : layout) (x : Z) : outcome state :=
  let m := mat_arg lay i j in let c := cell_arg lay i j in
  if m <? length (st_mats st) then
    p <- rd (st_mats st) m ;;
    cloc <- index_in_set (mat_set st p) c ;;
    if (cloc =? -1)%Z then Thrown
    else rows <- rd (st_multi st) (sv_data v) ;; row <- rd rows m ;; row' <- wrz row cloc x ;;
         rows' <- wr rows m row' ;; u <- wr (st_multi st) (sv_data v) rows' ;; Ok (set_multi st u)
  else AssertFail.
(** size(m), JaliStateVector.h:935 *)
Definition multi_size (st : state) (v : svec) (m : nat) : outcome nat :=
  rows <- rd (st_multi st) (sv_data v) ;; row <- rd rows m ;; Ok (length row).

(** ** materials *)
(** JaliState.h:114-117 *)
Definition num_materials (st : state) : nat := length (st_mats st).
(** JaliState.h:121-124 *)
Definition material_name (st : state) (m : nat) : string :=
  match nth_error (st_mats st) m with Some p => ms_name (mat_set st p) | None => "UNDEFINED_MATERIAL"%string end.
(** JaliState.h:128-134; None: -1 *)
Fixpoint index_by_name (h : nat -> mset) (mats : list nat) (name : string) : option nat :=
  match mats with
  | [] => None
  | p :: r => if String.eqb name (ms_name (h p)) then Some 0 else option_map S (index_by_name h r name)
  end.
Definition material_index_by_name (st : state) name := index_by_name (heap (st_sets st)) (st_mats st) name.
(** JaliState.h:148-154, 160-166 *)
Definition material_cells (st : state) (m : nat) : list nat :=
  match nth_error (st_mats st) m with Some p => ms_all (mat_set st p) | None => [] end.
Definition num_material_cells (st : state) (m : nat) : nat := length (material_cells st m).
(** JaliState.h:171-180 *)
Definition cell_materials (st : state) (c : nat) : outcome (list nat) :=
  match st_mats st with [] => Ok [] | _ => rd (st_cellmats st) c end.
(** JaliState.h:212-215 *)
Definition cell_index_in_material (st : state) (c m : nat) : outcome Z :=
  match nth_error (st_mats st) m with Some p => index_in_set (mat_set st p) c | None => AssertFail end.

Definition set_heap (R : registry) (p : nat) (s : mset) : registry := Reg (fun q => if q =? p then s else heap R q) (next R) (regs R).
(** "for c in cells: cell_materials_[c].push_back(m)" *)
Definition push_mat (m : nat) (cells : list nat) (cm : list (list nat)) : outcome (list (list nat)) :=
  foldM cells (fun c cm => l <- rd cm c ;; wr cm c (l ++ [m])) cm.
(** the loop over the multi-material vectors; [f] acts on the buffer; [tile] is what happens for a vector on a tile *)
Definition for_multi (st : state) (f : list (list Z) -> outcome (list (list Z))) (tile : list (list (list Z)) -> outcome (list (list (list Z))))
    (mb : list (list (list Z))) : outcome (list (list (list Z))) :=
  foldM (st_vecs st) (fun v mb =>
    match sv_vt v with
    | UNIVAL => Ok mb
    | MULTIVAL => match sv_dom v with
                  | OnMesh _ => rows <- rd mb (sv_data v) ;; rows' <- f rows ;; wr mb (sv_data v) rows'
                  | OnTile _ => tile mb
                  end
    end) mb.
Definition set_mats (st : state) mats cm mb sets := State (st_vecs st) (st_idx st) (st_names st) mats cm (st_uni st) mb sets.

(** add_material, JaliState.cc:59-96, with MultiStateVector::add_material, JaliStateVector.h:952-956 *)
Definition add_material (e : env) (st : state) (name : string) (cells : list nat) : outcome state :=
  if existsb (fun p => String.eqb name (ms_name (mat_set st p))) (st_mats st) then Ok st else
  rp <- (match find_set (heap (st_sets st)) (regs (st_sets st)) name CELL with
         | Some p => Ok (st_sets st, p)
         | None => make_meshset (e_types e) (st_sets st) name CELL [] [] true
         end) ;;
  let '(R, p) := rp in
  s <- add_entities (e_types e) (heap R p) cells ;;
  let R := set_heap R p s in
  let mats := st_mats st ++ [p] in
  cm <- push_mat (length mats - 1) cells (match st_cellmats st with [] => repeat [] (length (e_types e)) | cm => cm end) ;;
  mb <- for_multi st (fun rows => Ok (rows ++ [repeat 0%Z (length cells)])) (fun mb => Ok mb) (st_multi st) ;;
  Ok (set_mats st mats cm mb R).

Definition erase_at {A} (l : list A) (i : nat) : outcome (list A) := if i <? length l then Ok (firstn i l ++ skipn (S i) l) else UB.
(** "nmats = size; for i < nmats: if (m == list[i]) erase(begin()+i)", JaliState.cc:107-110: nmats is not updated *)
Fixpoint erase_loop (m : nat) (i cnt : nat) (l : list nat) : outcome (list nat) :=
  match cnt with
  | O => Ok l
  | S cnt => x <- rd l i ;; l' <- (if m =? x then erase_at l i else Ok l) ;; erase_loop m (S i) cnt l'
  end.
(** rem_material, JaliState.cc:99-122, with MultiStateVector::rem_material, JaliStateVector.h:959-961 *)
Definition rem_material (st : state) (m : nat) : outcome state :=
  match nth_error (st_mats st) m with
  | None => Ok st
  | Some p =>
    cm <- foldM (ms_all (mat_set st p)) (fun c cm => l <- rd cm c ;; l' <- erase_loop m 0 (length l) l ;; wr cm c l') (st_cellmats st) ;;
    mats <- erase_at (st_mats st) m ;;
    mb <- for_multi st (fun rows => erase_at rows m) (fun mb => Ok mb) (st_multi st) ;;
    Ok (set_mats st mats cm mb (st_sets st))
  end.
(** add_cells_to_material, JaliState.cc:126-140: a multi-material vector on a tile is a null dereference *)
Definition add_cells_to_material (e : env) (st : state) (m : nat) (cells : list nat) : outcome state :=
  match nth_error (st_mats st) m with
  | None => AssertFail
  | Some p =>
    s <- add_entities (e_types e) (mat_set st p) cells ;;
    cm <- push_mat m cells (st_cellmats st) ;;
    mb <- for_multi st (fun rows => row <- rd rows m ;; wr rows m (row ++ repeat 0%Z (length cells))) (fun _ => UB) (st_multi st) ;;
    Ok (set_mats st (st_mats st) cm mb (set_heap (st_sets st) p s))
  end.

(** ** histories *)
Inductive op :=
| OAdd (r : request) | ONew (l : list Z) | OWrite (v : svec) (i : Z) (x : Z) | OMWrite (v : svec) (i j : nat) (lay : layout) (x : Z)
| OAddMat (name : string) (cells : list nat) | ORemMat (m : nat) | OAddCells (m : nat) (cells : list nat).
Definition step (e : env) (st : state) (o : op) : outcome state :=
  match o with
  | OAdd r => x <- add e st r ;; Ok (fst x)
  | ONew l => Ok (fst (uni_new st l))
  | OWrite v i x => uni_write st v i x
  | OMWrite v i j lay x => multi_write st v i j lay x
  | OAddMat name cells => add_material e st name cells
  | ORemMat m => rem_material st m
  | OAddCells m cells => add_cells_to_material e st m cells
  end.
Definition run (e : env) (st : state) (ops : list op) : outcome state := foldM ops (fun o st => step e st o) st.
