(** Specification vocabulary for the state manager, in terms of stored vectors and what queries return. *)
From Coq Require Import String Permutation.
From Verif Require Import Base Loop Defs MeshSet MeshSet_spec State.
Set Implicit Arguments.

(** the vector [v] has name [name], and kind and type as asked for (ANY_KIND and ALL ask for nothing) *)
Definition described (name : string) (kind : entity_kind) (ty : entity_type) (v : svec) : Prop :=
  sv_name v = name /\ (kind = ANY_KIND \/ sv_kind v = kind) /\ (ty = TYPE_ALL \/ sv_etype v = ty).
(** the vector [v] is one that the key [k] asks for *)
Definition answers (k : key) (v : svec) : Prop :=
  sv_vt v = k_vt k /\ sv_dt v = k_dt k /\ sv_dom v = k_dom k /\ described (k_name k) (k_kind k) (k_type k) v.
(** [i] is the first position in [l] at which [P] holds *)
Definition first_at {A} (P : A -> Prop) (l : list A) (i : nat) : Prop :=
  (exists v, nth_error l i = Some v /\ P v) /\ forall j v, j < i -> nth_error l j = Some v -> ~ P v.

(** the request does not copy a vector of another mesh *)
Definition own_mesh (e : env) (r : request) : Prop :=
  match r with RCopy v => sv_dom v = OnMesh (e_mesh e) | _ => True end.
(** the key under which a new vector is stored *)
Definition stored_key (e : env) (r : request) : key :=
  match r with
  | RCopy v => Key (sv_vt v) (sv_dt v) (sv_name v) (OnMesh (e_mesh e)) (sv_kind v) (sv_etype v)
  | _ => key_of r end.
(** the add calls of a history *)
Definition adds (ops : list op) : list request := flat_map (fun o => match o with OAdd r => [r] | _ => [] end) ops.
(** add calls that give a value or an existing vector (the others: no data, a pointer or a 2D array) *)
Definition late (r : request) : Prop := match r with RVal _ _ | RCopy _ => True | _ => False end.
(** the history consists of calls that compile *)
Definition all_compile (ops : list op) : Prop := forall r, In r (adds ops) -> compiles r.

(** contents of a vector *)
Definition uni_values (st : state) (v : svec) : option (list Z) := nth_error (st_uni st) (sv_data v).
Definition multi_values (st : state) (v : svec) : option (list (list Z)) := nth_error (st_multi st) (sv_data v).

(** the invariant of reachable states that separates the vectors' data *)
Record vec_inv (st : state) : Prop := {
  vi_idx : length (st_idx st) = 9;
  vi_names : st_names st = map sv_name (st_vecs st);
  vi_uni : forall v, In v (st_vecs st) -> sv_vt v = UNIVAL -> sv_data v < length (st_uni st);
  vi_multi : forall v, In v (st_vecs st) -> sv_vt v = MULTIVAL -> sv_data v < length (st_multi st);
  vi_sep : forall i j v w, nth_error (st_vecs st) i = Some v -> nth_error (st_vecs st) j = Some w -> sv_vt v = sv_vt w ->
    sv_data v = sv_data w -> i = j }.

(** ** Materials: what the tables say.  [ms] lists (name, cells) of the materials in order. *)
Definition has_cell (ms : list (string * list nat)) (c m : nat) : bool :=
  match nth_error ms m with Some x => memb c (snd x) | None => false end.
Record mat_tables (e : env) (st : state) (ms : list (string * list nat)) : Prop := {
  mt_count : num_materials st = length ms;
  mt_name : forall m x, nth_error ms m = Some x -> material_name st m = fst x /\ material_index_by_name st (fst x) = Some m;
  (* its cells are the given ones *)
  mt_cells : forall m x, nth_error ms m = Some x -> Permutation (material_cells st m) (snd x);
  (* a cell lists exactly the materials that have it, in order *)
  mt_cell_materials : forall c, c < length (e_types e) ->
    cell_materials st c = Ok (filter (has_cell ms c) (seq 0 (length ms)));
  (* the position of a cell in its material, -1 for others *)
  mt_index : forall m x c, nth_error ms m = Some x -> c < length (e_types e) ->
    exists z, cell_index_in_material st c m = Ok z /\
      ((exists k, z = Z.of_nat k /\ nth_error (material_cells st m) k = Some c) \/ (z = (-1)%Z /\ ~ In c (snd x)));
  (* every multi-material vector on a mesh has one value for each material and cell of it *)
  mt_vectors : forall v k, In v (st_vecs st) -> sv_vt v = MULTIVAL -> sv_dom v = OnMesh k ->
    exists rows, multi_values st v = Some rows /\ map (@length Z) rows = map (fun x => length (snd x)) ms }.
(** cells that can be given to a material: each once, each owned or ghost, not only ghosts *)
Definition valid_cells (e : env) (cells : list nat) : Prop :=
  NoDup cells /\ (forall c, In c cells -> nth_error (e_types e) c = Some PARALLEL_OWNED \/ nth_error (e_types e) c = Some PARALLEL_GHOST) /\
  (cells = [] \/ exists c, In c cells /\ nth_error (e_types e) c = Some PARALLEL_OWNED).
(** the materials, (name, cells), that a history should lead to *)
Fixpoint mats_of (ms : list (string * list nat)) (ops : list op) : list (string * list nat) :=
  match ops with
  | [] => ms
  | OAddMat name cells :: r => mats_of (if existsb (String.eqb name) (map fst ms) then ms else ms ++ [(name, cells)]) r
  | ORemMat m :: r => mats_of (firstn m ms ++ skipn (S m) ms) r
  | OAddCells m cells :: r => mats_of (match nth_error ms m with Some x => set_nth ms m (fst x, snd x ++ cells) | None => ms end) r
  | _ :: r => mats_of ms r
  end.
(** what is asked of a history for C42-C44: a material gets a name no cell set ever had (or one of a present material, which is
    ignored) and valid cells; only the last material is removed; no cells are added to a material *)
Fixpoint mat_ok (e : env) (used : list string) (ms : list (string * list nat)) (ops : list op) : Prop :=
  match ops with
  | [] => True
  | OAddMat name cells :: r =>
      (In name (map fst ms) /\ mat_ok e used ms r) \/
      (~ In name (map fst ms) /\ ~ In name used /\ valid_cells e cells /\ mat_ok e (name :: used) (ms ++ [(name, cells)]) r)
  | ORemMat m :: r => length ms <= S m /\ mat_ok e used (firstn m ms) r
  | OAddCells _ _ :: _ => False
  | _ :: r => mat_ok e used ms r
  end.
Definition set_names (R : registry) : list string := map (fun p => ms_name (heap R p)) (filter (fun p => kind_eqb (ms_kind (heap R p)) CELL) (regs R)).
(** the value last written to the element (m, c) of the vector [v] in a history, [a] being the initial one *)
Definition last_written (v : svec) (m c : nat) (ops : list op) (a : Z) : Z :=
  fold_left (fun a o => match o with
    | OMWrite w i j lay y => if (sv_data w =? sv_data v) && (mat_arg lay i j =? m) && (cell_arg lay i j =? c) then y else a
    | _ => a end) ops a.
