(** Model of class MeshSet and the free set functions, src/mesh/MeshSet.cc:77-539, src/mesh/MeshSet.hh:178-252, and of
    the set registry of class Mesh, src/mesh/Mesh.cc:2459-2645.
    The mesh is seen only through entity_get_type(kind, .) and num_entities(kind, .): here [types], the list of the types
    of the entities 0..n-1 of the set's kind (entity_get_type indexes a vector, Mesh.cc:2308-2352; out of range = UB).
    shared_ptr identity is modelled by numeric pointers into a heap of sets. *)
From Coq Require Import String.
From Verif Require Import Base Defs.

Record mset := MSet {
  ms_name : string; ms_kind : entity_kind;
  ms_owned : list nat;        (* entityids_owned_ *)
  ms_ghost : list nat;        (* entityids_ghost_ *)
  ms_all : list nat;          (* entityids_all_ *)
  ms_have_rev : bool;         (* have_reverse_map_ *)
  ms_rev : list Z             (* mesh2subset_ *)
}.

Section Mesh.
Context (types : list entity_type).

(** mesh_.num_entities(kind, type): number of entities of that type *)
Definition count_type (t : entity_type) : nat := length (filter (type_eqb t) types).

(** "for i: mesh2subset_[list[i]] = i" starting at position i *)
Fixpoint index_entries (l : list nat) (i : nat) (rev : list Z) : outcome (list Z) :=
  match l with
  | [] => Ok rev
  | e :: r => rev' <- wr rev e (Z.of_nat i) ;; index_entries r (S i) rev'
  end.

(** constructor, MeshSet.cc:77-101 *)
Definition make_set (name : string) (kind : entity_kind) (owned ghost : list nat) (build_rev : bool) : outcome mset :=
  let all := owned ++ ghost in
  if build_rev then
    rev <- index_entries all 0 (repeat (-1)%Z (length types)) ;;
    Ok (MSet name kind owned ghost all true rev)
  else Ok (MSet name kind owned ghost all false []).

(** index_in_set, MeshSet.hh:225-227 *)
Definition index_in_set (s : mset) (e : nat) : outcome Z :=
  match ms_rev s with [] => Ok (-1)%Z | _ => rd (ms_rev s) e end.

(** num_entities, MeshSet.hh:178-187 *)
Definition ms_num (s : mset) (t : entity_type) : nat :=
  match t with PARALLEL_OWNED => length (ms_owned s) | PARALLEL_GHOST => length (ms_ghost s)
  | TYPE_ALL => length (ms_all s) | _ => 0 end.
(** entities<type>(), MeshSet.hh:210-220 *)
Definition ms_entities (s : mset) (t : entity_type) : list nat :=
  match t with PARALLEL_OWNED => ms_owned s | PARALLEL_GHOST => ms_ghost s | TYPE_ALL => ms_all s | _ => [] end.

(** vector::insert(begin()+k, x); k beyond end() is UB *)
Definition insert_at (l : list nat) (k : nat) (x : nat) : outcome (list nat) :=
  if k <=? length l then Ok (firstn k l ++ x :: skipn k l) else UB.

Definition rev_write (s : mset) (e : nat) (i : Z) : outcome (list Z) :=
  if ms_have_rev s then wr (ms_rev s) e i else Ok (ms_rev s).

(** add_entity, MeshSet.cc:106-127 *)
Definition add_entity (s : mset) (e : nat) : outcome mset :=
  t <- rd types e ;;
  match t with
  | PARALLEL_OWNED =>
    let nowned_old := length (ms_owned s) in
    all' <- insert_at (ms_all s) nowned_old e ;;
    rev' <- rev_write s e (Z.of_nat nowned_old) ;;
    Ok (MSet (ms_name s) (ms_kind s) (ms_owned s ++ [e]) (ms_ghost s) all' (ms_have_rev s) rev')
  | PARALLEL_GHOST =>
    let all' := ms_all s ++ [e] in
    rev' <- rev_write s e (Z.of_nat (length all') - 1) ;;
    Ok (MSet (ms_name s) (ms_kind s) (ms_owned s) (ms_ghost s ++ [e]) all' (ms_have_rev s) rev')
  | _ => Ok s
  end.

(** std::find *)
Fixpoint find_pos (l : list nat) (e : nat) : option nat :=
  match l with
  | [] => None
  | x :: r => if x =? e then Some 0 else option_map S (find_pos r e)
  end.

(** "*it = list[size-1]; list.resize(size-1)" if found; MeshSet.cc:137-142, 145-150, 156-161 *)
Definition swap_last_remove (l : list nat) (e : nat) : outcome (list nat) :=
  match find_pos l e with
  | None => Ok l
  | Some i => x <- rdz l (Z.of_nat (length l) - 1) ;; l' <- wr l i x ;; Ok (firstn (length l - 1) l')
  end.

(** rem_entity, MeshSet.cc:132-164 *)
Definition rem_entity (s : mset) (e : nat) : outcome mset :=
  t <- rd types e ;;
  match t with
  | PARALLEL_OWNED =>
    o <- swap_last_remove (ms_owned s) e ;; a <- swap_last_remove (ms_all s) e ;; rev' <- rev_write s e (-1) ;;
    Ok (MSet (ms_name s) (ms_kind s) o (ms_ghost s) a (ms_have_rev s) rev')
  | PARALLEL_GHOST =>
    g <- swap_last_remove (ms_ghost s) e ;; a <- swap_last_remove (ms_all s) e ;; rev' <- rev_write s e (-1) ;;
    Ok (MSet (ms_name s) (ms_kind s) (ms_owned s) g a (ms_have_rev s) rev')
  | _ => Ok s
  end.

(** counting loop, MeshSet.cc:175-181: number of OWNED and of GHOST among the arguments *)
Fixpoint count_in (l : list nat) : outcome (nat * nat) :=
  match l with
  | [] => Ok (0, 0)
  | e :: r => t <- rd types e ;; x <- count_in r ;;
    Ok (match t with PARALLEL_OWNED => (S (fst x), snd x) | PARALLEL_GHOST => (fst x, S (snd x)) | _ => x end)
  end.

Fixpoint add_each (l : list nat) (s : mset) : outcome mset :=
  match l with [] => Ok s | e :: r => s' <- add_entity s e ;; add_each r s' end.

(** "for i = start; i < start+cnt: mesh2subset_[all[i]] = i", MeshSet.cc:206-208, 213-215 *)
Fixpoint reindex_range (all : list nat) (start cnt : nat) (rev : list Z) : outcome (list Z) :=
  match cnt with
  | O => Ok rev
  | S c => e <- rd all start ;; rev' <- wr rev e (Z.of_nat start) ;; reindex_range all (S start) c rev'
  end.

(** add_entities, MeshSet.cc:169-218.  Line 186 inserts into entityids_owned_ at an iterator of entityids_ghost_:
    undefined behaviour. *)
Definition add_entities (s : mset) (l : list nat) : outcome mset :=
  let nowned_old := length (ms_owned s) in
  let nghost_old := length (ms_ghost s) in
  x <- count_in l ;;
  let '(nowned, nghost) := x in
  let nall := length l in
  s1 <- (if nall =? nowned then
           Ok (MSet (ms_name s) (ms_kind s) (ms_owned s ++ l) (ms_ghost s) (ms_all s) (ms_have_rev s) (ms_rev s))
         else if nall =? nghost then UB
         else add_each l s) ;;
  let all' := match ms_ghost s1 with [] => l ++ ms_all s1 | _ => ms_owned s1 ++ ms_ghost s1 end in
  rev' <- (if ms_have_rev s1 then
             r1 <- reindex_range all' nowned_old nowned (ms_rev s1) ;;
             reindex_range all' (nowned_old + nowned + nghost_old) nghost r1
           else Ok (ms_rev s1)) ;;
  Ok (MSet (ms_name s1) (ms_kind s1) (ms_owned s1) (ms_ghost s1) all' (ms_have_rev s1) rev').

(** one of the three removal loops of rem_entities, MeshSet.cc:227-241, 243-253, 255-265.
    [only_owned]: the first loop looks only at entities whose type is OWNED. *)
Fixpoint rem_loop (only_owned : bool) (ins : list nat) (l : list nat) (size ndel : nat) : outcome (list nat * nat) :=
  match ins with
  | [] => Ok (l, ndel)
  | e :: r =>
    relevant <- (if only_owned then t <- rd types e ;; Ok (type_eqb t PARALLEL_OWNED) else Ok true) ;;
    if relevant then
      match find_pos l e with
      | None => rem_loop only_owned r l size ndel
      | Some i => x <- rdz l (Z.of_nat size - Z.of_nat ndel - 1) ;; l' <- wr l i x ;;
                  rem_loop only_owned r l' size (S ndel)
      end
    else rem_loop only_owned r l size ndel
  end.
Definition rem_from (only_owned : bool) (ins l : list nat) : outcome (list nat) :=
  x <- rem_loop only_owned ins l (length l) 0 ;;
  let '(l', ndel) := x in Ok (firstn (length l - ndel) l').

(** rem_entities, MeshSet.cc:223-271 *)
Definition rem_entities (s : mset) (ins : list nat) : outcome mset :=
  o <- rem_from true ins (ms_owned s) ;;
  g <- rem_from false ins (ms_ghost s) ;;
  a <- rem_from false ins (ms_all s) ;;
  rev' <- (if ms_have_rev s then index_entries a 0 (ms_rev s) else Ok (ms_rev s)) ;;
  Ok (MSet (ms_name s) (ms_kind s) o g a (ms_have_rev s) rev').

(** clear, MeshSet.hh:245-252 (have_reverse_map_ keeps its value) *)
Definition ms_clear (s : mset) : mset := MSet ""%string UNKNOWN_KIND [] [] [] (ms_have_rev s) [].

(** ** Free functions.  [h] maps pointers to sets; inputs are pointers. *)
Definition memb (e : nat) (l : list nat) : bool := existsb (Nat.eqb e) l.

(** "if find(list, ent) == end: push_back(ent)" for every ent of the set *)
Fixpoint push_missing (l acc : list nat) : list nat :=
  match l with [] => acc | e :: r => push_missing r (if memb e acc then acc else acc ++ [e]) end.
Fixpoint push_sets (h : nat -> mset) (sel : mset -> list nat) (p0 : nat) (ps : list nat) (acc : list nat) : list nat :=
  match ps with
  | [] => acc
  | p :: r => push_sets h sel p0 r (if p =? p0 then acc else push_missing (sel (h p)) acc)
  end.
Fixpoint names_cat (h : nat -> mset) (op : string) (p0 : nat) (ps : list nat) (acc : string) : string :=
  match ps with
  | [] => acc
  | p :: r => names_cat h op p0 r (if p =? p0 then acc else (acc ++ op ++ "(" ++ ms_name (h p) ++ ")")%string)
  end.

(** asserts that all sets have the kind of the first, MeshSet.cc:311-315, 378-381, 429-433 (same-mesh assert: one mesh) *)
Definition same_kind (h : nat -> mset) (p0 : nat) (ps : list nat) : bool :=
  forallb (fun p => (p =? p0) || kind_eqb (ms_kind (h p0)) (ms_kind (h p))) ps.

Definition has_rev (s : mset) : bool := match ms_rev s with [] => false | _ => true end.

(** A result is either a pointer that already existed (merge of one set) or a new set. *)
Inductive set_result := Existing (p : nat) | Fresh (s : mset).
Definition deref (h : nat -> mset) (r : set_result) : mset := match r with Existing p => h p | Fresh s => s end.

(** merge, MeshSet.cc:304-369 *)
Definition merge (h : nat -> mset) (ps : list nat) : outcome set_result :=
  match ps with
  | [] => AssertFail
  | [p0] => Ok (Existing p0)
  | p0 :: _ =>
    if negb (same_kind h p0 ps) then AssertFail else
    let s0 := h p0 in
    s <- make_set (names_cat h "_PLUS_"%string p0 ps ("(" ++ ms_name s0 ++ ")")%string) (ms_kind s0)
           (push_sets h ms_owned p0 ps (ms_owned s0)) (push_sets h ms_ghost p0 ps (ms_ghost s0)) (has_rev s0) ;;
    Ok (Fresh s)
  end.

Definition not_in (l u : list nat) : list nat := filter (fun e => negb (memb e u)) l.

(** subtract, MeshSet.cc:374-420 *)
Definition subtract (h : nat -> mset) (p0 : nat) (ps : list nat) : outcome mset :=
  if negb (forallb (fun p => kind_eqb (ms_kind (h p0)) (ms_kind (h p))) ps) then AssertFail else
  u <- merge h ps ;;
  let u := deref h u in
  let s0 := h p0 in
  make_set ("(" ++ ms_name s0 ++ ")_MINUS_(" ++ ms_name u ++ ")")%string (ms_kind s0)
    (not_in (ms_owned s0) (ms_owned u)) (not_in (ms_ghost s0) (ms_ghost u)) (has_rev s0).

Definition in_all (h : nat -> mset) (sel : mset -> list nat) (p0 : nat) (ps : list nat) (e : nat) : bool :=
  forallb (fun p => (p =? p0) || memb e (sel (h p))) ps.

(** intersect, MeshSet.cc:426-492; inpsets[0] of an empty vector is UB *)
Definition intersect (h : nat -> mset) (ps : list nat) : outcome mset :=
  match ps with
  | [] => UB
  | p0 :: _ =>
    if negb (same_kind h p0 ps) then AssertFail else
    let s0 := h p0 in
    make_set (names_cat h "_INTERSECT_"%string p0 ps ("(" ++ ms_name s0 ++ ")")%string) (ms_kind s0)
      (filter (in_all h ms_owned p0 ps) (ms_owned s0)) (filter (in_all h ms_ghost p0 ps) (ms_ghost s0)) (has_rev s0)
  end.

(** complement, MeshSet.cc:497-539.  reserve(n - size): a negative difference converts to a huge size_t and throws. *)
Definition complement (h : nat -> mset) (ps : list nat) : outcome mset :=
  match ps with
  | [] => UB
  | p0 :: _ =>
    let s0 := h p0 in
    u <- merge h ps ;;
    let u := deref h u in
    if (count_type PARALLEL_OWNED <? length (ms_owned u)) || (count_type PARALLEL_GHOST <? length (ms_ghost u)) then Thrown
    else
    make_set ("NOT_(" ++ ms_name u ++ ")")%string (ms_kind s0)
      (not_in (seq 0 (count_type PARALLEL_OWNED)) (ms_owned u))
      (not_in (seq 0 (count_type PARALLEL_GHOST)) (ms_ghost u)) (has_rev s0)
  end.

(** ** Registry: Mesh::meshsets_ is the list of registered set pointers *)
Fixpoint find_set (h : nat -> mset) (reg : list nat) (name : string) (kind : entity_kind) : option nat :=
  match reg with                                   (* Mesh::find_meshset, Mesh.cc:2594-2601 *)
  | [] => None
  | p :: r => if String.eqb (ms_name (h p)) name && kind_eqb (ms_kind (h p)) kind then Some p else find_set h r name kind
  end.
(** Mesh::num_sets, Mesh.cc:2465-2475 *)
Definition num_sets (h : nat -> mset) (reg : list nat) (kind : entity_kind) : nat :=
  match kind with ANY_KIND => length reg | _ => length (filter (fun p => kind_eqb (ms_kind (h p)) kind) reg) end.
(** Mesh::get_set_size, Mesh.cc:2606-2628 *)
Definition get_set_size h reg name kind (t : entity_type) : nat :=
  match find_set h reg name kind with Some p => ms_num (h p) t | None => 0 end.
(** Mesh::get_set_entities, Mesh.cc:2632-2648 *)
Definition get_set_entities h reg name kind (t : entity_type) : list nat :=
  match find_set h reg name kind with Some p => ms_entities (h p) t | None => [] end.
(** make_meshset, MeshSet.cc:277-298: allocate a fresh set object and register it (add_set, Mesh.cc:2459-2461).
    [next] is the fresh pointer. *)
Record registry := Reg { heap : nat -> mset; next : nat; regs : list nat }.
Definition make_meshset (R : registry) name kind owned ghost build_rev : outcome (registry * nat) :=
  s <- make_set name kind owned ghost build_rev ;;
  let p := next R in
  Ok (Reg (fun q => if q =? p then s else heap R q) (S p) (regs R ++ [p]), p).
End Mesh.
