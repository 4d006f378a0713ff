(** Model of [block_partition_regular_mesh], src/mesh/block_partition.cc:73-273.
    Simplifications: [int] is unbounded [Z]; the unused argument [domain] is dropped; the two
    parallel vectors [bnumcells] and [blimits] (always resized together, lines 149-154,
    199-203, 264-265) are one list of pairs. Each [while] takes fuel. *)
From Verif Require Import Base.
Local Open Scope Z_scope.

(** std::array<int,3> *)
Record vec3 := V3 { v0 : Z; v1 : Z; v2 : Z }.
Definition zero3 := V3 0 0 0.
Definition get (d : nat) (v : vec3) : Z := match d with O => v0 v | S O => v1 v | _ => v2 v end.
Definition set (d : nat) (x : Z) (v : vec3) : vec3 :=
  match d with O => V3 x (v1 v) (v2 v) | S O => V3 (v0 v) x (v2 v) | _ => V3 (v0 v) (v1 v) x end.

(** one entry of (blimits, bnumcells) *)
Record block := B { start : vec3; num : vec3 }.
Definition blank_block := B zero3 zero3.

(** "Blanked out block" test, lines 187-188 and 242-243 *)
Definition is_blank (b : block) : bool := (v0 (num b) =? 0) && (v1 (num b) =? 0) && (v2 (num b) =? 0).

(** State of the first bisection: nblocks, nblocks_in_dir, nblockcells_in_dir (lines 83-85) *)
Record p1 := P1 { nb : Z; nbd : vec3; nbc : vec3 }.

(** lines 83-87 *)
Definition p1_init (dim : nat) (cells : vec3) : p1 :=
  P1 1 (V3 1 1 1)
     (V3 (if (0 <? dim)%nat then v0 cells else 0)
         (if (1 <? dim)%nat then v1 cells else 0)
         (if (2 <? dim)%nat then v2 cells else 0)).

(** ncells_total, lines 89-91 *)
Definition ncells_total (dim : nat) (cells : vec3) : Z :=
  (if (0 <? dim)%nat then v0 cells else 1) * (if (1 <? dim)%nat then v1 cells else 1)
  * (if (2 <? dim)%nat then v2 cells else 1).

(** one of the three [if] groups, lines 101-113, 114-126, 127-139; the boolean says "bisected here" *)
Definition bisect (dim d : nat) (req : Z) (s : p1) : p1 * bool :=
  if ((d =? 0)%nat || (d <? dim)%nat) && (Z.rem (get d (nbc s)) 2 =? 0) && (2 * nb s <=? req)
  then (P1 (nb s * 2) (set d (get d (nbd s) * 2) (nbd s)) (set d (Z.quot (get d (nbc s)) 2) (nbc s)), true)
  else (s, false).

(** body of the first while, lines 99-146; the boolean is [done] *)
Definition p1_pass (dim : nat) (req : Z) (s : p1) : p1 * bool :=
  let '(s1, b1) := bisect dim 0 req s in
  if b1 && (nb s1 =? req) then (s1, true) else
  let '(s2, b2) := bisect dim 1 req s1 in
  if b2 && (nb s2 =? req) then (s2, true) else
  let '(s3, b3) := bisect dim 2 req s2 in
  if b3 && (nb s3 =? req) then (s3, true) else
  (s3, negb (b1 || b2 || b3)).

Fixpoint p1_loop (fuel : nat) (dim : nat) (req : Z) (s : p1) : outcome p1 :=
  match fuel with
  | O => OutOfFuel
  | S k => let '(s', done) := p1_pass dim req s in
           if done then Ok s' else p1_loop k dim req s'
  end.

(** lines 95-146 *)
Definition phase1 (fuel : nat) (dim : nat) (cells : vec3) (req : Z) : outcome p1 :=
  if 1 <? req then p1_loop fuel dim req (p1_init dim cells) else Ok (p1_init dim cells).

(** the block written at (i,j,k), lines 161-172, into a zeroed slot *)
Definition grid_block (dim : nat) (n : vec3) (i j k : nat) : block :=
  B (V3 (Z.of_nat i * v0 n)
        (if (1 <? dim)%nat then Z.of_nat j * v1 n else 0)
        (if (1 <? dim)%nat && (2 <? dim)%nat then Z.of_nat k * v2 n else 0))
    (V3 (v0 n)
        (if (1 <? dim)%nat then v1 n else 0)
        (if (1 <? dim)%nat && (2 <? dim)%nat then v2 n else 0)).

(** order of the triple loop, lines 158-176 *)
Definition grid_blocks (dim : nat) (s : p1) : list block :=
  flat_map (fun i => flat_map (fun j => map (fun k => grid_block dim (nbc s) i j k)
     (seq 0 (Z.to_nat (v2 (nbd s))))) (seq 0 (Z.to_nat (v1 (nbd s))))) (seq 0 (Z.to_nat (v0 (nbd s)))).

(** writes blimits[partnum], bnumcells[partnum]; partnum++ *)
Fixpoint fill (l : list block) (partnum : nat) (arr : list block) : outcome (list block) :=
  match l with
  | [] => Ok arr
  | b :: r => arr' <- wr arr partnum b ;; fill r (S partnum) arr'
  end.

(** lines 148-176 *)
Definition populate (dim : nat) (s : p1) : outcome (list block) :=
  fill (grid_blocks dim s) 0
    (repeat blank_block (Z.to_nat (8 * v0 (nbd s) * v1 (nbd s) * v2 (nbd s)))).

(** "for dir1 < dim: dst[dir1] = src[dir1]", lines 207-210 and 217-220 *)
Definition copy_dims (dim : nat) (src dst : vec3) : vec3 :=
  V3 (if (0 <? dim)%nat then v0 src else v0 dst) (if (1 <? dim)%nat then v1 src else v1 dst)
     (if (2 <? dim)%nat then v2 src else v2 dst).

(** body of the for-ib loop, lines 186-237, over the indices [ibs]; result: array, nnewblocks, done *)
Fixpoint split_loop (ibs : list nat) (dim dir : nat) (req : Z) (nblocks : nat) (arr : list block) (nnew : nat)
  : outcome (list block * nat * bool) :=
  match ibs with
  | [] => Ok (arr, nnew, false)
  | ib :: r =>
    b <- rd arr ib ;;
    if is_blank b then split_loop r dim dir req nblocks arr nnew else
    let n1 := Z.quot (get dir (num b)) 2 in
    let n2 := get dir (num b) - n1 in
    if (n1 =? 0) || (n2 =? 0) then split_loop r dim dir req nblocks arr nnew else
    let arr := if (length arr <? nblocks + nnew + 2)%nat
               then arr ++ repeat blank_block (length arr) else arr in
    o1 <- rd arr (nblocks + nnew)%nat ;;
    arr <- wr arr (nblocks + nnew)%nat
              (B (set dir (get dir (start b)) (copy_dims dim (start b) (start o1)))
                 (set dir n1 (copy_dims dim (num b) (num o1)))) ;;
    o2 <- rd arr (nblocks + nnew + 1)%nat ;;
    arr <- wr arr (nblocks + nnew + 1)%nat
              (B (set dir (get dir (start b) + n1) (copy_dims dim (start b) (start o2)))
                 (set dir n2 (copy_dims dim (num b) (num o2)))) ;;
    arr <- wr arr ib (B (start b) zero3) ;;
    let nnew := (nnew + 2)%nat in
    if req <=? Z.of_nat nblocks + Z.quot (Z.of_nat nnew) 2 then Ok (arr, nnew, true)
    else split_loop r dim dir req nblocks arr nnew
  end.

(** "for ib1 = ib; ib1 < nblocks+nnewblocks-1: arr[ib1] = arr[ib1+1]", lines 244-249 *)
Fixpoint shift (cnt : nat) (ib1 : nat) (arr : list block) : outcome (list block) :=
  match cnt with
  | O => Ok arr
  | S c => b <- rd arr (S ib1) ;; arr <- wr arr ib1 b ;; shift c (S ib1) arr
  end.

(** squeeze loop, lines 241-256, for ib = n-1 downto 0; result: array and the decremented nblocks *)
Fixpoint squeeze (n : nat) (arr : list block) (nblocks nnew : nat) : outcome (list block * nat) :=
  match n with
  | O => Ok (arr, nblocks)
  | S ib =>
    b <- rd arr ib ;;
    if is_blank b then
      match (nblocks + nnew)%nat with
      | O => UB
      | S last =>
        arr <- shift (last - ib) ib arr ;;
        l <- rd arr last ;;
        arr <- wr arr last (B (start l) zero3) ;;
        squeeze ib arr (nblocks - 1)%nat nnew
      end
    else squeeze ib arr nblocks nnew
  end.

(** for dir < dim loop, lines 184-260; result: array, nblocks, done *)
Fixpoint dir_loop (dirs : list nat) (dim : nat) (req : Z) (arr : list block) (nblocks : nat)
  : outcome (list block * nat * bool) :=
  match dirs with
  | [] => Ok (arr, nblocks, false)
  | dir :: r =>
    x <- split_loop (seq 0 nblocks) dim dir req nblocks arr 0 ;;
    let '(arr, nnew, done) := x in
    y <- squeeze nblocks arr nblocks nnew ;;
    let '(arr, nb') := y in
    let nb' := (nb' + nnew)%nat in
    if done then Ok (arr, nb', true) else dir_loop r dim req arr nb'
  end.

(** second while, lines 183-261 *)
Fixpoint p2_loop (fuel : nat) (dim : nat) (req : Z) (arr : list block) (nblocks : nat)
  : outcome (list block * nat) :=
  match fuel with
  | O => OutOfFuel
  | S k => x <- dir_loop (seq 0 dim) dim req arr nblocks ;;
           let '(arr, nblocks, done) := x in
           if done then Ok (arr, nblocks) else p2_loop k dim req arr nblocks
  end.

(** the whole function; the result is the pair of output vectors as one list, lines 264-270.
    [resize(nblocks)] truncates or pads. *)
Definition block_partition (fuel : nat) (dim : nat) (cells : vec3) (req : Z) : outcome (list block) :=
  if negb (req <=? ncells_total dim cells) then AssertFail else   (* line 92 *)
  s <- phase1 fuel dim cells req ;;
  arr <- populate dim s ;;
  x <- (if nb s =? req then Ok (arr, Z.to_nat (nb s))
        else p2_loop fuel dim req arr (Z.to_nat (nb s))) ;;
  let '(arr, n) := x in
  Ok (firstn n arr ++ repeat blank_block (n - length arr)).
