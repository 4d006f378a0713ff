(** Property C90 (and C03 end to end): what Partitioner_type::BLOCK does to box meshes, other rectilinear meshes and lines. *)
From Coq Require Import Reals Lra Permutation.
From Verif Require Import Base Loop Defs Factory SimpleMesh SimpleMesh_spec SimpleMesh_proofs SimpleMesh_proofs2 SimpleMesh_proofs3 SimpleMesh_proofs4
  SimpleTopo SimpleGeom Props_SimpleMesh Props_SimpleGeom Cache Cache_spec Cache_proofs Cache_proofs2 Cache_proofs4 Cache_proofs5 Cache_proofs6 Props_Cache Props_Cache1D
  BlockPartition BlockPartition_spec BlockPartition_proofs2 BlockAssign BlockAssign_proofs Partition_spec
  Point Geometry Geometry_spec Geometry_proofs Props_Segment
  MeshGeom BoxGeom BoxGeom_spec MeshGeom_spec MeshGeom_proofs MeshGeom_proofs2 BoxGeom_proofs BoxGeom_proofs2 BoxGeom_proofs3 Props_BoxGeom Props_Line BlockDiscover BlockDiscover_proofs.
Set Implicit Arguments.
Local Open Scope R_scope.
Local Notation ncells := SimpleMesh_proofs2.ncells.

(** ** Specification vocabulary *)
(** the grid lines stay within the initial values of the domain limits, +-1e20 *)
Definition in_range (n : nat) (g : nat -> R) : Prop := - 10 ^ 20 < g 0%nat /\ g n < 10 ^ 20.
(** the cells between two corners of the grid *)
Definition brick (lo hi : pos3) (p : pos3) : Prop :=
  let '(a, b, c) := lo in let '(a', b', c') := hi in let '(i, j, k) := p in (a <= i < a' /\ b <= j < b' /\ c <= k < c')%nat.
(** no part lists a cell twice or something that is no cell, and no cell is in two parts *)
Definition at_most_once (n k : nat) (parts : list (list nat)) : Prop :=
  length parts = k /\ (forall p, In p parts -> NoDup p) /\ (forall p c, In p parts -> In c p -> (c < n)%nat) /\
  (forall i j p q c, nth_error parts i = Some p -> nth_error parts j = Some q -> In c p -> In c q -> i = j).

(** ** assignment in general *)
Definition lands dim lo hi cells blocks (ccen : nat -> nat -> R) (j c : nat) : bool :=
  match find_block dim lo hi cells blocks 0 (ccen c) with Some i => (i =? j)%nat | None => false end.
Lemma find_block_lt dim lo hi cells blocks ccen : forall i0 i, find_block dim lo hi cells blocks i0 ccen = Some i -> (i0 <= i < i0 + length blocks)%nat.
Proof.
  induction blocks as [|b r IH]; cbn [find_block length]; intros i0 i E; [discriminate|]. destruct (inside_block _ _ _ _ _ _); [injection E as <-; lia|]. apply IH in E. lia.
Qed.
Lemma assign_cells_gen dim lo hi cells blocks ccen : forall cs parts, (length blocks <= length parts)%nat ->
  exists parts', assign_cells dim lo hi cells blocks cs ccen parts = Ok parts' /\ length parts' = length parts /\
    forall j old, nth_error parts j = Some old -> nth_error parts' j = Some (old ++ filter (lands dim lo hi cells blocks ccen j) cs).
Proof.
  induction cs as [|c r IH]; intros parts HL; cbn [assign_cells].
  - exists parts. split; auto. split; auto. intros j old E. cbn [filter]. rewrite app_nil_r. auto.
  - destruct (find_block dim lo hi cells blocks 0 (ccen c)) as [i|] eqn:Ef.
    + assert (Li := find_block_lt _ _ _ _ _ _ _ Ef). destruct (nth_error parts i) as [old|] eqn:E; [|apply nth_error_None in E; lia].
      unfold rd. rewrite E. cbn [bind]. rewrite wr_ok by lia. cbn [bind]. destruct (IH (set_nth parts i (old ++ [c]))) as (parts' & E' & L' & H'); [rewrite set_nth_length; auto|].
      exists parts'. rewrite set_nth_length in L'. split; auto. split; auto. intros j o Hj. cbn [filter]. unfold lands at 1. rewrite Ef. destruct (Nat.eqb_spec i j) as [<-|Ne].
      * rewrite (H' _ (old ++ [c])) by (apply nth_error_set_nth_eq; lia). rewrite E in Hj. injection Hj as <-. rewrite <- app_assoc. reflexivity.
      * apply H'. rewrite nth_error_set_nth_ne; auto.
    + destruct (IH parts HL) as (parts' & E' & L' & H'). exists parts'. split; auto. split; auto. intros j o Hj. cbn [filter]. unfold lands at 1. rewrite Ef. auto.
Qed.
Lemma assigned dim lo hi cells blocks ccen n : exists parts, assign_cells dim lo hi cells blocks (seq 0 n) ccen (repeat [] (length blocks)) = Ok parts /\
  at_most_once n (length blocks) parts /\ (forall j c, (j < length blocks)%nat -> (c < n)%nat -> exists p, nth_error parts j = Some p /\ (In c p <-> find_block dim lo hi cells blocks 0 (ccen c) = Some j)).
Proof.
  destruct (@assign_cells_gen dim lo hi cells blocks ccen (seq 0 n) (repeat [] (length blocks))) as (parts & E & L & H); [rewrite repeat_length; auto|]. rewrite repeat_length in L.
  assert (H' : forall j, (j < length blocks)%nat -> nth_error parts j = Some (filter (lands dim lo hi cells blocks ccen j) (seq 0 n))) by (intros j Hj; rewrite (H j []); [reflexivity|apply nth_error_repeat; auto]).
  assert (Hp : forall p, In p parts -> exists j, (j < length blocks)%nat /\ p = filter (lands dim lo hi cells blocks ccen j) (seq 0 n)).
  { intros p I. apply In_nth_error in I as [j Hj]. assert (Lj := nth_error_lt _ _ Hj). rewrite L in Lj. exists j. split; auto. rewrite H' in Hj by auto. congruence. }
  exists parts. split; auto. split; [split; [auto|split; [|split]]|].
  - intros p I. destruct (Hp p I) as (j & _ & ->). apply NoDup_filter, seq_NoDup.
  - intros p c I Ic. destruct (Hp p I) as (j & _ & ->). apply filter_In in Ic as [Ic _]. apply in_seq in Ic. lia.
  - intros i j p q c Hi Hj Ip Iq. assert (Li := nth_error_lt _ _ Hi). assert (Lj := nth_error_lt _ _ Hj). rewrite H' in Hi, Hj by lia. injection Hi as <-. injection Hj as <-.
    apply filter_In in Ip as [_ Ip]. apply filter_In in Iq as [_ Iq]. unfold lands in *. destruct (find_block _ _ _ _ _ _ _); [|discriminate]. apply Nat.eqb_eq in Ip, Iq. congruence.
  - intros j c Hj Hc. eexists. split; [apply H'; auto|]. rewrite filter_In, in_seq. unfold lands. destruct (find_block _ _ _ _ _ _ _) as [i|].
    + rewrite Nat.eqb_eq. split; [intros [_ <-]; auto|intros [= ->]; split; [lia|auto]].
    + split; [intros [_ ?]; discriminate|discriminate].
Qed.

Lemma box_valid d : positive d -> valid_grid 3 (V3 (Z.of_nat (nx d)) (Z.of_nat (ny d)) (Z.of_nat (nz d))).
Proof. intros (A & B & C). split; [lia|]. intros [|[|[|a]]] Ha; cbn; lia. Qed.
Lemma box_cells d : grid_cells 3 (V3 (Z.of_nat (nx d)) (Z.of_nat (ny d)) (Z.of_nat (nz d))) = Z.of_nat (nx d * ny d * nz d).
Proof. unfold grid_cells. cbn [seq map fold_right get v0 v1 v2]. lia. Qed.

Section S.
Variables (d : dims) (M : gmesh) (gx gy gz : nat -> R) (X : coordinates) (xs : list coordinates) (g : geo).
Hypothesis Hd : positive d.
Hypothesis HM : box_object d M.
Hypothesis HX : rectilinear d gx gy gz X.
Hypothesis IX : increasing (nx d) gx.
Hypothesis IY : increasing (ny d) gy.
Hypothesis IZ : increasing (nz d) gz.
Hypothesis HG : history M (X :: xs) g.
Hypothesis RX : in_range (nx d) gx.
Hypothesis RY : in_range (ny d) gy.
Hypothesis RZ : in_range (nz d) gz.
Variable fuel : nat.
Hypothesis FX : (nx d <= fuel)%nat.
Hypothesis FY : (ny d <= fuel)%nat.
Hypothesis FZ : (nz d <= fuel)%nat.
Let cells := V3 (Z.of_nat (nx d)) (Z.of_nat (ny d)) (Z.of_nat (nz d)).

Lemma found : exists l, discover fuel M X g = Ok (Some (l, cells)) /\ forall a, (a < 3)%nat -> fst l a = line gx gy gz a 0 /\ snd l a = line gx gy gz a (count d a).
Proof.
  apply (@discover_ok d M gx gy gz X xs g Hd HM HX IX IY IZ HG).
  - intros [|[|a]]; cbn; assumption.
  - intros [|[|a]] _; cbn; assumption.
Qed.
Lemma box_ncells : ncells d = (nx d * ny d * nz d)%nat.
Proof. unfold SimpleMesh_proofs2.ncells. lia. Qed.
Lemma centroids : (exists cs, mapM (fun c => cell_centroid M X g c false) (seq 0 (ncells d)) = Ok cs) /\
  forall i j k, cell_at d (i, j, k) -> nth (cid d (i, j, k)) (g_ccen g) (pzero (sdim M)) = Pt 3 (middle gx i) (middle gy j) (middle gz k).
Proof.
  clear RX RY RZ FX FY FZ cells fuel. split.
  - apply mapM_exists. intros c I. apply in_seq in I. destruct (@cpos_ok d c) as [Ca Ci]; [lia|]. destruct (cpos d c) as [[i j] k]. rewrite <- Ci.
    destruct (@c81_cells d M gx gy gz X xs g i j k false Hd HM HG HX IX IY IZ Ca) as [_ E]. eauto.
  - intros i j k H. destruct (@c81_cells d M gx gy gz X xs g i j k false Hd HM HG HX IX IY IZ H) as [_ E]. unfold cell_centroid, asserting in E. destruct (g_cok g); [|discriminate].
    apply rd_Ok in E. apply nth_error_nth. auto.
Qed.
Lemma unfolded k l : (forall blocks, block_partition fuel 3 cells (Z.of_nat k) = Ok blocks -> length blocks = k) -> discover fuel M X g = Ok (Some (l, cells)) ->
  get_partitioning_by_blocks fuel M X g k = (blocks <- block_partition fuel 3 cells (Z.of_nat k) ;;
    assign_cells 3 (fst l) (snd l) cells blocks (seq 0 (ncells d)) (fun c => coord (nth c (g_ccen g) (pzero (sdim M)))) (repeat [] (length blocks))).
Proof.
  intros HL E. unfold get_partitioning_by_blocks. rewrite E. cbn [bind]. assert (SD : sdim M = 3%nat) by (destruct HM as (? & ? & ? & ? & ? & ? & ? & _ & _ & _ & ->); reflexivity).
  rewrite (owned_ids HM HG). destruct centroids as [[cs Ec] _]. rewrite !SD in *. destruct (block_partition fuel 3 cells (Z.of_nat k)) as [blocks| | | |] eqn:EB; cbn [bind]; auto.
  rewrite Ec. cbn [bind]. rewrite (HL blocks eq_refl). reflexivity.
Qed.
Lemma block_count k : (1 <= k <= nx d * ny d * nz d)%nat -> (k < fuel)%nat -> exists blocks, block_partition fuel 3 cells (Z.of_nat k) = Ok blocks /\ length blocks = k /\ tiling 3 cells blocks.
Proof.
  intros Hk Hf. assert (Hk' : (1 <= Z.of_nat k <= grid_cells 3 cells)%Z) by (unfold cells; rewrite box_cells; lia).
  destruct (@block_partition_count 3 cells (Z.of_nat k) fuel (box_valid Hd) Hk') as (blocks & EB & HL); [lia|]. exists blocks. split; auto. split; [lia|].
  apply (@block_partition_tiling 3 cells (Z.of_nat k) fuel blocks (box_valid Hd) Hk'); [lia|auto].
Qed.
Lemma any_grid k : (1 <= k <= nx d * ny d * nz d)%nat -> (k < fuel)%nat -> exists l blocks parts, discover fuel M X g = Ok (Some (l, cells)) /\
  (forall a, (a < 3)%nat -> fst l a = line gx gy gz a 0 /\ snd l a = line gx gy gz a (count d a)) /\
  block_partition fuel 3 cells (Z.of_nat k) = Ok blocks /\ tiling 3 cells blocks /\ get_partitioning_by_blocks fuel M X g k = Ok parts /\ at_most_once (ncells d) k parts /\ length blocks = k /\
  (forall j c, (j < k)%nat -> (c < ncells d)%nat -> exists p, nth_error parts j = Some p /\ (In c p <-> find_block 3 (fst l) (snd l) cells blocks 0 (coord (nth c (g_ccen g) (pzero (sdim M)))) = Some j)).
Proof.
  intros Hk Hf. destruct found as (l & El & Hl). destruct (block_count Hk Hf) as (blocks & EB & HL & HT).
  destruct (@assigned 3 (fst l) (snd l) cells blocks (fun c => coord (nth c (g_ccen g) (pzero (sdim M)))) (ncells d)) as (parts & Ep & A & B). rewrite HL in A, B.
  exists l, blocks, parts. do 4 (split; [assumption|]). split; [|auto]. rewrite (@unfolded k l); auto; [rewrite EB; exact Ep|]. intros b Eb. congruence.
Qed.
End S.

(** ** C90 *)
(** On every box mesh with increasing grid lines the walk finds the extent of the domain and the number of cells in each direction. *)
Theorem c90_discovery : forall d M gx gy gz X xs g fuel, positive d -> box_object d M -> history M (X :: xs) g -> rectilinear d gx gy gz X ->
  increasing (nx d) gx -> increasing (ny d) gy -> increasing (nz d) gz -> in_range (nx d) gx -> in_range (ny d) gy -> in_range (nz d) gz ->
  (nx d <= fuel)%nat -> (ny d <= fuel)%nat -> (nz d <= fuel)%nat ->
  exists l, discover fuel M X g = Ok (Some (l, V3 (Z.of_nat (nx d)) (Z.of_nat (ny d)) (Z.of_nat (nz d)))) /\
    (fst l 0%nat, fst l 1%nat, fst l 2%nat) = (gx 0%nat, gy 0%nat, gz 0%nat) /\ (snd l 0%nat, snd l 1%nat, snd l 2%nat) = (gx (nx d), gy (ny d), gz (nz d)).
Proof.
  intros d M gx gy gz X xs g fuel Hd HM HG HX IX IY IZ RX RY RZ FX FY FZ. destruct (@found d M gx gy gz X xs g Hd HM HX IX IY IZ HG RX RY RZ fuel FX FY FZ) as (l & El & Hl).
  exists l. split; [exact El|]. rewrite !(fun a Ha => proj1 (Hl a Ha)), !(fun a Ha => proj2 (Hl a Ha)) by lia. auto.
Qed.

(** *** uniform boxes: C03 end to end *)
Lemma middle_division lo hi n i : (1 <= n)%nat ->
  middle (division lo hi n) i = division lo hi n 0 + (IZR (Z.of_nat i) + / 2) * ((division lo hi n n - division lo hi n 0) / IZR (Z.of_nat n)).
Proof.
  intros Hn. rewrite <- !INR_IZR_INZ. unfold middle, division. rewrite plus_INR. cbn [INR]. assert (H : INR n <> 0) by (apply not_0_INR; lia). field. auto.
Qed.
Definition zpos (p : pos3) (a : nat) : Z := Z.of_nat (at_axis a p).
Lemma in_grid_zpos d p : cell_at d p -> in_grid 3 (V3 (Z.of_nat (nx d)) (Z.of_nat (ny d)) (Z.of_nat (nz d))) (zpos p).
Proof. destruct p as [[i j] k]. intros (A & B & C). intros [|[|[|a]]] Ha; unfold zpos; cbn; lia. Qed.
Section U.
Variables (x0 y0 z0 x1 y1 z1 : R) (d : dims) (M : gmesh) (X : coordinates) (xs : list coordinates) (g : geo).
Hypothesis Hd : positive d.
Hypothesis HM : box_object d M.
Hypothesis HG : history M (X :: xs) g.
Hypothesis HX : rectilinear d (division x0 x1 (nx d)) (division y0 y1 (ny d)) (division z0 z1 (nz d)) X.
Hypothesis Lx : x0 < x1.
Hypothesis Ly : y0 < y1.
Hypothesis Lz : z0 < z1.
Hypothesis Bx : - 10 ^ 20 < x0 /\ x1 < 10 ^ 20.
Hypothesis By : - 10 ^ 20 < y0 /\ y1 < 10 ^ 20.
Hypothesis Bz : - 10 ^ 20 < z0 /\ z1 < 10 ^ 20.
Lemma division_ends lo hi n : (1 <= n)%nat -> division lo hi n 0 = lo /\ division lo hi n n = hi.
Proof. intros Hn. assert (H : INR n <> 0) by (apply not_0_INR; lia). unfold division. cbn [INR]. split; field; auto. Qed.
Lemma uniform k fuel : (1 <= k <= nx d * ny d * nz d)%nat -> (k < fuel)%nat -> (nx d <= fuel)%nat -> (ny d <= fuel)%nat -> (nz d <= fuel)%nat ->
  exists blocks parts, get_partitioning_by_blocks fuel M X g k = Ok parts /\ at_most_once (ncells d) k parts /\ length blocks = k /\ tiling 3 (V3 (Z.of_nat (nx d)) (Z.of_nat (ny d)) (Z.of_nat (nz d))) blocks /\
  forall j b, nth_error blocks j = Some b -> exists p, nth_error parts j = Some p /\ forall q, cell_at d q -> (In (cid d q) p <-> in_block 3 b (zpos q)).
Proof.
  intros Hk Hf F1 F2 F3. pose proof Hd as (P1 & P2 & P3). destruct (@division_ends x0 x1 (nx d) P1) as [Ex Ex'], (@division_ends y0 y1 (ny d) P2) as [Ey Ey'], (@division_ends z0 z1 (nz d) P3) as [Ez Ez'].
  assert (IX := division_increasing P1 Lx). assert (IY := division_increasing P2 Ly). assert (IZ := division_increasing P3 Lz).
  destruct (@any_grid d M _ _ _ X xs g Hd HM HX IX IY IZ HG) with (fuel := fuel) (k := k) as (l & blocks & parts & _ & Hl & _ & HT & Ep & A & HL & B); auto;
    try (unfold in_range; rewrite ?Ex, ?Ex', ?Ey, ?Ey', ?Ez, ?Ez'; assumption).
  exists blocks, parts. do 4 (split; [assumption|]). intros j b Hb. assert (Lj := nth_error_lt _ _ Hb). rewrite HL in Lj.
  assert (0 < ncells d)%nat by (unfold SimpleMesh_proofs2.ncells; nia).
  destruct (@B j 0%nat Lj) as (p & Hp & _); auto. exists p. split; auto. intros q Hq. assert (Lc := cid_lt d q Hq). destruct (@B j _ Lj Lc) as (p' & Hp' & Q). rewrite Hp in Hp'. injection Hp' as <-. rewrite Q. clear Q.
  assert (V : valid_grid 3 (V3 (Z.of_nat (nx d)) (Z.of_nat (ny d)) (Z.of_nat (nz d)))) by (split; [lia|intros [|[|[|a]]] Ha; cbn; lia]).
  assert (LH : forall a, (a < 3)%nat -> fst l a < snd l a) by (intros [|[|[|a]]] Ha; try lia; rewrite (proj1 (Hl _ Ha)), (proj2 (Hl _ Ha)); cbn [line count]; lra).
  destruct (tl_cover _ _ _ HT _ (in_grid_zpos _ _ Hq)) as (i & (b' & Hb' & Ib) & Un).
  rewrite (@find_block_spec 3 (fst l) (snd l) _ V LH (zpos q)) with (i := i); [cbn [Nat.add]| |congruence|eauto|intros j' Hj'; symmetry; apply Un; auto].
  - split; [intros [= ->]; rewrite Hb in Hb'; injection Hb' as <-; auto|]. intros Ij. f_equal. apply Un. eauto.
  - intros a Ha. unfold centre, szdelta. rewrite (proj1 (Hl _ Ha)), (proj2 (Hl _ Ha)). destruct q as [[qi qj] qk]. destruct (@centroids d M _ _ _ X xs g Hd HM HX IX IY IZ HG) as [_ ->]; auto.
    destruct a as [|[|[|a]]]; try lia; unfold zpos; cbn [coord p0 p1 p2 line count at_axis get v0 v1 v2]; apply middle_division; auto.
Qed.
End U.
(** Every cell is in exactly one part, and every part is a non-empty brick of neighbouring cells. *)
Theorem c03_blocks_of_a_box : forall x0 y0 z0 x1 y1 z1 d M X xs g k fuel, positive d -> box_object d M -> history M (X :: xs) g ->
  rectilinear d (division x0 x1 (nx d)) (division y0 y1 (ny d)) (division z0 z1 (nz d)) X -> x0 < x1 -> y0 < y1 -> z0 < z1 ->
  (- 10 ^ 20 < x0 /\ x1 < 10 ^ 20) -> (- 10 ^ 20 < y0 /\ y1 < 10 ^ 20) -> (- 10 ^ 20 < z0 /\ z1 < 10 ^ 20) ->
  (1 <= k <= nx d * ny d * nz d)%nat -> (k < fuel)%nat -> (nx d <= fuel)%nat -> (ny d <= fuel)%nat -> (nz d <= fuel)%nat ->
  exists parts, get_partitioning_by_blocks fuel M X g k = Ok parts /\ partitions_cells (nx d * ny d * nz d) k parts /\
    forall p, In p parts -> p <> [] /\ exists lo hi, forall q, cell_at d q -> (In (cid d q) p <-> brick lo hi q).
Proof.
  intros x0 y0 z0 x1 y1 z1 d M X xs g k fuel Hd HM HG HX Lx Ly Lz Bx By Bz Hk Hf F1 F2 F3.
  destruct (@uniform x0 y0 z0 x1 y1 z1 d M X xs g Hd HM HG HX Lx Ly Lz Bx By Bz k fuel Hk Hf F1 F2 F3) as (blocks & parts & Ep & (A1 & A2 & A3 & A4) & HL & HT & B).
  assert (NC : ncells d = (nx d * ny d * nz d)%nat) by (unfold SimpleMesh_proofs2.ncells; lia). rewrite NC in A3.
  exists parts. split; [exact Ep|]. split.
  - split; [auto|]. split; [auto|]. split; [auto|]. intros c Hc. rewrite <- NC in Hc. destruct (cpos_ok d Hc) as [Ca Ci].
    destruct (tl_cover _ _ _ HT _ (in_grid_zpos _ _ Ca)) as (i & (b & Hb & Ib) & Un). exists i. destruct (B i b Hb) as (p & Hp & Q). assert (Ip : In c p) by (rewrite <- Ci; apply Q; auto). split; [eauto|].
    intros j (p' & Hp' & Ip'). apply (A4 i j p p' c); auto.
  - intros p Ip. apply In_nth_error in Ip as [j Hj]. destruct (nth_error blocks j) as [b|] eqn:Hb; [|apply nth_error_None in Hb; assert (Lj := nth_error_lt _ _ Hj); lia].
    destruct (B j b Hb) as (p' & Hp' & Q). rewrite Hj in Hp'. injection Hp' as <-.
    assert (Ib := nth_error_In _ _ Hb). set (q0 := (Z.to_nat (get 0 (start b)), Z.to_nat (get 1 (start b)), Z.to_nat (get 2 (start b)))).
    assert (NE := tl_nonempty _ _ _ HT b Ib).
    assert (I0 : in_grid 3 (V3 (Z.of_nat (nx d)) (Z.of_nat (ny d)) (Z.of_nat (nz d))) (fun a => get a (start b))) by (apply (tl_inside _ _ _ HT b); auto; intros a Ha; specialize (NE a Ha); lia).
    assert (E0 : forall a, (a < 3)%nat -> Z.of_nat (Z.to_nat (get a (start b))) = get a (start b)) by (intros a Ha; specialize (I0 a Ha); lia).
    assert (C0 : cell_at d q0).
    { assert (J0 := I0 0%nat). assert (J1 := I0 1%nat). assert (J2 := I0 2%nat). cbn [get v0 v1 v2] in J0, J1, J2. unfold q0, cell_at. cbn [get]. lia. }
    split.
    + assert (I : In (cid d q0) p); [|intros ->; destruct I]. apply Q; auto. intros a Ha. specialize (NE a Ha). unfold zpos, q0. destruct a as [|[|[|a]]]; try lia; cbn [at_axis]; rewrite E0 by lia; lia.
    + exists q0, (Z.to_nat (get 0 (start b) + get 0 (num b)), Z.to_nat (get 1 (start b) + get 1 (num b)), Z.to_nat (get 2 (start b) + get 2 (num b))).
      intros [[i1 j1] k1] Hq. rewrite Q by auto. unfold in_block, zpos, brick, q0.
      assert (N0 := NE 0%nat ltac:(lia)). assert (N1 := NE 1%nat ltac:(lia)). assert (N2 := NE 2%nat ltac:(lia)).
      assert (J0 := I0 0%nat ltac:(lia)). assert (J1 := I0 1%nat ltac:(lia)). assert (J2 := I0 2%nat ltac:(lia)).
      split.
      * intros H. assert (H0 := H 0%nat ltac:(lia)). assert (H1 := H 1%nat ltac:(lia)). assert (H2 := H 2%nat ltac:(lia)). cbn [at_axis] in H0, H1, H2. lia.
      * intros H a Ha. destruct a as [|[|[|a]]]; try lia; cbn [at_axis]; lia.
Qed.
(** More parts than cells: the assert of the block partitioner. *)
Theorem c90_too_many_parts : forall d M gx gy gz X xs g k fuel, positive d -> box_object d M -> history M (X :: xs) g -> rectilinear d gx gy gz X ->
  increasing (nx d) gx -> increasing (ny d) gy -> increasing (nz d) gz -> in_range (nx d) gx -> in_range (ny d) gy -> in_range (nz d) gz ->
  (nx d <= fuel)%nat -> (ny d <= fuel)%nat -> (nz d <= fuel)%nat -> (nx d * ny d * nz d < k)%nat -> get_partitioning_by_blocks fuel M X g k = AssertFail.
Proof.
  intros d M gx gy gz X xs g k fuel Hd HM HG HX IX IY IZ RX RY RZ FX FY FZ Hk. destruct (@found d M gx gy gz X xs g Hd HM HX IX IY IZ HG RX RY RZ fuel FX FY FZ) as (l & El & _).
  unfold get_partitioning_by_blocks. rewrite El. cbn [bind]. replace (sdim M) with 3%nat by (destruct HM as (? & ? & ? & ? & ? & ? & ? & _ & _ & _ & ->); reflexivity).
  rewrite block_partition_too_many; [reflexivity|apply box_valid; auto|rewrite box_cells; lia].
Qed.
(** On any other rectilinear grid the call returns, and no cell is in two parts; but see the next theorem. *)
Theorem c90_rectilinear_partial : forall d M gx gy gz X xs g k fuel, positive d -> box_object d M -> history M (X :: xs) g -> rectilinear d gx gy gz X ->
  increasing (nx d) gx -> increasing (ny d) gy -> increasing (nz d) gz -> in_range (nx d) gx -> in_range (ny d) gy -> in_range (nz d) gz ->
  (1 <= k <= nx d * ny d * nz d)%nat -> (k < fuel)%nat -> (nx d <= fuel)%nat -> (ny d <= fuel)%nat -> (nz d <= fuel)%nat ->
  exists parts, get_partitioning_by_blocks fuel M X g k = Ok parts /\ at_most_once (nx d * ny d * nz d) k parts.
Proof.
  intros d M gx gy gz X xs g k fuel Hd HM HG HX IX IY IZ RX RY RZ Hk Hf FX FY FZ.
  destruct (@any_grid d M gx gy gz X xs g Hd HM HX IX IY IZ HG RX RY RZ fuel FX FY FZ k Hk Hf) as (l & blocks & parts & _ & _ & _ & _ & Ep & A & _).
  exists parts. split; auto.
Qed.

(** *** graded grids: cells are lost *)
(** the block limits divide the domain evenly whatever the grid lines are, and the comparison is strict on both sides *)
Definition graded (i : nat) : R := match i with 0%nat => 0 | 1%nat => / 4 | 2%nat => 3 / 4 | 3%nat => 7 / 8 | _ => 1 end.
Definition graded_points (d : dims) (gx gy gz : nat -> R) : coordinates :=
  map (fun n => let '(i, j, k) := npos d n in Pt 3 (gx i) (gy j) (gz k)) (seq 0 ((nx d + 1) * (ny d + 1) * (nz d + 1))).
Lemma graded_rectilinear d gx gy gz : rectilinear d gx gy gz (graded_points d gx gy gz).
Proof.
  split; [unfold graded_points; rewrite map_length, seq_length; auto|]. intros i j k H. unfold graded_points. rewrite nth_error_map.
  assert (L := nid_lt d _ H). rewrite (@seq_at ((nx d + 1) * (ny d + 1) * (nz d + 1)) (nid d (i, j, k))) by exact L. cbn [option_map]. rewrite npos_nid by auto. reflexivity.
Qed.
(** Finding: on the 4x1x1 mesh with grid lines 0, 1/4, 3/4, 7/8, 1 two parts do not contain the second cell, whose centroid is 1/2. *)
Theorem c90_graded_refuted : exists d M gx gy gz X xs g parts c, positive d /\ box_object d M /\ history M (X :: xs) g /\ rectilinear d gx gy gz X /\
  increasing (nx d) gx /\ increasing (ny d) gy /\ increasing (nz d) gz /\ in_range (nx d) gx /\ in_range (ny d) gy /\ in_range (nz d) gz /\
  (c < nx d * ny d * nz d)%nat /\ get_partitioning_by_blocks 10 M X g 2 = Ok parts /\ forall p, In p parts -> ~ In c p.
Proof.
  set (d := mkDims 4 1 1). assert (Hd : positive d) by (unfold positive; cbn; lia).
  destruct (@c81_construction 0 0 0 1 1 1 d Hd ltac:(lra) ltac:(lra) ltac:(lra)) as (M & X0 & g0 & _ & HM & H0 & _).
  set (X := graded_points d graded INR INR). assert (RX := graded_rectilinear d graded INR INR). fold X in RX.
  assert (IX : increasing (nx d) graded) by (intros [|[|[|[|i]]]] Hi; cbn in Hi; try lia; cbn; lra).
  assert (IY : increasing (ny d) INR) by (intros [|i] Hi; cbn in Hi; try lia; cbn; lra).
  assert (IZ : increasing (nz d) INR) by (intros [|i] Hi; cbn in Hi; try lia; cbn; lra).
  destruct (@c81_update_succeeds d M _ _ _ X g0 Hd HM RX IX IY IZ) as [g U]. assert (HG : history M [X; X0] g) by (eapply moved; eauto).
  assert (P : 1 < 10 ^ 20) by (apply (Rlt_le_trans _ (10 ^ 1)); [lra|apply Rle_pow; [lra|lia]]).
  assert (BX : in_range (nx d) graded) by (unfold in_range; cbn -[pow]; lra).
  assert (BY : in_range (ny d) INR) by (unfold in_range; cbn -[pow]; lra). assert (BZ : in_range (nz d) INR) by (unfold in_range; cbn -[pow]; lra).
  destruct (@any_grid d M _ _ _ X [X0] g Hd HM RX IX IY IZ HG BX BY BZ 10 ltac:(cbn; lia) ltac:(cbn; lia) ltac:(cbn; lia) 2) as (l & blocks & parts & _ & Hl & EB & HT & Ep & (A1 & A2 & A3 & A4) & HL & B); [cbn; lia|lia|].
  exists d, M, graded, INR, INR, X, [X0], g, parts, 1%nat. do 10 (split; [assumption|]). split; [cbn; lia|]. split; [exact Ep|].
  intros p Ip I. apply In_nth_error in Ip as [j Hj]. assert (Lj := nth_error_lt _ _ Hj). rewrite A1 in Lj. destruct (B j 1%nat Lj) as (p' & Hp' & Q); [cbn; lia|]. rewrite Hj in Hp'. injection Hp' as <-. apply Q in I. clear Q.
  assert (EB' : blocks = [BlockPartition.B (V3 0 0 0) (V3 2 1 1); BlockPartition.B (V3 2 0 0) (V3 2 1 1)]) by (vm_compute in EB; congruence).
  destruct (@centroids d M _ _ _ X [X0] g Hd HM RX IX IY IZ HG) as [_ C]. specialize (C 1%nat 0%nat 0%nat). change (cid d (1, 0, 0)%nat) with 1%nat in C. rewrite C in I by (cbn; lia). clear C.
  assert (L0 := Hl 0%nat ltac:(lia)). cbn [line count d nx graded] in L0. destruct L0 as [L0 L1].
  assert (F : forall b, In b blocks -> inside_block 3 (fst l) (snd l) (V3 (Z.of_nat 4) (Z.of_nat 1) (Z.of_nat 1)) b (coord (Pt 3 (middle graded 1) (middle INR 0) (middle INR 0))) = false).
  { intros b Ib. unfold inside_block. cbn [seq forallb]. rewrite (proj2 (andb_false_iff _ _)); auto. left. unfold limit_hi, limit_lo, szdelta. rewrite L0, L1. cbn [coord p0]. unfold middle. cbn [graded Nat.add].
    subst blocks. destruct Ib as [<-|[<-|[]]]; cbn [get v0 v1 v2 start num]; apply andb_false_iff; [right|left]; apply Rltb_false; change (IZR (Z.of_nat 4)) with 4; lra. }
  subst blocks. cbn [find_block] in I. change (nx d) with 4%nat in I. change (ny d) with 1%nat in I. change (nz d) with 1%nat in I. rewrite !F in I by (cbn; auto). discriminate.
Qed.

(** *** lines: the walk never recognises the high boundary *)
Section L.
Variables (x0 : list R) (fl : flags) (m : cmesh).
Hypothesis S : fl_sides (close_flags fl) = true.
Hypothesis C : construct_1d x0 fl = Ok m.
Lemma line_cells : exists t, built t line_shape fl m /\ line_mesh t /\ Cache.ncells t = (length x0 - 1)%nat /\ ids m CELL PARALLEL_OWNED = seq 0 (length x0 - 1) /\
  (forall c, (c < length x0 - 1)%nat -> cell_get_faces_and_dirs m c = Ok [(c, (-1)%Z); ((c + 1)%nat, 1%Z)]) /\
  (forall f, (f < length x0)%nat -> exists l, face_get_cells m f PARALLEL_OWNED = Ok (map Z.of_nat l) /\ NoDup l /\ (length l <= 2)%nat /\
     forall c, In c l <-> (c < length x0 - 1 /\ (f = c \/ f = c + 1))%nat).
Proof.
  assert (C' := C). unfold construct_1d in C'. destruct (make_simple_1d x0 _ _ false) as [sm| | | |] eqn:Em; try discriminate. cbn [bind] in C'.
  destruct (@simple_line _ x0 fl sm S Em) as [LM NC].
  assert (B : built (simple_topo sm) line_shape fl m) by (constructor; auto; [apply fm_1d; auto|]; intros _; apply line_node_consistent; auto).
  assert (Hx : x0 <> []) by (intros ->; discriminate).
  destruct (close_closed fl) as [_ [_ Cl]]. destruct (Cl S) as [F1 F2]. assert (Em' := Em). rewrite F1, F2 in Em'.
  destruct (make_simple_1d_conn true true Hx) as (m0 & E0 & K & H1 & H2 & H3 & H4 & _ & _ & _ & _ & _ & _ & _ & Hn & Hc & Hf & He).
  rewrite Em' in E0. injection E0 as <-.
  assert (OI : ids m CELL PARALLEL_OWNED = seq 0 (length x0 - 1)) by (unfold ids; rewrite (fa_topo (built_facts B)); exact Hc).
  destruct (@line_topo x0 fl m S C) as (t' & B' & LM' & NC' & _ & _ & CF & _). rewrite NC' in CF.
  exists (simple_topo sm). split; [auto|]. split; [auto|]. split; [auto|]. split; [exact OI|]. split; [exact CF|].
  intros f Lf. assert (Lf2 : (f < num_faces sm)%nat) by (destruct x0; simpl in *; [congruence|lia]).
  assert (Lf3 : (f < Cache.nfaces (simple_topo sm))%nat) by (rewrite (ln_faces LM), NC; lia).
  destruct (q_face_cells K Lf2) as (z0 & z1 & _ & _ & E' & _). destruct (@face_cells_range _ _ _ _ _ _ K f _ Lf2 E') as (Nd & Le & Rg).
  assert (Du := fun c Hc => @face_cells_dual _ _ _ _ _ _ K f c _ Lf2 Hc E'). set (zs := cellz z0 ++ cellz z1) in *.
  assert (EL : fw_face_cells (simple_topo sm) f = Ok (map Z.to_nat zs)) by (cbn [fw_face_cells simple_topo]; rewrite E'; reflexivity).
  assert (MM : forall c, In c (map Z.to_nat zs) <-> (c < length x0 - 1 /\ (f = c \/ f = c + 1))%nat).
  { intros c. rewrite <- H1. split.
    - intros I. apply in_map_iff in I as (z & Ez & I). assert (I' := I). apply Rg in I' as (c' & Lc & ->). rewrite Nat2Z.id in Ez. subst c'. split; auto. apply Du in I; auto. destruct I as [I|[I|[]]]; auto.
    - intros (Lc & Q). apply in_map_iff. exists (Z.of_nat c). split; [apply Nat2Z.id|]. apply Du; auto. unfold cf1. simpl. destruct Q; auto. }
  exists (map Z.to_nat zs). split; [|split; [|split; [rewrite map_length; auto|exact MM]]].
  - destruct (@c63_cells_of_a_type (simple_topo sm) (close_flags fl) m f (map Z.to_nat zs) PARALLEL_OWNED C' (fm_numbered (bl_mesh B)) F1 Lf3 EL) as (l' & El' & p & -> & Hp); auto.
    { intros c I. apply MM in I. lia. }
    rewrite El'. do 2 f_equal. assert (FT : forall c, In c (map Z.to_nat zs) -> p c = true). { intros c I. apply Hp; auto. left. split; auto. cbn [cells_owned simple_topo]. rewrite Hc. apply MM in I. apply in_seq. lia. }
    clear - FT. induction (map Z.to_nat zs) as [|c l IH]; cbn [filter]; auto. rewrite FT by (left; auto). f_equal. apply IH. intros c' I. apply FT. right. auto.
  - assert (ZZ : forall z z', In z zs -> In z' zs -> Z.to_nat z = Z.to_nat z' -> z = z') by (intros z z' I I' E; apply Rg in I as (? & _ & ->); apply Rg in I' as (? & _ & ->); lia).
    clear - Nd ZZ. induction zs as [|z l IH]; cbn [map]; constructor.
    + intros I. apply in_map_iff in I as (z' & E & I). inversion Nd; subst. apply ZZ in E; [subst; contradiction|right; auto|left; auto].
    + apply IH; [inversion Nd; auto|]. intros; apply ZZ; auto; right; auto.
Qed.
End L.

Section LW.
Variables (x0 : list R) (fl : flags) (m : cmesh) (x : list R) (xs : list coordinates) (g : geo).
Hypothesis MV : moved_line x0 fl m CARTESIAN x xs g.
Hypothesis two : (2 <= length x)%nat.
Hypothesis inc : increasing (length x - 1) (fun i => nth i x 0).
Local Notation M := (line_g m CARTESIAN).
Local Notation X := (on_line x).
Variable hi : nat -> R.
Hypothesis far : / 10 ^ 12 <= Rabs (hi 0%nat).
Lemma line_segment c : (c < length x - 1)%nat -> segment_of CARTESIAN x c (nth c x 0) (nth (c + 1) x 0).
Proof. intros H. constructor; [apply nth_error_nth'; lia|apply nth_error_nth'; lia|apply (inc H)|discriminate]. Qed.
Lemma line_look c : (c < length x - 1)%nat -> look M X g hi 0 c [c; (c + 1)%nat] = Ok (if (c + 1 <? length x - 1)%nat then Next (c + 1) else GiveUp).
Proof.
  intros H. assert (SO := line_segment H). destruct (@c61_outward_line x0 fl m CARTESIAN x xs g MV c _ _ SO false) as (N0 & N1 & _). destruct (@c76_line_face_centroid_refuted x0 fl m CARTESIAN x xs g MV c _ _ SO false) as (_ & FC).
  destruct (@line_cells x0 fl m (mvl_sides MV) (mvl_built MV)) as (t & B & LM & NC & OI & CF & OC). assert (LL := mvl_length MV).
  cbn [look]. rewrite N0. cbn [bind fst sphere_area]. assert (T := tiny 12). assert (T' := tiny_small).
  rewrite Rltb_false.
  2:{ unfold norm, L22, diveq, dot, refdir, P1. cbn [pd sdim line_g pmap p0 p1 p2]. replace (0 + - (1) * - (1)) with 1 by ring. rewrite sqrt_1. replace (0 + - (1) / 1 * 1 - 1) with (- (2)) by field. rewrite Rabs_Ropp, Rabs_right by lra. lra. }
  rewrite N1. cbn [bind fst sphere_area]. rewrite Rltb_true.
  2:{ unfold norm, L22, diveq, dot, refdir, P1. cbn [pd sdim line_g pmap p0 p1 p2]. replace (0 + 1 * 1) with 1 by ring. rewrite sqrt_1. replace (0 + 1 / 1 * 1 - 1) with 0 by field. rewrite Rabs_R0. auto. }
  cbn [line_g gm]. destruct (OC (c + 1)%nat) as (l & -> & Nd & Le & I); [lia|]. cbn [bind].
  assert (Ic : In c l) by (apply I; lia). destruct (Nat.ltb_spec (c + 1) (length x - 1)) as [L|L].
  - assert (Ic' : In (c + 1)%nat l) by (apply I; lia). destruct l as [|u [|v [|w l]]]; cbn [length] in Le; try lia; [destruct Ic|cbn in Ic, Ic'; lia|].
    cbn [map]. inversion Nd as [|? ? Nu _]; subst. assert (u <> v) by (intros ->; apply Nu; left; auto). cbn in Ic, Ic'.
    destruct (Z.eqb_spec (Z.of_nat u) (Z.of_nat c)); rewrite Nat2Z.id; do 2 f_equal; lia.
  - assert (E : l = [c]).
    { destruct l as [|u [|v [|w l]]]; cbn [length] in Le; try lia; [destruct Ic|destruct Ic as [->|[]]; auto|]. exfalso. inversion Nd as [|? ? Nu _]; subst. assert (u <> v) by (intros ->; apply Nu; left; auto).
      assert (U := proj1 (I u) (or_introl eq_refl)). assert (V := proj1 (I v) (or_intror (or_introl eq_refl))). lia. }
    subst l. cbn [map]. fold (line_g m CARTESIAN). rewrite FC. cbn [bind coord P1 p0]. rewrite Rltb_false; auto. replace (0 - hi 0%nat) with (- hi 0%nat) by ring. rewrite Rabs_Ropp. auto.
Qed.
Lemma line_walk r : forall c fuel n, (c + r + 1 = length x - 1)%nat -> (r < fuel)%nat -> walk fuel M X g hi 0 c n = Ok None.
Proof.
  destruct (@line_cells x0 fl m (mvl_sides MV) (mvl_built MV)) as (t & B & LM & NC & OI & CF & OC). assert (LL := mvl_length MV).
  induction r as [|r IH]; intros c [|fuel] n Hc Hf; try lia; cbn [walk line_g gm]; rewrite CF by lia; cbn [bind map fst]; fold (line_g m CARTESIAN); rewrite line_look by lia; cbn [bind].
  - destruct (Nat.ltb_spec (c + 1) (length x - 1)); [lia|auto].
  - destruct (Nat.ltb_spec (c + 1) (length x - 1)); [|lia]. apply IH; lia.
Qed.
End LW.
Lemma increasing_nth x i j : increasing (length x - 1) (fun i => nth i x 0) -> (i <= j)%nat -> (j < length x)%nat -> nth i x 0 <= nth j x 0.
Proof. intros I H L. apply (@increasing_le (length x - 1) (fun i => nth i x 0) i j I H). lia. Qed.
(** Finding: on every Cartesian line mesh whose right end is not (nearly) the origin, BLOCK puts no cell in any part, because face_centroid of a line
    mesh is the origin (C76). *)
Theorem c90_line_refuted : forall x0 fl m x xs g k fuel, moved_line x0 fl m CARTESIAN x xs g -> (2 <= length x)%nat -> increasing (length x - 1) (fun i => nth i x 0) ->
  in_range (length x - 1) (fun i => nth i x 0) -> / 10 ^ 12 <= Rabs (nth (length x - 1) x 0) -> (length x <= fuel)%nat ->
  get_partitioning_by_blocks fuel (line_g m CARTESIAN) (on_line x) g k = Ok (repeat [] k).
Proof.
  intros x0 fl m x xs g k fuel MV two inc [R0 R1] far Hf. destruct (@line_cells x0 fl m (mvl_sides MV) (mvl_built MV)) as (t & B & LM & NC & OI & CF & OC). assert (LL := mvl_length MV). rewrite <- LL in *.
  unfold get_partitioning_by_blocks, discover. cbn [line_g gm sdim]. fold (line_g m CARTESIAN). rewrite OI.
  assert (CP : forall c, (c < length x - 1)%nat -> cell_get_coordinates (line_g m CARTESIAN) (on_line x) c = Ok [P1 (nth c x 0); P1 (nth (c + 1) x 0)]).
  { intros c Hc. unfold cell_get_coordinates. cbn [line_g cverts bind mapM]. assert (Q : forall i, (i < length x)%nat -> rd (on_line x) i = Ok (P1 (nth i x 0))) by (intros i Hi; apply rd_Ok; unfold on_line; rewrite nth_error_map, (nth_error_nth' x 0) by auto; reflexivity).
    rewrite !Q by lia. reflexivity. }
  assert (EL : exists l, domain_limits (line_g m CARTESIAN) (on_line x) = Ok l /\ snd l 0%nat = nth (length x - 1) x 0).
  { unfold domain_limits. cbn [line_g gm]. fold (line_g m CARTESIAN). rewrite OI. rewrite limits_fold with (h := fun c => [P1 (nth c x 0); P1 (nth (c + 1) x 0)]) by (intros c I; apply in_seq in I; apply CP; lia).
    eexists. split; [reflexivity|]. set (ps := flat_map _ _).
    assert (R : forall p, In p ps -> coord p 0 <= nth (length x - 1) x 0).
    { intros p I. apply in_flat_map in I as (c & Ic & I). apply in_seq in Ic. destruct I as [<-|[<-|[]]]; cbn [coord P1 p0]; apply increasing_nth; auto; lia. }
    assert (IL : In (P1 (nth (length x - 1) x 0)) ps). { apply in_flat_map. exists (length x - 2)%nat. split; [apply in_seq; lia|]. right. left. do 2 f_equal. lia. }
    destruct (@widen_hi ps (fun _ => 10 ^ 20, fun _ => - 10 ^ 20) 0%nat) as (A & Bd & D). specialize (Bd _ IL). cbn [coord P1 p0 snd] in *. destruct D as [D|(p & Ip & D)]; [|apply R in Ip; lra].
    assert (LE := @increasing_nth x 0 (length x - 1) inc ltac:(lia) ltac:(lia)). cbn beta in *. lra. }
  destruct EL as (l & -> & Eh). cbn [bind].
  assert (CC : forall cs, (forall c, In c cs -> (c < length x - 1)%nat) -> exists o, corner_cell (line_g m CARTESIAN) (on_line x) (fst l) cs = Ok o /\ forall c, o = Some c -> In c cs).
  { induction cs as [|c cs IH]; intros H; cbn [corner_cell]; [exists None; split; auto; discriminate|]. rewrite CP by (apply H; left; auto). cbn [bind].
    destruct (existsb _ _); [exists (Some c); split; auto; intros ? [= <-]; left; auto|]. destruct IH as (o & E & I); [intros; apply H; right; auto|]. exists o. split; auto. intros; right; auto. }
  destruct (CC (seq 0 (length x - 1))) as (o & -> & Io); [intros c I; apply in_seq in I; lia|]. cbn [bind]. destruct o as [c0|]; [|reflexivity].
  specialize (Io c0 eq_refl). apply in_seq in Io. cbn [seq walks].
  rewrite (@line_walk x0 fl m x xs g MV two inc (snd l)) with (r := (length x - 2 - c0)%nat); [reflexivity|rewrite Eh; auto|lia|lia].
Qed.
Example c90_line_witness : exists m g, moved_line [0; 1; 3] (Flags true true true true true) m CARTESIAN [0; 1; 3] [] g /\ increasing 2 (fun i => nth i [0; 1; 3] 0) /\
  in_range 2 (fun i => nth i [0; 1; 3] 0) /\ / 10 ^ 12 <= Rabs 3.
Proof.
  destruct (@c30_line_construction_succeeds R [0; 1; 3] (Flags true true true true true)) as [m E]; [discriminate|reflexivity|]. exists m.
  destruct (@c60_line_update_succeeds [0; 1; 3] (Flags true true true true true) m CARTESIAN [0; 1; 3] geo0 eq_refl E eq_refl) as [g U]; [discriminate|]. exists g.
  split; [constructor; auto; [discriminate|]; constructor; exact U|]. split; [intros [|[|i]] Hi; cbn; try lia; lra|].
  assert (P : 10 ^ 1 <= 10 ^ 20) by (apply Rle_pow; [lra|lia]). split; [unfold in_range; cbn [nth]; lra|]. assert (T := tiny_small). rewrite Rabs_right by lra. lra.
Qed.
(** the hypotheses of the theorems on boxes are met by every box mesh the constructor delivers *)
Example c90_box_witness : exists M X g parts, construct_box 0 0 0 2 1 3 (mkDims 2 3 2) (Flags true false false false false) = Ok (M, X, g) /\ get_partitioning_by_blocks 20 M X g 5 = Ok parts /\
  partitions_cells 12 5 parts.
Proof.
  set (d := mkDims 2 3 2). assert (Hd : positive d) by (unfold positive; cbn; lia). assert (P : 10 ^ 1 <= 10 ^ 20) by (apply Rle_pow; [lra|lia]).
  destruct (@c81_construction 0 0 0 2 1 3 d Hd ltac:(lra) ltac:(lra) ltac:(lra)) as (M & X & g & E & HM & HG & RX & _). exists M, X, g.
  assert (F : (1 <= 5 <= nx d * ny d * nz d /\ 5 < 20 /\ nx d <= 20 /\ ny d <= 20 /\ nz d <= 20)%nat) by (cbn [d nx ny nz]; lia). destruct F as (F1 & F2 & F3 & F4 & F5).
  destruct (@c03_blocks_of_a_box 0 0 0 2 1 3 d M X [] g 5 20 Hd HM HG RX ltac:(lra) ltac:(lra) ltac:(lra) ltac:(lra) ltac:(lra) ltac:(lra) F1 F2 F3 F4 F5) as (parts & Ep & Pp & _).
  exists parts. split; [exact E|]. split; [exact Ep|exact Pp].
Qed.
