(** C79: point_in_cell. *)
From Coq Require Import Reals Lra Psatz Permutation.
From Verif Require Import Base Loop Defs Factory Cache Cache_spec Props_Cache Point Geometry Geometry_spec Geometry_proofs Polyhedron_proofs Props_Polygon Props_InPolygon Props_InPolyhed
  Regions MeshGeom MeshGeom_examples MeshGeom_tower Props_GeomWitness RegionSets Props_Segment Props_Line.
Set Implicit Arguments.
Local Open Scope R_scope.

(** ** The plane.  The edges [B] are those of [E], some of them cut at points on them. *)
Definition on_segment (a b m : point) : Prop :=
  pd a = 2%nat /\ pd b = 2%nat /\ pd m = 2%nat /\ exists t, 0 <= t <= 1 /\ p0 m = p0 a + t * (p0 b - p0 a) /\ p1 m = p1 a + t * (p1 b - p1 a).
Inductive cut : list (point * point) -> list (point * point) -> Prop :=
| cut_same E : cut E E
| cut_edge pre a b m post E : on_segment a b m -> cut (pre ++ (a, b) :: post) E -> cut (pre ++ (a, m) :: (m, b) :: post) E.
(** The polygons [ls] fit together and fill [outer]: each edge inside belongs to one of them in each direction, the others make up the boundary. *)
Definition fill (ls : list (list point)) (outer : list point) : Prop :=
  exists B I, cut B (edges outer) /\ Permutation (concat (map edges ls)) (I ++ map swap I ++ B).
Definition how_many (bs : list bool) : nat := length (filter (fun b => b) bs).

(** *** signed number of edges to the right, the basis of the proof *)
Definition rup (p : point) (e : point * point) : bool := up (p1 p) e && leb (p0 p) (xc (p1 p) e).
Definition rdown (p : point) (e : point * point) : bool := down (p1 p) e && leb (p0 p) (xc (p1 p) e).
Definition wnd (p : point) (L : list (point * point)) : Z := (Z.of_nat (cnt (rup p) L) - Z.of_nat (cnt (rdown p) L))%Z.
Lemma cnt_app A (f : A -> bool) l1 l2 : cnt f (l1 ++ l2) = (cnt f l1 + cnt f l2)%nat.
Proof. unfold cnt. rewrite filter_app, app_length. auto. Qed.
Lemma wnd_app p a b : wnd p (a ++ b) = (wnd p a + wnd p b)%Z.
Proof. unfold wnd. rewrite !cnt_app. lia. Qed.
Lemma wnd_perm p a b : Permutation a b -> wnd p a = wnd p b.
Proof. intros H. unfold wnd. rewrite (cnt_perm (rup p) H), (cnt_perm (rdown p) H). auto. Qed.
Lemma rup_swap p e : rup p (swap e) = rdown p e.
Proof.
  unfold rup, rdown. assert (U : up (p1 p) (swap e) = down (p1 p) e) by reflexivity. rewrite U. destruct (down (p1 p) e) eqn:D; auto. cbn [andb]. f_equal.
  apply down_spec in D. unfold xc, swap. cbn [fst snd]. field. lra.
Qed.
Lemma rdown_swap p e : rdown p (swap e) = rup p e.
Proof. rewrite <- rup_swap. destruct e; auto. Qed.
Lemma cnt_map A B (f : B -> bool) (g : A -> B) l : cnt f (map g l) = cnt (fun x => f (g x)) l.
Proof. unfold cnt. induction l as [|a l IH]; cbn [map filter]; auto. destruct (f (g a)); cbn [length]; auto. Qed.
Lemma wnd_swap p L : wnd p (map swap L) = (- wnd p L)%Z.
Proof.
  unfold wnd. rewrite !cnt_map. rewrite (cnt_ext (fun x => rup p (swap x)) (rdown p)) by (intros; apply rup_swap).
  rewrite (cnt_ext (fun x => rdown p (swap x)) (rup p)) by (intros; apply rdown_swap). lia.
Qed.
Lemma wnd_one p e : wnd p [e] = ((if rup p e then 1 else 0) - (if rdown p e then 1 else 0))%Z.
Proof. unfold wnd, cnt. cbn [filter]. destruct (rup p e), (rdown p e); reflexivity. Qed.
Lemma wnd_cut p a b m : on_segment a b m -> wnd p [(a, m); (m, b)] = wnd p [(a, b)].
Proof.
  intros (_ & _ & _ & t & Ht & E0 & E1). change [(a, m); (m, b)] with ([(a, m)] ++ [(m, b)]). rewrite wnd_app, !wnd_one.
  unfold rup, rdown, up, down. cbn [fst snd].
  assert (XA : p1 a <> p1 m -> xc (p1 p) (a, m) = xc (p1 p) (a, b)).
  { intros N. unfold xc. cbn [fst snd]. rewrite E0, E1 in *. assert (t <> 0) by (intros ->; lra). assert (p1 b - p1 a <> 0) by (intros Z0; rewrite Z0 in N; lra). field. split; auto.
    replace (p1 a + t * (p1 b - p1 a) - p1 a) with (t * (p1 b - p1 a)) by ring. apply Rmult_integral_contrapositive; auto. }
  assert (XB : p1 m <> p1 b -> xc (p1 p) (m, b) = xc (p1 p) (a, b)).
  { intros N. unfold xc. cbn [fst snd]. rewrite E0, E1 in *. assert (1 - t <> 0) by (intros Z0; assert (t = 1) by lra; subst; lra).
    assert (p1 b - p1 a <> 0) by (intros Z0; rewrite Z0 in N; lra). field. split; auto.
    replace (p1 b - (p1 a + t * (p1 b - p1 a))) with ((1 - t) * (p1 b - p1 a)) by ring. apply Rmult_integral_contrapositive; auto. }
  assert (BT : (p1 a <= p1 m <= p1 b) \/ (p1 b <= p1 m <= p1 a)) by (destruct (Rle_dec (p1 a) (p1 b)); [left|right]; nra).
  unfold gtb, leb at 1 3 5 7 9 11.
  destruct (Rlt_dec (p1 p) (p1 m)), (Rle_dec (p1 a) (p1 p)), (Rlt_dec (p1 p) (p1 a)), (Rle_dec (p1 m) (p1 p)), (Rlt_dec (p1 p) (p1 b)), (Rle_dec (p1 b) (p1 p));
    cbn [andb]; try (exfalso; lra); rewrite ?XA, ?XB by lra; destruct (leb (p0 p) (xc (p1 p) (a, b))); reflexivity.
Qed.
Lemma wnd_cuts p B E : cut B E -> wnd p B = wnd p E.
Proof.
  induction 1 as [|pre a b m post E S C IH]; auto. rewrite <- IH. change ((a, m) :: (m, b) :: post) with ([(a, m); (m, b)] ++ post). change ((a, b) :: post) with ([(a, b)] ++ post).
  rewrite !wnd_app, (@wnd_cut p a b m); auto.
Qed.
Lemma wnd_convex p l : all_dim 2 l -> convex_ccw l -> pd p = 2%nat -> exists b, point_in_polygon p l = Ok b /\ wnd p (edges l) = if b then 1%Z else 0%Z.
Proof.
  intros D C Hp. rewrite in_polygon_eq. unfold px, py. rewrite Hp. cbn [Nat.ltb Nat.leb]. set (x := p0 p). set (y := p1 p). rewrite cnt_crosses by auto. eexists. split; [reflexivity|].
  assert (ND : NoDup (edges l)) by (apply edges_NoDup; apply C). unfold wnd. change (rup p) with (fun e => up y e && leb x (xc y e)). change (rdown p) with (fun e => down y e && leb x (xc y e)).
  assert (U := @up_le1 l C y). assert (UD := up_down y l). destruct (Nat.eq_dec (cnt (up y) (edges l)) 0) as [Z0|NZ].
  - assert (Zd : cnt (down y) (edges l) = 0%nat) by lia. rewrite (proj2 (cnt_0 (fun e => down y e && leb x (xc y e)) _)), (proj2 (cnt_0 (fun e => up y e && leb x (xc y e)) _)); auto.
    + intros e He. rewrite (proj1 (cnt_0 _ _) Z0 e He). auto.
    + intros e He. rewrite (proj1 (cnt_0 _ _) Zd e He). auto.
  - assert (U1 : cnt (up y) (edges l) = 1%nat) by lia. assert (D1 : cnt (down y) (edges l) = 1%nat) by lia. destruct (cnt_one _ _ U1) as (e & He & Ue). destruct (cnt_one _ _ D1) as (e' & He' & De').
    rewrite (@cnt_and_unique _ (down y) (fun e => leb x (xc y e)) (edges l) e' ND He' De') by (intros; eapply down_unique; eauto).
    rewrite (@cnt_and_unique _ (up y) (fun e => leb x (xc y e)) (edges l) e ND He Ue) by (intros; eapply up_unique; eauto).
    assert (Le : xc y e' <= xc y e).
    { destruct e as [a b]. assert (X := @xc_in l C y a b e' He He' (or_intror De')). apply up_spec in Ue. cbn [fst snd] in Ue. assert (S1 := @xc_side y (a, b) (xc y e') ltac:(cbn [fst snd]; lra)). cbn [fst snd] in S1. nra. }
    destruct (leb x (xc y e')) eqn:L1, (leb x (xc y e)) eqn:L2; auto. apply leb_iff in L1. apply leb_false in L2. lra.
Qed.

(** Cells that are strictly convex polygons, counter-clockwise, and fill a convex domain: every point in the domain is in exactly one cell, also if it
    lies on edges or nodes shared by several cells, and a point outside the domain is in none. *)
Theorem c79_exactly_one : forall M X cs ls outer p, mdim M = 2%nat -> pd p = 2%nat ->
  Forall2 (fun c l => cell_get_coordinates M X c = Ok l /\ all_dim 2 l /\ convex_ccw l) cs ls -> all_dim 2 outer -> convex_ccw outer -> fill ls outer ->
  exists bs r, mapM (point_in_cell M X p) cs = Ok bs /\ point_in_polygon p outer = Ok r /\ how_many bs = if r then 1%nat else 0%nat.
Proof.
  intros M X cs ls outer p MD Hp HC DO CO (B & I & CU & PE).
  destruct (@wnd_convex p outer DO CO Hp) as (r & Er & Wr).
  assert (T : exists bs, mapM (point_in_cell M X p) cs = Ok bs /\ Z.of_nat (how_many bs) = wnd p (concat (map edges ls))).
  { clear - HC MD Hp. induction HC as [|c l cs ls (E & D & C) HC IH]; [exists []; auto|]. destruct IH as (bs & E1 & E2).
    destruct (@wnd_convex p l D C Hp) as (b & Eb & Wb). exists (b :: bs). split.
    - cbn [mapM]. unfold point_in_cell at 1. rewrite MD. rewrite E. cbn [bind]. rewrite Eb. cbn [bind]. rewrite E1. reflexivity.
    - cbn [map concat]. rewrite wnd_app, Wb, <- E2. unfold how_many. cbn [filter]. destruct b; cbn [length]; lia. }
  destruct T as (bs & E1 & E2). exists bs, r. split; auto. split; auto.
  rewrite (wnd_perm p PE), !wnd_app, wnd_swap, (wnd_cuts p CU), Wr in E2. destruct r; lia.
Qed.
Print Assumptions c79_exactly_one.
(** ... in any order, counter-clockwise or not, for any polygons: an odd number of cells contains a point in the domain, an even number one outside *)
Lemma odd_cell p l : exists b, point_in_polygon p l = Ok b /\ b = Nat.odd (cnt (fun e => crosses (px p) (py p) (fst e) (snd e)) (edges l)).
Proof. eexists. split; [apply in_polygon_eq|auto]. Qed.
Theorem c79_no_gaps : forall M X cs ls outer I p, mdim M = 2%nat -> Forall2 (fun c l => cell_get_coordinates M X c = Ok l) cs ls ->
  Permutation (concat (map edges ls)) (I ++ map swap I ++ edges outer) ->
  exists bs r, mapM (point_in_cell M X p) cs = Ok bs /\ point_in_polygon p outer = Ok r /\ Nat.odd (how_many bs) = r.
Proof.
  intros M X cs ls outer I p MD HC PE. set (f := fun e => crosses (px p) (py p) (fst e) (snd e)).
  assert (T : exists bs, mapM (point_in_cell M X p) cs = Ok bs /\ Nat.odd (how_many bs) = Nat.odd (cnt f (concat (map edges ls)))).
  { clear PE. induction HC as [|c l cs ls E HC IH]; [exists []; auto|]. destruct IH as (bs & E1 & E2). destruct (odd_cell p l) as (b & Eb & Ob). fold f in Ob.
    exists (b :: bs). split.
    - cbn [mapM]. unfold point_in_cell at 1. rewrite MD, E. cbn [bind]. rewrite Eb. cbn [bind]. rewrite E1. reflexivity.
    - cbn [map concat]. rewrite cnt_app, Nat.odd_add, <- E2, <- Ob. unfold how_many. cbn [filter]. destruct b; cbn [length]; [rewrite Nat.odd_succ, <- Nat.negb_odd; reflexivity|].
      destruct (Nat.odd _); auto. }
  destruct T as (bs & E1 & E2). destruct (odd_cell p outer) as (r & Er & Or). fold f in Or. exists bs, r. split; auto. split; auto.
  rewrite E2, (cnt_perm f PE), !cnt_app, Nat.odd_add, Nat.odd_add, <- Or. rewrite cnt_map, (cnt_ext (fun x => f (swap x)) f).
  - destruct (Nat.odd (cnt f I)), r; auto.
  - intros [a b] _. unfold f, swap. cbn [fst snd]. apply crosses_swap.
Qed.
(** One cell: sound up to the boundary, complete inside *)
Theorem c79_polygon_cell : forall M X c l p, mdim M = 2%nat -> pd p = 2%nat -> cell_get_coordinates M X c = Ok l -> (3 <= length l)%nat -> all_dim 2 l -> convex_ccw l ->
  exists b, point_in_cell M X p c = Ok b /\ (b = true -> forall u v, In (u, v) (edges l) -> 0 <= tri_area u v p) /\
    ((forall u v, In (u, v) (edges l) -> 0 < tri_area u v p) -> b = true).
Proof.
  intros M X c l p MD Hp E L D C. destruct (@wnd_convex p l D C Hp) as (b & Eb & _). exists b. unfold point_in_cell. rewrite MD, E. cbn [bind]. split; auto. split.
  - intros ->. apply c69_convex_sound; auto.
  - intros H. assert (X1 := @c69_convex_complete l p L D C Hp H). congruence.
Qed.

(** ** Space: faces that are flat, convex and not triangles *)
Theorem c79_polyhedron_cell_partial : forall M X c fds fcs cc p (n : list point -> point), mdim M = 3%nat -> pd p = 3%nat ->
  cell_get_faces_and_dirs (gm M) c = Ok fds -> mapM (cell_face_coordinates M X) fds = Ok fcs -> cell_get_coordinates M X c = Ok cc -> (4 <= length cc)%nat -> all3 fcs ->
  (forall f, In f fcs -> (4 <= length f)%nat /\ planar (n f) f /\ convex_about (n f) f) ->
  exists b, point_in_cell M X p c = Ok b /\ (b = true <-> forall f a, In f fcs -> In a f -> dot3 (n f) p <= dot3 (n f) a).
Proof.
  intros M X c fds fcs cc p n MD Hp EF EC EV L D H. unfold point_in_cell. rewrite MD, EF. cbn [bind]. rewrite EC. cbn [bind]. rewrite EV. cbn [bind].
  assert (LN : length fds = length fcs). { clear - EC. revert fcs EC. induction fds as [|x fds IH]; intros fcs EC; cbn [mapM] in EC; [injection EC as <-; auto|].
    apply bind_Ok in EC as (y & _ & EC). apply bind_Ok in EC as (ys & E & EC). injection EC as <-. cbn [length]. f_equal. auto. }
  rewrite LN. apply c50_convex_faces_partial; auto.
Qed.
(** Finding: in a cell with triangular faces (a tetrahedron) only the first face is tested, so points far outside are reported inside *)
Theorem c79_tetrahedron_refuted : forall M X c fds fcs cc p u v w, mdim M = 3%nat -> pd p = 3%nat ->
  cell_get_faces_and_dirs (gm M) c = Ok fds -> mapM (cell_face_coordinates M X) fds = Ok ([u; v; w] :: fcs) -> cell_get_coordinates M X c = Ok cc -> (4 <= length cc)%nat ->
  all3 ([u; v; w] :: fcs) -> (forall f, In f fcs -> length f = 3%nat) ->
  exists b, point_in_cell M X p c = Ok b /\ (b = true <-> 0 <= tdet p (u, v, w)).
Proof.
  intros M X c fds fcs cc p u v w MD Hp EF EC EV L D H. unfold point_in_cell. rewrite MD, EF. cbn [bind]. rewrite EC. cbn [bind]. rewrite EV. cbn [bind].
  assert (LN : length fds = S (length fcs)). { clear - EC. change (S (length fcs)) with (length ([u; v; w] :: fcs)). revert EC. generalize ([u; v; w] :: fcs). clear fcs u v w. intros fcs EC. revert fcs EC. induction fds as [|x fds IH]; intros fcs EC; cbn [mapM] in EC; [injection EC as <-; auto|].
    apply bind_Ok in EC as (y & _ & EC). apply bind_Ok in EC as (ys & E & EC). injection EC as <-. cbn [length]. f_equal. auto. }
  rewrite LN. apply c50_triangles_refuted; auto.
Qed.
Print Assumptions c79_tetrahedron_refuted.

(** ** The line *)
Theorem c79_line_cell : forall M X c a b p, mdim M = 1%nat -> cell_get_coordinates M X c = Ok [a; b] ->
  exists r, point_in_cell M X p c = Ok r /\ (r = true <-> px a <= px p <= px b).
Proof.
  intros M X c a b p MD E. unfold point_in_cell. rewrite MD, E. cbn [bind rd nth_error]. eexists. split; [reflexivity|].
  rewrite andb_true_iff. unfold geb. rewrite !leb_iff. lra.
Qed.
(** Finding: a cell whose first node has the larger coordinate contains no point *)
Theorem c79_line_backwards_refuted : forall M X c a b p, mdim M = 1%nat -> cell_get_coordinates M X c = Ok [a; b] -> px b < px a -> point_in_cell M X p c = Ok false.
Proof.
  intros M X c a b p MD E L. destruct (@c79_line_cell M X c a b p MD E) as (r & Er & H). rewrite Er. f_equal. destruct r; auto. exfalso. assert (G := proj1 H eq_refl). lra.
Qed.
(** a line of cells: every point from the first node to the last is in some cell *)
Theorem c79_line : forall m gt (x : list R) p, mdim (line_g m gt) = 1%nat -> (2 <= length x)%nat -> pd p = 1%nat -> (forall i, (i + 1 < length x)%nat -> nth i x 0 < nth (i + 1) x 0) ->
  (nth 0 x 0 <= px p <= nth (length x - 1) x 0 <-> exists c, (c + 1 < length x)%nat /\ point_in_cell (line_g m gt) (on_line x) p c = Ok true).
Proof.
  intros m gt x p MD L Hp AS.
  assert (RD : forall i, (i < length x)%nat -> rd (on_line x) i = Ok (P1 (nth i x 0))).
  { intros i Hi. unfold on_line. apply rd_Ok. rewrite nth_error_map, (nth_error_nth' x 0 Hi). auto. }
  assert (CC : forall c, (c + 1 < length x)%nat -> cell_get_coordinates (line_g m gt) (on_line x) c = Ok [P1 (nth c x 0); P1 (nth (c + 1) x 0)]).
  { intros c Hc. unfold cell_get_coordinates. cbn [line_g cverts bind mapM]. rewrite (RD c), (RD (c + 1)%nat) by lia. reflexivity. }
  assert (PC : forall c, (c + 1 < length x)%nat -> exists r, point_in_cell (line_g m gt) (on_line x) p c = Ok r /\ (r = true <-> nth c x 0 <= px p <= nth (c + 1) x 0)).
  { intros c Hc. exact (@c79_line_cell (line_g m gt) (on_line x) c _ _ p MD (CC c Hc)). }
  assert (UPW : forall i j, (i <= j)%nat -> (j < length x)%nat -> nth i x 0 <= nth j x 0).
  { intros i j Hij. induction Hij as [|j Hij IH]; intros Hj; [lra|]. specialize (IH ltac:(lia)). assert (A := AS j ltac:(lia)). replace (j + 1)%nat with (S j) in A by lia. lra. }
  split.
  - intros [H1 H2]. assert (G : forall k, (k < length x)%nat -> px p <= nth k x 0 -> (1 <= k)%nat -> exists c, (c + 1 < length x)%nat /\ nth c x 0 <= px p <= nth (c + 1) x 0).
    { induction k as [|k IH]; intros Hk HP K1; [lia|]. destruct (Rle_dec (nth k x 0) (px p)) as [Le|Gt].
      - exists k. replace (k + 1)%nat with (S k) by lia. split; [lia|split; auto].
      - destruct k as [|k]; [exfalso; lra|]. apply IH; [lia|lra|lia]. }
    destruct (G (length x - 1)%nat ltac:(lia) H2 ltac:(lia)) as (c & Hc & Hx). exists c. split; auto. destruct (PC c Hc) as (r & Er & Hr). rewrite Er. f_equal. apply Hr; auto.
  - intros (c & Hc & E). destruct (PC c Hc) as (r & Er & Hr). assert (r = true) by congruence. apply Hr in H. split.
    + assert (A := UPW 0%nat c ltac:(lia) ltac:(lia)). lra.
    + assert (A := UPW (c + 1)%nat (length x - 1)%nat ltac:(lia) ltac:(lia)). lra.
Qed.

(** ** Concrete cases *)
(** two quads side by side fill the rectangle [0,2]x[0,1] *)
Definition two_squares : coordinates := quads_X 1.
Definition sq_l0 : list point := [Pt 2 0 0 0; Pt 2 1 0 0; Pt 2 1 1 0; Pt 2 0 1 0].
Definition sq_l1 : list point := [Pt 2 1 0 0; Pt 2 (2 * 1) 0 0; Pt 2 (2 * 1) 1 0; Pt 2 1 1 0].
Definition sq_outer : list point := [Pt 2 0 0 0; Pt 2 (2 * 1) 0 0; Pt 2 (2 * 1) 1 0; Pt 2 0 1 0].
Lemma box_convex u v w : u < v -> 0 < w -> convex_ccw [Pt 2 u 0 0; Pt 2 v 0 0; Pt 2 v w 0; Pt 2 u w 0].
Proof.
  intros Huv Hw. split.
  - repeat constructor; cbn; intuition; match goal with E : Pt _ _ _ _ = Pt _ _ _ _ |- _ => injection E; lra end.
  - intros a b c Hab Hc N1 N2. cbn in Hab, Hc. repeat (destruct Hab as [Hab|Hab]; [injection Hab as <- <-|]); [..|destruct Hab]; (repeat (destruct Hc as [<-|Hc]; [|]); [..|destruct Hc]); try congruence; unfold tri_area; cbn; nra.
Qed.
Lemma squares_fill : fill [sq_l0; sq_l1] sq_outer.
Proof.
  set (a := Pt 2 0 0 0). set (b := Pt 2 1 0 0). set (c := Pt 2 (2 * 1) 0 0). set (d := Pt 2 (2 * 1) 1 0). set (e := Pt 2 1 1 0). set (f := Pt 2 0 1 0).
  exists [(a, b); (b, c); (c, d); (d, e); (e, f); (f, a)], [(b, e)]. split.
  - apply (@cut_edge [] a c b [(c, d); (d, e); (e, f); (f, a)]); [repeat split; exists (1/2); cbn; lra|].
    apply (@cut_edge [(a, c); (c, d)] d f e [(f, a)]); [repeat split; exists (1/2); cbn; lra|]. apply cut_same.
  - change (concat (map edges [sq_l0; sq_l1])) with [(a, b); (b, e); (e, f); (f, a); (b, c); (c, d); (d, e); (e, b)]. cbn [map swap fst snd app].
    set (k := fun i : nat * nat => nth (fst i) [(a, b); (b, e); (e, f); (f, a); (b, c); (c, d); (d, e); (e, b)] (a, a)).
    apply (@Permutation_map _ _ k [(0,0);(1,0);(2,0);(3,0);(4,0);(5,0);(6,0);(7,0)] [(1,0);(7,0);(0,0);(4,0);(5,0);(6,0);(2,0);(3,0)])%nat.
    apply permb_ok. reflexivity.
Qed.
(** the point in the middle of the shared edge is in exactly one of the two cells (as are all points in the rectangle) *)
Example c79_squares p : pd p = 2%nat -> 0 < p0 p < 2 -> 0 < p1 p < 1 -> exists bs, mapM (point_in_cell quads_g two_squares p) [0; 1]%nat = Ok bs /\ how_many bs = 1%nat.
Proof.
  intros Hp H0 H1.
  assert (D : forall l, In l [sq_l0; sq_l1; sq_outer] -> all_dim 2 l) by (intros l I q Hq; repeat (destruct I as [<-|I]; [cbn in Hq; intuition (subst; auto)|]); destruct I).
  assert (CO : convex_ccw sq_outer) by (apply box_convex; lra).
  destruct (@c79_exactly_one quads_g two_squares [0; 1]%nat [sq_l0; sq_l1] sq_outer p eq_refl Hp) as (bs & r & E & Er & H).
  - apply Forall2_cons; [split; [reflexivity|split; [apply D; cbn; auto|apply box_convex; lra]]|].
    apply Forall2_cons; [split; [reflexivity|split; [apply D; cbn; auto|apply box_convex; lra]]|]. apply Forall2_nil.
  - apply D; cbn; auto.
  - auto.
  - apply squares_fill.
  - exists bs. split; auto. assert (T := @c69_convex_complete sq_outer p ltac:(cbn; lia) (D _ ltac:(cbn; auto)) CO Hp).
    rewrite T in Er; [injection Er as <-; auto|]. intros u v Huv. cbn in Huv. repeat (destruct Huv as [Huv|Huv]; [injection Huv as <- <-|]); [..|destruct Huv]; unfold tri_area; cbn; nra.
Qed.
(** the tetrahedron on top of the prism: the point (100, 100, 3/2) is far outside, yet reported inside *)
Example c79_tower : point_in_cell tower_g tower_X (Pt 3 100 100 (3/2)) 1 = Ok true.
Proof.
  assert (E : cell_get_faces_and_dirs (gm tower_g) 1 = Ok [(1%nat, (-1)%Z); (5%nat, 1%Z); (6%nat, 1%Z); (7%nat, 1%Z)]) by (vm_compute; reflexivity).
  destruct (@c79_tetrahedron_refuted tower_g tower_X 1 _ [[Pt 3 0 0 1; Pt 3 1 0 1; Pt 3 0 0 2]; [Pt 3 1 0 1; Pt 3 0 1 1; Pt 3 0 0 2]; [Pt 3 0 1 1; Pt 3 0 0 1; Pt 3 0 0 2]]
    [Pt 3 0 0 1; Pt 3 1 0 1; Pt 3 0 1 1; Pt 3 0 0 2] (Pt 3 100 100 (3/2)) (Pt 3 0 1 1) (Pt 3 1 0 1) (Pt 3 0 0 1) eq_refl eq_refl E eq_refl eq_refl) as (b & Eb & H).
  - cbn. lia.
  - intros f I q Hq. repeat (destruct I as [<-|I]; [cbn in Hq; intuition (subst; auto)|]). destruct I.
  - intros f I. repeat (destruct I as [<-|I]; [reflexivity|]). destruct I.
  - rewrite Eb. f_equal. apply H. unfold tdet, det3. cbn. lra.
Qed.
(** a line of three cells *)
Example c79_line_ex m gt : mdim (line_g m gt) = 1%nat -> exists c, (c < 3)%nat /\ point_in_cell (line_g m gt) (on_line [0; 1; 3; 4]) (P1 (5/2)) c = Ok true.
Proof.
  intros MD. destruct (@c79_line m gt [0; 1; 3; 4] (P1 (5/2)) MD) as [H _]; [cbn; lia|reflexivity| |].
  - intros i Hi. cbn in Hi. do 3 (destruct i as [|i]; [cbn; lra|]). lia.
  - destruct H as (c & Hc & E); [cbn; lra|]. exists c. split; auto. cbn in Hc. lia.
Qed.
