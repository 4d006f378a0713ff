(** Mesh tiles: C31-C36. *)
From Coq Require Import Permutation String.
From Verif Require Import Base Loop Defs Factory Tiles Tiles_spec Cache_proofs MeshSet MeshSet_proofs Tiles_proofs Tiles_proofs2 Partition_spec IndexPartition.
From Verif Require Props_IndexPartition.
Set Implicit Arguments.

(** ** A witness: four cells in a line (nodes = faces = edges), two tiles, one halo layer, as an initial partition would give *)
Definition line4_map : cellmap :=
  CellMap (fun c => match c with 0 => [1] | 3 => [2] | _ => [c - 1; c + 1] end) (fun c => [c; c + 1]) (fun c => [c; c + 1]) (fun c => [c; c + 1])
    (fun c => [2 * c; 2 * c + 1]) (fun c => [4 * c; 4 * c + 1; 4 * c + 2; 4 * c + 3]) (fun c => [2 * c; 2 * c + 1]).
Definition line4_with (fl : flags) : tmesh :=
  TMesh 4 5 5 5 fl (fun c => Ok (m_adj line4_map c)) (fun c => Ok (m_nodes line4_map c)) (fun c => Ok (m_faces line4_map c))
    (fun c => Ok (m_edges line4_map c)) (fun c => Ok (m_sides line4_map c)) (fun c => Ok (m_wedges line4_map c)) (fun c => Ok (m_corners line4_map c)).
Definition all_fl := Flags true true true true true.
Definition line4 := line4_with all_fl.
Definition two_tiles : list treq := [TReq [0; 1] 1 all_fl; TReq [2; 3] 1 all_fl].
Lemma line4_ok fl : (fl_wedges fl = true -> fl_sides fl = true) -> tile_mesh (line4_with fl) line4_map.
Proof.
  intros W. constructor; cbn [line4_with tm_adj tm_nodes tm_faces tm_edges tm_sides tm_wedges tm_corners tm_ncells tm_nnodes tm_nfaces tm_nedges tm_flags]; auto;
    try (intros _); intros c Hc; (split; [reflexivity|]); intros e He; do 4 (destruct c as [|c]; [simpl in He; lia|]); lia.
Qed.
Lemma two_tiles_valid r : In r two_tiles -> valid_req line4 r.
Proof. intros [<-|[<-|[]]]; (split; [intros c [<-|[<-|[]]]; simpl; lia|simpl; auto]). Qed.
Definition tiles_data (o : outcome tdata) : tdata := match o with Ok d => d | _ => no_tiles end.
Definition two_tiles_data : tdata := tiles_data (tiles_of line4 two_tiles).
Lemma two_tiles_built : tiles_of line4 two_tiles = Ok two_tiles_data. Proof. reflexivity. Qed.

Section T.
Variables (m : tmesh) (g : cellmap) (hist : list treq) (d : tdata).
Hypothesis K : tile_mesh m g.
Hypothesis V : forall r, In r hist -> valid_req m r.
Hypothesis E : tiles_of m hist = Ok d.
Lemma hist_tiles : length (td_tiles d) = length hist.
Proof. destruct hist as [|r l] eqn:Eh; [injection E as <-; auto|]. rewrite <- Eh in *. apply (ti_len (run_inv K V E ltac:(congruence))). Qed.
Lemma tile_at i t : nth_error (td_tiles d) i = Some t -> exists r, nth_error hist i = Some r /\ tile_spec m g hist i r t.
Proof.
  intros H. assert (L := nth_error_lt _ _ H). rewrite hist_tiles in L.
  destruct (nth_error hist i) as [r|] eqn:Er; [|apply nth_error_None in Er; lia]. exists r. split; auto.
  assert (NE : hist <> []) by (intros ->; simpl in L; lia). apply (ti_tiles (run_inv K V E NE) i Er H).
Qed.
Lemma req_at i r : nth_error hist i = Some r -> exists t, nth_error (td_tiles d) i = Some t /\ tile_spec m g hist i r t.
Proof.
  intros H. assert (L := nth_error_lt _ _ H). rewrite <- hist_tiles in L.
  destruct (nth_error (td_tiles d) i) as [t|] eqn:Et; [|apply nth_error_None in Et; lia].
  destruct (tile_at _ Et) as [r' [Hr S]]. assert (r' = r) as -> by congruence. eauto.
Qed.
End T.
Arguments tile_at {m g hist d} _ _ _ i {t} _.
Arguments req_at {m g hist d} _ _ _ i {r} _.

(** ** C31 *)
Theorem c31_construction_succeeds : forall m g hist, tile_mesh m g -> (forall r, In r hist -> valid_req m r) ->
  exists d, tiles_of m hist = Ok d /\ length (td_tiles d) = length hist.
Proof.
  intros m g [|r hist] K V; [exists no_tiles; auto|]. destruct (@run_ok m g K (r :: hist) V) as [d [E I]]; [discriminate|].
  exists d. split; auto. apply (ti_len I).
Qed.
(** tile [i] has id [i] and owns exactly the cells it was made with *)
Theorem c31_tile_owns_its_cells : forall m g hist d i t, tile_mesh m g -> (forall r, In r hist -> valid_req m r) -> tiles_of m hist = Ok d ->
  nth_error (td_tiles d) i = Some t -> exists r, nth_error hist i = Some r /\ t_id t = i /\ tile_entities t CELL PARALLEL_OWNED = tr_cells r.
Proof.
  intros m g hist d i t K V E H. destruct (tile_at K V E _ H) as [r [Hr S]]. exists r. split; auto. split; [apply (ts_id S)|apply (ts_cells S)].
Qed.
Lemma in_concat_cells (hist : list treq) c : In c (concat (map tr_cells hist)) <-> exists i r, nth_error hist i = Some r /\ In c (tr_cells r).
Proof.
  rewrite in_concat. split.
  - intros [l [Hl Hc]]. apply in_map_iff in Hl as [r [<- Hr]]. apply In_nth_error in Hr as [i Hi]. eauto.
  - intros [i [r [Hi Hc]]]. exists (tr_cells r). split; auto. apply in_map. eapply nth_error_In; eauto.
Qed.
Lemma concat_NoDup_unique (hist : list treq) c i j r r' : NoDup (concat (map tr_cells hist)) -> nth_error hist i = Some r -> nth_error hist j = Some r' ->
  In c (tr_cells r) -> In c (tr_cells r') -> i = j.
Proof.
  revert i j. induction hist as [|x hist IH]; intros i j N Hi Hj Ci Cj; [destruct i; discriminate|]. simpl in N.
  apply NoDup_app_iff in N as [_ [N D]].
  destruct i as [|i], j as [|j]; simpl in *; auto.
  - injection Hi as <-. exfalso. apply (D c Ci). apply in_concat_cells. eauto.
  - injection Hj as <-. exfalso. apply (D c Cj). apply in_concat_cells. eauto.
Qed.
(** on a mesh without tiles no cell, face, edge or node has a master tile *)
Theorem c31_no_tiles_no_master : forall m d e, tiles_of m [] = Ok d ->
  Forall (fun k => master_tile_ID d k e = Ok (-1)%Z) [NODE; EDGE; FACE; CELL].
Proof. intros m d e E. injection E as <-. repeat constructor. Qed.
(** if no cell is given twice, each given cell is owned by exactly one tile, its master tile; other cells have no master tile *)
Theorem c31_tiles_partition_the_cells : forall m g hist d c, tile_mesh m g -> (forall r, In r hist -> valid_req m r) -> tiles_of m hist = Ok d ->
  NoDup (concat (map tr_cells hist)) -> hist <> [] -> c < tm_ncells m ->
  (In c (concat (map tr_cells hist)) -> exists i t, nth_error (td_tiles d) i = Some t /\ In c (tile_entities t CELL PARALLEL_OWNED) /\
     master_tile_ID d CELL c = Ok (Z.of_nat i) /\
     forall j t', nth_error (td_tiles d) j = Some t' -> In c (tile_entities t' CELL PARALLEL_OWNED) -> j = i) /\
  (~ In c (concat (map tr_cells hist)) -> master_tile_ID d CELL c = Ok (-1)%Z /\
     forall j t', nth_error (td_tiles d) j = Some t' -> ~ In c (tile_entities t' CELL PARALLEL_OWNED)).
Proof.
  intros m g hist d c K V E N NE Hc. assert (I := run_inv K V E NE). destruct (ti_cell I) as [L A]. destruct (A c Hc) as [z [Ez B]].
  assert (M : master_tile_ID d CELL c = Ok z). { simpl. rewrite (ti_init I). simpl. apply rd_Ok. auto. }
  assert (U : forall j t', nth_error (td_tiles d) j = Some t' -> In c (tile_entities t' CELL PARALLEL_OWNED) -> exists r', nth_error hist j = Some r' /\ In c (tr_cells r')).
  { intros j t' Hj Ij. destruct (tile_at K V E _ Hj) as [r' [Hr' S']]. exists r'. split; auto. rewrite <- (ts_cells S'). auto. }
  destruct B as [[-> B]|[i [r [-> [B1 [B2 B3]]]]]].
  - split.
    + intros H. apply in_concat_cells in H as [i [r [Hi Ci]]]. exfalso. apply (B r); auto. eapply nth_error_In; eauto.
    + intros _. split; auto. intros j t' Hj Ij. destruct (U _ _ Hj Ij) as [r' [Hr' Cr']]. apply (B r'); auto. eapply nth_error_In; eauto.
  - split.
    + intros _. destruct (req_at K V E _ B1) as [t [Ht S]]. exists i, t. split; auto. split; [|split; auto].
      * change (In c (el_owned (t_cells t))). rewrite (ts_cells S). auto.
      * intros j t' Hj Ij. destruct (U _ _ Hj Ij) as [r' [Hr' Cr']]. eapply concat_NoDup_unique; eauto.
    + intros H. exfalso. apply H. apply in_concat_cells. eauto.
Qed.
(** the initial tiles of a mesh whose cells are partitioned by index space (the default partitioner) *)
Definition build_hist (m : tmesh) (parts : list (list nat)) (layers : Z) : list treq := map (fun p => TReq p layers (tm_flags m)) parts.
Lemma build_is_run m parts layers : build_tiles m parts layers = tiles_of m (build_hist m parts layers).
Proof. unfold build_tiles, tiles_of, run_tiles, build_hist. rewrite <- foldM_map. reflexivity. Qed.
Lemma NoDup_concat_unique (ps : list (list nat)) : (forall p, In p ps -> NoDup p) ->
  (forall i j p q c, nth_error ps i = Some p -> nth_error ps j = Some q -> In c p -> In c q -> i = j) -> NoDup (concat ps).
Proof.
  induction ps as [|p ps IH]; intros H1 H2; simpl; [constructor|]. apply NoDup_app_iff. split; [apply H1; simpl; auto|]. split.
  - apply IH; [intros; apply H1; simpl; auto|]. intros i j q q' c Hi Hj Ci Cj. assert (S i = S j) by (eapply H2; simpl; eauto). lia.
  - intros c Hc Hc'. apply in_concat in Hc' as [q [Hq Hcq]]. apply In_nth_error in Hq as [j Hj].
    assert (0 = S j) by (eapply (H2 0 (S j)); simpl; eauto). lia.
Qed.
(** every cell of a mesh whose initial partition is any partition of its cells (as C03 proves of the partitioners): [n] owned cells *)
Theorem c31_initial_tiles : forall m g parts layers n k, tile_mesh m g -> partitions_cells n k parts -> n <= tm_ncells m ->
  exists d, build_tiles m parts layers = Ok d /\ length (td_tiles d) = k /\ forall c, c < n ->
  exists i t, nth_error (td_tiles d) i = Some t /\ In c (tile_entities t CELL PARALLEL_OWNED) /\ master_tile_ID d CELL c = Ok (Z.of_nat i) /\
     forall j t', nth_error (td_tiles d) j = Some t' -> In c (tile_entities t' CELL PARALLEL_OWNED) -> j = i.
Proof.
  intros m g parts layers n k K [P1 [P2 [P3 P4]]] Hn. rewrite build_is_run.
  assert (V : forall r, In r (build_hist m parts layers) -> valid_req m r).
  { intros r Hr. unfold build_hist in Hr. apply in_map_iff in Hr as [p [<- Hp]]. split; [|cbn; auto]. cbn [tr_cells]. intros c' Hc'.
    specialize (P3 _ _ Hp Hc'). lia. }
  destruct (@c31_construction_succeeds m g _ K V) as [d [E L]]. exists d. split; auto.
  split. { rewrite L. unfold build_hist. rewrite map_length. auto. }
  intros c Hc.
  assert (EC : concat (map tr_cells (build_hist m parts layers)) = concat parts).
  { unfold build_hist. rewrite map_map. cbn [tr_cells]. rewrite map_id. auto. }
  assert (IC : In c (concat parts)).
  { destruct (P4 c Hc) as [i [[p [Hp Hcp]] _]]. apply in_concat. exists p. split; auto. eapply nth_error_In; eauto. }
  refine (proj1 (@c31_tiles_partition_the_cells m g _ d c K V E _ _ _) _).
  - rewrite EC. apply NoDup_concat_unique; auto. intros i j p q c' Hi Hj Ci Cj.
    destruct (P4 c' (P3 _ _ (nth_error_In _ _ Hi) Ci)) as [x [_ U]]. transitivity x; [symmetry|]; apply U; eauto.
  - intros H. unfold build_hist in H. apply map_eq_nil in H. subst parts. destruct IC.
  - lia.
  - rewrite EC. auto.
Qed.
(** the default partitioner: the tiles of a mesh with [n] owned cells *)
Theorem c31_index_space_tiles : forall m g layers n k, tile_mesh m g -> 1 <= k -> n <= tm_ncells m ->
  exists parts d, partition_by_index n k = Ok parts /\ build_tiles m parts layers = Ok d /\ length (td_tiles d) = k /\ forall c, c < n ->
  exists i t, nth_error (td_tiles d) i = Some t /\ In c (tile_entities t CELL PARALLEL_OWNED) /\ master_tile_ID d CELL c = Ok (Z.of_nat i) /\
     forall j t', nth_error (td_tiles d) j = Some t' -> In c (tile_entities t' CELL PARALLEL_OWNED) -> j = i.
Proof.
  intros m g layers n k K Hk Hn. destruct (@Props_IndexPartition.c03_index_partitions n k Hk) as [parts [E [P _]]].
  destruct (@c31_initial_tiles m g parts layers n k K P Hn) as [d D]. exists parts, d. auto.
Qed.
Example c31_witness : tile_mesh line4 line4_map /\ (forall r, In r two_tiles -> valid_req line4 r) /\ tiles_of line4 two_tiles = Ok two_tiles_data /\
  NoDup (concat (map tr_cells two_tiles)) /\ master_tile_ID two_tiles_data CELL 1 = Ok 0%Z /\ master_tile_ID two_tiles_data CELL 2 = Ok 1%Z /\
  build_tiles line4 [[0; 1]; [2; 3]] 1 = Ok two_tiles_data.
Proof.
  split; [apply line4_ok; auto|]. split; [apply two_tiles_valid|]. split; [reflexivity|].
  split; [repeat constructor; simpl; intuition lia|]. repeat split; reflexivity.
Qed.

(** ** C32 *)
Section S.
Variables (m : tmesh) (g : cellmap) (hist : list treq) (d : tdata).
Hypothesis K : tile_mesh m g.
Hypothesis V : forall r, In r hist -> valid_req m r.
Hypothesis E : tiles_of m hist = Ok d.
Lemma in_parts_iff k h p e : (In p (parts k h) -> touches (ent_of g k) p e -> exists r, In r h /\ wants g k r e).
Proof.
  intros Hp T. unfold parts in Hp. apply in_map_iff in Hp as [r [<- Hr]]. exists r. split; auto.
  destruct (asks k (tr_flags r)) eqn:A; [split; auto|]. destruct T as [c [[] _]].
Qed.
Lemma wants_part k h r e : In r h -> wants g k r e -> In (tr_cells r) (parts k h) /\ touches (ent_of g k) (tr_cells r) e.
Proof. intros Hr [A T]. split; auto. unfold parts. apply in_map_iff. exists r. rewrite A. auto. Qed.
Lemma asked_on_mesh k r : In r hist -> shared_kind k -> asks k (tr_flags r) = true -> asks k (tm_flags m) = true.
Proof. intros Hr Sk A. destruct (V _ Hr) as (_ & V2 & V3 & _). destruct Sk as [<-|[<-|[<-|[]]]]; simpl in *; auto. Qed.
Lemma owned_iff i t r k e : nth_error (td_tiles d) i = Some t -> nth_error hist i = Some r -> shared_kind k ->
  (In e (tile_entities t k PARALLEL_OWNED) <-> wants g k r e /\ forall r', In r' (firstn i hist) -> ~ wants g k r' e).
Proof.
  intros Ht Hr Sk. destruct (tile_at K V E _ Ht) as [r0 [Hr0 S]]. assert (r0 = r) as -> by congruence.
  assert (SS := ts_shared S Sk). unfold tile_entities, el_get, wants at 1. destruct (asks k (tr_flags r)).
  - rewrite (eo_in SS). split.
    + intros [T H]. split; auto. intros r' Hr' W. destruct (@wants_part _ _ _ _ Hr' W) as [P T']. apply (H _ P T').
    + intros [[_ T] H]. split; auto. intros p Hp T'. destruct (@in_parts_iff _ _ _ _ Hp T') as [r' [H1 H2]]. apply (H r'); auto.
  - rewrite SS. simpl. intuition discriminate.
Qed.
End S.
Arguments in_parts_iff {g k h p e} _ _.
Arguments wants_part {g k h r e} _ _.
Arguments asked_on_mesh {m hist} _ {k r} _ _ _.
Arguments owned_iff {m g hist d} _ _ _ {i t r} k e _ _ _.
Lemma In_firstn_nth A (l : list A) i x : In x (firstn i l) <-> exists j, j < i /\ nth_error l j = Some x.
Proof.
  split.
  - intros H. apply In_nth_error in H as [j Hj]. assert (L := nth_error_lt _ _ Hj). rewrite firstn_length in L. exists j. split; [lia|].
    rewrite <- (firstn_skipn i l). rewrite nth_error_app1; auto. rewrite firstn_length. lia.
  - intros [j [Hj Hx]]. assert (L := nth_error_lt _ _ Hx). rewrite <- (firstn_skipn i l) in Hx. rewrite nth_error_app1 in Hx.
    + eapply nth_error_In; eauto.
    + rewrite firstn_length. lia.
Qed.
(** an entity on an owned cell of some tile that asked for the kind is owned by exactly one tile: the first such, its master tile *)
Theorem c32_exactly_one_owner : forall m g hist d k e r0, tile_mesh m g -> (forall r, In r hist -> valid_req m r) -> tiles_of m hist = Ok d ->
  shared_kind k -> In r0 hist -> wants g k r0 e ->
  exists i t r, nth_error (td_tiles d) i = Some t /\ nth_error hist i = Some r /\ wants g k r e /\ In e (tile_entities t k PARALLEL_OWNED) /\
    master_tile_ID d k e = Ok (Z.of_nat i) /\
    (forall j r', nth_error hist j = Some r' -> wants g k r' e -> i <= j) /\
    (forall j t', nth_error (td_tiles d) j = Some t' -> In e (tile_entities t' k PARALLEL_OWNED) -> j = i).
Proof.
  intros m g hist d k e r0 K V E Sk H0 W0. assert (NE : hist <> []) by (intros ->; destruct H0). assert (I := run_inv K V E NE).
  assert (AM := asked_on_mesh V H0 Sk (proj1 W0)).
  assert (He : e < num_of m k).
  { destruct W0 as [_ [c [Hc Hec]]]. destruct (V _ H0) as [Vc _]. destruct Sk as [<-|[<-|[<-|[]]]]; cbn in *.
    - apply (proj2 (tk_nodes K (Vc c Hc))); auto.
    - apply (proj2 (tk_faces K AM (Vc c Hc))); auto.
    - apply (proj2 (tk_edges K AM (Vc c Hc))); auto. }
  destruct (ti_arr I Sk AM) as [L A]. destruct (A e He) as [z [Ez B]].
  assert (M : master_tile_ID d k e = Ok z). { destruct Sk as [<-|[<-|[<-|[]]]]; simpl; rewrite (ti_init I); simpl; apply rd_Ok; auto. }
  destruct B as [[-> B]|[i [p [-> [B1 [B2 B3]]]]]].
  - exfalso. destruct (wants_part H0 W0) as [P T]. apply (B _ P T).
  - unfold parts in B1. rewrite nth_error_map in B1. destruct (nth_error hist i) as [r|] eqn:Hr; [|discriminate]. simpl in B1. injection B1 as <-.
    assert (W : wants g k r e). { unfold wants. destruct (asks k (tr_flags r)); auto. destruct B2 as [c [[] _]]. }
    assert (FI : forall j r', nth_error hist j = Some r' -> wants g k r' e -> i <= j).
    { intros j r' Hj W'. destruct (Nat.le_gt_cases i j); auto. exfalso.
      assert (Hf : In r' (firstn i hist)) by (apply In_firstn_nth; exists j; auto).
      destruct (wants_part Hf W') as [P T]. unfold parts in *. rewrite firstn_map in B3. apply (B3 _ P T). }
    destruct (req_at K V E _ Hr) as [t [Ht S]]. exists i, t, r. split; auto. split; auto. split; auto. split.
    + apply (owned_iff K V E k e Ht Hr Sk). split; auto. intros r' Hr' W'. apply In_firstn_nth in Hr' as [j [Hj Hr']].
      assert (i <= j) by eauto. lia.
    + split; auto. split; auto. intros j t' Hj Ij. destruct (tile_at K V E _ Hj) as [r' [Hr' S']].
      destruct (proj1 (owned_iff K V E k e Hj Hr' Sk) Ij) as [W' F']. assert (i <= j) by eauto.
      destruct (Nat.eq_dec i j); auto. exfalso. apply (F' r); auto. apply In_firstn_nth. exists i. split; auto. lia.
Qed.
(** an entity no tile wants has no owner and no master tile *)
Theorem c32_unclaimed_entities_have_no_owner : forall m g hist d k e, tile_mesh m g -> (forall r, In r hist -> valid_req m r) -> tiles_of m hist = Ok d ->
  shared_kind k -> hist <> [] -> asks k (tm_flags m) = true -> e < num_of m k -> (forall r, In r hist -> ~ wants g k r e) ->
  master_tile_ID d k e = Ok (-1)%Z /\ forall j t, nth_error (td_tiles d) j = Some t -> ~ In e (tile_entities t k PARALLEL_OWNED).
Proof.
  intros m g hist d k e K V E Sk NE AM He W. assert (I := run_inv K V E NE). destruct (ti_arr I Sk AM) as [L A]. destruct (A e He) as [z [Ez B]].
  assert (M : master_tile_ID d k e = Ok z). { destruct Sk as [<-|[<-|[<-|[]]]]; simpl; rewrite (ti_init I); simpl; apply rd_Ok; auto. }
  split.
  - destruct B as [[-> B]|[i [p [-> [B1 [B2 B3]]]]]]; auto. exfalso. apply nth_error_In in B1.
    destruct (in_parts_iff B1 B2) as [r [Hr Wr]]. apply (W r); auto.
  - intros j t Hj Ij. destruct (tile_at K V E _ Hj) as [r' [Hr' S']]. destruct (proj1 (owned_iff K V E k e Hj Hr' Sk) Ij) as [W' _].
    apply (W r'); auto. eapply nth_error_In; eauto.
Qed.
(** a tile that asked for the kind lists as ghosts exactly the entities of its (owned or ghost) cells that it does not own *)
Theorem c32_other_users_list_it_as_ghost : forall m g hist d k e i t r, tile_mesh m g -> (forall r, In r hist -> valid_req m r) -> tiles_of m hist = Ok d ->
  shared_kind k -> nth_error (td_tiles d) i = Some t -> nth_error hist i = Some r -> asks k (tr_flags r) = true ->
  (In e (tile_entities t k PARALLEL_GHOST) <->
   touches (ent_of g k) (tile_entities t CELL TYPE_ALL) e /\ ~ In e (tile_entities t k PARALLEL_OWNED)).
Proof.
  intros m g hist d k e i t r K V E Sk Ht Hr A. destruct (tile_at K V E _ Ht) as [r0 [Hr0 S]]. assert (r0 = r) as -> by congruence.
  assert (SS := ts_shared S Sk). rewrite A in SS. unfold tile_entities, el_get. rewrite (eg_in SS).
  cbn [t_list]. rewrite (ts_all S). unfold touches. split; intros [H1 H2]; split; auto.
  - destruct H1 as [[c [H H']]|[c [H H']]]; exists c; rewrite in_app_iff; auto.
  - destruct H1 as [c [H H']]. apply in_app_iff in H as [H|H]; eauto.
Qed.
Example c32_witness : wants line4_map NODE (TReq [0; 1] 1 all_fl) 2 /\ wants line4_map NODE (TReq [2; 3] 1 all_fl) 2 /\
  master_tile_ID two_tiles_data NODE 2 = Ok 0%Z /\ map (fun t => tile_entities t NODE PARALLEL_OWNED) (td_tiles two_tiles_data) = [[0; 1; 2]; [3; 4]] /\
  map (fun t => tile_entities t NODE PARALLEL_GHOST) (td_tiles two_tiles_data) = [[3]; [2; 1]].
Proof. split; [split; [reflexivity|exists 1; simpl; auto]|]. split; [split; [reflexivity|exists 2; simpl; auto]|]. repeat split; reflexivity. Qed.

(** ** C33 *)
Theorem c33_halo_is_the_neighbourhood : forall m g hist d i t r, tile_mesh m g -> (forall r, In r hist -> valid_req m r) -> tiles_of m hist = Ok d ->
  nth_error (td_tiles d) i = Some t -> nth_error hist i = Some r ->
  NoDup (tile_entities t CELL PARALLEL_GHOST) /\
  forall c, In c (tile_entities t CELL PARALLEL_GHOST) <->
    within (m_adj g) (tr_cells r) (Z.to_nat (tr_layers r)) c /\ ~ In c (tr_cells r).
Proof.
  intros m g hist d i t r K V E Ht Hr. destruct (tile_at K V E _ Ht) as [r0 [Hr0 S]]. assert (r0 = r) as -> by congruence.
  split; [apply (ts_gnd S)|apply (ts_gin S)].
Qed.
Theorem c33_all_is_owned_then_ghost : forall m g hist d i t, tile_mesh m g -> (forall r, In r hist -> valid_req m r) -> tiles_of m hist = Ok d ->
  nth_error (td_tiles d) i = Some t ->
  tile_entities t CELL TYPE_ALL = tile_entities t CELL PARALLEL_OWNED ++ tile_entities t CELL PARALLEL_GHOST.
Proof.
  intros m g hist d i t K V E Ht. destruct (tile_at K V E _ Ht) as [r0 [Hr0 S]]. unfold tile_entities, el_get. cbn [t_list].
  rewrite (ts_cells S). apply (ts_all S).
Qed.
Example c33_witness : map (fun t => tile_entities t CELL PARALLEL_GHOST) (td_tiles two_tiles_data) = [[2]; [1]] /\
  within (m_adj line4_map) [0; 1] 1 2 /\ ~ within (m_adj line4_map) [0; 1] 1 3.
Proof.
  split; [reflexivity|]. split.
  - eapply w_step with (c := 1); [apply w_here; simpl; auto|simpl; auto].
  - intros H. inversion H as [k c I|k c c' W I]; subst; [simpl in I; lia|].
    apply within_0 in W as [<-|[<-|[]]]; simpl in I; lia.
Qed.

(** ** C34 *)
(** cells, nodes, faces and edges *)
Theorem c34_lists_are_disjoint_and_duplicate_free : forall m g hist d i t r k, tile_mesh m g -> (forall r, In r hist -> valid_req m r) ->
  tiles_of m hist = Ok d -> nth_error (td_tiles d) i = Some t -> nth_error hist i = Some r -> NoDup (tr_cells r) ->
  In k [CELL; NODE; FACE; EDGE] ->
  NoDup (tile_entities t k PARALLEL_OWNED) /\ NoDup (tile_entities t k PARALLEL_GHOST) /\
  (forall e, In e (tile_entities t k PARALLEL_OWNED) -> ~ In e (tile_entities t k PARALLEL_GHOST)) /\
  tile_entities t k TYPE_ALL = tile_entities t k PARALLEL_OWNED ++ tile_entities t k PARALLEL_GHOST.
Proof.
  intros m g hist d i t r k K V E Ht Hr N Hk. destruct (tile_at K V E _ Ht) as [r0 [Hr0 S]]. assert (r0 = r) as -> by congruence.
  destruct Hk as [<-|Sk].
  - unfold tile_entities, el_get. cbn [t_list]. rewrite (ts_cells S). split; auto. split; [apply (ts_gnd S)|]. split; [|apply (ts_all S)].
    intros e He Hg. apply (ts_gin S) in Hg as [_ Hg]. auto.
  - assert (SS := ts_shared S Sk). unfold tile_entities, el_get. destruct (asks k (tr_flags r)).
    + split; [apply (eo_nd SS)|]. split; [apply (eg_nd SS)|]. split; [|apply (ea_eq SS)]. intros e H1 H2. apply (eg_in SS) in H2. tauto.
    + rewrite SS. simpl. split; [constructor|]. split; [constructor|]. auto.
Qed.
Lemma flat_map_NoDup_disj (f : nat -> list nat) l : NoDup l -> (forall c, In c l -> NoDup (f c)) ->
  (forall c c' x, In c l -> In c' l -> In x (f c) -> In x (f c') -> c = c') -> NoDup (flat_map f l).
Proof.
  induction l as [|a l IH]; intros N H1 H2; simpl; [constructor|]. inversion N; subst. apply NoDup_app_iff.
  split; [apply H1; simpl; auto|]. split.
  - apply IH; auto; intros; [apply H1; simpl; auto|eapply H2; simpl; eauto].
  - intros x Hx Hf. apply in_flat_map in Hf as [c [Hc Hxc]]. assert (a = c) by (eapply H2; simpl; eauto). congruence.
Qed.
(** sides, wedges and corners, which belong to one cell each *)
Theorem c34_cell_parts_are_disjoint_and_duplicate_free : forall m g hist d i t r k ent, tile_mesh m g -> (forall r, In r hist -> valid_req m r) ->
  tiles_of m hist = Ok d -> nth_error (td_tiles d) i = Some t -> nth_error hist i = Some r -> NoDup (tr_cells r) ->
  In (k, ent) [(SIDE, m_sides g); (WEDGE, m_wedges g); (CORNER, m_corners g)] ->
  (forall c, c < tm_ncells m -> NoDup (ent c)) -> (forall c c' x, In x (ent c) -> In x (ent c') -> c = c') ->
  NoDup (tile_entities t k PARALLEL_OWNED) /\ NoDup (tile_entities t k PARALLEL_GHOST) /\
  (forall e, In e (tile_entities t k PARALLEL_OWNED) -> ~ In e (tile_entities t k PARALLEL_GHOST)) /\
  tile_entities t k TYPE_ALL = tile_entities t k PARALLEL_OWNED ++ tile_entities t k PARALLEL_GHOST.
Proof.
  intros m g hist d i t r k ent K V E Ht Hr N Hk H1 H2. destruct (tile_at K V E _ Ht) as [r0 [Hr0 S]]. assert (r0 = r) as -> by congruence.
  assert (VC := proj1 (V r (nth_error_In _ _ Hr))).
  assert (G : forall b, t_list t k = gathered b ent (tr_cells r) (el_ghost (t_cells t)) ->
    NoDup (tile_entities t k PARALLEL_OWNED) /\ NoDup (tile_entities t k PARALLEL_GHOST) /\
    (forall e, In e (tile_entities t k PARALLEL_OWNED) -> ~ In e (tile_entities t k PARALLEL_GHOST)) /\
    tile_entities t k TYPE_ALL = tile_entities t k PARALLEL_OWNED ++ tile_entities t k PARALLEL_GHOST).
  { intros b Hb. unfold tile_entities, el_get. rewrite Hb. unfold gathered. destruct b; cbn [el_owned el_ghost el_all el_empty].
    - split; [apply flat_map_NoDup_disj; eauto|]. split; [apply flat_map_NoDup_disj; eauto; [apply (ts_gnd S)|intros c Hc; apply H1, (ts_glt S); auto]|].
      split; auto. intros e Ho Hg. apply in_flat_map in Ho as [c [Hc He]], Hg as [c' [Hc' He']]. assert (c = c') as <- by eauto.
      apply (ts_gin S) in Hc' as [_ Hc']. auto.
    - split; [constructor|]. split; [constructor|]. split; auto. }
  destruct Hk as [Q|[Q|[Q|[]]]]; injection Q as <- <-; [apply (G _ (ts_sides S))|apply (G _ (ts_wedges S))|apply (G _ (ts_corners S))].
Qed.
(** counts: for every kind and type *)
Theorem c34_counts_are_list_lengths : forall m g hist d i t k ty, tile_mesh m g -> (forall r, In r hist -> valid_req m r) ->
  tiles_of m hist = Ok d -> nth_error (td_tiles d) i = Some t -> tile_num_entities t k ty = length (tile_entities t k ty).
Proof.
  intros m g hist d i t k ty K V E Ht. destruct (tile_at K V E _ Ht) as [r [Hr S]]. unfold tile_num_entities, tile_entities, el_get.
  assert (A : el_all (t_list t k) = el_owned (t_list t k) ++ el_ghost (t_list t k)).
  { assert (SS : shared_kind k -> el_all (t_list t k) = el_owned (t_list t k) ++ el_ghost (t_list t k)).
    { intros Sk. assert (Q := ts_shared S Sk). destruct (asks k (tr_flags r)); [apply (ea_eq Q)|rewrite Q; reflexivity]. }
    destruct k; try reflexivity; try (apply SS; unfold shared_kind; simpl; tauto); cbn [t_list].
    - rewrite (ts_cells S). apply (ts_all S).
    - rewrite (ts_sides S). unfold gathered. destruct (fl_wedges _); reflexivity.
    - rewrite (ts_wedges S). unfold gathered. destruct (fl_wedges _); reflexivity.
    - rewrite (ts_corners S). unfold gathered. destruct (fl_corners _); reflexivity. }
  destruct ty; auto. rewrite A, app_length. auto.
Qed.
Example c34_witness : map (fun t => tile_num_entities t NODE TYPE_ALL) (td_tiles two_tiles_data) = [4; 4] /\
  map (fun t => tile_entities t SIDE PARALLEL_OWNED) (td_tiles two_tiles_data) = [[0; 1; 2; 3]; [4; 5; 6; 7]].
Proof. split; reflexivity. Qed.

(** ** C35 *)
(** faces and edges, wedges and corners: a tile of a mesh that was asked for them lists those of its cells *)
Theorem c35_requested_kinds_partial : forall m g parts layers d i t, tile_mesh m g -> (forall p c, In p parts -> In c p -> c < tm_ncells m) ->
  build_tiles m parts layers = Ok d -> nth_error (td_tiles d) i = Some t ->
  (forall k c e, shared_kind k -> asks k (tm_flags m) = true -> In c (tile_entities t CELL TYPE_ALL) -> In e (ent_of g k c) -> In e (tile_entities t k TYPE_ALL)) /\
  (fl_wedges (tm_flags m) = true ->
     tile_entities t WEDGE PARALLEL_OWNED = flat_map (m_wedges g) (tile_entities t CELL PARALLEL_OWNED) /\
     tile_entities t WEDGE PARALLEL_GHOST = flat_map (m_wedges g) (tile_entities t CELL PARALLEL_GHOST) /\
     tile_entities t SIDE PARALLEL_OWNED = flat_map (m_sides g) (tile_entities t CELL PARALLEL_OWNED) /\
     tile_entities t SIDE PARALLEL_GHOST = flat_map (m_sides g) (tile_entities t CELL PARALLEL_GHOST)) /\
  (fl_corners (tm_flags m) = true ->
     tile_entities t CORNER PARALLEL_OWNED = flat_map (m_corners g) (tile_entities t CELL PARALLEL_OWNED) /\
     tile_entities t CORNER PARALLEL_GHOST = flat_map (m_corners g) (tile_entities t CELL PARALLEL_GHOST)).
Proof.
  intros m g parts layers d i t K P E Ht. rewrite build_is_run in E.
  assert (V : forall r, In r (build_hist m parts layers) -> valid_req m r).
  { intros r Hr. unfold build_hist in Hr. apply in_map_iff in Hr as [p [<- Hp]]. split; [|cbn; auto]. cbn [tr_cells]. eauto. }
  destruct (tile_at K V E _ Ht) as [r [Hr S]].
  assert (RF : tr_flags r = tm_flags m). { apply nth_error_In in Hr. unfold build_hist in Hr. apply in_map_iff in Hr as [p [<- _]]. auto. }
  split; [|split].
  - intros k c e Sk A Hc He. assert (SS := ts_shared S Sk). rewrite RF, A in SS. unfold tile_entities, el_get in *. cbn [t_list] in Hc.
    rewrite (ea_eq SS), in_app_iff, (eg_in SS). rewrite (ts_all S), in_app_iff in Hc.
    destruct (in_dec Nat.eq_dec e (el_owned (t_list t k))); auto. right. split; auto. destruct Hc as [Hc|Hc]; [left|right]; exists c; auto.
  - intros W. unfold tile_entities, el_get. cbn [t_list]. rewrite (ts_wedges S), (ts_sides S), RF, W, (ts_cells S). cbn. auto.
  - intros W. unfold tile_entities, el_get. cbn [t_list]. rewrite (ts_corners S), RF, W, (ts_cells S). cbn. auto.
Qed.
(** refuted for sides: on a mesh asked for sides but not wedges no tile lists any side *)
Theorem c35_sides_refuted : forall m g parts layers d i t ty, tile_mesh m g -> (forall p c, In p parts -> In c p -> c < tm_ncells m) ->
  fl_sides (tm_flags m) = true -> fl_wedges (tm_flags m) = false ->
  build_tiles m parts layers = Ok d -> nth_error (td_tiles d) i = Some t -> tile_entities t SIDE ty = [].
Proof.
  intros m g parts layers d i t ty K P _ W E Ht. rewrite build_is_run in E.
  assert (V : forall r, In r (build_hist m parts layers) -> valid_req m r).
  { intros r Hr. unfold build_hist in Hr. apply in_map_iff in Hr as [p [<- Hp]]. split; [|cbn; auto]. cbn [tr_cells]. eauto. }
  destruct (tile_at K V E _ Ht) as [r [Hr S]].
  assert (RF : tr_flags r = tm_flags m). { apply nth_error_In in Hr. unfold build_hist in Hr. apply in_map_iff in Hr as [p [<- _]]. auto. }
  unfold tile_entities. cbn [t_list]. rewrite (ts_sides S), RF, W. destruct ty; reflexivity.
Qed.
Definition sides_only := Flags true true true false false.
Example c35_witness : tile_mesh (line4_with sides_only) line4_map /\ fl_sides (tm_flags (line4_with sides_only)) = true /\
  exists d, build_tiles (line4_with sides_only) [[0; 1]; [2; 3]] 0 = Ok d /\ map (fun t => tile_entities t SIDE TYPE_ALL) (td_tiles d) = [[]; []] /\
    map (fun t => tile_entities t CELL TYPE_ALL) (td_tiles d) = [[0; 1]; [2; 3]].
Proof. split; [apply line4_ok; auto|]. split; [reflexivity|]. eexists. split; [reflexivity|]. split; reflexivity. Qed.

(** ** C36 *)
Definition list_kind (k : entity_kind) : Prop := In k [NODE; EDGE; FACE; SIDE; WEDGE; CORNER; CELL].
(** the answer is the mesh's answer for the set and type, restricted to the tile's list of the type, in the mesh's order *)
Theorem c36_restriction : forall t h reg name k ty, list_kind k -> In ty [PARALLEL_OWNED; PARALLEL_GHOST; TYPE_ALL] ->
  exists keep : nat -> bool, (forall x, keep x = true <-> In x (tile_entities t k ty)) /\
    tile_get_set_entities t h reg name k ty = filter keep (get_set_entities h reg name k ty).
Proof.
  intros t h reg name k ty Hk Ht. exists (fun x => memb x (tile_entities t k ty)). split; [intros; apply memb_spec|].
  unfold list_kind in Hk. simpl in Hk, Ht. decompose [or] Hk; try contradiction; subst k; decompose [or] Ht; try contradiction; subst ty; reflexivity.
Qed.
(** so for ALL it is exactly the set's members in the tile *)
Theorem c36_all_members_partial : forall t h reg name k p x, list_kind k -> find_set h reg name k = Some p -> ms_all (h p) = ms_owned (h p) ++ ms_ghost (h p) ->
  (In x (tile_get_set_entities t h reg name k TYPE_ALL) <-> (In x (ms_owned (h p)) \/ In x (ms_ghost (h p))) /\ In x (tile_entities t k TYPE_ALL)).
Proof.
  intros t h reg name k p x Hk F A. destruct (@c36_restriction t h reg name k TYPE_ALL Hk) as [keep [KP ->]]; [simpl; auto|].
  rewrite filter_In, KP. unfold get_set_entities. rewrite F. simpl. rewrite A, in_app_iff. tauto.
Qed.
(** for OWNED it is so if the tile owns no entity that another rank owns *)
Theorem c36_owned_members_partial : forall t h reg name k p x, list_kind k -> find_set h reg name k = Some p ->
  (forall e, In e (tile_entities t k PARALLEL_OWNED) -> ~ In e (ms_ghost (h p))) ->
  (In x (tile_get_set_entities t h reg name k PARALLEL_OWNED) <->
   (In x (ms_owned (h p)) \/ In x (ms_ghost (h p))) /\ In x (tile_entities t k PARALLEL_OWNED)).
Proof.
  intros t h reg name k p x Hk F A. destruct (@c36_restriction t h reg name k PARALLEL_OWNED Hk) as [keep [KP ->]]; [simpl; auto|].
  rewrite filter_In, KP. unfold get_set_entities. rewrite F. simpl. split; [tauto|]. intros [[H|H] H']; auto. exfalso. apply (A _ H' H).
Qed.
(** refuted for GHOST: on a single rank (a set without MPI ghosts) the answer is always empty, whatever the tile's ghosts *)
Theorem c36_ghost_members_refuted : forall t h reg name k p, find_set h reg name k = Some p -> ms_ghost (h p) = [] ->
  tile_get_set_entities t h reg name k PARALLEL_GHOST = [].
Proof.
  intros t h reg name k p F G. unfold tile_get_set_entities, get_set_entities. rewrite F. simpl. rewrite G. destruct k; reflexivity.
Qed.
Example c36_witness : exists t h p, nth_error (td_tiles two_tiles_data) 0 = Some t /\ find_set h [p] "s" CELL = Some p /\ ms_ghost (h p) = [] /\
  ms_all (h p) = [0; 2] /\ In 2 (tile_entities t CELL PARALLEL_GHOST) /\ tile_get_set_entities t h [p] "s" CELL PARALLEL_OWNED = [0] /\
  tile_get_set_entities t h [p] "s" CELL PARALLEL_GHOST = [] /\ tile_get_set_entities t h [p] "s" CELL TYPE_ALL = [0; 2].
Proof.
  eexists _, (fun _ => MSet "s" CELL [0; 2] [] [0; 2] false []), 0. split; [reflexivity|]. repeat split. simpl. auto.
Qed.
