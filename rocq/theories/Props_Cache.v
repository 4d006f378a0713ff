(** Sides, wedges, corners and type lists of a constructed mesh (properties C24-C29, C63, C64).
    [built t sh fl m] (Cache_spec): [m] is the object the Mesh constructor and cache_extra_variables produce over a framework
    delivering the connectivity [sh] (2D/3D, or the 1D line), with at least sides requested. *)
From Coq Require Import Permutation.
From Verif Require Import Base Loop Defs Factory Cache Cache_spec Cache_proofs Cache_proofs2 Cache_proofs3 Cache_proofs4 Cache_proofs5 Cache_proofs6.
Set Implicit Arguments.

Lemma Ok_inj A (x y : A) : Ok x = Ok y -> x = y.
Proof. congruence. Qed.

(** ** A concrete mesh meeting the hypotheses: two quads side by side,
<<
   3---4---5      edges = faces: 0:(0,1) 1:(1,2) 2:(0,3) 3:(1,4) 4:(2,5) 5:(3,4) 6:(4,5)
   | 0 | 1 |      cell 0 owned, cell 1 ghost
   0---1---2
>> *)
Definition quads_shape : shape := Shape
  (fun c => match c with 0 => [(0, 1%Z); (3, 1%Z); (5, (-1)%Z); (2, (-1)%Z)] | _ => [(1, 1%Z); (4, 1%Z); (6, (-1)%Z); (3, (-1)%Z)] end)
  (fun f => [(f, 1%Z)])
  (fun e => nth e [(0,1); (1,2); (0,3); (1,4); (2,5); (3,4); (4,5)] (0,0))
  (fun c => match c with 0 => [0; 1; 4; 3] | _ => [1; 2; 5; 4] end).
Definition quads_fcells (f : nat) : list nat := nth f [[0]; [1]; [0]; [0; 1]; [1]; [0]; [1]] [].
Definition quads : topo := Topo 2 [0] [1] [] [0; 1; 3; 4] [2; 5] [0; 2; 3; 5] [1; 4; 6] [0; 2; 3; 5] [1; 4; 6]
  (fun c => Ok (cfaces quads_shape c)) (fun f => Ok (quads_fcells f)) (fun f => Ok (fedges quads_shape f))
  (fun e => Ok (enodes quads_shape e)) (fun c => Ok (cnodes quads_shape c)).
Definition all_on : flags := Flags false false false false true.
Lemma lt_ind7 (P : nat -> Prop) : P 0 -> P 1 -> P 2 -> P 3 -> P 4 -> P 5 -> P 6 -> forall n, n < 7 -> P n.
Proof. intros. do 7 (destruct n as [|n]; [assumption|]). lia. Qed.
Ltac quads_cell c Hc := destruct c as [|[|c]]; [| |exfalso; cbv in Hc; lia].
Example quads_framework_mesh : framework_mesh quads quads_shape.
Proof.
  apply fm_nd; [left; reflexivity| | |].
  - assert (P : forall l n, NoDup l -> (forall x, In x l -> x < n) -> length l = n -> Permutation l (seq 0 n)).
    { intros l n ND H L. apply NoDup_Permutation_bis; auto. - rewrite seq_length. lia. - intros x Hx. apply in_seq. specialize (H x Hx). lia. }
    constructor; (apply P; [vm_compute; repeat constructor; simpl; intuition lia| |reflexivity]);
      intros x Hx; vm_compute in Hx; vm_compute; intuition lia.
  - constructor.
    + intros c f d Hc H. quads_cell c Hc; cbn in H; cbv [is_dir]; intuition (try congruence);
        match goal with E : (_, _) = _ |- _ => injection E as <- <- end; vm_compute; intuition lia.
    + intros c Hc. quads_cell c Hc; cbn; repeat constructor; simpl; intuition lia.
    + intros f e d Hf [E|[]]. injection E as <- <-. split; [exact Hf|left; reflexivity].
    + intros f _. cbn. constructor; [simpl; tauto|constructor].
    + intros c1 c2 c3 f H1 H2 H3 _ _ _. cbv in H1, H2, H3. lia.
  - constructor; try reflexivity. intros f Hf. exists (quads_fcells f). split; [reflexivity|].
    revert f Hf. change (nfaces quads) with 7. apply lt_ind7; vm_compute; lia.
Qed.
Example quads_nodes : node_consistent quads quads_shape.
Proof.
  constructor.
  - intros c Hc. quads_cell c Hc; cbn; repeat constructor; simpl; intuition lia.
  - intros c n Hc H. quads_cell c Hc; cbn in H; vm_compute; intuition lia.
  - intros c f e [Hc [Hf He]]. unfold face_of, edge_of in *. cbn in He. destruct He as [<-|[]].
    quads_cell c Hc; cbn in Hf; intuition; subst; cbn; auto 10.
  - intros c n Hc H.
    assert (TR : forall f, face_of quads_shape c f -> tri quads quads_shape c f f) by (intros f Hf; split; [auto|split; [auto|left; reflexivity]]).
    quads_cell c Hc; cbn in H; intuition; subst.
    + exists 0, 0. split; [apply TR; cbn; auto|cbn; auto].
    + exists 0, 0. split; [apply TR; cbn; auto|cbn; auto].
    + exists 5, 5. split; [apply TR; cbn; auto|cbn; auto].
    + exists 5, 5. split; [apply TR; cbn; auto|cbn; auto].
    + exists 1, 1. split; [apply TR; cbn; auto|cbn; auto].
    + exists 1, 1. split; [apply TR; cbn; auto|cbn; auto].
    + exists 6, 6. split; [apply TR; cbn; auto|cbn; auto].
    + exists 6, 6. split; [apply TR; cbn; auto|cbn; auto].
Qed.
Example quads_dirs : opposite_dirs quads quads_shape.
Proof.
  intros c1 c2 f d1 d2 H1 H2 N I1 I2. quads_cell c1 H1; quads_cell c2 H2; try congruence; cbn in I1, I2;
    intuition; repeat match goal with E : (_, _) = (_, _) |- _ => injection E; clear E; intros; subst end; try congruence; auto.
Qed.
Definition quads_mesh : cmesh := match cache_extra_variables quads (close_flags all_on) with Ok m => m | _ => CMesh quads all_on [] [] None None None None None None None None None end.
Example quads_built : built quads quads_shape all_on quads_mesh.
Proof.
  constructor; [exact quads_framework_mesh|reflexivity|intros _; exact quads_nodes|].
  destruct (@build_spec quads quads_shape all_on quads_framework_mesh eq_refl (fun _ => quads_nodes)) as [m [E _]].
  unfold quads_mesh. rewrite E. reflexivity.
Qed.
Example quads_counts : n_sides quads_mesh = 8 /\ n_wedges quads_mesh = 16 /\ n_corners quads_mesh = 8.
Proof. vm_compute. auto. Qed.

(** ** C24: sides are the (cell, face, edge) triples *)
(** construction succeeds on every connectivity: no out-of-range access, no failed assertion *)
Theorem c24_construction_succeeds : forall t sh fl, framework_mesh t sh -> fl_sides (close_flags fl) = true ->
  (fl_corners (close_flags fl) = true -> node_consistent t sh) -> exists m, built t sh fl m.
Proof.
  intros t sh fl FM S NC. destruct (@build_spec t sh fl FM S NC) as [m [E _]]. exists m. constructor; auto.
Qed.
Example c24_construction_succeeds_witness : framework_mesh quads quads_shape /\ fl_sides (close_flags all_on) = true /\ node_consistent quads quads_shape.
Proof. split; [apply quads_framework_mesh|split; [reflexivity|apply quads_nodes]]. Qed.

Theorem c24_side_ids_are_consecutive : forall t sh fl m, built t sh fl m -> ids m SIDE TYPE_ALL = seq 0 (n_sides m).
Proof. intros t sh fl m B. rewrite (n_sides_eq B). apply (side_ids B). Qed.

Theorem c24_every_side_is_a_triple : forall t sh fl m s, built t sh fl m -> s < n_sides m ->
  exists c f e, is_side m s c f e /\ tri t sh c f e.
Proof.
  intros t sh fl m s B Hs. destruct (side_exists B Hs) as [x Hx]. exists (tcell x), (tface x), (tedge x).
  split; [apply (is_side_iff B); eauto|]. apply (T_tri B). eapply nth_error_In; eauto.
Qed.

Theorem c24_every_triple_has_one_side : forall t sh fl m c f e, built t sh fl m -> tri t sh c f e ->
  exists s, is_side m s c f e /\ forall s', is_side m s' c f e -> s' = s.
Proof.
  intros t sh fl m c f e B H. destruct (tri_T B H) as [x [Hx [E1 [E2 E3]]]]. apply In_nth_error in Hx as [s Hs].
  exists s. split; [apply (is_side_iff B); eauto|]. intros s' H'. apply (is_side_iff B) in H' as [y [Hy [F1 [F2 F3]]]].
  apply (good_key _ _ (T_good B) Hy Hs). unfold key. congruence.
Qed.

Theorem c24_cell_sides : forall t sh fl m c, built t sh fl m -> c < ncells t ->
  exists l, cell_get_sides m c = Ok l /\ NoDup l /\ forall s, In s l <-> s < n_sides m /\ side_get_cell m s = Ok c.
Proof.
  intros t sh fl m c B Hc. eexists. split; [apply (cell_sides B Hc)|]. split; [apply idxs_NoDup|].
  intros s. rewrite in_idxs. split.
  - intros [x [Hx E]]. apply Nat.eqb_eq in E. subst c. destruct (side_at B _ Hx) as [H _]. split; auto.
    rewrite (n_sides_eq B). apply nth_error_lt in Hx. auto.
  - intros [L H]. destruct (side_exists B L) as [x Hx]. exists x. split; auto. apply Nat.eqb_eq.
    destruct (side_at B _ Hx) as [H1 _]. congruence.
Qed.

(** the sides of the cells, cell after cell in the order of the mesh's cell list, are 0, 1, 2, ... *)
Lemma concat_idxs (sh : shape) (l : list nat) (Pre : list trip) (f : nat -> list trip) :
  NoDup l -> (forall c x, In x (f c) -> tcell x = c) -> (forall x, In x Pre -> ~ In (tcell x) l) ->
  concat (map (fun c => idxs (fun x => tcell x =? c) (Pre ++ flat_map f l)) l) = seq (length Pre) (length (flat_map f l)).
Proof.
  revert Pre. induction l as [|c l IH]; intros Pre ND Hf Hp; auto.
  apply NoDup_cons_iff in ND as [N1 N2]. cbn [map concat flat_map].
  assert (A : forall P Q R, (forall x, In x P -> tcell x <> c) -> (forall x, In x Q -> tcell x = c) -> (forall x, In x R -> tcell x <> c) ->
     idxs (fun x => tcell x =? c) (P ++ Q ++ R) = seq (length P) (length Q)).
  { clear. intros P Q R HP HQ HR. rewrite app_assoc. induction R as [|x R IH] using rev_ind.
    - rewrite app_nil_r. induction Q as [|q Q IHQ] using rev_ind.
      + rewrite app_nil_r. simpl. induction P as [|p P IHP] using rev_ind; auto. rewrite idxs_snoc.
        rewrite IHP by (intros; apply HP, in_app_iff; auto).
        destruct (Nat.eqb_spec (tcell p) c) as [E|]; auto. exfalso. apply (HP p); auto. apply in_app_iff; simpl; auto.
      + rewrite app_assoc, idxs_snoc, IHQ by (intros; apply HQ, in_app_iff; auto). rewrite (app_length Q [q]). cbn [length].
        rewrite (HQ q) by (apply in_app_iff; simpl; auto). rewrite Nat.eqb_refl, Nat.add_1_r, seq_S, app_length. auto.
    - rewrite app_assoc, idxs_snoc, IH by (intros; apply HR, in_app_iff; auto).
      destruct (Nat.eqb_spec (tcell x) c) as [E|]; [|apply app_nil_r]. exfalso. apply (HR x); auto. apply in_app_iff; simpl; auto. }
  rewrite A.
  - rewrite app_length, seq_app. f_equal.
    rewrite <- app_length. rewrite <- (IH (Pre ++ f c)); auto.
    + f_equal. apply map_ext. intros c'. rewrite <- app_assoc. auto.
    + intros x Hx. apply in_app_iff in Hx as [Hx|Hx].
      * intros H. apply (Hp x Hx). right; auto.
      * rewrite (Hf _ _ Hx). auto.
  - intros x Hx E. apply (Hp x Hx). left; auto.
  - intros x Hx. apply Hf; auto.
  - intros x Hx E. apply in_flat_map in Hx as [c' [Hc Hx]]. apply Hf in Hx. congruence.
Qed.
Theorem c24_cells_follow_each_other : forall t sh fl m, built t sh fl m ->
  exists ls, mapM (cell_get_sides m) (ids m CELL TYPE_ALL) = Ok ls /\ concat ls = seq 0 (n_sides m).
Proof.
  intros t sh fl m B. assert (Nb := fm_numbered (bl_mesh B)).
  exists (map (fun c => idxs (fun x => tcell x =? c) (trips t sh)) (cells_all t)). unfold ids. rewrite (fa_topo (built_facts B)). split.
  - apply mapM_fun. intros c Hc. apply (cell_sides B). apply cells_all_lt; auto.
  - rewrite (n_sides_eq B). apply (@concat_idxs sh (cells_all t) [] (trips_of sh)).
    + apply cells_all_NoDup; auto.
    + intros c x Hx. unfold trips_of in Hx. apply in_flat_map in Hx as [fd [_ Hx]]. apply in_map_iff in Hx as [ed [<- _]]. auto.
    + intros x [].
Qed.
Example c24_witness : built quads quads_shape all_on quads_mesh /\ n_sides quads_mesh = 8 /\ 1 < ncells quads /\
  cell_get_sides quads_mesh 1 = Ok [4; 5; 6; 7] /\ is_side quads_mesh 7 1 3 3.
Proof. split; [apply quads_built|]. vm_compute. auto 10. Qed.

(** ** C25: opposite side *)
Theorem c25_opposite_is_a_partial_involution : forall t sh fl m s z, built t sh fl m -> s < n_sides m ->
  side_get_opposite_side m s = Ok z -> z <> (-1)%Z ->
  exists s' c c' f e, z = Z.of_nat s' /\ side_get_opposite_side m s' = Ok (Z.of_nat s) /\
    is_side m s c f e /\ is_side m s' c' f e /\ c <> c'.
Proof.
  intros t sh fl m s z B Hs E N. destruct (opp_at B Hs) as [[j [Ej M]]|[Ej _]]; [|congruence].
  assert (z = Z.of_nat j) as -> by congruence.
  assert (M' := M). apply (mates_iff B) in M' as [c [c' [f [e [H1 [H2 H3]]]]]].
  exists j, c, c', f, e. split; auto. split; auto.
  destruct (opp_at B (proj1 H2)) as [[k [Ek Mk]]|[Ek Mk]].
  - rewrite Ek. do 2 f_equal. apply (good_mate_unique (T_good B) Mk). apply mates_sym; auto.
  - exfalso. apply (Mk s). apply mates_sym; auto.
Qed.
Theorem c25_no_opposite_iff_no_other_cell : forall t sh fl m s c f e, built t sh fl m -> is_side m s c f e ->
  (side_get_opposite_side m s = Ok (-1)%Z <-> forall c', tri t sh c' f e -> c' = c).
Proof.
  intros t sh fl m s c f e B H. destruct (opp_at B (proj1 H)) as [[j [Ej M]]|[Ej M]]; rewrite Ej.
  - split; [intros E; exfalso; assert (Z.of_nat j = -1)%Z by congruence; lia|].
    intros G. exfalso. apply (mates_iff B) in M as [c1 [c2 [f' [e' [H1 [H2 N]]]]]].
    destruct H as [_ [A1 [A2 A3]]], H1 as [_ [B1 [B2 B3]]]. assert (c1 = c) by congruence. assert (f' = f) by congruence. assert (e' = e) by congruence.
    subst. destruct (c24_every_side_is_a_triple B (proj1 H2)) as [c3 [f3 [e3 [H3 T3]]]].
    destruct H2 as [_ [D1 [D2 D3]]], H3 as [_ [F1 [F2 F3]]]. assert (c3 = c2) by congruence. assert (f3 = f) by congruence. assert (e3 = e) by congruence.
    subst. apply N. symmetry. apply G; auto.
  - split; auto. intros _ c' Ht. destruct (Nat.eq_dec c' c) as [|N]; auto. exfalso.
    destruct (c24_every_triple_has_one_side B Ht) as [s' [Hs' _]]. apply (M s'). apply (mates_iff B). exists c, c', f, e. auto.
Qed.
Example c25_witness : built quads quads_shape all_on quads_mesh /\ side_get_opposite_side quads_mesh 1 = Ok 7%Z /\
  side_get_opposite_side quads_mesh 0 = Ok (-1)%Z /\ is_side quads_mesh 1 0 3 3 /\ is_side quads_mesh 0 0 0 0.
Proof. split; [apply quads_built|]. vm_compute. auto 12. Qed.

(** ** C26: wedges of a side *)
Theorem c26_two_wedges_per_side : forall t sh fl m, built t sh fl m -> fl_wedges (close_flags fl) = true ->
  n_wedges m = 2 * n_sides m /\
  (forall s i, s < n_sides m -> i < 2 -> exists w, side_get_wedge m s i = Ok w /\ w < n_wedges m /\ wedge_get_side w = s) /\
  (forall w, w < n_wedges m -> wedge_get_side w < n_sides m /\ exists i, i < 2 /\ side_get_wedge m (wedge_get_side w) i = Ok w) /\
  (forall s i s' i' w, i < 2 -> i' < 2 -> side_get_wedge m s i = Ok w -> side_get_wedge m s' i' = Ok w -> s = s' /\ i = i').
Proof.
  intros t sh fl m B W. destruct (swT B W) as [_ FW]. unfold side_get_wedge, wedge_get_side. rewrite FW. cbn [asserting].
  rewrite (n_wedges_eq B W), (n_sides_eq B).
  split; [reflexivity|]. split; [|split].
  - intros s i Hs Hi. eexists. split; [reflexivity|]. destruct (Nat.eqb_spec i 0); lia.
  - intros w Hw. split; [lia|]. exists (w mod 2). split; [lia|]. f_equal. destruct (Nat.eqb_spec (w mod 2) 0); lia.
  - intros s i s' i' w Hi Hi' E E'. apply Ok_inj in E. apply Ok_inj in E'.
    destruct (Nat.eqb_spec i 0), (Nat.eqb_spec i' 0); lia.
Qed.
Theorem c26_wedge_inherits_from_side : forall t sh fl m w, built t sh fl m -> fl_wedges (close_flags fl) = true -> w < n_wedges m ->
  wedge_get_cell m w = side_get_cell m (wedge_get_side w) /\ wedge_get_face m w = side_get_face m (wedge_get_side w) /\
  wedge_get_edge m w = side_get_edge m (wedge_get_side w) /\
  exists c f e, is_side m (wedge_get_side w) c f e /\ wedge_get_cell m w = Ok c /\ wedge_get_face m w = Ok f /\ wedge_get_edge m w = Ok e.
Proof.
  intros t sh fl m w B W Hw. destruct (swT B W) as [S _]. unfold wedge_get_side.
  split; [unfold wedge_get_cell; rewrite S; auto|]. split; [unfold wedge_get_face; rewrite S; auto|]. split; [unfold wedge_get_edge; rewrite S; auto|].
  destruct (wedge_at B W Hw) as [E [H1 [H2 [H3 _]]]]. exists (tcell (wtrip t sh w)), (tface (wtrip t sh w)), (tedge (wtrip t sh w)).
  split; auto. apply (is_side_iff B). eauto.
Qed.
(** the nodes of the two wedges of a side are the side's two nodes, which are the end points of its edge *)
Theorem c26_wedge_nodes_are_the_edge_end_points : forall t sh fl m s c f e, built t sh fl m -> fl_wedges (close_flags fl) = true ->
  is_side m s c f e -> exists w0 w1 n0 n1, side_get_wedge m s 0 = Ok w0 /\ side_get_wedge m s 1 = Ok w1 /\
    side_get_node m s 0 = Ok n0 /\ side_get_node m s 1 = Ok n1 /\ wedge_get_node m w0 = Ok n0 /\ wedge_get_node m w1 = Ok n1 /\
    ((n0, n1) = enodes sh e \/ (n1, n0) = enodes sh e).
Proof.
  intros t sh fl m s c f e B W H. assert (L := proj1 H). apply (is_side_iff B) in H as [x [Hx [E1 [E2 E3]]]].
  destruct (side_at B _ Hx) as [_ [_ [_ Hn]]]. destruct (swT B W) as [S FW].
  exists (2 * s), (2 * s + 1), (snode t sh x 0), (snode t sh x 1). unfold side_get_wedge. rewrite FW. cbn [asserting Nat.eqb].
  split; [reflexivity|]. split; [reflexivity|].
  split; [apply Hn; lia|]. split; [apply Hn; lia|].
  unfold wedge_get_node. rewrite S. cbn [asserting].
  replace (2 * s / 2) with s by lia. replace ((2 * s) mod 2) with 0 by lia.
  replace ((2 * s + 1) / 2) with s by lia. replace ((2 * s + 1) mod 2) with 1 by lia.
  split; [apply Hn; lia|]. split; [apply Hn; lia|].
  subst e. destruct (snode_end B x (nth_error_In _ _ Hx)) as [[S0 S1]|[S0 S1]]; rewrite S0, S1; destruct (enodes sh (tedge x)); auto.
Qed.
(** the order of the side's nodes: in 2D they run along the edge iff the cell uses the face positively; in 3D iff the cell's use of
    the face and the face's use of the edge have different signs *)
Theorem c26_side_node_order : forall t sh fl m s c f e df de n0 n1, built t sh fl m -> is_side m s c f e ->
  In (f, df) (cfaces sh c) -> In (e, de) (fedges sh f) -> side_get_node m s 0 = Ok n0 -> side_get_node m s 1 = Ok n1 ->
  (tp_mdim t = 2 -> (n0, n1) = if (df =? 1)%Z then enodes sh e else (snd (enodes sh e), fst (enodes sh e))) /\
  (tp_mdim t = 3 -> (n0, n1) = if (df * de =? -1)%Z then enodes sh e else (snd (enodes sh e), fst (enodes sh e))).
Proof.
  intros t sh fl m s c f e df de n0 n1 B H If Ie N0 N1. apply (is_side_iff B) in H as [x [Hx [E1 [E2 E3]]]].
  destruct (side_at B _ Hx) as [_ [_ [_ Hn]]]. rewrite Hn in N0, N1 by lia. injection N0 as <-. injection N1 as <-.
  assert (I := nth_error_In _ _ Hx). assert (R := T_range (bl_mesh B) x I).
  assert (Cn := fm_connectivity (bl_mesh B)).
  apply in_trips in I as [I1 [I2 I3]]; [|exact (fm_numbered (bl_mesh B))|auto].
  assert (U : forall (l : list (nat * Z)) a d d', NoDup (map fst l) -> In (a, d) l -> In (a, d') l -> d = d').
  { clear. induction l as [|[a' d0] l IH]; simpl; intros a d d' ND H1 H2; [tauto|]. apply NoDup_cons_iff in ND as [N1 N2].
    destruct H1 as [H1|H1], H2 as [H2|H2]; [congruence| | |eauto].
    - injection H1 as <- <-. destruct N1. apply (in_map fst _ _ H2).
    - injection H2 as <- <-. destruct N1. apply (in_map fst _ _ H1). }
  destruct x as [[xc [xf xfd]] [xe xed]]. unfold tcell, tface, tedge, tfdir, tedir in *. cbn [fst snd] in *. subst xc xf xe.
  assert (xfd = df) as -> by (eapply U; [apply (cn_face_nodup Cn I1)|apply I2|apply If]).
  assert (xed = de) as -> by (eapply U; [apply (cn_edge_nodup Cn (f := f)); tauto|apply I3|apply Ie]).
  unfold snode, orient. rewrite (enodes'_eq _ (bl_mesh B)). unfold side_orient, tfdir, tedir, tedge. cbn [fst snd].
  destruct R as [_ [_ [_ [D1 D2]]]]. destruct (enodes sh e) as [a b].
  split; intros ->; cbn [Nat.eqb].
  - destruct (df =? 1)%Z; reflexivity.
  - destruct D1 as [->| ->], D2 as [->| ->]; reflexivity.
Qed.
Example c26_witness : built quads quads_shape all_on quads_mesh /\ fl_wedges (close_flags all_on) = true /\ is_side quads_mesh 2 0 5 5 /\
  side_get_node quads_mesh 2 0 = Ok 4 /\ side_get_node quads_mesh 2 1 = Ok 3 /\ enodes quads_shape 5 = (3, 4).
Proof. split; [apply quads_built|]. vm_compute. auto 12. Qed.

(** ** C27: adjacent and opposite wedges *)
Theorem c27_adjacent_wedge : forall t sh fl m w, built t sh fl m -> fl_wedges (close_flags fl) = true -> w < n_wedges m ->
  exists w', wedge_get_adjacent_wedge m w = Ok w' /\ w' <> w /\ w' < n_wedges m /\ wedge_get_side w' = wedge_get_side w /\
    wedge_get_adjacent_wedge m w' = Ok w.
Proof.
  intros t sh fl m w B W Hw. destruct (swT B W) as [_ FW]. unfold wedge_get_adjacent_wedge, wedge_get_side. rewrite FW. cbn [asserting].
  rewrite (n_wedges_eq B W) in *. eexists. split; [reflexivity|].
  destruct (Nat.eqb_spec (w mod 2) 0) as [E|E].
  - split; [lia|]. split; [lia|]. split; [lia|]. f_equal. destruct (Nat.eqb_spec ((w + 1) mod 2) 0); lia.
  - split; [lia|]. split; [lia|]. split; [lia|]. f_equal. destruct (Nat.eqb_spec ((w - 1) mod 2) 0); lia.
Qed.
Lemma opposite_wedge_form t sh fl m w : built t sh fl m -> fl_wedges (close_flags fl) = true -> w < n_wedges m ->
  exists o, side_get_opposite_side m (w / 2) = Ok o /\
    wedge_get_opposite_wedge m w = Ok (if (o =? -1)%Z then (-1)%Z else if w mod 2 =? 0 then (2 * o + 1)%Z else (2 * o)%Z).
Proof.
  intros B W Hw. rewrite (n_wedges_eq B W) in Hw.
  assert (L : w / 2 < n_sides m) by (rewrite (n_sides_eq B); lia).
  assert (X : exists o, side_get_opposite_side m (w / 2) = Ok o) by (destruct (opp_at B L) as [[j [E _]]|[E _]]; eauto).
  destruct X as [o Eo]. exists o. split; auto. destruct (swT B W) as [_ FW]. unfold wedge_get_opposite_wedge. rewrite FW. cbn [asserting].
  unfold side_get_opposite_side in Eo. rewrite (flS B) in Eo. cbn [asserting] in Eo.
  destruct (need (cm_sides m)) eqn:En; try discriminate. cbn [bind] in *. rewrite Eo. auto.
Qed.
Theorem c27_opposite_wedge_is_a_partial_involution : forall t sh fl m w z, built t sh fl m -> fl_wedges (close_flags fl) = true ->
  w < n_wedges m -> wedge_get_opposite_wedge m w = Ok z -> z <> (-1)%Z ->
  exists w' c c' f e, z = Z.of_nat w' /\ w' < n_wedges m /\ wedge_get_opposite_wedge m w' = Ok (Z.of_nat w) /\
    wedge_get_cell m w = Ok c /\ wedge_get_cell m w' = Ok c' /\ c <> c' /\
    wedge_get_face m w = Ok f /\ wedge_get_face m w' = Ok f /\ wedge_get_edge m w = Ok e /\ wedge_get_edge m w' = Ok e.
Proof.
  intros t sh fl m w z B W Hw Ez Nz. destruct (opposite_wedge_form B W Hw) as [o [Eo Ew]]. rewrite Ew in Ez. apply Ok_inj in Ez.
  destruct (Z.eqb_spec o (-1)) as [E|No]; [congruence|].
  assert (Hw' := Hw). rewrite (n_wedges_eq B W) in Hw'.
  assert (L : w / 2 < n_sides m) by (rewrite (n_sides_eq B); lia).
  destruct (c25_opposite_is_a_partial_involution B L Eo No) as (s' & c & c' & f & e & -> & Ei & S1 & S2 & NC).
  assert (L' : s' < length (trips t sh)) by (rewrite <- (n_sides_eq B); apply S2).
  set (w' := if w mod 2 =? 0 then 2 * s' + 1 else 2 * s').
  assert (Z.of_nat w' = z /\ w' / 2 = s' /\ w' mod 2 = 1 - w mod 2) as [Q1 [Q2 Q3]].
  { unfold w'. clear - Ez. revert Ez. destruct (Nat.eqb_spec (w mod 2) 0); lia. }
  assert (Lw : w' < n_wedges m) by (rewrite (n_wedges_eq B W); lia).
  exists w', c, c', f, e. split; auto. split; auto. split.
  - destruct (opposite_wedge_form B W Lw) as [o [Eo' Ew']]. rewrite Q2, Ei in Eo'. apply Ok_inj in Eo'. subst o. rewrite Ew'. f_equal. rewrite Q3.
    clear. destruct (Z.eqb_spec (Z.of_nat (w / 2)) (-1)); [lia|]. destruct (Nat.eqb_spec (1 - w mod 2) 0); lia.
  - destruct (c26_wedge_inherits_from_side B W Hw) as [-> [-> [-> _]]]. destruct (c26_wedge_inherits_from_side B W Lw) as [-> [-> [-> _]]].
    unfold wedge_get_side. rewrite Q2. destruct S1 as [_ [? [? ?]]], S2 as [_ [? [? ?]]]. auto 10.
Qed.
Theorem c27_no_opposite_wedge_iff_boundary : forall t sh fl m w c f e, built t sh fl m -> fl_wedges (close_flags fl) = true ->
  w < n_wedges m -> wedge_get_cell m w = Ok c -> wedge_get_face m w = Ok f -> wedge_get_edge m w = Ok e ->
  (wedge_get_opposite_wedge m w = Ok (-1)%Z <-> forall c', c' < ncells t -> face_of sh c' f -> c' = c).
Proof.
  intros t sh fl m w c f e B W Hw E1 E2 E3. destruct (opposite_wedge_form B W Hw) as [o [Eo Ew]]. rewrite Ew.
  destruct (c26_wedge_inherits_from_side B W Hw) as [F1 [F2 [F3 [c0 [f0 [e0 [S [G1 [G2 G3]]]]]]]]].
  assert (c0 = c) by congruence. assert (f0 = f) by congruence. assert (e0 = e) by congruence. subst.
  assert (T3 : tri t sh c f e).
  { destruct (c24_every_side_is_a_triple B (proj1 S)) as [c3 [f3 [e3 [H3 T3]]]].
    destruct S as [_ [D1 [D2 D3]]], H3 as [_ [K1 [K2 K3]]]. assert (c3 = c) by congruence. assert (f3 = f) by congruence. assert (e3 = e) by congruence.
    subst; auto. }
  assert (C := c25_no_opposite_iff_no_other_cell B S). unfold wedge_get_side in C. rewrite Eo in C.
  assert (Q : Ok (if (o =? -1)%Z then (-1)%Z else if w mod 2 =? 0 then (2 * o + 1)%Z else (2 * o)%Z) = Ok (-1)%Z <-> Ok o = Ok (-1)%Z).
  { destruct (Z.eqb_spec o (-1)) as [->|N]; [tauto|]. split; intros E; apply Ok_inj in E; [|congruence]. exfalso.
    assert (0 <= o)%Z. { destruct (opp_at B (proj1 S)) as [[j [Ej _]]|[Ej _]]; unfold wedge_get_side in Ej; rewrite Eo in Ej; apply Ok_inj in Ej; subst o; lia. }
    destruct (w mod 2 =? 0); lia. }
  rewrite Q, C. split.
  - intros G c' Hc Hf. apply G. split; [auto|]. split; [auto|]. apply T3.
  - intros G c' [Hc [Hf _]]. apply G; auto.
Qed.
(** opposite wedges have the same node, when the two cells of a face use it in opposite directions (2D, 3D) or in 1D *)
Theorem c27_opposite_wedge_same_node : forall t sh fl m w w', built t sh fl m -> fl_wedges (close_flags fl) = true ->
  tp_mdim t = 1 \/ opposite_dirs t sh ->
  w < n_wedges m -> wedge_get_opposite_wedge m w = Ok (Z.of_nat w') -> wedge_get_node m w' = wedge_get_node m w.
Proof.
  intros t sh fl m w w' B W OD Hw E.
  destruct (opposite_wedge_form B W Hw) as [o [Eo Ew]]. rewrite Ew in E. apply Ok_inj in E.
  destruct (Z.eqb_spec o (-1)) as [|No]; [lia|].
  assert (Hw2 := Hw). rewrite (n_wedges_eq B W) in Hw2.
  assert (L : w / 2 < n_sides m) by (rewrite (n_sides_eq B); lia).
  destruct (opp_at B L) as [[j [Ej [x [y [Hx [Hy [[M1 M2] M3]]]]]]]|[Ej _]]; rewrite Eo in Ej; [|congruence]. apply Ok_inj in Ej. subst o.
  assert (L' := nth_error_lt _ _ Hy).
  assert (w' / 2 = j /\ w' mod 2 = 1 - w mod 2) as [Q2 Q3].
  { clear - E. revert E. destruct (Nat.eqb_spec (w mod 2) 0); lia. }
  unfold wedge_get_node. destruct (swT B W) as [S _]. rewrite S. cbn [asserting]. rewrite Q2, Q3.
  destruct (side_at B _ Hx) as [_ [_ [_ Nx]]]. destruct (side_at B _ Hy) as [_ [_ [_ Ny]]]. rewrite Nx, Ny by lia. f_equal.
  assert (Ix := nth_error_In _ _ Hx). assert (Iy := nth_error_In _ _ Hy).
  assert (Rx := T_range (bl_mesh B) x Ix). assert (Ry := T_range (bl_mesh B) y Iy).
  assert (W2 : w mod 2 = 0 \/ w mod 2 = 1) by lia.
  unfold snode, orient. rewrite !(enodes'_eq _ (bl_mesh B)), <- M2.
  destruct OD as [D|OD].
  - destruct (bl_mesh B) as [D' _ _ _|_ ->]; [lia|]. cbn [line_shape enodes]. unfold side_orient. rewrite D. cbn [Nat.eqb].
    destruct (negb _), (negb _); cbn [fst snd]; destruct (1 - w mod 2 =? 0), (w mod 2 =? 0); auto.
  - assert (Nb := fm_numbered (bl_mesh B)). assert (Cn := fm_connectivity (bl_mesh B)).
    apply in_trips in Ix as [X1 [X2 X3]]; auto. apply in_trips in Iy as [Y1 [Y2 Y3]]; auto.
    destruct x as [[cx [fx dx]] [ex ax]], y as [[cy [fy dy]] [ey ay]]. unfold tcell, tface, tedge, tfdir, tedir in *. cbn [fst snd] in *. subst fy ey.
    assert (dx = - dy)%Z by (apply (OD cx cy fx dx dy); auto).
    assert (ax = ay) as ->.
    { assert (ND := cn_edge_nodup Cn (f := fx)). destruct Rx as [_ [Rf _]]. specialize (ND Rf). clear - ND X3 Y3.
      induction (fedges sh fx) as [|[a' d0] l IH]; [destruct X3|]. simpl in *. apply NoDup_cons_iff in ND as [N1 N2].
      destruct X3 as [H1|H1], Y3 as [H2|H2]; [congruence| | |eauto].
      - injection H1 as -> ->. destruct N1. apply (in_map fst _ _ H2).
      - injection H2 as -> ->. destruct N1. apply (in_map fst _ _ H1). }
    destruct Rx as [_ [_ [_ [Dx Ax]]]], Ry as [_ [_ [_ [Dy Ay]]]]. unfold side_orient.
    destruct (tp_mdim t =? 2).
    + destruct Dx as [->| ->], Dy as [->| ->]; try lia; cbn [Z.eqb Pos.eqb fst snd]; destruct W2 as [-> | ->]; reflexivity.
    + destruct Dx as [->| ->], Dy as [->| ->]; try lia; destruct Ay as [->| ->]; cbn -[Nat.modulo]; destruct W2 as [-> | ->]; reflexivity.
Qed.
Example c27_witness : built quads quads_shape all_on quads_mesh /\ fl_wedges (close_flags all_on) = true /\ opposite_dirs quads quads_shape /\
  wedge_get_opposite_wedge quads_mesh 3 = Ok 14%Z /\ wedge_get_node quads_mesh 3 = Ok 4 /\ wedge_get_node quads_mesh 14 = Ok 4 /\
  wedge_get_opposite_wedge quads_mesh 0 = Ok (-1)%Z /\ wedge_get_adjacent_wedge quads_mesh 3 = Ok 2.
Proof. split; [apply quads_built|]. split; [reflexivity|]. split; [apply quads_dirs|]. vm_compute. auto 12. Qed.

(** ** C28: corners *)
Theorem c28_one_corner_per_cell_and_node : forall t sh fl m, built t sh fl m -> fl_corners (close_flags fl) = true ->
  (forall k, k < n_corners m -> exists c n, is_corner m k c n /\ c < ncells t /\ In n (cnodes sh c)) /\
  (forall c n, c < ncells t -> In n (cnodes sh c) -> exists k, is_corner m k c n /\ forall k', is_corner m k' c n -> k' = k).
Proof.
  intros t sh fl m B C. split.
  - intros k Hk. rewrite (n_corners_eq B C) in Hk. destruct (nth_error (pairs t sh) k) as [[c n]|] eqn:E; [|apply nth_error_None in E; lia].
    exists c, n. split; [apply (is_corner_iff B C); auto|]. apply (K_in B). eapply nth_error_In; eauto.
  - intros c n Hc Hn. assert (I : In (c, n) (pairs t sh)) by (apply (K_in B); auto).
    apply In_nth_error in I as [k Hk]. exists k. split; [apply (is_corner_iff B C); auto|].
    intros k' H'. apply (is_corner_iff B C) in H'. apply (K_inj B C _ _ H' Hk).
Qed.
Theorem c28_corner_wedges : forall t sh fl m k c n, built t sh fl m -> fl_corners (close_flags fl) = true -> is_corner m k c n ->
  exists ws, corner_get_wedges m k = Ok ws /\ NoDup ws /\ ws <> [] /\ forall w, In w ws <-> is_wedge m w c n.
Proof.
  intros t sh fl m k c n B C H. apply (is_corner_iff B C) in H. exists (cwl t sh (c, n)). split; [apply (corner_wedges_at B C _ H)|].
  split; [apply NoDup_cwl|]. split; [apply (cwl_nonempty B C _ _ (nth_error_In _ _ H))|].
  intros w. rewrite (in_cwl B C), (is_wedge_iff B (proj1 (close_closed fl) C)). tauto.
Qed.
(** every wedge is in exactly one corner, the one wedge_get_corner names *)
Theorem c28_wedges_are_partitioned : forall t sh fl m w, built t sh fl m -> fl_corners (close_flags fl) = true -> w < n_wedges m ->
  exists k ws, wedge_get_corner m w = Ok k /\ k < n_corners m /\ corner_get_wedges m k = Ok ws /\ In w ws /\
    corner_get_cell m k = wedge_get_cell m w /\ corner_get_node m k = wedge_get_node m w /\
    forall k' ws', k' < n_corners m -> corner_get_wedges m k' = Ok ws' -> In w ws' -> k' = k.
Proof.
  intros t sh fl m w B C Hw. assert (W := proj1 (close_closed fl) C).
  destruct (wedge_corner B C Hw) as [k [E H]]. destruct (wedge_at B W Hw) as [_ [G1 [_ [_ G2]]]].
  exists k, (cwl t sh (wcell_of t sh w, wnode_of t sh w)). split; auto.
  assert (L : k < n_corners m) by (rewrite (n_corners_eq B C); apply nth_error_lt in H; auto). split; auto.
  split; [apply (corner_wedges_at B C _ H)|]. split; [apply (in_cwl B C); auto|].
  destruct (corner_at B C _ H) as [Q1 Q2]. rewrite Q1, Q2, G1, G2. split; auto. split; auto.
  intros k' ws' L' E' I'. rewrite (n_corners_eq B C) in L'.
  destruct (nth_error (pairs t sh) k') as [[c n]|] eqn:Ek; [|apply nth_error_None in Ek; lia].
  rewrite (corner_wedges_at B C _ Ek) in E'. injection E' as <-. apply (in_cwl B C) in I' as [_ [<- <-]].
  apply (K_inj B C _ _ Ek H).
Qed.
(** the corners of a cell, in the order of the cell's nodes *)
Theorem c28_cell_corners : forall t sh fl m c, built t sh fl m -> fl_corners (close_flags fl) = true -> c < ncells t ->
  exists l, cell_get_corners m c = Ok l /\ NoDup l /\
    (forall k, In k l <-> k < n_corners m /\ corner_get_cell m k = Ok c) /\
    mapM (corner_get_node m) l = Ok (cnodes sh c).
Proof.
  intros t sh fl m c B C Hc. eexists. split; [apply (cell_corners B C Hc)|]. split; [apply idxs_NoDup|]. split.
  - intros k. rewrite in_idxs. split.
    + intros [[c' n] [Hk E]]. apply Nat.eqb_eq in E. simpl in E. subst c'. apply (is_corner_iff B C) in Hk as [L [H1 H2]]. auto.
    + intros [L H]. rewrite (n_corners_eq B C) in L. destruct (nth_error (pairs t sh) k) as [[c' n]|] eqn:E; [|apply nth_error_None in E; lia].
      exists (c', n). split; auto. apply Nat.eqb_eq. simpl. apply (is_corner_iff B C) in E as [_ [H1 _]]. congruence.
  - assert (G : forall P, (forall k p, nth_error P k = Some p -> nth_error (pairs t sh) k = Some p) ->
       mapM (corner_get_node m) (idxs (fun p => fst p =? c) P) = Ok (map snd (filter (fun p => fst p =? c) P))).
    { induction P as [|[c' n] P IH] using rev_ind; intros H; [reflexivity|]. rewrite idxs_snoc, filter_app. cbn [filter].
      assert (H0 : forall k p, nth_error P k = Some p -> nth_error (pairs t sh) k = Some p).
      { intros k p Hk. apply H. rewrite nth_error_app1; auto. apply nth_error_lt in Hk; auto. }
      assert (MA : forall l1 l2 r1 r2, mapM (corner_get_node m) l1 = Ok r1 -> mapM (corner_get_node m) l2 = Ok r2 -> mapM (corner_get_node m) (l1 ++ l2) = Ok (r1 ++ r2)).
      { clear. induction l1 as [|x l1 IH]; intros l2 r1 r2 E1 E2; simpl in *; [injection E1 as <-; auto|].
        destruct (corner_get_node m x); try discriminate. simpl in *. destruct (mapM (corner_get_node m) l1) eqn:E; try discriminate.
        simpl in *. injection E1 as <-. rewrite (IH _ _ _ eq_refl E2). auto. }
      rewrite map_app. cbn [fst]. apply MA; auto. destruct (Nat.eqb_spec c' c) as [->|]; [|reflexivity].
      cbn [mapM map snd]. assert (K := H (length P) (c, n)). rewrite nth_error_app2, Nat.sub_diag in K by auto.
      destruct (corner_at B C _ (K eq_refl)) as [_ ->]. reflexivity. }
    rewrite (G (pairs t sh)) by auto. f_equal.
    assert (Nb := fm_numbered (bl_mesh B)). assert (I := proj2 (@cells_all_lt t c Nb) Hc). assert (ND := cells_all_NoDup Nb).
    unfold pairs. induction (cells_all t) as [|a l IH]; [destruct I|]. cbn [flat_map]. rewrite filter_app, map_app.
    apply NoDup_cons_iff in ND as [N1 N2].
    assert (Q : forall a0, filter (fun p : nat * nat => fst p =? c) (map (pair a0) (cnodes sh a0)) = if a0 =? c then map (pair a0) (cnodes sh a0) else []).
    { intros a0. destruct (Nat.eqb_spec a0 c) as [->|N].
      - apply filter_true. intros [x y] Hx. apply in_map_iff in Hx as [z [Ez _]]. injection Ez as <- <-. apply Nat.eqb_refl.
      - apply filter_false. intros [x y] Hx. apply in_map_iff in Hx as [z [Ez _]]. injection Ez as <- <-. apply Nat.eqb_neq; auto. }
    rewrite Q. destruct (Nat.eqb_spec a c) as [->|N].
    + assert (Z : filter (fun p : nat * nat => fst p =? c) (flat_map (fun c0 => map (pair c0) (cnodes sh c0)) l) = []).
      { apply filter_false. intros [x y] Hx. apply in_flat_map in Hx as [z [Hz Hx]]. apply in_map_iff in Hx as [z' [Ez _]]. injection Ez as <- <-.
        apply Nat.eqb_neq. simpl. intros ->. auto. }
      rewrite Z, app_nil_r, map_map. apply map_id.
    + apply IH; auto. destruct I; [congruence|auto].
Qed.
Theorem c28_corner_at_node : forall t sh fl m c n, built t sh fl m -> fl_corners (close_flags fl) = true -> c < ncells t ->
  (exists k, cell_get_corner_at_node m c n = Ok (Z.of_nat k) /\ is_corner m k c n) \/
  (cell_get_corner_at_node m c n = Ok (-1)%Z /\ ~ In n (cnodes sh c)).
Proof.
  intros t sh fl m c n B C Hc. destruct (c28_cell_corners B C Hc) as [l [E [_ [HI HM]]]].
  assert (X : cell_get_corner_at_node m c n = corner_at_node m l n).
  { unfold cell_get_corner_at_node. unfold cell_get_corners in E. rewrite (flC B C) in *. cbn [asserting] in *.
    destruct (need (cm_corners m)); try discriminate. cbn [bind] in *. rewrite E. auto. }
  rewrite X. clear X E. assert (HI' : forall k, In k l -> k < n_corners m /\ corner_get_cell m k = Ok c) by (intros k; apply HI). clear HI.
  revert HM. generalize (cnodes sh c). induction l as [|k l IH]; intros ns HM; simpl in HM.
  - injection HM as <-. right. split; auto.
  - destruct (corner_get_node m k) as [n2| | | |] eqn:En; try discriminate. cbn [bind] in HM.
    destruct (mapM (corner_get_node m) l) eqn:Em; try discriminate. cbn [bind] in HM. injection HM as <-.
    cbn [corner_at_node]. rewrite En. cbn [bind]. destruct (Nat.eqb_spec n2 n) as [->|N].
    + left. exists k. split; auto. destruct (HI' k) as [L Hk]; [simpl; auto|]. split; auto.
    + destruct (IH (fun k Hk => HI' k (or_intror Hk)) _ eq_refl) as [H|[H H']]; auto. right. split; auto. intros [|]; auto.
Qed.

Lemma foldM_filter A (f : A -> list A -> outcome (list A)) (p : A -> bool) l : forall out,
  (forall x out, In x l -> f x out = Ok (if p x then out ++ [x] else out)) -> foldM l f out = Ok (out ++ filter p l).
Proof.
  induction l as [|x l IH]; intros out H; simpl; [rewrite app_nil_r; auto|]. rewrite H by (simpl; auto). cbn [bind].
  rewrite IH by (intros; apply H; simpl; auto). destruct (p x); rewrite <- ?app_assoc; auto.
Qed.
(** the corners at a node whose cell has the requested type, each once *)
Definition type_matches (ct ty : entity_type) : Prop := ty = TYPE_ALL \/ ct = ty.
Theorem c28_node_corners : forall t sh fl m n ty, built t sh fl m -> fl_corners (close_flags fl) = true -> n < nnodes t ->
  exists l, node_get_corners m n ty = Ok l /\ NoDup l /\
    forall k, In k l <-> exists c ct, is_corner m k c n /\ cell_has_type t c ct /\ type_matches ct ty.
Proof.
  intros t sh fl m n ty B C Hn. assert (W := proj1 (close_closed fl) C). assert (F := built_facts B).
  destruct (fa_corners F C) as [wc [Ec _]]. destruct (fa_sides F) as [opp [Es _]].
  set (ks := idxs (fun p : nat * nat => snd p =? n) (pairs t sh)).
  assert (Hks : forall k, In k ks <-> exists c, is_corner m k c n).
  { intros k. unfold ks. rewrite in_idxs. split.
    - intros [[c n'] [Hk E]]. apply Nat.eqb_eq in E. simpl in E. subst n'. exists c. apply (is_corner_iff B C); auto.
    - intros [c H]. apply (is_corner_iff B C) in H. exists (c, n). split; auto. simpl. apply Nat.eqb_refl. }
  assert (HT : forall c, c < ncells t -> exists ct, cell_has_type t c ct /\ rd (cm_ctype m) c = Ok ct).
  { intros c Hc. exists (ctype_of (cm_ctype m) c). destruct (fa_typed F) as [L H]. split; auto. apply ctype_of_rd. lia. }
  assert (Huniq : forall c ct ct', cell_has_type t c ct -> rd (cm_ctype m) c = Ok ct' -> ct = ct').
  { intros c ct ct' H H'. apply (fa_type F) in H. apply rd_Ok in H'. congruence. }
  assert (Hrow : forall k c, is_corner m k c n -> exists w0 r, nth_error (map (cwed (wnode_of t sh) (fun c => flat_map w2 (idxs (fun x => tcell x =? c) (trips t sh)))) (pairs t sh)) k = Some (w0 :: r)
     /\ nth_error (map tcell (trips t sh)) (w0 / 2) = Some c /\ c < ncells t).
  { intros k c H. apply (is_corner_iff B C) in H. assert (NE := cwl_nonempty B C _ _ (nth_error_In _ _ H)).
    destruct (cwl t sh (c, n)) as [|w0 r] eqn:E; [congruence|]. exists w0, r. split; [rewrite (map_nth_error _ _ _ H); f_equal; exact E|].
    assert (I : In w0 (cwl t sh (c, n))) by (rewrite E; simpl; auto). apply (in_cwl B C) in I as [L [E1 _]].
    destruct (wedge_at B W L) as [Ew _]. rewrite (map_nth_error _ _ _ Ew). split; [f_equal; exact E1|]. rewrite <- E1. apply (wcell_lt B W L). }
  unfold node_get_corners. rewrite (flC B C), Ec, Es. cbn [asserting need bind node_corner_ids corner_wedge_ids final_info side_cell_id].
  rewrite rd_tab by auto. cbn [bind]. fold ks.
  assert (FILT : ty = TYPE_ALL \/ ty <> TYPE_ALL) by (destruct ty; auto; right; discriminate).
  destruct FILT as [->|NT].
  - exists ks. split; auto. split; [apply idxs_NoDup|]. intros k. rewrite Hks. split.
    + intros [c H]. destruct (proj1 (c28_one_corner_per_cell_and_node B C) k (proj1 H)) as [c' [n' [H' [Hc _]]]].
      assert (c' = c) as -> by (destruct H as [_ [A1 _]], H' as [_ [A2 _]]; congruence).
      destruct (HT c Hc) as [ct [Hct _]]. exists c, ct. split; auto. split; auto. left; auto.
    + intros [c [ct [H _]]]. eauto.
  - pose (p := fun k => match rd (map (cwed (wnode_of t sh) (fun c => flat_map w2 (idxs (fun x => tcell x =? c) (trips t sh)))) (pairs t sh)) k with
       | Ok (w0 :: _) => match rd (map tcell (trips t sh)) (w0 / 2) with Ok c => type_eqb (ctype_of (cm_ctype m) c) ty | _ => false end | _ => false end).
    assert (HP : forall k c, is_corner m k c n -> p k = type_eqb (ctype_of (cm_ctype m) c) ty).
    { intros k c H. destruct (Hrow k c H) as [w0 [r [R1 [R2 _]]]]. unfold p. rewrite (proj2 (rd_Ok _ _ _) R1), (proj2 (rd_Ok _ _ _) R2). auto. }
    exists (filter p ks). split; [|split; [apply NoDup_filter, idxs_NoDup|]].
    + rewrite <- (app_nil_l (filter p ks)).
      assert (G : forall g, foldM ks g [] = Ok ([] ++ filter p ks) -> (match ty with TYPE_ALL => Ok ks | _ => foldM ks g [] end) = Ok ([] ++ filter p ks)).
      { intros g Hg. destruct ty; auto. congruence. }
      apply G. apply foldM_filter. intros k out Hk. apply Hks in Hk as [c H]. destruct (Hrow k c H) as [w0 [r [R1 [R2 Hc]]]].
      rewrite (proj2 (rd_Ok _ _ _) R1). cbn [bind]. unfold rd at 1. cbn [nth_error bind]. rewrite (proj2 (rd_Ok _ _ _) R2). cbn [bind].
      rewrite ctype_of_rd by (destruct (fa_typed F); lia). cbn [bind]. rewrite (HP k c H). auto.
    + intros k. rewrite filter_In, Hks. split.
      * intros [[c H] Hp]. rewrite (HP k c H) in Hp. apply type_eqb_true in Hp. exists c, (ctype_of (cm_ctype m) c). split; auto.
        destruct (Hrow k c H) as [_ [_ [_ [_ Hc]]]]. split; [apply (fa_typed F); auto|right; auto].
      * intros [c [ct [H [Hct M]]]]. split; [eauto|]. rewrite (HP k c H). apply type_eqb_true.
        destruct (Hrow k c H) as [_ [_ [_ [_ Hc]]]]. destruct (HT c Hc) as [ct' [_ Hr]]. destruct M as [|<-]; [congruence|].
        unfold ctype_of. rewrite (Huniq _ _ _ Hct Hr). apply nth_error_nth. apply rd_Ok; auto.
Qed.

Lemma foldM_appends A B (f : A -> list B -> outcome (list B)) (g : A -> list B) l : forall out,
  (forall x out, In x l -> f x out = Ok (out ++ g x)) -> foldM l f out = Ok (out ++ flat_map g l).
Proof.
  induction l as [|x l IH]; intros out H; simpl; [rewrite app_nil_r; auto|]. rewrite H by (simpl; auto). cbn [bind].
  rewrite IH by (intros; apply H; simpl; auto). rewrite app_assoc; auto.
Qed.
(** the wedges at a node whose cell has the requested type, each once (node_get_wedges needs corners to be cached) *)
Theorem c28_node_wedges : forall t sh fl m n ty, built t sh fl m -> fl_corners (close_flags fl) = true -> n < nnodes t ->
  exists l, node_get_wedges m n ty = Ok l /\ NoDup l /\
    forall w, In w l <-> exists c ct, is_wedge m w c n /\ cell_has_type t c ct /\ type_matches ct ty.
Proof.
  intros t sh fl m n ty B C Hn. assert (W := proj1 (close_closed fl) C). assert (F := built_facts B).
  destruct (fa_corners F C) as [wc [Ec _]]. destruct (fa_sides F) as [opp [Es _]]. assert (Ew := fa_wedges F W). cbn zeta in Ew.
  set (ks := idxs (fun p : nat * nat => snd p =? n) (pairs t sh)).
  assert (Hks : forall k, In k ks <-> exists c, is_corner m k c n).
  { intros k. unfold ks. rewrite in_idxs. split.
    - intros [[c n'] [Hk E]]. apply Nat.eqb_eq in E. simpl in E. subst n'. exists c. apply (is_corner_iff B C); auto.
    - intros [c H]. apply (is_corner_iff B C) in H. exists (c, n). split; auto. simpl. apply Nat.eqb_refl. }
  pose (q := fun w => match ty with TYPE_ALL => true | _ => type_eqb (ctype_of (cm_ctype m) (wcell_of t sh w)) ty end).
  pose (row := fun k => match nth_error (pairs t sh) k with Some p => cwl t sh p | None => [] end).
  assert (Hrow : forall k w, In k ks -> In w (row k) -> w < n_wedges m /\ nth_error (pairs t sh) k = Some (wcell_of t sh w, n) /\ wnode_of t sh w = n).
  { intros k w Hk Hw. apply Hks in Hk as [c Hk]. apply (is_corner_iff B C) in Hk. unfold row in Hw. rewrite Hk in Hw.
    apply (in_cwl B C) in Hw as [L [<- E]]. auto. }
  exists (flat_map (fun k => filter q (row k)) ks). split; [|split].
  - unfold node_get_wedges. destruct (swT B W) as [_ ->]. rewrite Ec, Es, Ew. cbn [asserting need bind node_corner_ids corner_wedge_ids final_info side_cell_id].
    rewrite rd_tab by auto. cbn [bind]. fold ks. rewrite <- (app_nil_l (flat_map _ ks)). apply foldM_appends. intros k out Hk.
    assert (Hk' := Hk). apply Hks in Hk' as [c Hc]. apply (is_corner_iff B C) in Hc.
    rewrite (proj2 (rd_Ok _ _ _) (map_nth_error _ _ _ Hc)). cbn [bind]. unfold row. rewrite Hc. apply foldM_filter.
    intros w out' Hw. apply (in_cwl B C) in Hw as [L [E1 _]]. destruct (wedge_at B W L) as [Hx _].
    rewrite (proj2 (rd_Ok _ _ _) (map_nth_error tcell _ _ Hx)). cbn [bind]. fold (wcell_of t sh w).
    assert (Hl := wcell_lt B W L). rewrite ctype_of_rd by (destruct (fa_typed F); lia). cbn [bind].
    unfold q. destruct ty; auto.
  - rewrite <- (map_id (flat_map _ _)). apply NoDup_flat_map_key.
    + apply idxs_NoDup.
    + intros k Hk. rewrite map_id. apply NoDup_filter. unfold row. destruct (nth_error (pairs t sh) k); [apply NoDup_cwl|constructor].
    + intros k k' w w' Hk Hk' Hw Hw' <-. apply filter_In in Hw as [Hw _], Hw' as [Hw' _].
      destruct (Hrow k w Hk Hw) as [_ [H1 _]]. destruct (Hrow k' w Hk' Hw') as [_ [H2 _]]. apply (K_inj B C _ _ H1 H2).
  - intros w. rewrite in_flat_map. split.
    + intros [k [Hk Hw]]. apply filter_In in Hw as [Hw Q]. destruct (Hrow k w Hk Hw) as [L [H1 E]].
      assert (Hl := wcell_lt B W L).
      exists (wcell_of t sh w), (ctype_of (cm_ctype m) (wcell_of t sh w)). split; [apply (is_wedge_iff B W); auto|].
      split; [apply (fa_typed F); auto|]. unfold q in Q. unfold type_matches. destruct ty; auto; right; apply type_eqb_true; auto.
    + intros [c [ct [H [Hct M]]]]. apply (is_wedge_iff B W) in H as [L [E1 E2]].
      assert (I := wedge_pair B C L). rewrite E1, E2 in I. apply In_nth_error in I as [k Hk]. exists k. split.
      * apply Hks. exists c. apply (is_corner_iff B C); auto.
      * apply filter_In. split; [unfold row; rewrite Hk; apply (in_cwl B C); auto|].
        unfold q. rewrite E1. apply (fa_type F) in Hct. unfold ctype_of. rewrite (nth_error_nth _ _ _ Hct).
        destruct M as [->| ->]; auto. destruct ty; auto; apply type_eqb_true; auto.
Qed.
Example c28_witness : built quads quads_shape all_on quads_mesh /\ fl_corners (close_flags all_on) = true /\ n_corners quads_mesh = 8 /\
  is_corner quads_mesh 1 0 1 /\ corner_get_wedges quads_mesh 1 = Ok [1; 2] /\ node_get_corners quads_mesh 1 TYPE_ALL = Ok [1; 4] /\
  node_get_corners quads_mesh 1 PARALLEL_GHOST = Ok [4] /\ node_get_wedges quads_mesh 1 PARALLEL_GHOST = Ok [8; 15] /\
  cell_get_corner_at_node quads_mesh 1 4 = Ok 7%Z /\ cell_get_corner_at_node quads_mesh 1 0 = Ok (-1)%Z.
Proof. split; [apply quads_built|]. vm_compute. auto 15. Qed.

(** ** C29: type lists *)
(** For sides, wedges and corners: every entity is in exactly one of the three lists, the one of its cell's type, which is also the
    type entity_get_type reports. *)
Definition cell_of (m : cmesh) (k : entity_kind) (i : nat) : outcome nat :=
  match k with SIDE => side_get_cell m i | WEDGE => wedge_get_cell m i | _ => corner_get_cell m i end.
Definition requested (fl : flags) (k : entity_kind) : Prop :=
  match k with SIDE => fl_sides (close_flags fl) = true | WEDGE => fl_wedges (close_flags fl) = true
             | CORNER => fl_corners (close_flags fl) = true | _ => False end.
Definition parallel_types : list entity_type := [PARALLEL_OWNED; PARALLEL_GHOST; BOUNDARY_GHOST].

Lemma ids_cell_type t sh fl m k i ty : built t sh fl m -> requested fl k -> In ty parallel_types ->
  (In i (ids m k ty) <-> i < num_entities m k TYPE_ALL /\ exists c, cell_of m k i = Ok c /\ cell_has_type t c ty) /\ NoDup (ids m k ty).
Proof.
  intros B R Hty. assert (F := built_facts B). destruct (fa_sides F) as [opp [Es _]].
  assert (TC : forall c, c < ncells t -> (type_eqb (ctype_of (cm_ctype m) c) ty = true <-> cell_has_type t c ty)).
  { intros c Hc. rewrite type_eqb_true. split.
    - intros <-. apply (fa_typed F); auto.
    - intros H. apply (fa_type F) in H. unfold ctype_of. apply nth_error_nth; auto. }
  assert (S : In i (idxs (of_type (cm_ctype m) ty) (trips t sh)) <-> i < n_sides m /\ exists c, side_get_cell m i = Ok c /\ cell_has_type t c ty).
  { rewrite in_idxs. split.
    - intros [x [Hx E]]. assert (Rx := T_range (bl_mesh B) x (nth_error_In _ _ Hx)). split; [rewrite (n_sides_eq B); apply nth_error_lt in Hx; auto|].
      exists (tcell x). split; [apply (side_at B _ Hx)|]. apply TC; tauto.
    - intros [L [c [Hc Ht]]]. destruct (side_exists B L) as [x Hx]. exists x. split; auto. destruct (side_at B _ Hx) as [E _].
      assert (tcell x = c) as <- by congruence. apply TC; auto. apply (T_range (bl_mesh B) x (nth_error_In _ _ Hx)). }
  destruct k; try (destruct R; fail).
  - (* side *)
    assert (E : ids m SIDE ty = idxs (of_type (cm_ctype m) ty) (trips t sh)).
    { unfold ids, opt_list. rewrite Es. cbn in Hty. destruct Hty as [<-|[<-|[<-|[]]]]; reflexivity. }
    rewrite E. split; [exact S|apply idxs_NoDup].
  - (* wedge *)
    assert (W : fl_wedges (close_flags fl) = true) by exact R. assert (Ew := fa_wedges F W). cbn zeta in Ew.
    assert (E : ids m WEDGE ty = flat_map w2 (idxs (of_type (cm_ctype m) ty) (trips t sh))).
    { unfold ids, opt_list. rewrite Ew. cbn in Hty. destruct Hty as [<-|[<-|[<-|[]]]]; reflexivity. }
    rewrite E. split; [|apply flat_w2_NoDup, idxs_NoDup]. clear S.
    rewrite in_flat_w2, in_idxs. change (num_entities m WEDGE TYPE_ALL) with (n_wedges m). cbn [cell_of]. split.
    + intros [x [Hx Ex]]. assert (L : i < n_wedges m) by (rewrite (n_wedges_eq B W); apply nth_error_lt in Hx; lia). split; auto.
      destruct (wedge_at B W L) as [Ei [Ec _]]. rewrite Hx in Ei. injection Ei as Ei. exists (wcell_of t sh i). split; auto.
      apply TC; [apply (wcell_lt B W L)|]. unfold wcell_of. rewrite <- Ei. exact Ex.
    + intros [L [c [Hc Ht]]]. destruct (wedge_at B W L) as [Ei [Ec _]]. exists (wtrip t sh i). split; auto.
      apply TC; [apply (wcell_lt B W L)|]. change (tcell (wtrip t sh i)) with (wcell_of t sh i).
      assert (wcell_of t sh i = c) as -> by congruence. auto.
  - (* corner *)
    assert (C : fl_corners (close_flags fl) = true) by exact R. destruct (fa_corners F C) as [wc [Ek _]].
    assert (E : ids m CORNER ty = idxs (p_type (cm_ctype m) ty) (pairs t sh)).
    { unfold ids, opt_list. rewrite Ek. cbn in Hty. destruct Hty as [<-|[<-|[<-|[]]]]; reflexivity. }
    rewrite E. split; [|apply idxs_NoDup]. clear S. rewrite in_idxs. change (num_entities m CORNER TYPE_ALL) with (n_corners m). cbn [cell_of]. split.
    + intros [[c n] [Hk Ep]]. assert (I := proj1 (K_in B _ _) (nth_error_In _ _ Hk)). destruct (proj2 (is_corner_iff B C i c n) Hk) as [L [H1 _]].
      split; auto. exists c. split; auto. apply TC; tauto.
    + intros [L [c [Hc Ht]]]. rewrite (n_corners_eq B C) in L. destruct (nth_error (pairs t sh) i) as [[c' n]|] eqn:Hk; [|apply nth_error_None in Hk; lia].
      exists (c', n). split; auto. destruct (corner_at B C _ Hk) as [H1 _]. assert (c' = c) as -> by congruence.
      apply TC; auto. apply (proj1 (K_in B _ _) (nth_error_In _ _ Hk)).
Qed.
Theorem c29_lists_hold_the_cells_type : forall t sh fl m k i ty, built t sh fl m -> requested fl k -> In ty parallel_types ->
  (In i (ids m k ty) <-> i < num_entities m k TYPE_ALL /\ exists c, cell_of m k i = Ok c /\ cell_has_type t c ty) /\ NoDup (ids m k ty).
Proof. exact ids_cell_type. Qed.
Theorem c29_lists_partition : forall t sh fl m k, built t sh fl m -> requested fl k ->
  let n := num_entities m k TYPE_ALL in
  Permutation (ids m k PARALLEL_OWNED ++ ids m k PARALLEL_GHOST ++ ids m k BOUNDARY_GHOST) (seq 0 n) /\
  Permutation (ids m k TYPE_ALL) (seq 0 n).
Proof.
  intros t sh fl m k B R n. assert (F := built_facts B).
  assert (I := fun i ty => @ids_cell_type t sh fl m k i ty B R).
  assert (DJ : forall i ty ty', In ty parallel_types -> In ty' parallel_types -> In i (ids m k ty) -> In i (ids m k ty') -> ty = ty').
  { intros i ty ty' H H' Hi Hi'. apply (I i ty H) in Hi as [_ [c [Ec Hc]]]. apply (I i ty' H') in Hi' as [_ [c' [Ec' Hc']]].
    assert (c' = c) as -> by congruence. apply (fa_type F) in Hc, Hc'. congruence. }
  assert (NA : forall l1 l2 : list nat, NoDup l1 -> NoDup l2 -> (forall x, In x l1 -> In x l2 -> False) -> NoDup (l1 ++ l2)).
  { clear. induction l1 as [|x l1 IH]; intros l2 N1 N2 D; auto. apply NoDup_cons_iff in N1 as [A1 A2]. simpl. constructor.
    - rewrite in_app_iff. intros [H|H]; auto. apply (D x); simpl; auto.
    - apply IH; auto. intros y H1 H2. apply (D y); simpl; auto. }
  assert (O : In PARALLEL_OWNED parallel_types) by (simpl; auto).
  assert (G : In PARALLEL_GHOST parallel_types) by (simpl; auto).
  assert (X : In BOUNDARY_GHOST parallel_types) by (simpl; auto).
  assert (P : Permutation (ids m k PARALLEL_OWNED ++ ids m k PARALLEL_GHOST ++ ids m k BOUNDARY_GHOST) (seq 0 n)).
  { apply NoDup_Permutation_bis.
    - apply NA; [apply (I 0 _ O)| |].
      + apply NA; [apply (I 0 _ G)|apply (I 0 _ X)|]. intros x H1 H2. discriminate (DJ x _ _ G X H1 H2).
      + intros x H1 H2. apply in_app_iff in H2 as [H2|H2]; [discriminate (DJ x _ _ O G H1 H2)|discriminate (DJ x _ _ O X H1 H2)].
    - rewrite seq_length, !app_length. unfold n. destruct k; try (destruct R; fail); cbn -[ids]; lia.
    - intros i Hi. apply in_seq. split; [lia|]. simpl.
      rewrite !in_app_iff in Hi. destruct Hi as [Hi|[Hi|Hi]]; [apply (I i _ O) in Hi|apply (I i _ G) in Hi|apply (I i _ X) in Hi]; tauto. }
  split; auto. destruct k; try (destruct R; fail).
  - change n with (n_sides m). rewrite <- (c24_side_ids_are_consecutive B). auto.
  - eapply perm_trans; [|exact P]. assert (Ew := fa_wedges F R). cbn zeta in Ew. unfold ids, opt_list. rewrite Ew. auto.
  - eapply perm_trans; [|exact P]. destruct (fa_corners F R) as [wc [Ek _]]. unfold ids, opt_list. rewrite Ek. auto.
Qed.
Theorem c29_reported_type_is_the_cells_type : forall t sh fl m k i, built t sh fl m -> requested fl k -> i < num_entities m k TYPE_ALL ->
  exists c ct, cell_of m k i = Ok c /\ cell_has_type t c ct /\ entity_get_type m k i = Ok ct.
Proof.
  intros t sh fl m k i B R Hi. assert (F := built_facts B). destruct (fa_sides F) as [opp [Es _]].
  assert (TC : forall c, c < ncells t -> cell_has_type t c (ctype_of (cm_ctype m) c) /\ rd (cm_ctype m) c = Ok (ctype_of (cm_ctype m) c)).
  { intros c Hc. split; [apply (fa_typed F); auto|]. apply ctype_of_rd. destruct (fa_typed F). lia. }
  destruct k; try (destruct R; fail); cbn [cell_of entity_get_type].
  - destruct (side_exists B Hi) as [x Hx]. assert (Rx := T_range (bl_mesh B) x (nth_error_In _ _ Hx)). destruct (TC (tcell x)) as [T1 T2]; [tauto|].
    exists (tcell x), (ctype_of (cm_ctype m) (tcell x)). split; [apply (side_at B _ Hx)|]. split; auto.
    rewrite (flS B), Es. cbn [final_info side_cell_id]. rewrite (proj2 (rd_Ok _ _ _) (map_nth_error tcell _ _ Hx)). auto.
  - destruct (swT B R) as [_ FW]. destruct (wedge_at B R Hi) as [Ei [Ec _]]. destruct (TC _ (wcell_lt B R Hi)) as [T1 T2].
    exists (wcell_of t sh i), (ctype_of (cm_ctype m) (wcell_of t sh i)). split; auto. split; auto.
    rewrite FW, Es. cbn [final_info side_cell_id]. rewrite (proj2 (rd_Ok _ _ _) (map_nth_error tcell _ _ Ei)). auto.
  - change (num_entities m CORNER TYPE_ALL) with (n_corners m) in Hi. assert (W := proj1 (close_closed fl) R).
    assert (Hi' := Hi). rewrite (n_corners_eq B R) in Hi'. destruct (nth_error (pairs t sh) i) as [[c n]|] eqn:Hk; [|apply nth_error_None in Hk; lia].
    destruct (corner_at B R _ Hk) as [H1 _]. destruct (TC c (proj1 (proj1 (K_in B _ _) (nth_error_In _ _ Hk)))) as [T1 T2].
    exists c, (ctype_of (cm_ctype m) c). split; auto. split; auto.
    assert (CW := corner_wedges_at B R _ Hk). unfold corner_get_wedges in CW. rewrite (flC B R) in *. cbn [asserting] in CW.
    destruct (cm_corners m) as [ci|]; [|discriminate]. cbn [need bind] in CW. rewrite Es, CW. cbn [bind].
    assert (NE := cwl_nonempty B R _ _ (nth_error_In _ _ Hk)). destruct (cwl t sh (c, n)) as [|w l] eqn:E; [congruence|].
    assert (I : In w (cwl t sh (c, n))) by (rewrite E; simpl; auto). apply (in_cwl B R) in I as [L [E1 _]].
    unfold rd at 1. cbn [nth_error bind final_info side_cell_id]. destruct (wedge_at B W L) as [Ew _].
    rewrite (proj2 (rd_Ok _ _ _) (map_nth_error tcell _ _ Ew)). cbn [bind]. change (tcell (wtrip t sh w)) with (wcell_of t sh w). rewrite E1. auto.
Qed.
Example c29_witness : built quads quads_shape all_on quads_mesh /\ requested all_on CORNER /\ ids quads_mesh CORNER PARALLEL_GHOST = [4; 5; 6; 7] /\
  ids quads_mesh WEDGE PARALLEL_OWNED = [0; 1; 2; 3; 4; 5; 6; 7] /\ entity_get_type quads_mesh WEDGE 9 = Ok PARALLEL_GHOST.
Proof. split; [apply quads_built|]. vm_compute. auto 15. Qed.

(** *** the base kinds, for every mesh object (whatever was requested) *)
Definition base_ids (t : topo) (k : entity_kind) (ty : entity_type) : list nat :=
  match k, ty with
  | NODE, PARALLEL_OWNED => nodes_owned t | NODE, PARALLEL_GHOST => nodes_ghost t
  | EDGE, PARALLEL_OWNED => edges_owned t | EDGE, PARALLEL_GHOST => edges_ghost t
  | FACE, PARALLEL_OWNED => faces_owned t | FACE, PARALLEL_GHOST => faces_ghost t
  | CELL, PARALLEL_OWNED => cells_owned t | CELL, PARALLEL_GHOST => cells_ghost t | CELL, BOUNDARY_GHOST => cells_bghost t
  | _, _ => []
  end.
Definition base_requested (fl : flags) (k : entity_kind) : bool :=
  match k with NODE | CELL => true | FACE => fl_faces fl | EDGE => fl_edges fl | _ => false end.
Lemma when_true A (x : outcome A) o : when true x = Ok o -> exists a, x = Ok a /\ o = Some a.
Proof. unfold when. destruct x; try discriminate. cbn. intros E. injection E as <-. eauto. Qed.
Lemma when_false A (x : outcome A) o : when false x = Ok o -> o = None.
Proof. unfold when. congruence. Qed.
Lemma bind_inv A B (x : outcome A) (f : A -> outcome B) b : (a <- x ;; f a) = Ok b -> exists a, x = Ok a /\ f a = Ok b.
Proof. destruct x; try discriminate. cbn. eauto. Qed.
(** inversion of the constructor *)
Record made (t : topo) (fl : flags) (m : cmesh) : Prop := {
  md_topo : cm_topo m = t; md_flags : cm_flags m = fl;
  md_ct : cache_cell_type t = Ok (cm_ctype m); md_nt : cache_node_type t = Ok (cm_ntype m);
  md_ft : when (fl_faces fl) (cache_face_type t) = Ok (cm_ftype m); md_et : when (fl_edges fl) (cache_edge_type t) = Ok (cm_etype m);
  md_fc : when (fl_faces fl) (cache_face2cell_info t) = Ok (cm_fc m);
  md_cf : when (fl_faces fl) (cache_cell2face_info t) = Ok (cm_cf m);
  md_fe : when (fl_edges fl) (cache_face2edge_info t) = Ok (cm_fe m) }.
Lemma made_of t fl m : cache_extra_variables t fl = Ok m -> made t fl m.
Proof.
  unfold cache_extra_variables. intros E.
  repeat (apply bind_inv in E; destruct E as [? [? E]]). apply Ok_inj in E. subst m. constructor; auto.
Qed.
Theorem c29_base_types : forall t fl m k i ty, cache_extra_variables t fl = Ok m -> numbered t -> base_requested fl k = true ->
  In i (base_ids t k ty) -> entity_get_type m k i = Ok ty.
Proof.
  intros t fl m k i ty E N R I. apply made_of in E. destruct E as [Et Ef Ect Ent Eft Eet _ _ _].
  assert (G : forall n o g b v, cache_types n o g b = Ok v -> Permutation (o ++ g ++ b) (seq 0 n) ->
     (In i o -> rd v i = Ok PARALLEL_OWNED) /\ (In i g -> rd v i = Ok PARALLEL_GHOST) /\ (In i b -> rd v i = Ok BOUNDARY_GHOST)).
  { intros n o g b v Ev P. destruct (@cache_types_spec n o g b P) as [v' [Ev' [_ [H _]]]]. assert (v' = v) as -> by congruence.
    split; [|split]; intros Hi; apply rd_Ok; apply H; unfold has_type3; auto. }
  destruct k; try discriminate R; cbn [entity_get_type].
  - destruct (G _ _ _ _ _ Ent) as [G1 [G2 _]]; [rewrite app_nil_r; apply (nb_nodes N)|]. destruct ty; cbn in I; auto; destruct I.
  - rewrite Ef. cbn in R. rewrite R in Eet. apply when_true in Eet as [v [Ev ->]]. rewrite R.
    destruct (G _ _ _ _ _ Ev) as [G1 [G2 _]]; [rewrite app_nil_r; apply (nb_edges N)|]. destruct ty; cbn in I; auto; destruct I.
  - rewrite Ef. cbn in R. rewrite R in Eft. apply when_true in Eft as [v [Ev ->]]. rewrite R.
    destruct (G _ _ _ _ _ Ev) as [G1 [G2 _]]; [rewrite app_nil_r; apply (nb_faces N)|]. destruct ty; cbn in I; auto; destruct I.
  - destruct (G _ _ _ _ _ Ect) as [G1 [G2 G3]]; [apply (nb_cells N)|]. destruct ty; cbn in I; auto; destruct I.
Qed.
(** entities never asked for have unknown type *)
Theorem c29_unrequested_kinds_are_unknown : forall t fl m k i, cache_extra_variables t fl = Ok m ->
  (k = FACE /\ fl_faces fl = false) \/ (k = EDGE /\ fl_edges fl = false) \/ (k = SIDE /\ fl_sides fl = false) \/
  (k = WEDGE /\ fl_wedges fl = false) \/ (k = CORNER /\ fl_corners fl = false) ->
  entity_get_type m k i = Ok TYPE_UNKNOWN.
Proof.
  intros t fl m k i E H. apply made_of in E. unfold entity_get_type. rewrite (md_flags E).
  destruct H as [[-> ->]|[[-> ->]|[[-> ->]|[[-> ->]|[-> ->]]]]]; auto.
Qed.
Example c29_base_witness : cache_extra_variables quads (close_flags all_on) = Ok quads_mesh /\ numbered quads /\
  In 4 (base_ids quads FACE PARALLEL_GHOST) /\ entity_get_type quads_mesh FACE 4 = Ok PARALLEL_GHOST.
Proof. split; [apply (bl_ok quads_built)|]. split; [apply (fm_numbered quads_framework_mesh)|]. vm_compute. auto 10. Qed.

(** ** C63: face_get_cells *)
Lemma mapM_at A B (f : A -> outcome B) l : forall r i x, mapM f l = Ok r -> nth_error l i = Some x ->
  exists y, f x = Ok y /\ nth_error r i = Some y.
Proof.
  induction l as [|a l IH]; intros r i x E H; [destruct i; discriminate|]. cbn [mapM] in E.
  apply bind_inv in E as [y [Ey E]]. apply bind_inv in E as [r' [Er E]]. apply Ok_inj in E. subst r.
  destruct i; simpl in *; [injection H as <-; eauto|eauto].
Qed.
Definition cells_with_type (t : topo) (ty : entity_type) (l l' : list nat) : Prop :=
  exists p, l' = filter p l /\ forall c, In c l -> (p c = true <-> cell_has_type t c ty).
Lemma face_cells_row t fl m f l : cache_extra_variables t fl = Ok m -> fl_faces fl = true -> f < nfaces t ->
  fw_face_cells t f = Ok l -> length l <= 2 /\ exists fc, cm_fc m = Some fc /\ rd fc f = Ok (map Z.of_nat l ++ repeat (-1)%Z (2 - length l)).
Proof.
  intros E R Hf El. apply made_of in E. assert (H := md_fc E). rewrite R in H. apply when_true in H as [fc [Hfc Em]].
  unfold cache_face2cell_info in Hfc.
  assert (NE : nth_error (seq 0 (nfaces t)) f = Some f) by (apply (@tab_nth _ (nfaces t) (fun x => x) f) in Hf as Hg; unfold tab in Hg; rewrite map_id in Hg; exact Hg).
  destruct (@mapM_at _ _ _ _ _ _ _ Hfc NE) as [row [Hr Hrd]]. rewrite El in Hr. cbn [bind] in Hr.
  assert (L : length l <= 2).
  { destruct l as [|a [|b [|c l]]]; simpl; try lia. exfalso. unfold face2cell_row in Hr. cbn [length] in Hr.
    apply bind_inv in Hr as [r [Hr _]]. unfold for_lt in Hr. cbn in Hr. discriminate. }
  split; auto. rewrite face2cell_row_ok in Hr by auto. injection Hr as <-. exists fc. split; auto. apply rd_Ok; auto.
Qed.
Lemma face_cells_filter m fc f l ty (p : nat -> bool) : length l <= 2 -> cm_fc m = Some fc ->
  rd fc f = Ok (map Z.of_nat l ++ repeat (-1)%Z (2 - length l)) ->
  (forall c, In c l -> fc_test m ty (Z.of_nat c) = Ok (p c)) ->
  In ty [TYPE_ALL; PARALLEL_OWNED; PARALLEL_GHOST] ->
  face_get_cells m f ty = Ok (map Z.of_nat (filter p l)).
Proof.
  intros L Em Hr Hp Hty. unfold face_get_cells. rewrite Em. cbn [need bind].
  assert (N1 : fc_test m ty (-1)%Z = Ok false) by reflexivity.
  assert (G : for_lt 2 (fun i out => row <- rd fc f ;; c <- rd row i ;; b <- fc_test m ty c ;; Ok (if b : bool then out ++ [c] else out)) [] = Ok (map Z.of_nat (filter p l))).
  { unfold for_lt. cbn [seq foldM]. rewrite Hr. cbn [bind].
    destruct l as [|a [|b [|c l]]]; simpl length in L; try lia; cbn [length map app repeat Nat.sub];
      unfold rd; cbn [nth_error bind]; rewrite ?N1, ?Hp by (simpl; auto); cbn [bind filter].
    - reflexivity.
    - destruct (p a); reflexivity.
    - destruct (p a), (p b); reflexivity. }
  simpl in Hty. destruct Hty as [<-|[<-|[<-|[]]]]; exact G.
Qed.
Theorem c63_all_cells_of_the_face : forall t fl m f l, cache_extra_variables t fl = Ok m -> fl_faces fl = true -> f < nfaces t ->
  fw_face_cells t f = Ok l -> face_get_cells m f TYPE_ALL = Ok (map Z.of_nat l).
Proof.
  intros t fl m f l E R Hf El. destruct (@face_cells_row t fl m f l E R Hf El) as [L [fc [Em Hr]]].
  rewrite (@face_cells_filter m fc f l TYPE_ALL (fun _ => true)); auto.
  - f_equal. f_equal. apply filter_true. auto.
  - intros c _. unfold fc_test. destruct (Z.eqb_spec (Z.of_nat c) (-1)); [lia|auto].
  - simpl; auto.
Qed.
(** OWNED and GHOST: the cells of that type, in the order of the ALL answer *)
Theorem c63_cells_of_a_type : forall t fl m f l ty, cache_extra_variables t fl = Ok m -> numbered t -> fl_faces fl = true -> f < nfaces t ->
  fw_face_cells t f = Ok l -> (forall c, In c l -> c < ncells t) -> ty = PARALLEL_OWNED \/ ty = PARALLEL_GHOST ->
  exists l', face_get_cells m f ty = Ok (map Z.of_nat l') /\ cells_with_type t ty l l'.
Proof.
  intros t fl m f l ty E N R Hf El Hl Hty. destruct (@face_cells_row t fl m f l E R Hf El) as [L [fc [Em Hr]]].
  apply made_of in E. destruct (cell_type_cached N) as [v [Ev [HT Hv]]]. rewrite (md_ct E) in Ev. injection Ev as <-.
  assert (TC : forall c, c < ncells t -> (type_eqb (ctype_of (cm_ctype m) c) ty = true <-> cell_has_type t c ty)).
  { intros c Hc. rewrite type_eqb_true. split.
    - intros <-. apply (proj2 HT); auto.
    - intros H. apply Hv in H. unfold ctype_of. apply nth_error_nth; auto. }
  exists (filter (fun c => type_eqb (ctype_of (cm_ctype m) c) ty) l). split.
  - apply (@face_cells_filter m fc f l ty); auto; [|destruct Hty as [->| ->]; simpl; auto].
    intros c Hc. specialize (Hl c Hc). unfold fc_test. destruct (Z.eqb_spec (Z.of_nat c) (-1)); [lia|].
    assert (RD : rdz (cm_ctype m) (Z.of_nat c) = Ok (ctype_of (cm_ctype m) c)).
    { unfold rdz. destruct (Z.ltb_spec (Z.of_nat c) 0); [lia|]. rewrite Nat2Z.id. apply ctype_of_rd. destruct HT. lia. }
    rewrite RD. destruct Hty as [->| ->]; reflexivity.
  - eexists. split; [reflexivity|]. intros c Hc. apply TC; auto.
Qed.
(** OWNED and GHOST answers partition the ALL answer when the face touches no boundary-ghost cell *)
Theorem c63_owned_and_ghost_partition_all : forall t fl m f l lo lg, cache_extra_variables t fl = Ok m -> numbered t -> fl_faces fl = true -> f < nfaces t ->
  fw_face_cells t f = Ok l -> (forall c, In c l -> c < ncells t) -> (forall c, In c l -> ~ In c (cells_bghost t)) ->
  face_get_cells m f PARALLEL_OWNED = Ok lo -> face_get_cells m f PARALLEL_GHOST = Ok lg ->
  Permutation (lo ++ lg) (map Z.of_nat l) /\ forall x, In x lo -> ~ In x lg.
Proof.
  intros t fl m f l lo lg E N R Hf El Hl Hb Eo Eg.
  destruct (@c63_cells_of_a_type t fl m f l PARALLEL_OWNED E N R Hf El Hl) as [lo' [Eo' [p [-> Hp]]]]; auto.
  destruct (@c63_cells_of_a_type t fl m f l PARALLEL_GHOST E N R Hf El Hl) as [lg' [Eg' [q [-> Hq]]]]; auto.
  rewrite Eo in Eo'. rewrite Eg in Eg'. injection Eo' as ->. injection Eg' as ->.
  assert (X : forall c, In c l -> q c = negb (p c)).
  { intros c Hc. destruct (cell_type_cached N) as [v [_ [HT Hv]]].
    destruct (proj2 HT c (Hl c Hc)) as [[Ty H]|[[Ty H]|[Ty H]]].
    - assert (P : p c = true) by (apply Hp; auto; left; auto). rewrite P. destruct (q c) eqn:Q; auto. exfalso.
      apply Hq in Q; auto. assert (A := Hv _ _ Q). assert (B : nth_error v c = Some PARALLEL_OWNED) by (apply Hv; left; auto). congruence.
    - assert (Q : q c = true) by (apply Hq; auto; right; left; auto). rewrite Q. destruct (p c) eqn:P; auto. exfalso.
      apply Hp in P; auto. assert (A := Hv _ _ P). assert (B : nth_error v c = Some PARALLEL_GHOST) by (apply Hv; right; left; auto). congruence.
    - exfalso. apply (Hb c Hc H). }
  split.
  - rewrite <- map_app. apply Permutation_map. clear - X. induction l as [|c l IH]; auto. simpl. rewrite (X c) by (simpl; auto).
    assert (IH' := IH (fun d Hd => X d (or_intror Hd))). destruct (p c); simpl; [constructor; auto|].
    apply Permutation_sym. apply Permutation_cons_app. apply Permutation_sym. auto.
  - intros x Hx Hx'. apply in_map_iff in Hx as [c [<- Hc]], Hx' as [c' [Ec Hc']]. apply Nat2Z.inj in Ec. subst c'.
    apply filter_In in Hc as [Hc P], Hc' as [_ Q]. rewrite X, P in Q by auto. discriminate.
Qed.
(** asking for boundary-ghost cells always gives the empty answer *)
Theorem c63_boundary_ghost_is_empty : forall t fl m f, cache_extra_variables t fl = Ok m -> fl_faces fl = true ->
  face_get_cells m f BOUNDARY_GHOST = Ok [].
Proof.
  intros t fl m f E R. apply made_of in E. assert (H := md_fc E). rewrite R in H. apply when_true in H as [fc [_ Em]].
  unfold face_get_cells. rewrite Em. reflexivity.
Qed.
Example c63_witness : cache_extra_variables quads (close_flags all_on) = Ok quads_mesh /\ numbered quads /\ fw_face_cells quads 3 = Ok [0; 1] /\
  face_get_cells quads_mesh 3 TYPE_ALL = Ok [0; 1]%Z /\ face_get_cells quads_mesh 3 PARALLEL_GHOST = Ok [1%Z] /\ face_get_cells quads_mesh 3 PARALLEL_OWNED = Ok [0%Z].
Proof. split; [apply (bl_ok quads_built)|]. split; [apply (fm_numbered quads_framework_mesh)|]. vm_compute. auto 10. Qed.
(** the full claim ("OWNED, GHOST and BOUNDARY_GHOST answers give the cells of that type") is false: with one boundary-ghost cell
    next to the face its BOUNDARY_GHOST answer is empty *)
Definition quads_b : topo := Topo 2 [0] [] [1] [0; 1; 3; 4] [2; 5] [0; 2; 3; 5] [1; 4; 6] [0; 2; 3; 5] [1; 4; 6]
  (fun c => Ok (cfaces quads_shape c)) (fun f => Ok (quads_fcells f)) (fun f => Ok (fedges quads_shape f))
  (fun e => Ok (enodes quads_shape e)) (fun c => Ok (cnodes quads_shape c)).
Theorem c63_boundary_ghost_refuted : exists t fl m f l, cache_extra_variables t fl = Ok m /\ numbered t /\ f < nfaces t /\
  fw_face_cells t f = Ok l /\ (exists c, In c l /\ In c (cells_bghost t)) /\ face_get_cells m f BOUNDARY_GHOST = Ok [].
Proof.
  destruct (cache_extra_variables quads_b (close_flags all_on)) as [m| | | |] eqn:E; try (vm_compute in E; discriminate).
  exists quads_b, (close_flags all_on), m, 3, [0; 1]. split; [exact E|]. split; [|split; [vm_compute; lia|]].
  - assert (N := fm_numbered quads_framework_mesh). destruct N as [N1 N2 N3 N4]. constructor; auto.
  - split; [reflexivity|]. split; [exists 1; simpl; auto|]. apply (@c63_boundary_ghost_is_empty _ _ _ 3 E). reflexivity.
Qed.

(** ** C64: num_entities *)
Theorem c64_counts_are_list_lengths : forall m k ty, In k [NODE; EDGE; FACE; CELL; SIDE; WEDGE; CORNER] ->
  ty = PARALLEL_OWNED \/ ty = PARALLEL_GHOST \/ (ty = BOUNDARY_GHOST /\ In k [CELL; SIDE; WEDGE; CORNER]) ->
  num_entities m k ty = length (ids m k ty).
Proof.
  intros m k ty Hk Hty. simpl in Hk. decompose [or] Hk; try contradiction; subst k; destruct Hty as [->|[->|[-> H]]]; try reflexivity;
    simpl in H; intuition discriminate.
Qed.
Theorem c64_all_is_the_sum : forall t sh fl m k, (built t sh fl m /\ requested fl k) \/ (cache_extra_variables t fl = Ok m /\ In k [NODE; EDGE; FACE; CELL]) ->
  num_entities m k TYPE_ALL = num_entities m k PARALLEL_OWNED + num_entities m k PARALLEL_GHOST + num_entities m k BOUNDARY_GHOST /\
  num_entities m k TYPE_ALL = length (ids m k TYPE_ALL).
Proof.
  intros t sh fl m k [[B R]|[E H]].
  - split; [destruct k; try (destruct R; fail); reflexivity|].
    destruct (c29_lists_partition k B R) as [_ P]. apply Permutation_length in P. rewrite seq_length in P. auto.
  - simpl in H. decompose [or] H; try contradiction; subst k; cbn; unfold nodes_all, edges_all, faces_all, cells_all; rewrite ?app_length; split; lia.
Qed.
(** there are no lists of boundary-ghost nodes, edges, faces: the count is zero *)
Theorem c64_no_boundary_ghost_below_cells : forall m k, In k [NODE; EDGE; FACE] -> num_entities m k BOUNDARY_GHOST = 0 /\ ids m k BOUNDARY_GHOST = [].
Proof. intros m k H. simpl in H. decompose [or] H; try contradiction; subst k; auto. Qed.
Example c64_witness : built quads quads_shape all_on quads_mesh /\ requested all_on WEDGE /\ num_entities quads_mesh WEDGE PARALLEL_GHOST = 8 /\
  num_entities quads_mesh FACE TYPE_ALL = 7.
Proof. split; [apply quads_built|]. vm_compute. auto 10. Qed.
