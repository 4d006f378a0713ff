(** C55-C58, C67: requested-entity closure, factory options, mesh creation. *)
From Coq Require Import Reals Lra.
From Verif Require Import Base Defs IndexPartition Factory.
Set Implicit Arguments.

(** ** C55 *)
Theorem c55_closure : forall f, let g := close_flags f in
  (fl_corners g = true -> fl_wedges g = true) /\ (fl_wedges g = true -> fl_sides g = true) /\
  (fl_sides g = true -> fl_faces g = true /\ fl_edges g = true) /\
  (* exactly what was requested or is needed by a request *)
  fl_corners g = fl_corners f /\
  fl_wedges g = (fl_wedges f || fl_corners f)%bool /\
  fl_sides g = (fl_sides f || fl_wedges f || fl_corners f)%bool /\
  fl_faces g = (fl_faces f || fl_sides f || fl_wedges f || fl_corners f)%bool /\
  fl_edges g = (fl_edges f || fl_sides f || fl_wedges f || fl_corners f)%bool.
Proof. intros [[] [] [] [] []]; cbn; repeat split; auto. Qed.
Print Assumptions c55_closure.

Example c55_example : close_flags (Flags false false false false true) = Flags true true true true true.
Proof. reflexivity. Qed.

(** ** C56 *)
Definition mentions (k : entity_kind) (l : list entity_kind) : bool := existsb (kind_eqb k) l.
(** is kind k requested after the history, by the rule "the last request or exclusion wins, reset goes back to the default" *)
Definition wanted (default : bool) (k : entity_kind) (l : list fop) : bool :=
  fold_left (fun b o => match o with
    | OpReset => default
    | OpInclude m => if (mentions k m || mentions ALL_KIND m)%bool then true else b
    | OpExclude m => if mentions k m then false else b
    | _ => b end) l default.
Definition has_reset (l : list fop) : bool := existsb (fun o => match o with OpReset => true | _ => false end) l.

Definition flag (k : entity_kind) (f : factory) : bool :=
  match k with EDGE => fa_edges f | WEDGE => fa_wedges f | CORNER => fa_corners f | SIDE => fa_sides f | FACE => fa_faces f | CELL => fa_cells f | NODE => true | _ => false end.

Lemma included_flag f k : In k (included f) <-> flag k f = true.
Proof.
  unfold included. destruct k; cbn [flag];
  destruct (fa_edges f), (fa_faces f), (fa_sides f), (fa_wedges f), (fa_corners f), (fa_cells f); cbn; split; intros H; try tauto;
  try discriminate; repeat (destruct H as [H|H]; try discriminate; try tauto); auto 10.
Qed.

Lemma include_list_flag k : In k [EDGE; SIDE; WEDGE; CORNER; FACE; CELL] -> forall m f,
  flag k (fold_left include1 m f) = if (mentions k m || mentions ALL_KIND m)%bool then true else flag k f.
Proof.
  intros Hk. induction m as [|x m IH]; intros f; [reflexivity|]. cbn [fold_left]. rewrite IH.
  change (mentions k (x :: m)) with (kind_eqb k x || mentions k m)%bool.
  change (mentions ALL_KIND (x :: m)) with (kind_eqb ALL_KIND x || mentions ALL_KIND m)%bool.
  destruct (mentions k m), (mentions ALL_KIND m); rewrite ?orb_true_r, ?orb_false_r; auto;
  repeat (destruct Hk as [<-|Hk]; [destruct x; reflexivity|]); destruct Hk.
Qed.
Lemma exclude_list_flag k : In k [EDGE; SIDE; WEDGE; CORNER] -> forall m f,
  flag k (fold_left exclude1 m f) = if mentions k m then false else flag k f.
Proof.
  intros Hk. induction m as [|x m IH]; intros f; [reflexivity|]. cbn [fold_left]. rewrite IH.
  change (mentions k (x :: m)) with (kind_eqb k x || mentions k m)%bool.
  destruct (mentions k m); rewrite ?orb_true_r, ?orb_false_r; auto;
  repeat (destruct Hk as [<-|Hk]; [destruct x; reflexivity|]); destruct Hk.
Qed.

Lemma step_flag k f o : In k [EDGE; SIDE; WEDGE; CORNER] -> (k = SIDE -> o <> OpReset) ->
  flag k (step f o) = match o with
    | OpReset => false
    | OpInclude m => if (mentions k m || mentions ALL_KIND m)%bool then true else flag k f
    | OpExclude m => if mentions k m then false else flag k f
    | _ => flag k f end.
Proof.
  intros Hk Hs. destruct o as [|fr| | | | | | | |m|m|]; try reflexivity.
  - destruct Hk as [<-|[<-|[<-|[<-|[]]]]]; try reflexivity. exfalso; apply Hs; auto.
  - destruct fr; reflexivity.
  - unfold step; cbn [apply_op]. apply include_list_flag. simpl in *; tauto.
  - unfold step; cbn [apply_op]. apply exclude_list_flag; auto.
Qed.

Lemma run_flag k : In k [EDGE; SIDE; WEDGE; CORNER] -> forall l f b, flag k f = b -> (k = SIDE -> has_reset l = false) ->
  flag k (run_ops f l) = fold_left (fun b o => match o with
    | OpReset => false
    | OpInclude m => if (mentions k m || mentions ALL_KIND m)%bool then true else b
    | OpExclude m => if mentions k m then false else b
    | _ => b end) l b.
Proof.
  intros Hk. induction l as [|o l IH]; intros f b Hb Hs; [exact Hb|]. unfold run_ops in *. cbn [fold_left].
  apply IH.
  - rewrite step_flag; auto.
    + destruct o; try reflexivity; rewrite Hb; reflexivity.
    + intros E ->. specialize (Hs E). discriminate.
  - intros E. specialize (Hs E). cbn in Hs. destruct o; auto; discriminate.
Qed.

(** every history of option calls on a new factory: which optional kinds are requested *)
Theorem c56_option_history_partial : forall l k, In k [EDGE; WEDGE; CORNER] \/ (k = SIDE /\ has_reset l = false) ->
  (In k (included (run_ops new_factory l)) <-> wanted false k l = true).
Proof.
  intros l k Hk. rewrite included_flag. unfold wanted. rewrite (@run_flag k) with (b := false); [tauto| | |].
  - destruct Hk as [[<-|[<-|[<-|[]]]]|[-> _]]; simpl; auto.
  - destruct Hk as [[<-|[<-|[<-|[]]]]|[-> _]]; reflexivity.
  - intros ->. destruct Hk as [[Hk|[Hk|[Hk|[]]]]|[_ Hk]]; auto; discriminate.
Qed.
Print Assumptions c56_option_history_partial.

(** nodes, faces and cells are requested whatever the history *)
Theorem c56_always_included : forall l k, In k [NODE; FACE; CELL] -> In k (included (run_ops new_factory l)).
Proof.
  intros l k Hk. apply included_flag.
  assert (H : forall l f, flag FACE f = true /\ flag CELL f = true -> flag FACE (run_ops f l) = true /\ flag CELL (run_ops f l) = true).
  { induction l0 as [|o l0 IH]; intros f Hf; auto. unfold run_ops; cbn [fold_left]. apply IH.
    destruct o as [|fr| | | | | | | |m|m|]; try exact Hf; try (split; reflexivity).
    - destruct fr; exact Hf.
    - unfold step; cbn [apply_op]. rewrite !include_list_flag by (simpl; tauto). destruct Hf as [-> ->]. split; destruct (_ || _)%bool; auto.
    - unfold step; cbn [apply_op]. revert f Hf. induction m as [|x m IHm]; intros f Hf; auto. cbn [fold_left]. apply IHm. destruct x; exact Hf. }
  destruct (H l new_factory) as [H1 H2]; [split; reflexivity|].
  destruct Hk as [<-|[<-|[<-|[]]]]; auto.
Qed.
Print Assumptions c56_always_included.

(** reset gives back a new factory, except that a request for sides survives *)
Theorem c56_reset_partial : forall l, fa_sides (run_ops new_factory l) = false -> run_ops new_factory (l ++ [OpReset]) = new_factory.
Proof.
  intros l H. unfold run_ops. rewrite fold_left_app. cbn [fold_left]. fold (run_ops new_factory l).
  unfold step; cbn [apply_op]. unfold reset_options. rewrite H. reflexivity.
Qed.
Print Assumptions c56_reset_partial.

(** Finding: request_sides_ is not reset, so a mesh made after reset_options still gets sides (and hence faces and edges) *)
Theorem c56_reset_refuted : forall l, fa_sides (run_ops new_factory l) = true ->
  run_ops new_factory (l ++ [OpReset]) <> new_factory /\
  mesh_flags (run_ops new_factory (l ++ [OpReset])) <> mesh_flags new_factory.
Proof.
  intros l H. unfold run_ops. rewrite fold_left_app. cbn [fold_left]. fold (run_ops new_factory l).
  unfold step; cbn [apply_op]. unfold reset_options. rewrite H. split; discriminate.
Qed.
Print Assumptions c56_reset_refuted.
Example c56_reset_example : fa_sides (run_ops new_factory [OpInclude [SIDE]]) = true /\ fa_sides (run_ops new_factory [OpInclude [SIDE]; OpExclude [SIDE]; OpTiles 3]) = false.
Proof. split; reflexivity. Qed.

(** ** C57 *)
Local Open Scope R_scope.
Definition no_errs (k : nat) : bool := false.
Definition simple_factory : factory := run_ops new_factory [OpFramework Simple].

Lemma uniform_nodes_length : forall n x d, length (uniform_nodes n x d) = n.
Proof. induction n; intros; cbn; auto. Qed.
Lemma uniform_nodes_last : forall n x d, last (uniform_nodes (S n) x d) 0 = x + INR n * d.
Proof.
  induction n as [|n IH]; intros x d; [cbn; lra|].
  change (uniform_nodes (S (S n)) x d) with (x :: uniform_nodes (S n) (x + d) d).
  transitivity (last (uniform_nodes (S n) (x + d) d) 0); [reflexivity|]. rewrite IH, S_INR. lra.
Qed.

(** creation from explicit node coordinates: one cell fewer than nodes, exactly those nodes *)
Theorem c57_explicit_nodes_partial : forall xs, (2 <= length xs)%nat -> hd 0 xs < last xs 0 ->
  ends (create1 1 CtorOk no_errs simple_factory xs) =
    Returns (MeshPtr 1 (mesh_flags simple_factory) xs [Z.of_nat (length xs) - 1]%Z).
Proof.
  intros xs Hl Hd. unfold create1. cbn [gm_mismatch fa_gm simple_factory run_ops fold_left step apply_op upd new_factory no_errs orb].
  destruct (Nat.ltb_spec (length xs) 2); [lia|]. cbn [orb].
  unfold nonpos. destruct (Rle_dec (last xs 0 - hd 0 xs) 0); [lra|]. cbn [orb]. reflexivity.
Qed.
Print Assumptions c57_explicit_nodes_partial.

(** Finding: operator()(x0,x1,nx) creates nx NODES: for every nx >= 2 the mesh has nx-1 cells and stops one cell short of x1 *)
Theorem c57_short_by_one_refuted : forall x0 x1 nx, x0 < x1 -> (2 <= nx)%Z ->
  exists fl xs, ends (create1_uniform 1 CtorOk no_errs simple_factory x0 x1 nx) = Returns (MeshPtr 1 fl xs [nx - 1]%Z) /\
    hd 0 xs = x0 /\ last xs 0 = x1 - (x1 - x0) / IZR nx /\ last xs 0 < x1.
Proof.
  intros x0 x1 nx Hx Hn. unfold create1_uniform. destruct (Z.ltb_spec nx 0); [lia|].
  destruct (Z.to_nat nx) as [|m] eqn:Em; [lia|].
  set (d := (x1 - x0) / IZR nx).
  assert (Hnx : IZR nx = INR m + 1). { rewrite INR_IZR_INZ, <- plus_IZR. f_equal. lia. }
  assert (Hpos : 0 < INR m). { apply lt_0_INR. lia. }
  assert (Hd : 0 < d). { unfold d. apply Rdiv_lt_0_compat; lra. }
  assert (Hlast : last (uniform_nodes (S m) x0 d) 0 = x1 - d).
  { rewrite uniform_nodes_last. unfold d. rewrite Hnx. field. lra. }
  assert (Hmd : INR m * d > 0) by (apply Rmult_lt_0_compat; auto).
  exists (mesh_flags simple_factory), (uniform_nodes (S m) x0 d).
  split; [|split; [reflexivity|split; [exact Hlast|lra]]].
  rewrite c57_explicit_nodes_partial; rewrite ?uniform_nodes_length; [|lia|].
  - do 3 f_equal. lia.
  - rewrite Hlast. cbn [hd uniform_nodes]. rewrite uniform_nodes_last in Hlast. lra.
Qed.
Print Assumptions c57_short_by_one_refuted.

(** ... and a single cell cannot be requested at all *)
Theorem c57_single_cell_refuted : forall numprocs ctor f x0 x1, ends (create1_uniform numprocs ctor no_errs f x0 x1 1) = Throws.
Proof.
  intros. unfold create1_uniform, create1. cbn [Z.ltb Z.compare uniform_nodes Z.to_nat Pos.to_nat].
  change (Pos.to_nat 1) with 1%nat. cbn [uniform_nodes length].
  destruct (gm_mismatch f 1); reflexivity.
Qed.
Print Assumptions c57_single_cell_refuted.

(** ** C58 *)
Lemma nonpos_true x : nonpos x = true <-> x <= 0.
Proof. unfold nonpos. destruct (Rle_dec x 0); split; auto; try discriminate; tauto. Qed.

(** an invalid request is rejected, whatever the framework, the other ranks and the options *)
Theorem c58_create3_rejects : forall mstk np ctor errs f x0 y0 z0 x1 y1 z1 nx ny nz,
  (nx <= 0 \/ ny <= 0 \/ nz <= 0)%Z \/ x1 <= x0 \/ y1 <= y0 \/ z1 <= z0 ->
  ends (create3 mstk np ctor errs f x0 y0 z0 x1 y1 z1 nx ny nz) = Throws.
Proof.
  intros mstk np ctor errs f x0 y0 z0 x1 y1 z1 nx ny nz H. unfold create3.
  destruct (gm_mismatch f 3); auto.
  destruct ((nx <=? 0)%Z || (ny <=? 0)%Z || (nz <=? 0)%Z)%bool eqn:E1; [reflexivity|]. cbn [orb]. destruct (errs 0%nat); [reflexivity|].
  destruct H as [H|H]; [lia|].
  replace (nonpos (x1 - x0) || nonpos (y1 - y0) || nonpos (z1 - z0))%bool with true; [reflexivity|].
  symmetry. rewrite !orb_true_iff, !nonpos_true. lra.
Qed.
Print Assumptions c58_create3_rejects.

Theorem c58_create2_rejects : forall mstk np ctor errs f x0 y0 x1 y1 nx ny,
  (nx <= 0 \/ ny <= 0)%Z \/ x1 <= x0 \/ y1 <= y0 ->
  ends (create2 mstk np ctor errs f x0 y0 x1 y1 nx ny) = Throws.
Proof.
  intros mstk np ctor errs f x0 y0 x1 y1 nx ny H. unfold create2.
  destruct (gm_mismatch f 2); auto.
  destruct ((nx <=? 0)%Z || (ny <=? 0)%Z)%bool eqn:E1; [reflexivity|]. cbn [orb]. destruct (errs 0%nat); [reflexivity|].
  destruct H as [H|H]; [lia|].
  replace (nonpos (x1 - x0) || nonpos (y1 - y0))%bool with true; [reflexivity|].
  symmetry. rewrite !orb_true_iff, !nonpos_true. lra.
Qed.
Print Assumptions c58_create2_rejects.

Theorem c58_create1_rejects : forall np ctor errs f xs,
  (length xs < 2)%nat \/ last xs 0 <= hd 0 xs -> ends (create1 np ctor errs f xs) = Throws.
Proof.
  intros np ctor errs f xs H. unfold create1. destruct (gm_mismatch f 1 || errs 0%nat)%bool; auto.
  destruct (Nat.ltb_spec (length xs) 2) as [H2|H2]; auto. cbn [orb]. destruct (errs 1%nat); auto.
  destruct H as [H|H]; [lia|]. replace (nonpos (last xs 0 - hd 0 xs)) with true; [reflexivity|]. symmetry. apply nonpos_true. lra.
Qed.
Print Assumptions c58_create1_rejects.

(** a model of the wrong dimension is rejected too *)
Theorem c58_model_dimension : forall mstk np ctor errs f g x0 y0 z0 x1 y1 z1 nx ny nz xs, fa_gm f = Some g ->
  (g <> 3%nat -> ends (create3 mstk np ctor errs f x0 y0 z0 x1 y1 z1 nx ny nz) = Throws) /\
  (g <> 2%nat -> ends (create2 mstk np ctor errs f x0 y0 x1 y1 nx ny) = Throws) /\
  (g <> 1%nat -> ends (create1 np ctor errs f xs) = Throws).
Proof.
  intros mstk np ctor errs f g x0 y0 z0 x1 y1 z1 nx ny nz xs Hg. unfold create3, create2, create1, gm_mismatch. rewrite Hg.
  split; [|split]; intros H.
  - destruct (Nat.eqb_spec g 3); [contradiction|reflexivity].
  - destruct (Nat.eqb_spec g 2); [contradiction|reflexivity].
  - destruct (Nat.eqb_spec g 1); [contradiction|reflexivity].
Qed.
Print Assumptions c58_model_dimension.

(** 3D, 1D, file and extraction: a returned pointer is never null, and its sizes are the requested ones *)
Theorem c58_never_null : forall mstk np ctor errs f x0 y0 z0 x1 y1 z1 nx ny nz xs d m,
  (ends (create3 mstk np ctor errs f x0 y0 z0 x1 y1 z1 nx ny nz) = Returns m -> m = MeshPtr 3 (mesh_flags f) [] [nx; ny; nz]) /\
  (ends (create1 np ctor errs f xs) = Returns m -> m = MeshPtr 1 (mesh_flags f) xs [Z.of_nat (length xs) - 1]%Z) /\
  (ends (create_file mstk ctor errs f d) = Returns m -> m = MeshPtr d (mesh_flags f) [] []) /\
  (ends (create_extract mstk ctor errs f d) = Returns m -> m = MeshPtr d (mesh_flags f) [] []).
Proof.
  intros mstk np ctor errs f x0 y0 z0 x1 y1 z1 nx ny nz xs d m.
  split; [|split; [|split]]; unfold create3, create1, create_file, create_extract; intros H;
  repeat match type of H with context [if ?b then _ else _] => destruct b; try discriminate
         | context [match ?b with _ => _ end] => destruct b; try discriminate end; cbn in H; congruence.
Qed.
Print Assumptions c58_never_null.

(** 2D with MSTK compiled in: never null either *)
Theorem c58_create2_never_null_partial : forall np ctor errs f x0 y0 x1 y1 nx ny m,
  fa_framework f = Simple \/ fa_framework f = MSTK ->
  ends (create2 true np ctor errs f x0 y0 x1 y1 nx ny) = Returns m -> m = MeshPtr 2 (mesh_flags f) [] [nx; ny].
Proof.
  intros np ctor errs f x0 y0 x1 y1 nx ny m Hf. unfold create2. intros H.
  destruct (gm_mismatch f 2); [discriminate|]. destruct ((_ || _) || errs 0%nat)%bool; [discriminate|].
  destruct ((_ || _) || errs 1%nat)%bool; [discriminate|].
  destruct Hf as [E|E]; rewrite E in H; cbn in H; [discriminate|]. destruct ctor; cbn in H; congruence.
Qed.
Print Assumptions c58_create2_never_null_partial.

(** Finding: without MSTK, a valid 2D request on a NEW factory returns a null pointer instead of throwing *)
Theorem c58_create2_null_refuted : forall np ctor x0 y0 x1 y1 nx ny,
  (0 < nx)%Z -> (0 < ny)%Z -> x0 < x1 -> y0 < y1 ->
  ends (create2 false np ctor no_errs new_factory x0 y0 x1 y1 nx ny) = Returns NullPtr.
Proof.
  intros np ctor x0 y0 x1 y1 nx ny H1 H2 H3 H4. unfold create2. cbn [gm_mismatch fa_gm new_factory no_errs].
  destruct ((nx <=? 0)%Z || (ny <=? 0)%Z)%bool eqn:E1; [lia|]. cbn [orb].
  replace (nonpos (x1 - x0) || nonpos (y1 - y0))%bool with false; [reflexivity|].
  symmetry. unfold nonpos. destruct (Rle_dec (x1 - x0) 0); [lra|]. destruct (Rle_dec (y1 - y0) 0); [lra|]. reflexivity.
Qed.
Print Assumptions c58_create2_null_refuted.

(** a simple mesh is what framework_generates promises, in serial *)
Theorem c58_generates_simple : forall dim errs x0 y0 z0 x1 y1 z1 nx ny nz xs,
  (0 < nx)%Z -> (0 < ny)%Z -> (0 < nz)%Z -> x0 < x1 -> y0 < y1 -> z0 < z1 -> (2 <= length xs)%nat -> hd 0 xs < last xs 0 ->
  (forall k, errs k = false) ->
  (framework_generates Simple false dim = true <->
   (dim = 3%nat /\ exists m, ends (create3 true 1 CtorOk errs simple_factory x0 y0 z0 x1 y1 z1 nx ny nz) = Returns m) \/
   (dim = 2%nat /\ exists m, ends (create2 true 1 CtorOk errs simple_factory x0 y0 x1 y1 nx ny) = Returns m) \/
   (dim = 1%nat /\ exists m, ends (create1 1 CtorOk errs simple_factory xs) = Returns m)).
Proof.
  intros dim errs x0 y0 z0 x1 y1 z1 nx ny nz xs Hx Hy Hz A B C Hl Hd He.
  assert (E3 : exists m, ends (create3 true 1 CtorOk errs simple_factory x0 y0 z0 x1 y1 z1 nx ny nz) = Returns m).
  { unfold create3. cbn [gm_mismatch fa_gm simple_factory run_ops fold_left step apply_op upd new_factory]. rewrite !He.
    destruct ((nx <=? 0)%Z || (ny <=? 0)%Z || (nz <=? 0)%Z)%bool eqn:E1; [lia|]. cbn [orb]. unfold nonpos.
    destruct (Rle_dec (x1 - x0) 0); [lra|]. destruct (Rle_dec (y1 - y0) 0); [lra|]. destruct (Rle_dec (z1 - z0) 0); [lra|].
    eexists; reflexivity. }
  assert (E1 : exists m, ends (create1 1 CtorOk errs simple_factory xs) = Returns m).
  { unfold create1. cbn [gm_mismatch fa_gm simple_factory run_ops fold_left step apply_op upd new_factory]. rewrite !He.
    destruct (Nat.ltb_spec (length xs) 2); [lia|]. unfold nonpos. destruct (Rle_dec (last xs 0 - hd 0 xs) 0); [lra|]. eexists; reflexivity. }
  assert (E2 : ends (create2 true 1 CtorOk errs simple_factory x0 y0 x1 y1 nx ny) = Throws).
  { unfold create2. cbn [gm_mismatch fa_gm simple_factory run_ops fold_left step apply_op upd new_factory]. 
    destruct (_ || errs 0%nat)%bool; [reflexivity|]. destruct (_ || errs 1%nat)%bool; reflexivity. }
  unfold framework_generates. cbn [negb andb]. rewrite orb_true_iff, !Nat.eqb_eq. rewrite E2. split.
  - intros [->| ->]; auto.
  - intros [[-> _]|[[-> (m & Em)]|[-> _]]]; auto. discriminate.
Qed.
Print Assumptions c58_generates_simple.

(** ** C67: creation is collective *)
(** the arguments of one rank of a 3D creation *)
Record rank_args := RA { ra_f : factory; ra_box : R * R * R * R * R * R; ra_n : Z * Z * Z; ra_ctor : ctor_behaviour }.
Definition count_bad (a : rank_args) : bool := let '(nx, ny, nz) := ra_n a in ((nx <=? 0)%Z || (ny <=? 0)%Z || (nz <=? 0)%Z)%bool.
Definition extent_bad (a : rank_args) : bool :=
  let '(x0, y0, z0, x1, y1, z1) := ra_box a in (nonpos (x1 - x0) || nonpos (y1 - y0) || nonpos (z1 - z0))%bool.
(** MPI_Allreduce(SUM): every rank learns whether any rank reported an error in reduction k *)
Definition any_err (ranks : list rank_args) (k : nat) : bool :=
  match k with O => existsb count_bad ranks | 1%nat => existsb extent_bad ranks | _ => false end.
Definition run_rank mstk np ranks (a : rank_args) : rank_run :=
  let '(x0, y0, z0, x1, y1, z1) := ra_box a in let '(nx, ny, nz) := ra_n a in
  create3 mstk np (ra_ctor a) (any_err ranks) (ra_f a) x0 y0 z0 x1 y1 z1 nx ny nz.

(** a bad argument on ANY rank makes EVERY rank throw after the same reduction *)
Theorem c67_bad_argument_all_throw_partial : forall mstk np ranks,
  (forall a, In a ranks -> gm_mismatch (ra_f a) 3 = false) ->
  (existsb count_bad ranks = true -> forall a, In a ranks -> run_rank mstk np ranks a = Run 1 Throws) /\
  (existsb count_bad ranks = false -> existsb extent_bad ranks = true -> forall a, In a ranks -> run_rank mstk np ranks a = Run 2 Throws).
Proof.
  intros mstk np ranks Hg. split.
  - intros H a Ha. unfold run_rank. destruct (ra_box a) as [[[[[x0 y0] z0] x1] y1] z1]. destruct (ra_n a) as [[nx ny] nz].
    unfold create3. rewrite (Hg a Ha). cbn [any_err]. rewrite H, orb_true_r. reflexivity.
  - intros H1 H2 a Ha. unfold run_rank. destruct (ra_box a) as [[[[[x0 y0] z0] x1] y1] z1]. destruct (ra_n a) as [[nx ny] nz] eqn:En.
    unfold create3. rewrite (Hg a Ha). cbn [any_err]. rewrite H1, H2, orb_true_r, orb_false_r.
    assert (Hc : count_bad a = false).
    { destruct (count_bad a) eqn:E; auto. assert (existsb count_bad ranks = true); [|congruence]. apply existsb_exists; eauto. }
    unfold count_bad in Hc. rewrite En in Hc. rewrite Hc. reflexivity.
Qed.
Print Assumptions c67_bad_argument_all_throw_partial.

(** Finding: a constructor failure on one rank only: that rank enters a third reduction which the successful ranks, having
    returned already, never join *)
Theorem c67_one_rank_fails_refuted : exists good bad, let ranks := [good; bad] in
  run_rank true 2 ranks good = Run 2 (Returns (MeshPtr 3 (mesh_flags new_factory) [] [1;1;1]%Z)) /\
  run_rank true 2 ranks bad = Run 3 Throws.
Proof.
  exists (RA new_factory (0,0,0,1,1,1) (1,1,1)%Z CtorOk), (RA new_factory (0,0,0,1,1,1) (1,1,1)%Z CtorThrows).
  assert (E : nonpos (1 - 0) = false) by (unfold nonpos; destruct (Rle_dec (1-0) 0); [lra|auto]).
  cbn [run_rank ra_box ra_n ra_ctor ra_f]. unfold run_rank. cbn [ra_box ra_n ra_ctor ra_f].
  unfold create3, any_err, extent_bad, count_bad. cbn [existsb ra_box ra_n]. rewrite !E. split; reflexivity.
Qed.
Print Assumptions c67_one_rank_fails_refuted.

(** Finding: a geometric model of the wrong dimension on one rank only: it throws before the first reduction, the others wait in it *)
Theorem c67_model_mismatch_refuted : exists good bad, let ranks := [good; bad] in
  reduces (run_rank true 2 ranks good) = 2%nat /\ run_rank true 2 ranks bad = Run 0 Throws.
Proof.
  exists (RA new_factory (0,0,0,1,1,1) (1,1,1)%Z CtorOk), (RA (run_ops new_factory [OpModel (Some 2%nat)]) (0,0,0,1,1,1) (1,1,1)%Z CtorOk).
  assert (E : nonpos (1 - 0) = false) by (unfold nonpos; destruct (Rle_dec (1-0) 0); [lra|auto]).
  unfold run_rank. cbn [ra_box ra_n ra_ctor ra_f].
  unfold create3, any_err, extent_bad, count_bad. cbn [existsb ra_box ra_n]. rewrite !E. split; reflexivity.
Qed.
Print Assumptions c67_model_mismatch_refuted.

(** exactly which frameworks claim to generate, and that a claim of an unavailable framework is empty: selecting it throws *)
Theorem c58_generates_iff : forall fr parallel dim, framework_generates fr parallel dim = true <->
  (fr = Simple /\ parallel = false /\ (dim = 1%nat \/ dim = 3%nat)) \/ (fr = MSTK /\ (dim = 2%nat \/ dim = 3%nat)) \/
  (fr = STKMESH /\ parallel = false /\ dim = 3%nat).
Proof.
  intros fr parallel dim. unfold framework_generates. destruct fr, parallel; rewrite ?andb_true_iff, ?orb_true_iff, ?Nat.eqb_eq;
    cbn [negb]; intuition (discriminate || auto).
Qed.
Theorem c58_generates_unavailable : forall f fr, framework_available fr = false -> apply_op f (OpFramework fr) = Thrown.
Proof. intros f fr H. destruct fr; try discriminate; reflexivity. Qed.
(** a mesh read from a file is delivered exactly if its dimension is that of the geometric model (when one was given) *)
Theorem c58_file_model_dimension : forall errs f dim, fa_framework f = MSTK -> (forall k, errs k = false) ->
  ((fa_gm f = None \/ fa_gm f = Some dim) ->
     exists fl, ends (create_file true CtorOk errs f dim) = Returns (MeshPtr dim fl [] [])) /\
  (forall g, fa_gm f = Some g -> g <> dim -> ends (create_file true CtorOk errs f dim) = Throws).
Proof.
  intros errs f dim F E. unfold create_file, gm_mismatch. rewrite F. split.
  - intros [->| ->]; rewrite ?Nat.eqb_refl; cbn; eauto.
  - intros g -> N. apply Nat.eqb_neq in N. rewrite N. reflexivity.
Qed.
Theorem c58_file_failures_throw : forall mstk ctor errs f dim, ctor = CtorThrows \/ mstk = false \/ fa_framework f <> MSTK ->
  ends (create_file mstk ctor errs f dim) = Throws /\ ends (create_extract mstk ctor errs f dim) = Throws.
Proof.
  intros mstk ctor errs f dim H. unfold create_file, create_extract, finish.
  destruct (fa_framework f) eqn:F, mstk, ctor; cbn; auto; decompose [or] H; congruence.
Qed.
Example c58_file_witness : exists f : factory, fa_framework f = MSTK /\ fa_gm f = Some 2%nat /\
  ends (create_file true CtorOk no_errs f 3) = Throws.
Proof.
  exists (run_ops new_factory [OpModel (Some 2%nat)]). split; [reflexivity|]. split; [reflexivity|].
  refine (proj2 (c58_file_model_dimension no_errs _ 3 _ _) 2%nat _ _); auto.
Qed.
