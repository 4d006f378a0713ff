(** Lemmas for C82. *)
From Coq Require Import Reals Permutation Lra.
From Verif Require Import Base Loop Defs Factory Cache Cache_spec Cache_proofs Cache_proofs2 Cache_proofs3 Cache_proofs4 Cache_proofs5 Cache_proofs6 Props_Cache Point Geometry Geometry_spec Geometry_proofs
  Polyhedron_proofs Props_Polyhedron Props_InPolygon MeshGeom MeshGeom_spec MeshGeom_proofs MeshGeom_proofs2 MeshGeom_proofs3 Props_MeshUpdate Props_SideVolume Props_CornerVolume Props_SideVolume2D Props_Wedges CornerShape.
Set Implicit Arguments.
Local Open Scope R_scope.

Lemma perm_filter A (p : A -> bool) l l' : Permutation l l' -> Permutation (filter p l) (filter p l').
Proof. induction 1; cbn; auto; [destruct (p x); auto|destruct (p x), (p y); auto; apply perm_swap|etransitivity; eauto]. Qed.
Lemma filter_map A B (f : A -> B) (p : B -> bool) l : filter p (map f l) = map f (filter (fun x => p (f x)) l).
Proof. induction l as [|a l IH]; cbn; auto. destruct (p (f a)); cbn; rewrite IH; auto. Qed.
Lemma filter_flat' A B (p : B -> bool) (f : A -> list B) l : filter p (flat_map f l) = flat_map (fun a => filter p (f a)) l.
Proof. induction l as [|a l IH]; cbn; auto. rewrite filter_app, IH. auto. Qed.
Lemma const_map A B (b : B) (f : A -> B) l l' : length l = length l' -> (forall a, In a l -> f a = b) -> (forall a, In a l' -> f a = b) -> map f l = map f l'.
Proof.
  revert l'. induction l as [|a l IH]; intros [|a' l'] L H H'; cbn in *; try lia; auto. rewrite (H a), (H' a') by auto. f_equal. apply IH; auto.
Qed.
Lemma map_snd_edges A (l : list A) : Permutation (map snd (edges l)) l.
Proof.
  destruct l as [|a l]; [constructor|]. cbn. assert (Q : forall l (a z : A), map snd (steps a l z) = l ++ [z]) by (clear; intros l; induction l as [|b l IH]; intros; cbn; auto; rewrite IH; auto).
  rewrite Q. apply Permutation_sym, Permutation_cons_append.
Qed.
(** as many edges of a closed polygon start at n as end there *)
Lemma starts_ends (l : list nat) n E : Permutation E (edges l) -> length (filter (fun e => fst e =? n)%nat E) = length (filter (fun e => snd e =? n)%nat E).
Proof.
  intros P. rewrite <- (map_length fst), <- (map_length snd (filter _ E)). rewrite <- (filter_map fst (fun k => k =? n)%nat), <- (filter_map snd (fun k => k =? n)%nat).
  apply Permutation_length. apply perm_filter. rewrite (Permutation_map fst P), (Permutation_map snd P), map_fst_edges. apply Permutation_sym, map_snd_edges.
Qed.

(** the search *)
Lemma kind_eqb_eq a b : kind_eqb a b = true <-> a = b.
Proof. destruct a, b; cbn; split; auto; discriminate. Qed.
Lemma key_eqb_eq a b : key_eqb a b = true <-> a = b.
Proof. destruct a as [i a], b as [j b]. unfold key_eqb. cbn [fst snd]. rewrite andb_true_iff, Nat.eqb_eq, kind_eqb_eq. split; [intros [-> ->]; auto|intros E; injection E; auto]. Qed.
Lemma pos_of_in l k : (pos_of l k < length l)%nat -> nth_error l (pos_of l k) = Some k.
Proof. induction l as [|a l IH]; cbn; intros L; [lia|]. destruct (key_eqb a k) eqn:E; [apply key_eqb_eq in E as ->; auto|]. apply IH. lia. Qed.
Lemma pos_of_out l k : (length l <= pos_of l k)%nat -> pos_of l k = length l /\ ~ In k l.
Proof.
  induction l as [|a l IH]; cbn; intros L; auto. destruct (key_eqb a k) eqn:E; [lia|]. destruct IH as [IH1 IH2]; [lia|]. split; [lia|]. intros [->|I]; auto.
  assert (key_eqb k k = true) by (apply key_eqb_eq; auto). congruence.
Qed.
Lemma F2_nth A B (P : A -> B -> Prop) l l' i a : Forall2 P l l' -> nth_error l i = Some a -> exists b, nth_error l' i = Some b /\ P a b.
Proof. intros F. revert i. induction F as [|x y l l' E F IH]; intros [|i] H; try discriminate; [cbn in H; injection H as <-; exists y; split; auto|apply IH; auto]. Qed.
Lemma F2_len A B (P : A -> B -> Prop) l l' : Forall2 P l l' -> length l = length l'.
Proof. induction 1; cbn; auto. Qed.
Section A.
Variable cen : key -> outcome point.
Definition inv (s : list key * list point) : Prop := NoDup (fst s) /\ Forall2 (fun k p => cen k = Ok p) (fst s) (snd s).
Lemma add_point_ok k p s : inv s -> cen k = Ok p -> exists i ks ps, add_point k (cen k) s = Ok (i, (fst s ++ ks, snd s ++ ps)) /\ inv (fst s ++ ks, snd s ++ ps) /\
  nth_error (snd s ++ ps) i = Some p /\ (forall k', In k' (fst s ++ ks) <-> In k' (fst s) \/ k' = k).
Proof.
  intros [N F] E. unfold add_point. destruct (Nat.ltb_spec (pos_of (fst s) k) (length (fst s))) as [L|L].
  - apply pos_of_in in L. exists (pos_of (fst s) k), [], []. rewrite !app_nil_r. split; [destruct s; auto|]. split; [split; auto|]. destruct (F2_nth _ F L) as (p' & E' & E''). split; [congruence|].
    intros k'. split; auto. intros [I| ->]; auto. eapply nth_error_In; eauto.
  - apply pos_of_out in L as [L NI]. rewrite E. cbn [bind]. exists (pos_of (fst s) k), [k], [p]. split; auto. split; [split; cbn [fst snd]|].
    + rewrite <- Permutation_cons_append. constructor; auto.
    + apply Forall2_app; auto.
    + split; [rewrite L, (F2_len F), nth_error_app2, Nat.sub_diag by lia; auto|]. intros k'. rewrite in_app_iff. cbn [In]. intuition.
Qed.
End A.
(** the points of a triangle given by indices *)
Definition tri_at (pts : list point) (t : nat * nat * nat) : list (option point) := let '(i, j, k) := t in [nth_error pts i; nth_error pts j; nth_error pts k].
Lemma tri_at_more pts ps t l : tri_at pts t = map Some l -> tri_at (pts ++ ps) t = map Some l.
Proof.
  destruct t as [[i j] k]. destruct l as [|a [|b [|c [|]]]]; cbn; try discriminate. intros E. injection E as E1 E2 E3.
  rewrite !nth_error_app1 by (eapply nth_error_lt; eauto). rewrite E1, E2, E3. auto.
Qed.

Section S.
Variables (t : topo) (sh : shape) (fl : flags) (M : gmesh) (fn cv : nat -> list nat) (X : coordinates) (xs : list coordinates) (g : geo).
Hypothesis G : geom_mesh t sh fl M fn cv.
Hypothesis O : oriented t sh fn cv.
Hypothesis HX : coords_ok t X.
Hypothesis H : history M (X :: xs) g.
Hypothesis C : fl_corners (close_flags fl) = true.
Variables (c n : nat).
Hypothesis NB : ~ cell_has_type t c BOUNDARY_GHOST.
Notation nd n := (nth n X (Pt 0 0 0 0)).
(** the coordinates that belong to an entry *)
Definition centre_of (k : key) : outcome point :=
  match snd k with NODE => node_get_coordinates X (fst k) | EDGE => edge_centroid M X g (fst k) | FACE => face_centroid M X g (fst k) false | CELL => cell_centroid M X g (fst k) false | _ => UB end.
(** the two triangles of a wedge *)
Definition two_tris (pos : bool) (p ec fc cc : point) : list (list point) := if pos then [[p; fc; ec]; [cc; ec; fc]] else [[p; ec; fc]; [cc; fc; ec]].

Lemma facet_step_ok w s tr c0 f e p ec fc cc : wedge_get_face (gm M) w = Ok f -> wedge_get_edge (gm M) w = Ok e -> edge_centroid M X g e = Ok ec -> face_centroid M X g f false = Ok fc ->
  pd p = 3%nat -> pd ec = 3%nat -> pd fc = 3%nat -> pd cc = 3%nat -> inv centre_of s -> nth_error (snd s) 0 = Some p -> nth_error (snd s) 1 = Some cc -> psub cc p = c0 ->
  exists ks ps tr', facet_step M X g c0 w (s, tr) = Ok (fst s ++ ks, snd s ++ ps, tr ++ tr') /\ inv centre_of (fst s ++ ks, snd s ++ ps) /\
    Forall2 (fun i l => tri_at (snd s ++ ps) i = map Some l) tr' (two_tris (gtb (det3 p ec fc cc) 0) p ec fc cc) /\
    (forall k', In k' (fst s ++ ks) <-> In k' (fst s) \/ k' = (f, FACE) \/ k' = (e, EDGE)).
Proof.
  intros Ef Ee Eec Efc Pp Pe Pf Pc I N0 N1 Ec. destruct s as [ks0 ps0]. cbn [fst snd] in *. unfold facet_step. rewrite Ef. cbn [bind].
  destruct (@add_point_ok centre_of (f, FACE) fc (ks0, ps0) I Efc) as (i & k1 & q1 & E1 & I1 & Ni & In1). unfold centre_of at 1 in E1. cbn [fst snd] in *. rewrite E1. cbn [bind fst snd]. rewrite Ee. cbn [bind].
  destruct (@add_point_ok centre_of (e, EDGE) ec _ I1 Eec) as (j & k2 & q2 & E2 & I2 & Nj & In2). unfold centre_of at 1 in E2. cbn [fst snd] in *. rewrite E2. cbn [bind fst snd].
  assert (Ni' : nth_error ((ps0 ++ q1) ++ q2) i = Some fc) by (rewrite nth_error_app1; auto; eapply nth_error_lt; eauto).
  assert (N0' : nth_error ((ps0 ++ q1) ++ q2) 0 = Some p) by (rewrite !nth_error_app1; auto; try (rewrite app_length; apply nth_error_lt in N0; lia); eapply nth_error_lt; eauto).
  assert (N1' : nth_error ((ps0 ++ q1) ++ q2) 1 = Some cc) by (rewrite !nth_error_app1; auto; try (rewrite app_length; apply nth_error_lt in N1; lia); eapply nth_error_lt; eauto).
  rewrite (proj2 (rd_Ok _ _ _) Nj), (proj2 (rd_Ok _ _ _) Ni'), (proj2 (rd_Ok _ _ _) N0'). cbn [bind]. rewrite <- Ec, tet_det by auto.
  exists (k1 ++ k2), (q1 ++ q2). rewrite !app_assoc. eexists. split; [reflexivity|]. split; [exact I2|]. split.
  - unfold two_tris. destruct (gtb (det3 p ec fc cc) 0); repeat (apply Forall2_cons; [cbn [tri_at map]; rewrite ?N0', ?N1', ?Ni', ?Nj; auto|]); constructor.
  - intros k'. rewrite In2, In1. tauto.
Qed.
Lemma facet_loop (F E : nat -> nat) (ec fc : nat -> point) p cc : pd p = 3%nat -> pd cc = 3%nat -> forall ws,
  (forall w, In w ws -> wedge_get_face (gm M) w = Ok (F w) /\ wedge_get_edge (gm M) w = Ok (E w) /\ edge_centroid M X g (E w) = Ok (ec w) /\ face_centroid M X g (F w) false = Ok (fc w) /\ pd (ec w) = 3%nat /\ pd (fc w) = 3%nat) ->
  forall s tr l0, inv centre_of s -> nth_error (snd s) 0 = Some p -> nth_error (snd s) 1 = Some cc -> Forall2 (fun i l => tri_at (snd s) i = map Some l) tr l0 ->
  exists ks ps tr', foldM ws (facet_step M X g (psub cc p)) (s, tr) = Ok (fst s ++ ks, snd s ++ ps, tr') /\ inv centre_of (fst s ++ ks, snd s ++ ps) /\
    Forall2 (fun i l => tri_at (snd s ++ ps) i = map Some l) tr' (l0 ++ flat_map (fun w => two_tris (gtb (det3 p (ec w) (fc w) cc) 0) p (ec w) (fc w) cc) ws) /\
    (forall k', In k' (fst s ++ ks) <-> In k' (fst s) \/ exists w, In w ws /\ (k' = (F w, FACE) \/ k' = (E w, EDGE))).
Proof.
  intros Pp Pc. induction ws as [|w ws IH]; intros Hw s tr l0 I N0 N1 T.
  - exists [], [], tr. cbn [foldM flat_map]. rewrite !app_nil_r. split; [destruct s; auto|]. split; [destruct s; auto|]. split; auto. intros k'. split; auto. intros [K|(w & [] & _)]; auto.
  - destruct (Hw w) as (W1 & W2 & W3 & W4 & W5 & W6); [left; auto|]. cbn [foldM].
    destruct (@facet_step_ok w s tr _ _ _ p _ _ cc W1 W2 W3 W4 Pp W5 W6 Pc I N0 N1 eq_refl) as (k1 & q1 & t1 & E1 & I1 & T1 & J1). rewrite E1. cbn [bind].
    destruct (IH (fun w' Iw => Hw w' (or_intror Iw)) (fst s ++ k1, snd s ++ q1) (tr ++ t1) (l0 ++ two_tris (gtb (det3 p (ec w) (fc w) cc) 0) p (ec w) (fc w) cc) I1) as (k2 & q2 & t2 & E2 & I2 & T2 & J2); cbn [fst snd].
    + rewrite nth_error_app1; auto. eapply nth_error_lt; eauto.
    + rewrite nth_error_app1; auto. eapply nth_error_lt; eauto.
    + apply Forall2_app; auto. clear -T. induction T as [|i l tr l0 E T IH]; constructor; auto. apply tri_at_more; auto.
    + exists (k1 ++ k2), (q1 ++ q2), t2. cbn [fst snd] in *. rewrite !app_assoc. split; [exact E2|]. split; [exact I2|]. split; [cbn [flat_map]; rewrite app_assoc; exact T2|].
      intros k'. rewrite J2, J1. cbn [In]. split; [intros [[K|K]|(w' & K & K')]|intros [K|(w' & [->|K] & K')]]; eauto.
Qed.
Lemma coord_loop (F E : nat -> nat) (ec fc : nat -> point) : forall ws,
  (forall w, In w ws -> wedge_get_face (gm M) w = Ok (F w) /\ wedge_get_edge (gm M) w = Ok (E w) /\ edge_centroid M X g (E w) = Ok (ec w) /\ face_centroid M X g (F w) false = Ok (fc w)) ->
  forall s, inv centre_of s ->
  exists ks ps, foldM ws (coord_step M X g) s = Ok (fst s ++ ks, snd s ++ ps) /\ inv centre_of (fst s ++ ks, snd s ++ ps) /\
    (forall k', In k' (fst s ++ ks) <-> In k' (fst s) \/ exists w, In w ws /\ (k' = (F w, FACE) \/ k' = (E w, EDGE))).
Proof.
  induction ws as [|w ws IH]; intros Hw s I.
  - exists [], []. cbn [foldM]. rewrite !app_nil_r. split; [destruct s; auto|]. split; [destruct s; auto|]. intros k'. split; auto. intros [K|(w & [] & _)]; auto.
  - destruct (Hw w) as (W1 & W2 & W3 & W4); [left; auto|]. cbn [foldM]. unfold coord_step at 1. rewrite W1. cbn [bind].
    destruct (@add_point_ok centre_of (F w, FACE) (fc w) s I W4) as (i & k1 & q1 & E1 & I1 & Ni & In1). unfold centre_of at 1 in E1. cbn [fst snd] in *. rewrite E1. cbn [bind fst snd]. rewrite W2. cbn [bind].
    destruct (@add_point_ok centre_of (E w, EDGE) (ec w) _ I1 W3) as (j & k2 & q2 & E2 & I2 & Nj & In2). unfold centre_of at 1 in E2. cbn [fst snd] in *. rewrite E2. cbn [bind fst snd].
    destruct (IH (fun w' Iw => Hw w' (or_intror Iw)) _ I2) as (k3 & q3 & E3 & I3 & J3). cbn [fst snd] in *. exists (k1 ++ k2 ++ k3), (q1 ++ q2 ++ q3). rewrite !app_assoc. split; [exact E3|]. split; [exact I3|].
    intros k'. rewrite J3, In2, In1. cbn [In]. split; [intros [[[K|K]|K]|(w' & K & K')]|intros [K|(w' & [->|K] & [K'|K'])]]; eauto 6.
Qed.

(** the wedges of the corner by parity *)
Lemma sides_even_odd (A : Type) (h : trip -> A) (i : nat) : (i < 2)%nat -> forall ss l, Forall2 (fun s x => nth_error (trips t sh) s = Some x) ss l ->
  map (fun w => h (wtrip t sh w)) (filter (fun w => (w mod 2 =? i)%nat) (filter (fun w => wnode_of t sh w =? n)%nat (flat_map w2 ss))) = map h (filter (fun x => snode t sh x i =? n)%nat l).
Proof.
  intros Li. induction 1 as [|s x ss l E F IH]; auto. cbn [flat_map]. rewrite !filter_app, map_app, IH. clear IH F.
  assert (Q : forall w, (w / 2 = s)%nat -> wtrip t sh w = x) by (intros w <-; unfold wtrip; apply (nth_error_nth _ _ _ E)).
  assert (E0 : wtrip t sh (2 * s) = x) by (apply Q; lia). assert (E1 : wtrip t sh (2 * s + 1) = x) by (apply Q; lia).
  assert (m0 : ((2 * s) mod 2 = 0)%nat) by lia. assert (m1 : ((2 * s + 1) mod 2 = 1)%nat) by lia.
  unfold w2. cbn [filter]. unfold wnode_of. rewrite E0, E1, m0, m1.
  assert (i = 0 \/ i = 1)%nat as [->| ->] by lia; destruct (snode t sh x 0 =? n)%nat eqn:K0, (snode t sh x 1 =? n)%nat eqn:K1; cbn [filter]; rewrite ?m0, ?m1; cbn [Nat.eqb filter]; rewrite ?m0, ?m1; cbn [Nat.eqb map app filter]; rewrite ?K0, ?K1, ?E0, ?E1; auto.
Qed.
Lemma cwl_sides : (c < ncells t)%nat -> forall (A : Type) (h : trip -> A) i, (i < 2)%nat ->
  map (fun w => h (wtrip t sh w)) (filter (fun w => (w mod 2 =? i)%nat) (cwl t sh (c, n))) = map h (filter (fun x => snode t sh x i =? n)%nat (trips_of sh c)).
Proof.
  intros Hc A h i Li. destruct (@sides_of_cell t sh fl M fn cv G c Hc) as (ss & Es & F). assert (Es' := @cell_sides t sh fl (gm M) (gq_built G) c Hc). rewrite Es in Es'. injection Es' as ->.
  unfold cwl, cwed. cbn [fst snd]. apply sides_even_odd; auto.
Qed.
Lemma flat_map_eq (A B : Type) (f f' : A -> list B) l : (forall a, In a l -> f a = f' a) -> flat_map f l = flat_map f' l.
Proof. induction l as [|a l IH]; cbn; intros E; auto. rewrite E, IH by auto. auto. Qed.
Lemma map_flat_map (A B D : Type) (f : A -> list B) (h : B -> D) l : map h (flat_map f l) = flat_map (fun a => map h (f a)) l.
Proof. induction l as [|a l IH]; cbn; auto. rewrite map_app, IH. auto. Qed.
Lemma perm_flat (A B : Type) (f f' : A -> list B) l : (forall a, In a l -> Permutation (f a) (f' a)) -> Permutation (flat_map f l) (flat_map f' l).
Proof. induction l as [|a l IH]; cbn; intros E; auto. apply Permutation_app; auto. Qed.
Lemma trip_dirs x : (c < ncells t)%nat -> In x (trips_of sh c) -> In x (trips t sh).
Proof. intros Hc I. unfold trips. apply in_flat_map. exists c. split; auto. apply cells_all_lt; auto. apply (fm_numbered (gm_fm G)). Qed.
Lemma face_balance : tp_mdim t = 3%nat -> (c < ncells t)%nat -> map tface (filter (fun x => snode t sh x 0 =? n)%nat (trips_of sh c)) = map tface (filter (fun x => snode t sh x 1 =? n)%nat (trips_of sh c)).
Proof.
  intros D Hc. unfold trips_of. rewrite !filter_flat', !map_flat_map. apply flat_map_eq. intros fd I. change (map (fun ed => (c, fd, ed)) (fedges sh (fst fd))) with (trips_at sh c fd).
  assert (IT : forall x, In x (trips_at sh c fd) -> In x (trips t sh) /\ tface x = fst fd).
  { intros x Ix. split; [|unfold trips_at in Ix; apply in_map_iff in Ix as (ed & <- & _); auto]. apply trip_dirs; auto. unfold trips_of. apply in_flat_map. exists fd. auto. }
  assert (ES : forall x, In x (trips_at sh c fd) -> snode t sh x 0 = snd (oedge sh x) /\ snode t sh x 1 = fst (oedge sh x)).
  { intros x Ix. apply IT in Ix as [Ix _]. destruct (T_range (gm_fm G) _ Ix) as (_ & _ & _ & D1 & D2). apply (@snode3 t sh fl M fn cv G x D D1 D2). }
  apply const_map with (b := fst fd); [|intros x Ix; apply filter_In in Ix as [Ix _]; apply IT in Ix as [_ Ix]; auto ..].
  rewrite (filter_ext_in (fun x => snode t sh x 0 =? n)%nat (fun x => snd (oedge sh x) =? n)%nat) by (intros x Ix; rewrite (proj1 (ES x Ix)); auto).
  rewrite (filter_ext_in (fun x => snode t sh x 1 =? n)%nat (fun x => fst (oedge sh x) =? n)%nat) by (intros x Ix; rewrite (proj2 (ES x Ix)); auto).
  rewrite <- (map_length (oedge sh)), <- (map_length (oedge sh) (filter (fun x => fst (oedge sh x) =? n)%nat _)).
  rewrite <- (filter_map (oedge sh) (fun e => snd e =? n)%nat), <- (filter_map (oedge sh) (fun e => fst e =? n)%nat). symmetry. apply starts_ends with (l := node_face fn fd).
  destruct fd as [f d]. apply (@oedges_face t sh fn cv O c (f, d) D). apply (cn_face (gm_conn G) _ _ Hc I).
Qed.
Definition mid (e : nat * nat) : point := pdiv (padd (nd (fst e)) (nd (snd e))) 2.
Lemma mid_swap u v : (u < nnodes t)%nat -> (v < nnodes t)%nat -> mid (u, v) = mid (v, u).
Proof.
  intros Lu Lv. unfold mid. cbn [fst snd]. f_equal. assert (Pu := @node_dim t X HX _ Lu). assert (Pv := @node_dim t X HX _ Lv).
  destruct (nd u) as [ku u0 u1 u2], (nd v) as [kv v0 v1 v2]. cbn [pd] in *. subst. unfold padd. cbn [pd p0 p1 p2].
  destruct (tp_mdim t) as [|[|[|]]]; f_equal; ring.
Qed.
Lemma mid_oedge x : In x (trips t sh) -> mid (enodes sh (tedge x)) = mid (oedge sh x) /\ (fst (oedge sh x) < nnodes t)%nat /\ (snd (oedge sh x) < nnodes t)%nat.
Proof.
  intros I. destruct (T_range (gm_fm G) _ I) as (_ & _ & Le & _). destruct (gq_en G Le) as [L1 L2]. destruct x as [[c' [f df]] [e de]]. unfold oedge, along, tedge, tfdir in *. cbn [fst snd] in *.
  destruct (enodes sh e) as [u v] eqn:Ev. cbn [fst snd] in *. destruct (df =? 1)%Z, (de =? 1)%Z; unfold swap; cbn [fst snd]; repeat split; auto; apply mid_swap; auto.
Qed.
Lemma edge_balance : tp_mdim t = 3%nat -> (c < ncells t)%nat ->
  Permutation (map (fun x => mid (enodes sh (tedge x))) (filter (fun x => snode t sh x 0 =? n)%nat (trips_of sh c))) (map (fun x => mid (enodes sh (tedge x))) (filter (fun x => snode t sh x 1 =? n)%nat (trips_of sh c))).
Proof.
  intros D Hc.
  assert (ES : forall x, In x (trips_of sh c) -> snode t sh x 0 = snd (oedge sh x) /\ snode t sh x 1 = fst (oedge sh x)).
  { intros x Ix. apply trip_dirs in Ix; auto. destruct (T_range (gm_fm G) _ Ix) as (_ & _ & _ & D1 & D2). apply (@snode3 t sh fl M fn cv G x D D1 D2). }
  rewrite (filter_ext_in (fun x => snode t sh x 0 =? n)%nat (fun x => snd (oedge sh x) =? n)%nat) by (intros x Ix; rewrite (proj1 (ES x Ix)); auto).
  rewrite (filter_ext_in (fun x => snode t sh x 1 =? n)%nat (fun x => fst (oedge sh x) =? n)%nat) by (intros x Ix; rewrite (proj2 (ES x Ix)); auto).
  assert (Q : forall q, map (fun x => mid (enodes sh (tedge x))) (filter (fun x => q (oedge sh x)) (trips_of sh c)) = map mid (filter q (map (oedge sh) (trips_of sh c)))).
  { intros q. rewrite filter_map, map_map. apply map_ext_in. intros x Ix. apply filter_In in Ix as [Ix _]. apply trip_dirs in Ix; auto. apply mid_oedge; auto. }
  rewrite (Q (fun e => snd e =? n)%nat), (Q (fun e => fst e =? n)%nat).
  assert (P : Permutation (map (oedge sh) (trips_of sh c)) (map swap (map (oedge sh) (trips_of sh c)))).
  { assert (P0 : Permutation (map (oedge sh) (trips_of sh c)) (flat_map (fun fd => edges (node_face fn fd)) (cfaces sh c))).
    { unfold trips_of. rewrite map_flat_map. apply perm_flat. intros [f d] I. apply (@oedges_face t sh fn cv O c (f, d) D). apply (cn_face (gm_conn G) _ _ Hc I). }
    etransitivity; [exact P0|]. etransitivity; [apply (or_cell3 O D Hc)|]. apply Permutation_map, Permutation_sym. auto. }
  assert (R : forall e, In e (map (oedge sh) (trips_of sh c)) -> mid (swap e) = mid e).
  { intros e I. apply in_map_iff in I as (x & <- & Ix). apply trip_dirs in Ix; auto. destruct (mid_oedge _ Ix) as (_ & L1 & L2). destruct (oedge sh x) as [u v]. apply mid_swap; auto. }
  etransitivity; [apply Permutation_map, (perm_filter _ P)|]. rewrite filter_map, map_map. unfold swap at 1. cbn [snd].
  rewrite (map_ext_in (fun x => mid (swap x)) mid); auto. intros e I. apply filter_In in I as [I _]. apply R; auto.
Qed.
End S.
(** a tactic for permutations of concatenations *)
Lemma perm_block A (l r a b : list A) : Permutation r (a ++ b) -> Permutation (l ++ r) (a ++ l ++ b).
Proof. intros P. rewrite P. rewrite !app_assoc. apply Permutation_app_tail, Permutation_app_comm. Qed.
Ltac split_elt x R := match R with
  | x :: ?r => let T := type of x in constr:((@nil T, r))
  | ?y :: ?r => let s := split_elt x r in match s with (?a, ?b) => constr:((y :: a, b)) end
  | ?l ++ ?r => let s := split_elt x r in match s with (?a, ?b) => constr:((l ++ a, b)) end end.
Ltac split_blk l R := match R with
  | l ++ ?r => let T := type of l in constr:((@nil _ : T, r))
  | ?y :: ?r => let s := split_blk l r in match s with (?a, ?b) => constr:((y :: a, b)) end
  | ?k ++ ?r => let s := split_blk l r in match s with (?a, ?b) => constr:((k ++ a, b)) end end.
Ltac pn := repeat (progress (cbn [app]; rewrite <- ?app_assoc)); cbn [app].
Ltac pmove := match goal with
  | |- Permutation ?l ?l => apply Permutation_refl
  | |- Permutation (?x :: ?L) ?R => let s := split_elt x R in match s with (?a, ?b) =>
      transitivity (x :: a ++ b); [apply perm_skip; pn|etransitivity; [apply Permutation_middle|]; pn; apply Permutation_refl] end
  | |- Permutation (?l ++ ?L) ?R => let s := split_blk l R in match s with (?a, ?b) =>
      transitivity (l ++ a ++ b); [apply Permutation_app_head; pn|etransitivity; [apply (@perm_block _ l (a ++ b) a b), Permutation_refl|]; pn; apply Permutation_refl] end
  end.
(** the surface of a corner is closed *)
Section C.
Variables (p cc : point) (fc ec : nat -> point).
Definition pose (w : nat) : list (point * point) := [(p, fc w); (fc w, ec w); (ec w, p); (cc, ec w); (ec w, fc w); (fc w, cc)].
Definition hF (q : point) : list (point * point) := [(p, q); (q, cc)].
Definition hE (q : point) : list (point * point) := [(q, p); (cc, q)].
Definition hM (w : nat) : list (point * point) := [(fc w, ec w); (ec w, fc w)].
Lemma pose_split l : Permutation (flat_map pose l) (flat_map hF (map fc l) ++ flat_map hE (map ec l) ++ flat_map hM l ++ []).
Proof.
  rewrite app_nil_r. induction l as [|w l IH]; [constructor|]. cbn [map flat_map]. rewrite IH. unfold pose at 1, hF at 2, hE at 2, hM at 2. rewrite <- ?app_assoc. cbn [app].
  set (A := flat_map hF (map fc l)). set (B := flat_map hE (map ec l)). set (K := flat_map hM l). clearbody A B K. repeat pmove.
Qed.
Lemma hM_swap l : Permutation (map swap (flat_map hM l)) (flat_map hM l).
Proof. induction l as [|w l IH]; [constructor|]. cbn [flat_map map app]. rewrite map_app. unfold hM at 1 3. cbn [map app]. unfold swap at 1 2. cbn [fst snd]. rewrite IH. apply perm_swap. Qed.
Lemma corner_closed (ev : nat -> bool) ws : Permutation (map fc (filter ev ws)) (map fc (filter (fun w => negb (ev w)) ws)) -> Permutation (map ec (filter ev ws)) (map ec (filter (fun w => negb (ev w)) ws)) ->
  closed (flat_map (fun w => two_tris (ev w) p (ec w) (fc w) cc) ws).
Proof.
  intros PF PE. unfold closed. set (P := filter ev ws) in *. set (N := filter (fun w => negb (ev w)) ws) in *.
  assert (E : Permutation (flat_map edges (flat_map (fun w => two_tris (ev w) p (ec w) (fc w) cc) ws)) (flat_map pose P ++ map swap (flat_map pose N))).
  { unfold P, N. clear. induction ws as [|w ws IH]; [constructor|]. cbn [flat_map filter]. rewrite flat_map_app, IH. clear IH. destruct (ev w); cbn [negb flat_map]; rewrite ?map_app;
    set (A := flat_map pose (filter ev ws)); set (B := map swap (flat_map pose (filter (fun w => negb (ev w)) ws))); clearbody A B; rewrite <- (app_nil_r B);
    unfold two_tris, pose, swap; cbn [flat_map edges steps app map fst snd]; pn; repeat pmove. }
  rewrite E. clear E. rewrite map_app. rewrite map_map. rewrite (map_ext (fun x : point * point => swap (swap x)) (fun x => x)) by (intros [? ?]; reflexivity). rewrite map_id.
  rewrite (pose_split P), (pose_split N), PF, PE, !map_app. cbn [map]. rewrite !hM_swap, !app_nil_r, <- !app_assoc.
  rewrite <- (app_nil_r (flat_map hM N)). rewrite <- ?app_assoc. repeat pmove.
Qed.
End C.
