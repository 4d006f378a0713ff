(** C97: boundary ghost cells. *)
From Coq Require Import Permutation.
From Verif Require Import Base Loop Defs MeshSet_proofs Cache Cache_proofs MstkMesh MstkMesh_spec MstkMesh_proofs MstkMesh_examples MstkMesh_build Props_MstkIds MstkMesh_proofs2 Props_MstkSets
  MstkBghost MstkBghost_proofs.
From Verif Require Import Geometry_spec.
Set Implicit Arguments. Unset Strict Implicit.

Section Bghosts.
Variables (new : mstk -> nat) (corners : nat -> bool -> list nat) (onpar : nat -> bool).
Local Notation after := (create_boundary_ghosts new corners onpar).
(** a mesh without boundary ghosts, in which MSTK creates new cells under new handles *)
Definition fresh_mesh (m : mstk) : Prop :=
  mstk_mesh m /\ (forall h, In h (k_all m (cell_kind m)) -> k_bghost m h = false) /\ forall m', ~ In (new m') (k_all m' (cell_kind m')).

Lemma news_list (p g : nat -> bool) : forall L (N : list (nat * (nat * bool))) f, map snd N = map (fun f => (f, g f)) (filter p L) -> NoDup L -> In f L ->
  if p f then exists h, In (h, (f, g f)) N /\ map fst (filter (fun n => fst (snd n) =? f) N) = [h] else map fst (filter (fun n => fst (snd n) =? f) N) = [].
Proof.
  assert (Z : forall f L (N : list (nat * (nat * bool))), ~ In f L -> map snd N = map (fun f => (f, g f)) (filter p L) -> filter (fun n : nat * (nat * bool) => fst (snd n) =? f) N = []).
  { intros f0 L0 N0 Nf EN. apply filter_none. intros n In'. apply Nat.eqb_neq. intros <-. apply (in_map snd) in In'. rewrite EN in In'. apply in_map_iff in In' as (x & Ex & Ix). apply filter_In in Ix. apply Nf. rewrite <- Ex. apply Ix. }
  induction L as [|a L IH]; intros N f E Nd I; [destruct I|]. inversion Nd as [|? ? Na Nd']; subst. cbn [filter] in E. destruct I as [->|I].
  - destruct (p f) eqn:O.
    + destruct N as [|[h x] N]; [discriminate|]. cbn [map snd] in E. injection E as -> E. exists h. split; [left; auto|]. cbn [filter fst snd]. rewrite Nat.eqb_refl. cbn [map fst]. rewrite (Z _ _ _ Na E). auto.
    + rewrite (Z _ _ _ Na E). auto.
  - assert (D : a <> f) by congruence. destruct (p a) eqn:O.
    + destruct N as [|[h x] N]; [discriminate|]. cbn [map snd] in E. injection E as -> E. cbn [filter fst snd]. apply Nat.eqb_neq in D as ->. specialize (IH N f E Nd' I). destruct (p f); auto.
      destruct IH as (h' & A & B). exists h'. split; [right; auto|auto].
    + apply IH; auto.
Qed.
Section Two.
Variables (serial faces edges : bool) (m : mstk) (rcv : received) (N : list (nat * (nat * bool))).
Hypothesis F : fresh_mesh m.
Hypothesis G : grown m (after m) N.
Hypothesis E : map snd N = map (fun f => (f, rdir m f)) (filter (outer onpar m) (k_all m (face_kind m))).
Let W : mstk_mesh m := proj1 F.
Local Notation m' := (after m).
Lemma ck' : cell_kind m' = cell_kind m.
Proof. unfold cell_kind. rewrite (g_dim G). auto. Qed.
Lemma fk' : face_kind m' = face_kind m.
Proof. unfold face_kind. rewrite (g_dim G). auto. Qed.
Lemma nodup' k : NoDup (k_all m' k).
Proof.
  destruct (mkind_eqb k (cell_kind m)) eqn:K.
  - apply mkind_eqb_eq in K as ->. rewrite (g_cells G). apply NoDup_app_iff. split; [apply (mk_nodup W)|]. split; [apply (g_nodup G)|]. intros x I J. apply (g_fresh G) in J. auto.
  - rewrite (g_others G); [apply (mk_nodup W)|]. intros ->. rewrite mk_eqb_refl in K. discriminate.
Qed.
Lemma lists' k : k <> cell_kind m -> owned_list m' k = owned_list m k /\ ghost_list m' k = ghost_list m k.
Proof. intros D. unfold owned_list, ghost_list. rewrite (g_others G) by auto. split; apply filter_ext; intros h; rewrite (proj1 (g_same G (or_introl D))); auto. Qed.
Lemma not_cell K : base_kind K -> K <> CELL -> mkind_of m' K = mkind_of m K /\ mkind_of m K <> cell_kind m.
Proof. destruct (kinds_differ m) as (D1 & D2 & D3 & D4). intros [->|[->|[->| ->]]] D; cbn [mkind_of]; rewrite ?fk'; auto; congruence. Qed.
Lemma filter_id A (p : A -> bool) l : (forall x, In x l -> p x = true) -> filter p l = l.
Proof. induction l as [|a l IH]; intros H; simpl; auto. rewrite H by (left; auto). f_equal. apply IH. intros x I. apply H. right; auto. Qed.
Lemma filter_ext_in' A (p q : A -> bool) l : (forall x, In x l -> p x = q x) -> filter p l = filter q l.
Proof. induction l as [|a l IH]; intros H; simpl; auto. rewrite H by (left; auto). rewrite IH; auto. intros x I. apply H. right; auto. Qed.
Lemma groups_cell : groups m' true CELL = (owned_cells m false, ghost_list m (cell_kind m), map fst N).
Proof.
  cbn [groups]. unfold owned_cells, ghost_list, bghost_cells, is_bghost. rewrite ck', (g_cells G), !filter_app.
  assert (A : forall h, In h (k_all m (cell_kind m)) -> ~ In h (map fst N)) by (intros h I J; apply (g_fresh G) in J; auto).
  pose proof F as (_ & Nb & _).
  rewrite (@filter_none _ (fun h => negb (is_pghost (k_ptype m' (cell_kind m) h)) && negb (true && k_bghost m' h)) (map fst N)) by (intros h I; destruct (g_new G I) as (_ & _ & ->); apply andb_false_r).
  rewrite (@filter_none _ (fun h => is_pghost (k_ptype m' (cell_kind m) h)) (map fst N)) by (intros h I; destruct (g_new G I) as (-> & _); auto).
  rewrite (@filter_none _ (fun h => negb (is_pghost (k_ptype m' (cell_kind m) h)) && (true && k_bghost m' h)) (k_all m (cell_kind m))) by (intros h I; destruct (g_old G (A h I)) as (-> & _); rewrite (Nb h I); apply andb_false_r).
  rewrite (@filter_id _ (fun h => negb (is_pghost (k_ptype m' (cell_kind m) h)) && (true && k_bghost m' h)) (map fst N)) by (intros h I; destruct (g_new G I) as (-> & _ & ->); auto).
  rewrite !app_nil_r. cbn [app]. f_equal. f_equal; apply filter_ext_in'; intros h I; rewrite (proj1 (g_same G (or_intror (A h I)))); auto.
  rewrite (proj1 (g_old G (A h I))), (Nb h I). cbn. auto.
Qed.
Lemma side_in f s r : In f (k_all m MFACE) -> s = 0 \/ s = 1 -> k_side m f s = Some r -> In r (k_all m MREGION).
Proof. intros I [->| ->] H; [apply (mk_side W f r true) in H|apply (mk_side W f r false) in H]; tauto. Qed.
Lemma pair' k h : k = MEDGE \/ k = face_kind m -> In h (ghost_list m k) -> local_pair m' k h = local_pair m k h.
Proof.
  intros Kk I. unfold ghost_list in I. apply filter_In in I as [I Pt]. destruct (kinds_differ m) as (D1 & D2 & D3 & D4).
  assert (Ge : (k_gid m' MVERTEX (fst (k_ev m' h)), k_gid m' MVERTEX (snd (k_ev m' h))) = (k_gid m MVERTEX (fst (k_ev m h)), k_gid m MVERTEX (snd (k_ev m h)))).
  { rewrite (g_ev G). f_equal; apply (g_same G (or_introl D3)). }
  assert (Hk : k = MEDGE \/ k = MFACE /\ k_dim m = 3).
  { destruct Kk as [->| ->]; auto. unfold face_kind. destruct (mk_dim W) as [D|D]; rewrite D; cbn; auto. }
  destruct Hk as [->|[-> D3']]; cbn [local_pair]; [exact Ge|].
  assert (Nf : ~ In h (map (fun n => fst (snd n)) N)).
  { rewrite <- (map_map snd fst), E, map_map. cbn [fst]. rewrite map_id, filter_In. intros [_ O]. unfold outer in O. unfold face_kind in O. rewrite D3' in O. cbn [Nat.eqb] in O. rewrite Pt in O. rewrite andb_false_r in O. discriminate. }
  rewrite !(g_side G (f := h)) by auto.
  assert (Rg : forall s, s = 0 \/ s = 1 -> match k_side m h s with Some r => k_gid m' MREGION r | None => 0 end = match k_side m h s with Some r => k_gid m MREGION r | None => 0 end).
  { intros s Hs. destruct (k_side m h s) as [r|] eqn:S; auto. apply (side_in I Hs) in S. apply (g_same G). right. intros J. apply (g_fresh G) in J. unfold cell_kind in J. rewrite D3' in J. auto. }
  rewrite !Rg; auto.
Qed.
Lemma dirs' check i k : k = MEDGE \/ k = face_kind m -> init_dirs serial check m' rcv i k = init_dirs serial check m rcv i k.
Proof.
  intros Kk. destruct (kinds_differ m) as (D1 & D2 & D3 & D4). assert (D : k <> cell_kind m) by (destruct Kk as [->| ->]; auto).
  unfold init_dirs. rewrite (g_others G) by auto. destruct serial; auto. rewrite (proj2 (lists' D)). apply foldM_ext. intros h s I. unfold flip_one. rewrite (pair' Kk I). auto.
Qed.
(** the two objects agree on everything but the cells *)
Lemma two_objects j : constructed serial false faces edges m rcv j -> exists ids' tab' l', construct serial true faces edges m' rcv =
    Ok (JMesh m' serial true faces edges ids' (vtx_h j) (edge_h j) (face_h j) tab' (edgeflip j) (faceflip j) (node_ids j) (edge_ids j) (face_ids j) l') /\
  (forall k h, k <> cell_kind m \/ In h (k_all m k) -> ids' k h = j_ids j k h).
Proof.
  intros C. pose proof (constructed_made C) as M. destruct C as [_ C]. destruct (kinds_differ m) as (D1 & D2 & D3 & D4). unfold construct in C |- *.
  assert (A1 : init_nodes m' ids0 = init_nodes m ids0). { unfold init_nodes. destruct (lists' (k := MVERTEX) D3) as [-> ->]. rewrite (g_others G) by auto. auto. }
  assert (A2 : forall i, init_edges serial m' rcv i = init_edges serial m rcv i).
  { intros i. unfold init_edges. destruct (lists' (k := MEDGE) D4) as [-> ->]. rewrite (g_others G) by auto. destruct (id2handle _ _ _ i) as [x| | | |]; cbn [bind]; auto. rewrite dirs' by auto. auto. }
  assert (A3 : forall i, init_faces serial m' rcv i = init_faces serial m rcv i).
  { intros i. unfold init_faces. rewrite fk', (g_dim G). destruct (lists' (k := face_kind m) D1) as [-> ->]. rewrite (g_others G) by auto. destruct (id2handle _ _ _ i) as [x| | | |]; cbn [bind]; auto. rewrite dirs' by auto. auto. }
  rewrite A1. apply bind_Ok in C as (n & E1 & C). apply bind_Ok in C as (e & E2 & C). apply bind_Ok in C as (f & E3 & C). apply bind_Ok in C as (c & E4 & C).
  rewrite E1. cbn [bind]. replace (if edges then init_edges serial m' rcv (fst (fst n)) else Ok (fst (fst n), [], [], no_ids)) with (Ok e) by (rewrite <- E2; destruct edges; auto).
  cbn [bind]. replace (if faces then init_faces serial m' rcv (fst (fst (fst e))) else Ok (fst (fst (fst e)), [], [], no_ids)) with (Ok f) by (rewrite <- E3; destruct faces; auto).
  cbn [bind]. set (i3 := fst (fst (fst f))) in *.
  destruct (@cells_ok true m' nodup' i3) as (i4 & l4 & E4' & (P4 & _) & O4). rewrite E4'. cbn [bind fst snd].
  exists i4, (all_of (groups m' true CELL)), l4. split; [injection C as <-; reflexivity|].
  destruct (@cells_ok false m (mk_nodup W) i3) as (i4b & l4b & E4b & (P4b & _) & O4b). rewrite E4 in E4b. injection E4b as ->. cbn [fst snd] in C. injection C as <-. cbn [j_ids].
  rewrite ck' in *. intros k h H.
  destruct (mkind_eqb k (cell_kind m)) eqn:K.
  - apply mkind_eqb_eq in K as ->. destruct H as [H|H]; [congruence|]. apply (Permutation_in _ (Permutation_sym (groups_perm m false bk_cell))) in H. apply In_nth_error in H as [p Ep].
    rewrite (P4b _ _ Ep). apply P4. rewrite groups_cell. unfold all_of in *. cbn [fst snd groups] in *. rewrite app_nil_r in Ep. rewrite app_assoc, nth_error_app1; auto. apply nth_error_Some. congruence.
  - assert (Dk : k <> cell_kind m) by (intros ->; rewrite mk_eqb_refl in K; discriminate). rewrite O4, O4b by auto. auto.
Qed.
End Two.
Section Objects.
Variables (serial faces edges : bool) (m : mstk) (rcv : received) (N : list (nat * (nat * bool))) (j j' : jmesh).
Hypothesis F : fresh_mesh m.
Hypothesis G : grown m (after m) N.
Hypothesis E : map snd N = map (fun f => (f, rdir m f)) (filter (outer onpar m) (k_all m (face_kind m))).
Hypothesis C : constructed serial false faces edges m rcv j.
Hypothesis C' : constructed serial true faces edges (after m) rcv j'.
Let W : mstk_mesh m := proj1 F.
Local Notation m' := (after m).
Let M := constructed_made C.
Let M' := constructed_made C'.
Lemma tables K : base_kind K -> has_kind j K -> table j' K = table j K ++ (match K with CELL => map fst N | _ => [] end).
Proof.
  intros B Hk. destruct (two_objects F G E C) as (ids & tab & l & X & _). pose proof (proj2 C') as X'. rewrite X in X'. injection X' as X'.
  assert (Hc : table j' CELL = table j CELL ++ map fst N).
  { destruct (mj_kind M' bk_cell Logic.I) as [_ T' _]. destruct (mj_kind M bk_cell Logic.I) as [_ T _]. rewrite T, T', (mj_mesh M), (mj_mesh M'), (mj_bg M), (mj_bg M'). rewrite (groups_cell F G). cbn [groups]. unfold all_of. cbn [fst snd]. rewrite app_nil_r, app_assoc. auto. }
  destruct B as [->|[->|[->| ->]]]; auto; rewrite <- X'; cbn; rewrite app_nil_r; auto.
Qed.
Lemma ids_same k h : k <> cell_kind m \/ In h (k_all m k) -> id_of j' k h = id_of j k h.
Proof.
  intros H. destruct (two_objects F G E C) as (ids & tab & l & X & Hi). pose proof (proj2 C') as X'. rewrite X in X'. injection X' as X'. unfold id_of. rewrite <- Hi by auto. rewrite <- X'. auto.
Qed.
Lemma flips_same : faceflip j' = faceflip j /\ edgeflip j' = edgeflip j.
Proof. destruct (two_objects F G E C) as (ids & tab & l & X & Hi). pose proof (proj2 C') as X'. rewrite X in X'. injection X' as X'. rewrite <- X'. auto. Qed.
Lemma mesh' : j_mesh j' = m' /\ j_faces j' = faces /\ j_edges j' = edges /\ k_dim m' = k_dim m.
Proof. split; [apply (mj_mesh M')|]. split; [apply (mj_faces M')|]. split; [apply (mj_edges M')|]. apply (g_dim G). Qed.
Lemma bghost_behind b : In b (entities j' CELL BOUNDARY_GHOST) <-> exists h, behind j' CELL b h /\ In h (map fst N).
Proof.
  destruct (mj_kind M' bk_cell Logic.I) as [Nu T Li]. unfold entities. rewrite Li, (mj_mesh M'), (mj_bg M') in *. cbn [il_bghost] in *. rewrite (groups_cell F G) in *. cbn [snd fst] in *.
  unfold behind. rewrite T. cbn [mkind_of] in *. rewrite in_map_iff. split.
  - intros (h & Eb & I). exists h. split; auto. destruct (In_nth_error (all_of (owned_cells m false, ghost_list m (cell_kind m), map fst N)) h) as [p Ep].
    { unfold all_of. cbn [fst snd]. rewrite !in_app_iff. auto. } rewrite (Nu _ _ Ep) in Eb. cbn in Eb. rewrite Nat.sub_0_r in Eb. subst b. auto.
  - intros (h & Eb & I). exists h. split; auto. rewrite (Nu _ _ Eb). cbn. lia.
Qed.
Lemma new_ids h : In h (map fst N) -> behind j' CELL (id_of j' (cell_kind m) h) h /\ In (id_of j' (cell_kind m) h) (entities j' CELL BOUNDARY_GHOST).
Proof.
  intros I. assert (A : behind j' CELL (id_of j' (cell_kind m) h) h).
  { pose proof (gbehind_of C' bk_cell Logic.I (h := h)) as B. cbn [mkind_of] in B. rewrite (ck' G) in B. apply B. rewrite (g_cells G), in_app_iff. auto. }
  split; auto. apply bghost_behind. eauto.
Qed.
Lemma old_behind K i h : base_kind K -> has_kind j K -> behind j K i h -> behind j' K i h.
Proof. intros B Hk I. unfold behind in *. rewrite (tables B Hk), nth_error_app1; auto. apply nth_error_Some. congruence. Qed.
Lemma old_in h : In h (k_all m (cell_kind m)) -> ~ In h (map fst N).
Proof. intros I J. apply (g_fresh G) in J. auto. Qed.
Lemma behind_face f h : faces = true -> behind j FACE f h -> behind j' FACE f h /\ In h (k_all m (face_kind m)) /\ id_of j (face_kind m) h = f.
Proof.
  intros Hf B. assert (Hk : has_kind j FACE) by (cbn; rewrite (mj_faces M); auto). split; [apply (old_behind bk_face Hk B)|]. apply (gbehind_in C bk_face Hk B).
Qed.
Lemma cell_faces' c h : faces = true -> behind j' CELL c h -> incl (map fst (cfaces_of m' h)) (k_all m (face_kind m)) -> cell_faces j' false c = Ok (map (jface m j) (cfaces_of m' h)).
Proof.
  intros Hf B Hi. destruct mesh' as (Jm & Jf & _ & Jd). unfold cell_faces, asserting. rewrite Jf, Hf. unfold cell_faces_unordered.
  replace (rd (cell_h j') c) with (Ok h) by (symmetry; apply rd_Ok; exact B). cbn [bind]. rewrite Jm, Jd.
  replace (if k_dim m =? 3 then mapM (face_dir j' MFACE) (k_rf m' h) else mapM (face_dir j' MEDGE) (k_fe m' h)) with (mapM (face_dir j' (face_kind m)) (cfaces_of m' h))
    by (unfold cfaces_of; rewrite Jd; unfold face_kind; destruct (mk_dim W) as [->| ->]; reflexivity).
  apply mapM_map'. intros fd I. assert (If : In (fst fd) (k_all m (face_kind m))) by (apply Hi, in_map; auto).
  pose proof (face_dir_ok C Hf If) as R. unfold face_dir in R |- *. rewrite (proj1 flips_same), ids_same by (left; apply kinds_differ). exact R.
Qed.
Lemma face_cells' f h ty : faces = true -> behind j FACE f h -> face_cells j' f ty = Ok (of_type j' ty (cell_kind m) (fcells m' h)) /\ face_cells j f ty = Ok (of_type j ty (cell_kind m) (fcells m h)).
Proof.
  intros Hf B. destruct mesh' as (Jm & Jf & _ & Jd). destruct (behind_face Hf B) as (B' & _). unfold face_cells, asserting. rewrite Jf, (mj_faces M), Hf, Jm, Jd, (mj_mesh M).
  replace (rd (face_h j') f) with (Ok h) by (symmetry; apply rd_Ok; exact B'). replace (rd (face_h j) f) with (Ok h) by (symmetry; apply rd_Ok; exact B). cbn [bind].
  unfold fcells, cell_kind. rewrite Jd. destruct (mk_dim W) as [->| ->]; auto.
Qed.
Lemma of_type_app ty k a b : of_type j' ty k (a ++ b) = of_type j' ty k a ++ of_type j' ty k b.
Proof. unfold of_type. rewrite filter_app, map_app. auto. Qed.
Lemma of_type_old ty l : incl l (k_all m (cell_kind m)) -> of_type j' ty (cell_kind m) l = of_type j ty (cell_kind m) l.
Proof.
  intros Hi. unfold of_type. destruct mesh' as (Jm & _). rewrite Jm, (mj_mesh M).
  replace (filter (fun h => wanted ty (k_ptype m' (cell_kind m) h)) l) with (filter (fun h => wanted ty (k_ptype m (cell_kind m) h)) l).
  - apply map_ext_in. intros h I. apply filter_In in I as [I _]. apply ids_same. auto.
  - apply filter_ext_in'. intros h I. rewrite (proj1 (g_same G (or_intror (old_in (Hi _ I))))). auto.
Qed.
(** the new cells of a face *)
Lemma news f : In f (k_all m (face_kind m)) -> if outer onpar m f then exists h, In (h, (f, rdir m f)) N /\ map fst (filter (fun n => fst (snd n) =? f) N) = [h] else map fst (filter (fun n => fst (snd n) =? f) N) = [].
Proof. intros I. apply (news_list E (mk_nodup W _) I). Qed.
Lemma new_face b hb f d : faces = true -> behind j' CELL b hb -> In (hb, (f, d)) N -> In f (k_all m (face_kind m)) -> cell_faces j' false b = Ok [jface m j (f, d)].
Proof.
  intros Hf Hb In' If. rewrite (cell_faces' Hf Hb); rewrite (g_face G In').
  - reflexivity.
  - intros x [<-|[]]. auto.
Qed.
End Objects.

(** C97.  Asking for boundary ghosts never makes the construction fail. *)
Theorem c97_construction : forall serial faces edges m rcv j, fresh_mesh m -> constructed serial false faces edges m rcv j ->
  exists j', constructed serial true faces edges (after m) rcv j'.
Proof.
  intros serial faces edges m rcv j F C. destruct (@created new corners onpar (proj2 (proj2 F)) m (proj1 F)) as (N & G & E).
  destruct (two_objects F G E C) as (ids & tab & l & X & _). eexists. split; [|exact X]. apply (nodup' F G).
Qed.

(** C97.  The rest of the mesh stays as it would be without boundary ghosts: ids and types of nodes, edges, faces and of the owned and ghost cells; the faces and nodes of
    those cells, the nodes of edges and faces. *)
Theorem c97_rest_unchanged : forall serial faces edges m rcv j j', fresh_mesh m -> constructed serial false faces edges m rcv j -> constructed serial true faces edges (after m) rcv j' ->
  (forall K ty, base_kind K -> K <> CELL -> entities j' K ty = entities j K ty) /\
  entities j' CELL PARALLEL_OWNED = entities j CELL PARALLEL_OWNED /\ entities j' CELL PARALLEL_GHOST = entities j CELL PARALLEL_GHOST /\
  entities j' CELL TYPE_ALL = entities j CELL TYPE_ALL ++ entities j' CELL BOUNDARY_GHOST /\
  (forall c, valid j CELL c -> cell_nodes j' c = cell_nodes j c /\ (faces = true -> cell_faces j' false c = cell_faces j false c)) /\
  (forall f, face_nodes j' f = face_nodes j f) /\ (forall e, edge_nodes j' e = edge_nodes j e).
Proof.
  intros serial faces edges m rcv j j' F C C'. destruct (@created new corners onpar (proj2 (proj2 F)) m (proj1 F)) as (N & G & E).
  pose proof (constructed_made C) as M. pose proof (constructed_made C') as M'. destruct (mesh' G C') as (Jm & Jf & Je & Jd).
  assert (Sv : forall h, id_of j' MVERTEX h = id_of j MVERTEX h). { intros h. apply (ids_same F G E C C'). left. apply kinds_differ. }
  destruct (two_objects F G E C) as (ids & tab & l & X & _). pose proof (proj2 C') as X'. rewrite X in X'. injection X' as X'.
  split; [|split; [|split; [|split; [|split; [|split]]]]].
  - intros K ty B D. assert (L : list_of j' K = list_of j K) by (destruct B as [->|[->|[->| ->]]]; try congruence; rewrite <- X'; reflexivity). unfold entities. rewrite L. auto.
  - destruct (mj_kind M' bk_cell Logic.I) as [_ _ L']. destruct (mj_kind M bk_cell Logic.I) as [_ _ L]. unfold entities. rewrite L, L', (mj_mesh M), (mj_mesh M'), (mj_bg M), (mj_bg M'), (groups_cell F G). cbn [groups il_owned fst snd mkind_of].
    apply map_ext_in. intros h I. rewrite (ck' G). unfold owned_cells in I. apply filter_In in I as [I _]. apply (ids_same F G E C C'). auto.
  - destruct (mj_kind M' bk_cell Logic.I) as [_ _ L']. destruct (mj_kind M bk_cell Logic.I) as [_ _ L]. unfold entities. rewrite L, L', (mj_mesh M), (mj_mesh M'), (mj_bg M), (mj_bg M'), (groups_cell F G). cbn [groups il_ghost fst snd mkind_of].
    apply map_ext_in. intros h I. rewrite (ck' G). unfold ghost_list in I. apply filter_In in I as [I _]. apply (ids_same F G E C C'). auto.
  - destruct (mj_kind M' bk_cell Logic.I) as [_ _ L']. destruct (mj_kind M bk_cell Logic.I) as [_ _ L]. unfold entities. rewrite L, L', (mj_mesh M), (mj_mesh M'), (mj_bg M), (mj_bg M'), (groups_cell F G). cbn [groups il_all il_bghost fst snd mkind_of all_of].
    unfold all_of. cbn [fst snd]. rewrite app_nil_r, app_assoc, map_app. f_equal. apply map_ext_in. intros h I. rewrite (ck' G). apply (ids_same F G E C C'). right.
    apply in_app_iff in I. unfold owned_cells, ghost_list in I. rewrite !filter_In in I. tauto.
  - intros c V. apply (valid_behind C c bk_cell Logic.I) in V as (h & B). destruct (gbehind_in C bk_cell Logic.I B) as [I Eh]. cbn [mkind_of] in I. pose proof (old_behind F G E C C' bk_cell Logic.I B) as B'.
    destruct (g_old G (old_in G I)) as (_ & Ef & Ev). split.
    + unfold cell_nodes. replace (rd (cell_h j') c) with (Ok h) by (symmetry; apply rd_Ok; exact B'). replace (rd (cell_h j) c) with (Ok h) by (symmetry; apply rd_Ok; exact B). cbn [bind].
      rewrite Jm, (mj_mesh M). f_equal. change (map (id_of j' MVERTEX) (cverts (after m) h) = map (id_of j MVERTEX) (cverts m h)). rewrite Ev. apply map_ext. exact Sv.
    + intros Hf. rewrite (cell_faces' F G E C C' Hf B'). * rewrite Ef. symmetry. apply (cell_faces_ok (proj1 F) C Hf B). * rewrite Ef. apply (cfaces_ok (proj1 F) I).
  - intros f. unfold face_nodes. rewrite Jf, (mj_faces M), Jm, (mj_mesh M), Jd, (g_ev G). replace (face_h j') with (face_h j) by (rewrite <- X'; auto). rewrite (proj1 (flips_same F G E C C')).
    destruct (k_dim m =? 3) eqn:D3; [apply Nat.eqb_eq in D3; destruct (g_3d G D3) as (_ & -> & ->)|].
    + unfold asserting. destruct faces; auto. destruct (rd (face_h j) f) as [h| | | |]; cbn [bind]; auto. destruct (rd (faceflip j) f) as [fl| | | |]; cbn [bind]; auto. f_equal. apply map_ext. exact Sv.
    + unfold asserting. destruct faces; auto. destruct (rd (face_h j) f) as [h| | | |]; cbn [bind]; auto. destruct (rd (faceflip j) f) as [fl| | | |]; cbn [bind]; auto. rewrite !Sv. auto.
  - intros e. unfold edge_nodes. rewrite Je, (mj_edges M), Jm, (mj_mesh M), (g_ev G). replace (edge_h j') with (edge_h j) by (rewrite <- X'; auto). rewrite (proj2 (flips_same F G E C C')).
    unfold asserting. destruct edges; auto. destruct (rd (edge_h j) e) as [h| | | |]; cbn [bind]; auto. destruct (rd (edgeflip j) e) as [fl| | | |]; cbn [bind]; auto. rewrite !Sv. auto.
Qed.
Lemma of_all j k l : of_type j TYPE_ALL k l = map (id_of j k) l.
Proof. unfold of_type. f_equal. apply filter_id. intros x _. destruct (k_ptype (j_mesh j) k x); reflexivity. Qed.
Lemma reversed_find l f d : NoDup (map fst l) -> In (f, d) l -> reversed_dir l f = negb d.
Proof.
  intros Nd I. unfold reversed_dir. induction l as [|[g e] l IH]; [destruct I|]. cbn [find fst]. cbn [map fst] in Nd. inversion Nd; subst. destruct I as [I|I].
  - injection I as -> ->. rewrite Nat.eqb_refl. auto.
  - replace (g =? f) with false; auto. symmetry. apply Nat.eqb_neq. intros ->. apply (in_map fst) in I. auto.
Qed.
Lemma dirz_neg x fl : dirz (negb x) fl = (- dirz x fl)%Z.
Proof. destruct x, fl; reflexivity. Qed.
(** a face without a ghost's flag that is not on the boundary between two ranks and has one cell *)
Definition exterior (j : jmesh) (f c : nat) : Prop :=
  In f (entities j FACE PARALLEL_OWNED) /\ face_cells j f TYPE_ALL = Ok [c] /\ forall h, behind j FACE f h -> onpar h = false.
Section Faces.
Variables (serial edges : bool) (m : mstk) (rcv : received) (N : list (nat * (nat * bool))) (j j' : jmesh).
Hypothesis F : fresh_mesh m.
Hypothesis G : grown m (after m) N.
Hypothesis E : map snd N = map (fun f => (f, rdir m f)) (filter (outer onpar m) (k_all m (face_kind m))).
Hypothesis C : constructed serial false true edges m rcv j.
Hypothesis C' : constructed serial true true edges (after m) rcv j'.
Let W : mstk_mesh m := proj1 F.
Lemma face_has : has_kind j FACE.
Proof. cbn. rewrite (mj_faces (constructed_made C)). auto. Qed.
Lemma owned_face f h : behind j FACE f h -> (In f (entities j FACE PARALLEL_OWNED) <-> is_pghost (k_ptype m (face_kind m) h) = false).
Proof.
  intros B. rewrite (typed C PARALLEL_OWNED bk_face face_has B). unfold wanted. cbn [mkind_of]. destruct (k_ptype m (face_kind m) h); cbn; split; congruence.
Qed.
Lemma one_cell f h : behind j FACE f h -> In h (k_all m (face_kind m)) -> face_cells j f TYPE_ALL = Ok (map (id_of j (cell_kind m)) (fcells m h)).
Proof. intros B I. destruct (face_cells' F G E C C' TYPE_ALL eq_refl B) as [_ ->]. rewrite of_all. auto. Qed.
Lemma exterior_outer f h : behind j FACE f h -> (outer onpar m h = true <-> exists c, exterior j f c).
Proof.
  intros B. destruct (gbehind_in C bk_face face_has B) as [I _]. cbn [mkind_of] in I. unfold outer, exterior. rewrite !andb_true_iff, !negb_true_iff, Nat.eqb_eq.
  rewrite (one_cell B I). split.
  - intros [[L P] O]. destruct (fcells m h) as [|a [|]]; try discriminate. exists (id_of j (cell_kind m) a). split; [apply (owned_face B); auto|]. split; auto. intros h' B'. rewrite (behind_fun B' B). auto.
  - intros (c & Io & Fc & On). injection Fc as Fc. split; [split|]; auto.
    + apply (f_equal (@length nat)) in Fc. rewrite map_length in Fc. auto.
    + apply (owned_face B). auto.
Qed.
End Faces.

(** C97.  An exterior face gets exactly one boundary ghost: a cell with this face alone, in the opposite direction; afterwards the face has the two cells. *)
Theorem c97_one_per_exterior_face : forall serial edges m rcv j j' f c, fresh_mesh m -> constructed serial false true edges m rcv j -> constructed serial true true edges (after m) rcv j' ->
  exterior j f c ->
  exists b, In b (entities j' CELL BOUNDARY_GHOST) /\ face_cells j' f TYPE_ALL = Ok [c; b] /\
    (forall fs d, cell_faces j false c = Ok fs -> In (f, d) fs -> cell_faces j' false b = Ok [(f, (- d)%Z)]) /\
    forall b' fs, In b' (entities j' CELL BOUNDARY_GHOST) -> cell_faces j' false b' = Ok fs -> In f (map fst fs) -> b' = b.
Proof.
  intros serial edges m rcv j j' f c F C C' X. destruct (@created new corners onpar (proj2 (proj2 F)) m (proj1 F)) as (N & G & E). pose proof (proj1 F) as W.
  pose proof (face_has C) as Hk. destruct X as (Io & Fc & On).
  assert (V : valid j FACE f). { destruct (c85_ids_by_type C bk_face Hk) as (no & ng & nb & Eo & _ & _ & Ea & _). unfold valid. rewrite Ea. rewrite Eo in Io. apply in_seq in Io. apply in_seq. lia. }
  apply (valid_behind C f bk_face Hk) in V as (h & B). destruct (gbehind_in C bk_face Hk B) as [I Eh]. cbn [mkind_of] in I, Eh.
  assert (O : outer onpar m h = true). { apply (exterior_outer F G E C C' B). exists c. split; auto. }
  pose proof (news F E I) as Nw. rewrite O in Nw. destruct Nw as (hb & In' & Fl).
  destruct (new_ids F G C' (in_map fst _ _ In')) as [Bb Ib]. cbn [fst] in Bb, Ib. set (b := id_of j' (cell_kind m) hb) in *. exists b. split; auto.
  destruct (face_cells' F G E C C' TYPE_ALL eq_refl B) as [Fc' Fc0]. rewrite of_all in Fc', Fc0. rewrite Fc in Fc0. injection Fc0 as Fc0.
  destruct (fcells_ok W I) as [_ Hfc].
  rewrite (g_fc G), Fl, map_app in Fc'. destruct (fcells m h) as [|hc [|]] eqn:Efc; try discriminate. cbn [map] in Fc0, Fc'. injection Fc0 as ->.
  assert (Ihc : In hc (k_all m (cell_kind m)) /\ In h (map fst (cfaces_of m hc))) by (apply Hfc; left; auto). destruct Ihc as [Ihc Ihf].
  rewrite (ids_same F G E C C') in Fc' by auto. split; [exact Fc'|].
  pose proof (new_face F G E C C' eq_refl Bb In' I) as Nf.
  split.
  - intros fs d Hfs Id. pose proof (behind_of C bk_cell Logic.I Ihc) as Bc. cbn [mkind_of] in Bc. rewrite (cell_faces_ok W C eq_refl Bc) in Hfs. injection Hfs as <-.
    apply in_map_iff in Id as ([g e] & Ej & Ig). unfold jface in Ej. cbn [fst snd] in Ej. injection Ej as Eg Ed.
    assert (g = h). { apply (id_inj C bk_face Hk); cbn [mkind_of]; auto. - apply (cfaces_ok W Ihc). apply in_map_iff. exists (g, e). auto. - congruence. } subst g.
    rewrite Nf. unfold jface. cbn [fst snd]. rewrite Eh. do 3 f_equal. unfold rdir. rewrite Efc, (reversed_find (proj2 (cfaces_ok W Ihc)) Ig), dirz_neg. rewrite Eh in Ed. rewrite Ed. auto.
  - intros b' fs Ib' Hfs If. apply (bghost_behind F G C') in Ib' as (hb' & Bb' & Ib'). apply in_map_iff in Ib' as ([hb'' [g e]] & Eb & Ib'). cbn [fst] in Eb. subst hb''.
    assert (Ig : In g (k_all m (face_kind m))). { assert (A : In (g, e) (map snd N)) by (apply (in_map snd _ _ Ib')). rewrite E in A. apply in_map_iff in A as (x & A & Ix). injection A as -> _. apply filter_In in Ix. apply Ix. }
    rewrite (new_face F G E C C' eq_refl Bb' Ib' Ig) in Hfs. injection Hfs as <-. cbn in If. destruct If as [If|[]]. rewrite <- Eh in If.
    apply (id_inj C bk_face Hk) in If; auto. subst g.
    assert (A : In hb' [hb]). { rewrite <- Fl. apply in_map_iff. exists (hb', (h, e)). split; auto. apply filter_In. split; auto. apply Nat.eqb_refl. }
    destruct A as [<-|[]]. destruct (gbehind_in C' bk_cell Logic.I Bb') as [_ <-]. cbn [mkind_of]. rewrite (ck' G). auto.
Qed.
(** C97.  There are no other boundary ghosts, and a face that is not exterior keeps the cells it would have without them. *)
Theorem c97_no_others : forall serial edges m rcv j j', fresh_mesh m -> constructed serial false true edges m rcv j -> constructed serial true true edges (after m) rcv j' ->
  (forall b, In b (entities j' CELL BOUNDARY_GHOST) -> exists f c d, exterior j f c /\ cell_faces j' false b = Ok [(f, d)]) /\
  (forall f ty, valid j FACE f -> (forall c, ~ exterior j f c) -> face_cells j' f ty = face_cells j f ty).
Proof.
  intros serial edges m rcv j j' F C C'. destruct (@created new corners onpar (proj2 (proj2 F)) m (proj1 F)) as (N & G & E). pose proof (proj1 F) as W. pose proof (face_has C) as Hk. split.
  - intros b Ib. apply (bghost_behind F G C') in Ib as (hb & Bb & Ib). apply in_map_iff in Ib as ([hb' [g e]] & Eb & Ib). cbn [fst] in Eb. subst hb'.
    assert (A : In g (k_all m (face_kind m)) /\ outer onpar m g = true). { assert (A : In (g, e) (map snd N)) by (apply (in_map snd _ _ Ib)). rewrite E in A. apply in_map_iff in A as (x & A & Ix). injection A as -> _. apply filter_In in Ix. auto. }
    destruct A as [Ig O]. pose proof (behind_of C bk_face Hk Ig) as B. cbn [mkind_of] in B. apply (exterior_outer F G E C C' B) in O as [c X]. exists (id_of j (face_kind m) g), c.
    eexists. split; [exact X|]. rewrite (new_face F G E C C' eq_refl Bb Ib Ig). reflexivity.
  - intros f ty V Nx. apply (valid_behind C f bk_face Hk) in V as (h & B). destruct (gbehind_in C bk_face Hk B) as [I Eh]. cbn [mkind_of] in I, Eh.
    destruct (face_cells' F G E C C' ty eq_refl B) as [-> ->]. pose proof (news F E I) as Nw. destruct (outer onpar m h) eqn:O.
    + apply (exterior_outer F G E C C' B) in O as [c X]. destruct (Nx c X).
    + rewrite (g_fc G), Nw, app_nil_r. f_equal. apply (of_type_old F G E C C'). intros x Ix. apply (fcells_ok W I) in Ix. apply Ix.
Qed.
(** C97.  Refuted: the neighbours of type "owned" are owned.  The query takes the type from MSTK, for which a boundary ghost is an ordinary cell: the boundary
    ghosts of a cell's exterior faces are returned for PARALLEL_OWNED, never for BOUNDARY_GHOST. *)
Theorem c97_owned_neighbours_refuted : forall serial edges m rcv j j' f c, fresh_mesh m -> constructed serial false true edges m rcv j -> constructed serial true true edges (after m) rcv j' ->
  exterior j f c -> exists b ns, face_adj_cells j' c PARALLEL_OWNED = Ok ns /\ In b ns /\ In b (entities j' CELL BOUNDARY_GHOST) /\ ~ In b (entities j' CELL PARALLEL_OWNED) /\
    face_adj_cells j' c BOUNDARY_GHOST = Ok [].
Proof.
  intros serial edges m rcv j j' f c F C C' X. destruct (c97_one_per_exterior_face F C C' X) as (b & Ib & Fc & _).
  destruct (@created new corners onpar (proj2 (proj2 F)) m (proj1 F)) as (N & G & E). pose proof (proj1 F) as W. pose proof (face_has C) as Hk. destruct X as (Io & Fc0 & On).
  assert (V : valid j FACE f). { destruct (c85_ids_by_type C bk_face Hk) as (no & ng & nb & Eo & _ & _ & Ea & _). unfold valid. rewrite Ea. rewrite Eo in Io. apply in_seq in Io. apply in_seq. lia. }
  apply (valid_behind C f bk_face Hk) in V as (h & B). destruct (gbehind_in C bk_face Hk B) as [I Eh]. cbn [mkind_of] in I, Eh.
  destruct (fcells_ok W I) as [_ Hfc]. rewrite (one_cell F G E C C' B I) in Fc0. injection Fc0 as Fc0. destruct (fcells m h) as [|hc [|]] eqn:Efc; try discriminate. cbn [map] in Fc0. injection Fc0 as <-.
  assert (Ihc : In hc (k_all m (cell_kind m)) /\ In h (map fst (cfaces_of m hc))) by (apply Hfc; left; auto). destruct Ihc as [Ihc Ihf].
  pose proof (old_behind F G E C C' bk_cell Logic.I (behind_of C bk_cell Logic.I Ihc)) as Bc. cbn [mkind_of] in Bc.
  destruct (mesh' G C') as (Jm & Jf & _ & Jd).
  assert (Adj : forall ty, face_adj_cells j' (id_of j (cell_kind m) hc) ty = Ok (flat_map (fun fd => of_type j' ty (cell_kind m) (filter (fun h2 => negb (h2 =? hc)) (fcells (after m) (fst fd)))) (cfaces_of m hc))).
  { intros ty. unfold face_adj_cells, asserting. rewrite Jf, Jm, Jd. replace (rd (cell_h j') (id_of j (cell_kind m) hc)) with (Ok hc) by (symmetry; apply rd_Ok; exact Bc). cbn [bind]. f_equal.
    destruct (g_old G (old_in G Ihc)) as (_ & Ef & _). rewrite <- Ef. unfold cfaces_of, fcells, cell_kind. rewrite Jd. destruct (mk_dim W) as [->| ->]; reflexivity. }
  exists b. eexists. split; [apply Adj|]. rewrite Adj.
  pose proof Ib as Ib'. apply (bghost_behind F G C') in Ib'. destruct Ib' as (hb & Bb & Ihb). destruct (g_new G Ihb) as (Pt & _ & _).
  pose proof (news F E I) as Nw. destruct (face_cells' F G E C C' TYPE_ALL eq_refl B) as [Fc' _]. rewrite Fc in Fc'. injection Fc' as Fc'. rewrite of_all, (g_fc G), Efc, map_app in Fc'. cbn [map app] in Fc'.
  destruct (outer onpar m h) eqn:O; [|rewrite Nw in Fc'; discriminate]. destruct Nw as (hb' & In' & Fl). rewrite Fl in Fc'. cbn [map] in Fc'. injection Fc' as _ Eb.
  assert (Ihb' : In hb' (map fst N)) by (apply (in_map fst _ _ In')).
  split; [|split; [|split]].
  - apply in_flat_map. apply in_map_iff in Ihf as (fd & Efd & Ifd). exists fd. split; auto. rewrite Efd, (g_fc G), Efc, Fl. cbn [app filter]. rewrite Nat.eqb_refl. cbn [negb].
    replace (hb' =? hc) with false by (symmetry; apply Nat.eqb_neq; intros ->; apply (g_fresh G) in Ihb'; auto). cbn [negb]. unfold of_type. cbn [filter]. rewrite Jm, (proj1 (g_new G Ihb')). cbn [wanted map]. left. auto.
  - exact Ib.
  - destruct (c85_ids_by_type C' bk_cell Logic.I) as (no & ng & nb & Eo & _ & Eb' & _). rewrite Eo. rewrite Eb' in Ib. rewrite in_seq in *. lia.
  - f_equal. match goal with |- flat_map ?g ?l = [] => assert (Z : forall l', flat_map g l' = []); [|apply Z] end.
    induction l' as [|fd l IH]; cbn [flat_map]; auto. rewrite IH, app_nil_r. unfold of_type. rewrite filter_none; auto. intros x _. destruct (k_ptype (j_mesh j') (cell_kind m) x); auto.
Qed.
End Bghosts.

(** a non-trivial case: the 2D mesh of MstkMesh_examples (a quadrilateral and a triangle of the other rank, edge 20 on the boundary between ranks) *)
Definition next_handle (m : mstk) : nat := S (list_max (k_all m (cell_kind m))).
Lemma next_fresh m : ~ In (next_handle m) (k_all m (cell_kind m)).
Proof. intros I. unfold next_handle in I. pose proof (proj1 (list_max_le (k_all m (cell_kind m)) _) (Nat.le_refl _)) as A. rewrite Forall_forall in A. specialize (A _ I). lia. Qed.
Definition bg_corners (f : nat) (d : bool) : list nat := [f].
Definition bg_onpar (f : nat) : bool := f =? 20.
Definition bg_mesh : mstk := create_boundary_ghosts next_handle bg_corners bg_onpar ex_mesh.
Definition bg_j : jmesh := match construct false true true true bg_mesh ex_rcv with Ok j => j | _ => ex_j end.
Lemma ex_fresh : fresh_mesh next_handle ex_mesh.
Proof. split; [exact ex_is_mesh|]. split; [reflexivity|exact next_fresh]. Qed.
Lemma bg_constructed : constructed false true true true bg_mesh ex_rcv bg_j.
Proof.
  destruct (@c97_construction next_handle bg_corners bg_onpar _ _ _ _ _ _ ex_fresh ex_constructed) as (j & N & E). split; [exact N|]. unfold bg_j. fold bg_mesh in E. rewrite E. auto.
Qed.
Example c97_witness : fresh_mesh next_handle ex_mesh /\ constructed false false true true ex_mesh ex_rcv ex_j /\ constructed false true true true bg_mesh ex_rcv bg_j.
Proof. split; [exact ex_fresh|]. split; [exact ex_constructed|exact bg_constructed]. Qed.
Example c97_example : entities bg_j CELL BOUNDARY_GHOST = [2; 3] /\ map (fun f => face_cells bg_j f TYPE_ALL) (seq 0 6) = [Ok [0]; Ok [0; 1]; Ok [0; 2]; Ok [0; 3]; Ok [1]; Ok [1]] /\
  cell_faces bg_j false 0 = Ok [(0, 1%Z); (1, 1%Z); (2, 1%Z); (3, (-1)%Z)] /\ map (cell_faces bg_j false) [2; 3] = [Ok [(2, (-1)%Z)]; Ok [(3, 1%Z)]] /\
  face_adj_cells bg_j 0 PARALLEL_OWNED = Ok [2; 3].
Proof. vm_compute. repeat split. Qed.
Example c97_exterior : exterior bg_onpar ex_j 2 0.
Proof. split; [vm_compute; tauto|]. split; [vm_compute; reflexivity|]. intros h B. unfold behind in B. vm_compute in B. injection B as <-. reflexivity. Qed.
