(** C92: a surface mesh extracted from a mesh: cells of a 2D mesh, faces of a 3D mesh. *)
From Coq Require Import Permutation Reals.
From Verif Require Import Base Loop Defs Cache Cache_proofs Geometry_spec Props_InPolygon MstkMesh MstkMesh_spec MstkMesh_proofs MstkMesh_proofs2 MstkMesh_examples MstkMesh_build Props_MstkIds Props_MstkOrder
  MstkExtract MstkExtract_spec MstkExtract_proofs MstkExtract_api.
Set Implicit Arguments. Unset Strict Implicit.

(** the parent of entity [i'] of the new mesh [j'] is entity [i] of [j] *)
Definition parent (j : jmesh) (x : xmesh) (j' : jmesh) (K' : entity_kind) (i' i : nat) : Prop := entity_get_parent j' j (Some x) K' i' = Ok i.

Lemma Forall2_map_lr A B A' B' (P : A' -> B' -> Prop) (f : A -> A') (g : B -> B') l l' : Forall2 (fun a b => P (f a) (g b)) l l' -> Forall2 P (map f l) (map g l').
Proof. induction 1; cbn; constructor; auto. Qed.
Lemma Forall2_at A B (P : A -> B -> Prop) l l' i a : Forall2 P l l' -> nth_error l i = Some a -> exists b, nth_error l' i = Some b /\ P a b.
Proof. intros F. revert i. induction F; intros [|i] E; cbn in *; try discriminate; eauto. injection E as <-. eauto. Qed.
Lemma Forall2_len A B (P : A -> B -> Prop) l l' : Forall2 P l l' -> length l = length l'.
Proof. induction 1; cbn; auto. Qed.
Lemma Forall2_in_l A B (P : A -> B -> Prop) l l' a : Forall2 P l l' -> In a l -> exists b, In b l' /\ P a b.
Proof. intros F I. apply In_nth_error in I as [i E]. destruct (Forall2_at F E) as (b & Eb & Pb). exists b. split; auto. eapply nth_error_In; eauto. Qed.
Lemma Forall2_in_r A B (P : A -> B -> Prop) l l' b : Forall2 P l l' -> In b l' -> exists a, In a l /\ P a b.
Proof. intros F I. apply Forall2_sym in F. apply (Forall2_in_l F I). Qed.
Lemma nth_map_fst A (l : list (nat * A)) i h : nth_error (map fst l) i = Some h <-> exists a, nth_error l i = Some (h, a).
Proof. rewrite nth_error_map. destruct (nth_error l i) as [[h' a]|]; cbn; split; [intros E; injection E as ->; eauto|intros [a' E]; injection E as -> ->; auto|discriminate|intros [a E]; discriminate]. Qed.
Lemma lt_of_nth A (l : list A) i a : nth_error l i = Some a -> i < length l.
Proof. intros E. apply nth_error_Some. congruence. Qed.
Lemma map_id_in (f : nat -> nat) l : (forall x, In x l -> f x = x) -> map f l = l.
Proof. induction l; intros H; cbn; auto. rewrite H by (left; auto). f_equal. apply IHl. intros; apply H; right; auto. Qed.

Lemma rd_seq n i : rd (seq 0 n) i = if i <? n then Ok i else UB.
Proof. destruct (Nat.ltb_spec i n); [apply rd_Ok, seq_inv; auto|]. unfold rd. destruct (nth_error (seq 0 n) i) eqn:E; auto. apply seq_inv in E. lia. Qed.

Section Surface.
Variables (edges edges' : bool) (m m' : mstk) (rcv rcv' : received) (j j' : jmesh) (X : nat -> xyz) (co : xyz -> xyz) (K : entity_kind) (ids src : list nat) (x : xmesh).
Hypothesis (W : mstk_mesh m) (C : constructed true false true edges m rcv j) (SK : surface_kind m K) (He : K = FACE -> edges = true).
Hypothesis (F : Forall2 (behind j K) ids src) (CS : copied_surface m X co src x) (RS : realises_surface x m') (C' : constructed true false true edges' m' rcv' j').
Let M' := constructed_made C'.
Lemma src_in f : In f src -> In f (k_all m MFACE).
Proof. intros I. destruct (Forall2_in_r F I) as (p & _ & Bp). destruct (skind C SK) as (B & _ & E & _ & Hk & _). destruct (behind_in C B Hk Bp) as [Q _]. rewrite E in Q. auto. Qed.
Lemma pe_in e : In e (pe x) -> In e (k_all m MEDGE).
Proof. intros I. apply (cs_e CS) in I as (f & I & Ee). apply (mk_fe W f e); auto. apply src_in; auto. Qed.
Lemma pv_in v : In v (pv x) -> In v (k_all m MVERTEX).
Proof. intros I. apply (cs_v CS) in I as (e & I & Ve). apply pe_in in I. destruct (mk_ev W e I) as (A & B & _). destruct Ve as [-> | ->]; auto. Qed.
Lemma sk' : surface_kind m' CELL. Proof. left. split; auto. apply (rs_dim RS). Qed.
Lemma hk_face' : has_kind j' FACE. Proof. apply (fk C'). Qed.
Lemma dim' : k_dim (j_mesh j') = 2. Proof. rewrite (mj_mesh M'). apply (rs_dim RS). Qed.
Lemma all_n : k_all m' (mkind_of m' NODE) = seq 0 (length (x_verts x)). Proof. apply (rs_v RS). Qed.
Lemma all_f : k_all m' (mkind_of m' FACE) = seq 0 (length (x_edges x)). Proof. unfold mkind_of, face_kind. rewrite (rs_dim RS). apply (rs_e RS). Qed.
Lemma all_c : k_all m' (mkind_of m' CELL) = seq 0 (length (x_sfaces x)). Proof. unfold mkind_of, cell_kind. rewrite (rs_dim RS). apply (rs_f RS). Qed.
Lemma par_node i p : parent j x j' NODE i p <-> exists v, nth_error (pv x) i = Some v /\ p = id_of j MVERTEX v.
Proof.
  unfold parent, entity_get_parent. pose proof (child_table C' bk_node I (rs_own RS) all_n) as T. cbn [table] in T. rewrite T, rd_seq. unfold parent_att, pv. rewrite nth_error_map.
  destruct (Nat.ltb_spec i (length (x_verts x))) as [L|L]; cbn [bind].
  - destruct (nth_error (x_verts x) i) as [v|] eqn:E; [|apply nth_error_None in E; lia]. cbn [option_map]. split; [intros Q; injection Q as <-; eauto|intros (v' & Q & ->); congruence].
  - split; [discriminate|]. intros (v & Q & _). destruct (nth_error (x_verts x) i) eqn:E; [apply lt_of_nth in E; lia|discriminate].
Qed.
Lemma par_face i p : parent j x j' FACE i p <-> exists e, nth_error (pe x) i = Some e /\ p = id_of j MEDGE e.
Proof.
  unfold parent, entity_get_parent. pose proof (child_table C' bk_face hk_face' (rs_own RS) all_f) as T. cbn [table] in T. rewrite T, rd_seq, dim'. cbn [Nat.eqb]. unfold parent_att, pe. rewrite nth_error_map.
  destruct (Nat.ltb_spec i (length (x_edges x))) as [L|L]; cbn [bind].
  - destruct (nth_error (x_edges x) i) as [v|] eqn:E; [|apply nth_error_None in E; lia]. cbn [option_map]. split; [intros Q; injection Q as <-; eauto|intros (v' & Q & ->); congruence].
  - split; [discriminate|]. intros (v & Q & _). destruct (nth_error (x_edges x) i) eqn:E; [apply lt_of_nth in E; lia|discriminate].
Qed.
Lemma par_cell i p : parent j x j' CELL i p <-> exists f, nth_error src i = Some f /\ p = id_of j MFACE f.
Proof.
  unfold parent, entity_get_parent. pose proof (child_table C' bk_cell I (rs_own RS) all_c) as T. cbn [table] in T. rewrite T, rd_seq, dim'. cbn [Nat.eqb]. unfold parent_att. rewrite <- (cs_faces CS), nth_error_map.
  destruct (Nat.ltb_spec i (length (x_sfaces x))) as [L|L]; cbn [bind].
  - destruct (nth_error (x_sfaces x) i) as [v|] eqn:E; [|apply nth_error_None in E; lia]. cbn [option_map]. split; [intros Q; injection Q as <-; eauto|intros (v' & Q & ->); congruence].
  - split; [discriminate|]. intros (v & Q & _). destruct (nth_error (x_sfaces x) i) eqn:E; [apply lt_of_nth in E; lia|discriminate].
Qed.
Lemma behind_ids i p f : nth_error ids i = Some p -> nth_error src i = Some f -> behind j K p f /\ id_of j MFACE f = p.
Proof.
  intros E1 E2. destruct (Forall2_at F E1) as (f' & E & Bf). assert (f' = f) by congruence. subst f'. split; auto. destruct (skind C SK) as (B & _ & Q & _ & Hk & _). destruct (behind_in C B Hk Bf) as [_ R]. rewrite Q in R. auto.
Qed.
Lemma src_at i p : nth_error ids i = Some p -> exists f es, nth_error src i = Some f /\ behind j K p f /\ nth_error (x_sfaces x) i = Some (f, es) /\ Forall2 (copy_dir (pe x)) es (k_fe m f) /\ k_fe m' i = es.
Proof.
  intros E. destruct (Forall2_at F E) as (f & E2 & Bf). pose proof E2 as E3. rewrite <- (cs_faces CS) in E3. apply nth_map_fst in E3 as [es E3]. exists f, es. split; auto. split; auto. split; auto. split.
  - apply (cs_fe CS). eapply nth_error_In; eauto.
  - apply (rs_fe RS E3).
Qed.
Lemma len_ids : length (x_sfaces x) = length ids.
Proof. rewrite (Forall2_len F), <- (cs_faces CS), map_length. auto. Qed.
Lemma fv_copy i p f : nth_error ids i = Some p -> nth_error src i = Some f -> Forall2 (fun v' v => nth_error (pv x) v' = Some v) (k_fv m' i) (k_fv m f).
Proof.
  intros E1 E2. destruct (src_at E1) as (f0 & es & E3 & Bf & E4 & Fe & Ke). assert (f0 = f) by congruence. subst f0.
  assert (If : In f (k_all m MFACE)) by (apply src_in; eapply nth_error_In; eauto). assert (Ii : In i (k_all m' MFACE)) by (rewrite (rs_f RS); apply in_seq; apply lt_of_nth in E4; lia).
  destruct (mk_fv W f If) as [U _]. destruct (mk_fv (rs_mesh RS) i Ii) as [U' _]. rewrite Ke in U'.
  rewrite <- (map_fst_edges (k_fv m' i)), <- (map_fst_edges (k_fv m f)), U, U', !map_map. apply Forall2_map_lr.
  assert (Q : forall a b, copy_dir (pe x) a b -> nth_error (pv x) (fst (used m' a)) = Some (fst (used m b))).
  { intros a b [A1 A2]. apply nth_map_fst in A1 as [[u w] A1]. pose proof (rs_ev RS A1) as Ev. destruct (cs_ev CS (nth_error_In _ _ A1)) as [V1 V2]. unfold used. rewrite A2, Ev. destruct (snd b); cbn; auto. }
  eapply Forall2_imp; [|exact Fe]. exact Q.
Qed.
Lemma nodes_eq i : i < length (x_sfaces x) -> cell_nodes j' i = Ok (k_fv m' i).
Proof.
  intros L. assert (Bi : behind j' CELL i i) by (apply (child_behind C' bk_cell I (rs_own RS) all_c); auto). pose proof (snodes_ok (rs_mesh RS) C' sk' Bi) as E. cbn [snodes] in E. rewrite E. f_equal.
  apply map_id_in. intros v Iv. assert (Ii : In i (k_all m' MFACE)) by (rewrite (rs_f RS); apply in_seq; lia). pose proof (fv_range (rs_mesh RS) Ii Iv) as Q. rewrite (rs_v RS) in Q. apply in_seq in Q.
  apply (child_id C' bk_node I (rs_own RS) all_n). lia.
Qed.
Lemma faces_eq i : i < length (x_sfaces x) -> cell_faces j' false i = Ok (map (fun ed => (fst ed, dz (snd ed))) (k_fe m' i)).
Proof.
  intros L. assert (Bi : behind j' CELL i i) by (apply (child_behind C' bk_cell I (rs_own RS) all_c); auto). rewrite (cell_faces_serial (rs_mesh RS) C' Bi). unfold cfaces_of. rewrite (rs_dim RS). cbn [Nat.eqb]. f_equal.
  apply map_ext_in. intros ed Ie. f_equal. assert (Ii : In i (k_all m' MFACE)) by (rewrite (rs_f RS); apply in_seq; lia).
  pose proof (mk_fe (rs_mesh RS) i (fst ed) Ii (in_map fst _ _ Ie)) as Q. rewrite (rs_e RS) in Q. apply in_seq in Q. apply (child_id C' bk_face hk_face' (rs_own RS) all_f). lia.
Qed.
Lemma face_nodes_eq n : n < length (x_edges x) -> face_nodes j' n = Ok [fst (k_ev m' n); snd (k_ev m' n)].
Proof.
  intros L. assert (Bi : behind j' FACE n n) by (apply (child_behind C' bk_face hk_face' (rs_own RS) all_f); auto). rewrite (face_nodes_serial (rs_mesh RS) C' Bi). unfold fverts. rewrite (rs_dim RS). cbn [Nat.eqb]. f_equal.
  apply map_id_in. assert (In_ : In n (k_all m' MEDGE)) by (rewrite (rs_e RS); apply in_seq; lia). destruct (mk_ev (rs_mesh RS) n In_) as (A & B & _). rewrite (rs_v RS), in_seq in A, B.
  intros v [<- |[<- |[]]]; apply (child_id C' bk_node I (rs_own RS) all_n); lia.
Qed.
Lemma id_e_behind e : In e (k_all m MEDGE) -> behind j (facet K) (id_of j MEDGE e) e.
Proof. intros I. destruct (skind C SK) as (_ & B & _ & E & _ & Hk). rewrite <- E in *. apply (behind_of C B (Hk He)); auto. Qed.
Lemma id_v_behind v : In v (k_all m MVERTEX) -> behind j NODE (id_of j MVERTEX v) v.
Proof. apply (behind_of C bk_node I). Qed.
Lemma in_ids_src p : In p ids -> exists f, In f src /\ behind j K p f.
Proof. intros I. apply (Forall2_in_l F I). Qed.

Lemma surface_ok :
  entities j' CELL TYPE_ALL = seq 0 (length ids) /\
  (forall i p, nth_error ids i = Some p -> parent j x j' CELL i p /\
     (exists ns' ns, cell_nodes j' i = Ok ns' /\ snodes j K p = Ok ns /\ Forall2 (parent j x j' NODE) ns' ns) /\
     (exists fs' fs, cell_faces j' false i = Ok fs' /\ sfaces j K p = Ok fs /\ Forall2 (fun a b => parent j x j' FACE (fst a) (fst b) /\ snd a = snd b) fs' fs)) /\
  (forall f', valid j' FACE f' -> exists f ns' ns, parent j x j' FACE f' f /\ face_nodes j' f' = Ok ns' /\ sface_nodes j K f = Ok ns /\ Forall2 (parent j x j' NODE) ns' ns) /\
  (forall K' i1 i2 p, K' = NODE \/ K' = FACE -> parent j x j' K' i1 p -> parent j x j' K' i2 p -> i1 = i2) /\
  (forall n, (exists n', valid j' NODE n' /\ parent j x j' NODE n' n) <-> exists p ns, In p ids /\ snodes j K p = Ok ns /\ In n ns) /\
  (forall f, (exists f', valid j' FACE f' /\ parent j x j' FACE f' f) <-> exists p fs, In p ids /\ sfaces j K p = Ok fs /\ In f (map fst fs)) /\
  (forall n' n v, parent j x j' NODE n' n -> behind j NODE n v -> nth_error (map snd (x_verts x)) n' = Some (co (X v))).
Proof.
  split; [|split; [|split; [|split; [|split; [|split]]]]].
  - rewrite <- len_ids. apply (child_all C' bk_cell I all_c).
  - intros i p Ei. destruct (src_at Ei) as (f & es & E2 & Bf & E4 & Fe & Ke). destruct (behind_ids Ei E2) as [_ Ip]. pose proof (lt_of_nth E4) as L. split; [|split].
    + apply par_cell. eauto.
    + eexists _, _. split; [apply nodes_eq; auto|]. split; [apply (snodes_ok W C SK Bf)|]. rewrite <- (map_id (k_fv m' i)). apply Forall2_map_lr. eapply Forall2_imp; [|exact (fv_copy Ei E2)].
      intros v' v Q. cbn beta in Q |- *. apply par_node. exists v. auto.
    + eexists _, _. split; [apply faces_eq; auto|]. split; [apply (sfaces_ok W C SK He Bf)|]. rewrite Ke. apply Forall2_map_lr. eapply Forall2_imp; [|exact Fe]. intros a b [A1 A2]. cbn [fst snd]. split; [|congruence].
      apply par_face. eauto.
  - intros f' V. apply (child_valid C' bk_face hk_face' (rs_own RS) all_f) in V. destruct (nth_error (x_edges x) f') as [[e [a b]]|] eqn:E; [|apply nth_error_None in E; lia].
    assert (Ie : In e (pe x)) by (apply (in_map fst _ _ (nth_error_In _ _ E))). exists (id_of j MEDGE e). eexists _, _. split; [apply par_face; exists e; split; auto; apply nth_map_fst; eauto|]. split; [apply face_nodes_eq; auto|].
    split; [apply (sface_nodes_ok W C SK He (id_e_behind (pe_in Ie)))|]. rewrite (rs_ev RS E). destruct (cs_ev CS (nth_error_In _ _ E)) as [V1 V2]. cbn [fst snd]. constructor; [|constructor; [|constructor]]; apply par_node; eauto.
  - intros K' i1 i2 p [-> | ->] P1 P2.
    + apply par_node in P1 as (v1 & E1 & ->), P2 as (v2 & E2 & Q). assert (v1 = v2). { apply (id_inj C bk_node I); auto; apply pv_in; eapply nth_error_In; eauto. } subst v2.
      apply (proj1 (NoDup_nth_error (pv x)) (cs_v_once CS)); [eapply lt_of_nth; eauto|congruence].
    + apply par_face in P1 as (v1 & E1 & ->), P2 as (v2 & E2 & Q). assert (v1 = v2). { pose proof (id_e_behind (pe_in (nth_error_In _ _ E1))) as B1. pose proof (id_e_behind (pe_in (nth_error_In _ _ E2))) as B2. rewrite Q in B1. apply (behind_fun B1 B2). } subst v2.
      apply (proj1 (NoDup_nth_error (pe x)) (cs_e_once CS)); [eapply lt_of_nth; eauto|congruence].
  - intros n. split.
    + intros (n' & _ & P). apply par_node in P as (v & E & ->). apply nth_error_In in E. apply (cs_v CS) in E as (e & Ie & Ve). apply (cs_e CS) in Ie as (f & If & Ef). destruct (Forall2_in_r F If) as (p & Ip & Bf).
      exists p. eexists. split; auto. split; [apply (snodes_ok W C SK Bf)|]. apply in_map. apply (fv_used W (src_in If)). eauto.
    + intros (p & ns & Ip & Es & In_). destruct (in_ids_src Ip) as (f & If & Bf). rewrite (snodes_ok W C SK Bf) in Es. injection Es as <-. apply in_map_iff in In_ as (v & <- & Iv). apply (fv_used W (src_in If)) in Iv as (e & Ee & Ve).
      assert (Ipv : In v (pv x)). { apply (cs_v CS). exists e. split; auto. apply (cs_e CS). eauto. } apply In_nth_error in Ipv as [n' En]. exists n'. split; [|apply par_node; eauto].
      apply (child_valid C' bk_node I (rs_own RS) all_n). apply lt_of_nth in En. unfold pv in En. rewrite map_length in En. auto.
  - intros g. split.
    + intros (n' & _ & P). apply par_face in P as (e & E & ->). apply nth_error_In in E. apply (cs_e CS) in E as (f & If & Ef). destruct (Forall2_in_r F If) as (p & Ip & Bf).
      exists p. eexists. split; auto. split; [apply (sfaces_ok W C SK He Bf)|]. rewrite map_map. cbn [fst]. apply in_map_iff in Ef as (ed & <- & Ied). apply in_map_iff. exists ed. auto.
    + intros (p & ns & Ip & Es & In_). destruct (in_ids_src Ip) as (f & If & Bf). rewrite (sfaces_ok W C SK He Bf) in Es. injection Es as <-. rewrite map_map in In_. cbn [fst] in In_. apply in_map_iff in In_ as (ed & <- & Ied).
      assert (Ipe : In (fst ed) (pe x)). { apply (cs_e CS). exists f. split; auto. apply in_map; auto. } apply In_nth_error in Ipe as [n' En]. exists n'. split; [|apply par_face; eauto].
      apply (child_valid C' bk_face hk_face' (rs_own RS) all_f). apply lt_of_nth in En. unfold pe in En. rewrite map_length in En. auto.
  - intros n' n v P Bv. apply par_node in P as (v' & E & ->). pose proof (id_v_behind (pv_in (nth_error_In _ _ E))) as Bv'. pose proof (behind_fun Bv Bv'). subst v'. apply nth_map_fst in E as [p E]. rewrite nth_error_map, E. cbn. f_equal.
    apply (cs_xyz CS (nth_error_In _ _ E)).
Qed.
End Surface.

(** ** The new mesh is a mesh *)
Lemma no_repeat_iff l : no_repeat l = true <-> NoDup l.
Proof.
  split; [apply nodup_nat_dec|]. induction 1 as [|a l N ND IH]; cbn; auto. rewrite IH, Bool.andb_true_r. apply Bool.negb_true_iff. destruct (has l a) eqn:E; auto. exfalso. apply N. apply has_iff; auto.
Qed.
Lemma pairs_eqb_refl l : pairs_eqb l l = true.
Proof. induction l as [|[a b] l IH]; cbn; auto. rewrite !Nat.eqb_refl, IH. auto. Qed.
(** what MSTK answers on the new surface mesh, as built by extract_mstk_mesh *)
Definition surface_mesh (x : xmesh) : mstk :=
  mesh_of 2 (fun k => match k with MVERTEX => seq 0 (length (x_verts x)) | MEDGE => seq 0 (length (x_edges x)) | MFACE => seq 0 (length (x_sfaces x)) | MREGION => [] end)
    (fun _ _ => PINTERIOR) (fun _ h => S h) (fun n => snd (nth n (x_edges x) (0, (0, 0)))) (fun n => snd (nth n (x_sfaces x) (0, []))) (fun _ => []).
Section IsMesh.
Variables (m : mstk) (X : nat -> xyz) (co : xyz -> xyz) (src : list nat) (x : xmesh).
Hypothesis (W : mstk_mesh m) (CS : copied_surface m X co src x) (Is : forall f, In f src -> In f (k_all m MFACE)).
Let ev (n : nat) : nat * nat := snd (nth n (x_edges x) (0, (0, 0))).
Let fe (n : nat) : list (nat * bool) := snd (nth n (x_sfaces x) (0, [])).
Let P (v' : nat) : nat := nth v' (pv x) 0.
Lemma ev_at n : n < length (x_edges x) -> exists e, nth_error (pe x) n = Some e /\ In e (k_all m MEDGE) /\ nth_error (pv x) (fst (ev n)) = Some (fst (k_ev m e)) /\ nth_error (pv x) (snd (ev n)) = Some (snd (k_ev m e)).
Proof.
  intros L. destruct (nth_error (x_edges x) n) as [[e [a b]]|] eqn:E; [|apply nth_error_None in E; lia]. exists e. split; [apply nth_map_fst; eauto|]. split.
  - assert (Ie : In e (pe x)) by (apply (in_map fst _ _ (nth_error_In _ _ E))). apply (cs_e CS) in Ie as (f & If & Ef). apply (mk_fe W f e); auto.
  - unfold ev. rewrite (nth_error_nth _ _ _ E). cbn [snd fst]. apply (cs_ev CS (nth_error_In _ _ E)).
Qed.
Lemma fe_at n : n < length (x_sfaces x) -> exists f, nth_error src n = Some f /\ In f (k_all m MFACE) /\ Forall2 (copy_dir (pe x)) (fe n) (k_fe m f).
Proof.
  intros L. destruct (nth_error (x_sfaces x) n) as [[f es]|] eqn:E; [|apply nth_error_None in E; lia]. exists f. assert (Q : nth_error src n = Some f) by (rewrite <- (cs_faces CS); apply nth_map_fst; eauto).
  split; auto. split; [apply Is; eapply nth_error_In; eauto|]. unfold fe. rewrite (nth_error_nth _ _ _ E). cbn [snd]. apply (cs_fe CS (nth_error_In _ _ E)).
Qed.
Lemma used_at ed ed' : copy_dir (pe x) ed' ed -> let u := b_used ev ed' in fst u < length (x_verts x) /\ snd u < length (x_verts x) /\ P (fst u) = fst (used m ed) /\ P (snd u) = snd (used m ed).
Proof.
  intros [A1 A2]. assert (L : fst ed' < length (x_edges x)) by (apply lt_of_nth in A1; unfold pe in A1; rewrite map_length in A1; auto). destruct (ev_at L) as (e & E & _ & V1 & V2). assert (e = fst ed) by congruence. subst e.
  assert (Q : forall a v, nth_error (pv x) a = Some v -> a < length (x_verts x) /\ P a = v). { intros a v H. split; [apply lt_of_nth in H; unfold pv in H; rewrite map_length in H; auto|]. apply (nth_error_nth _ _ _ H). }
  apply Q in V1 as [V1 P1], V2 as [V2 P2]. unfold b_used, used. cbn zeta. rewrite A2. fold ev. destruct (snd ed); cbn [swap fst snd]; auto.
Qed.
Lemma P_inj a b : a < length (x_verts x) -> b < length (x_verts x) -> P a = P b -> a = b.
Proof.
  intros La Lb E. assert (Lp : length (pv x) = length (x_verts x)) by (unfold pv; apply map_length). apply (proj1 (NoDup_nth_error (pv x)) (cs_v_once CS)); [lia|]. rewrite (nth_error_nth' (pv x) 0), (nth_error_nth' (pv x) 0) by lia. f_equal. exact E.
Qed.
Lemma map_inj_in A B (f : A -> B) (Q : A -> Prop) l l' : (forall a b, Q a -> Q b -> f a = f b -> a = b) -> (forall a, In a l -> Q a) -> (forall a, In a l' -> Q a) -> map f l = map f l' -> l = l'.
Proof.
  intros I. revert l'. induction l as [|a l IH]; intros [|b l'] H1 H2 E; cbn in E; try discriminate; auto. injection E as E1 E2. f_equal; [apply I; auto; [apply H1|apply H2]; left; auto|]. apply IH; auto; intros; [apply H1|apply H2]; right; auto.
Qed.
Lemma chain_at n : n < length (x_sfaces x) -> Geometry_spec.edges (b_fv ev fe n) = map (b_used ev) (fe n) /\ NoDup (b_fv ev fe n) /\ NoDup (map fst (fe n)) /\ 3 <= length (fe n) /\
  forall e, In e (map fst (fe n)) -> e < length (x_edges x).
Proof.
  intros L. destruct (fe_at L) as (f & _ & If & F). destruct (mk_fv W f If) as [U Nv]. destruct (mk_fe_nodup W f If) as [Ne L3].
  set (PP := fun e : nat * nat => (P (fst e), P (snd e))). set (Q := fun e : nat * nat => fst e < length (x_verts x) /\ snd e < length (x_verts x)).
  assert (E1 : map PP (map (b_used ev) (fe n)) = map (used m) (k_fe m f)).
  { rewrite map_map. clear - F CS W Is. induction F as [|a b l l' H F IH]; cbn [map]; auto. f_equal; auto. destruct (used_at H) as (_ & _ & A & B). unfold PP. rewrite A, B. destruct (used m b); auto. }
  assert (Q1 : forall e, In e (map (b_used ev) (fe n)) -> Q e). { intros e I. apply in_map_iff in I as (ed & <- & I). destruct (Forall2_in_l F I) as (b & _ & H). destruct (used_at H) as (A & B & _). split; auto. }
  assert (Bf : b_fv ev fe n = map fst (map (b_used ev) (fe n))) by (unfold b_fv; rewrite map_map; auto).
  assert (E2 : map P (b_fv ev fe n) = k_fv m f).
  { rewrite Bf, map_map. transitivity (map fst (map PP (map (b_used ev) (fe n)))); [rewrite !map_map; reflexivity|]. rewrite E1, <- U. apply map_fst_edges. }
  split; [|split; [|split; [|split]]].
  - apply (@map_inj_in _ _ PP Q).
    + intros [a b] [a' b'] [A1 A2] [B1 B2] E. unfold PP in E. cbn in *. injection E as Ea Eb. f_equal; apply P_inj; auto.
    + intros e I. apply Geometry_proofs.edges_In in I as [I1 I2]. rewrite Bf in I1, I2. apply in_map_iff in I1 as (e1 & E0 & I1), I2 as (e2 & E & I2). apply Q1 in I1 as [I1 _], I2 as [I2 _]. split; [rewrite <- E0; auto|]. rewrite <- E. auto.
    + exact Q1.
    + rewrite E1. transitivity (Geometry_spec.edges (map P (b_fv ev fe n))); [symmetry; apply Geometry_proofs.edges_map|]. rewrite E2, U. auto.
  - apply (NoDup_map_inv P). rewrite E2. auto.
  - clear - F Ne. revert Ne. induction F as [|a b l l' [A1 A2] F IH]; cbn [map]; intros Ne; constructor; inversion_clear Ne as [|? ? N1 N2]; auto. intros I. apply N1. apply in_map_iff in I as (a' & E & I).
    destruct (Forall2_in_l F I) as (b' & Ib & [B1 B2]). rewrite E, A1 in B1. injection B1 as ->. apply in_map; auto.
  - rewrite (Forall2_len F). auto.
  - intros e I. apply in_map_iff in I as (ed & <- & I). destruct (Forall2_in_l F I) as (b & _ & [A1 _]). apply lt_of_nth in A1. unfold pe in A1. rewrite map_length in A1. auto.
Qed.
Hypothesis (ND : NoDup src) (One : forall e d f1 f2, In f1 src -> In f2 src -> In (e, d) (k_fe m f1) -> In (e, d) (k_fe m f2) -> f1 = f2).
Lemma surface_is_mesh : mstk_mesh (surface_mesh x).
Proof.
  apply mesh_check_ok. unfold mesh_check. fold ev fe. cbn [Nat.eqb orb]. rewrite !Bool.andb_true_iff. repeat match goal with |- _ /\ _ => split end; try reflexivity; try (apply no_repeat_iff, seq_NoDup).
  - apply forallb_forall. intros n I. apply in_seq in I. destruct (@ev_at n) as (e & _ & Ie & V1 & V2); [lia|]. destruct (mk_ev W e Ie) as (_ & _ & D). apply lt_of_nth in V1 as L1. apply lt_of_nth in V2 as L2. unfold pv in L1, L2. rewrite map_length in L1, L2.
    change (snd (nth n (x_edges x) (0, (0, 0)))) with (ev n). rewrite !Bool.andb_true_iff, Bool.negb_true_iff, Nat.eqb_neq, !has_iff, !in_seq. split; [split; lia|]. intros E. rewrite E in V1. congruence.
  - apply forallb_forall. intros n I. apply in_seq in I. destruct (@chain_at n) as (E & Nv & Ne & L3 & Le); [lia|]. rewrite !Bool.andb_true_iff, !no_repeat_iff, Nat.leb_le. fold fe ev. rewrite E. split; [split; [split; [split|]|]|]; auto.
    + apply forallb_forall. intros e Ie. apply has_iff, in_seq. apply Le in Ie. lia.
    + apply pairs_eqb_refl.
  - unfold once. apply forallb_forall. intros a Ia. apply forallb_forall. intros [e d] Ie. apply forallb_forall. intros b Ib. rewrite in_seq in Ia, Ib. destruct (Nat.eqb_spec a b) as [|D]; auto. cbn [orb]. apply Bool.negb_true_iff.
    destruct (b_has2 (fe b) (e, d)) eqn:H; auto. apply has2_iff in H. exfalso. apply D. destruct (@fe_at a) as (fa & Ea & _ & Fa); [lia|]. destruct (@fe_at b) as (fb & Eb & _ & Fb); [lia|].
    destruct (Forall2_in_l Fa Ie) as ([p d1] & I1 & [A1 A2]), (Forall2_in_l Fb H) as ([q d2] & I2 & [B1 B2]). cbn [fst snd] in *. assert (p = q) by congruence. subst. assert (fa = fb) by (eapply One; eauto; eapply nth_error_In; eauto). subst fb.
    apply (proj1 (NoDup_nth_error src) ND); [apply (lt_of_nth Ea)|congruence].
Qed.
Lemma surface_realised : realises_surface x (surface_mesh x).
Proof.
  constructor; try reflexivity.
  - exact surface_is_mesh.
  - discriminate.
  - intros n e ab E. cbn. rewrite (nth_error_nth _ _ _ E). auto.
  - intros n e ab E. cbn. rewrite (nth_error_nth _ _ _ E). auto.
Qed.
End IsMesh.

(** ** C92 *)
(** a surface extracted from the entities [ids] of kind [K] of the mesh [j], and the mesh object made of it *)
Record surface_extracted (MAXPF3 MAXPV2 : nat) (m : mstk) (j : jmesh) (X : nat -> xyz) (flatten : bool) (K : entity_kind) (ids : list nat) (x : xmesh) (j' : jmesh) : Prop := {
  se_run : exists src s, sources_of_ids j K ids = Ok src /\ extract_mstk_mesh MAXPF3 MAXPV2 m X flatten (kind_to_mtype m K) false src = Ok s /\ x_mesh s = x;
  se_new : exists m' edges rcv, realises_surface x m' /\ constructed true false true edges m' rcv j' }.
(** a serial mesh with faces, and with edges if the surface is made of faces *)
Definition source_mesh (edges : bool) (m : mstk) (rcv : received) (j : jmesh) (K : entity_kind) : Prop :=
  mstk_mesh m /\ constructed true false true edges m rcv j /\ surface_kind m K /\ (K = FACE -> edges = true).

Lemma run_ok MAXPF3 MAXPV2 edges m rcv j X flatten K ids : source_mesh edges m rcv j K -> (forall p, In p ids -> valid j K p) ->
  (forall p fs, In p ids -> sfaces j K p = Ok fs -> length fs <= MAXPV2) ->
  exists src s, sources_of_ids j K ids = Ok src /\ extract_mstk_mesh MAXPF3 MAXPV2 m X flatten (kind_to_mtype m K) false src = Ok s /\ Forall2 (behind j K) ids src /\ copied_surface m X (flat flatten) src (x_mesh s).
Proof.
  intros (W & C & SK & He) V L. destruct (skind C SK) as (B & _ & Em & _ & Hk & _). destruct (sources_ok C B Hk V) as (src & E & F).
  assert (Ek : kind_to_mtype m K = mkind_of m K) by (destruct SK as [[-> _]|[-> _]]; auto).
  destruct (@extract_surface MAXPF3 MAXPV2 m X flatten src) as (s & Es & CS & _).
  { intros f If. destruct (Forall2_in_r F If) as (p & Ip & Bp). specialize (L p _ Ip (sfaces_ok W C SK He Bp)). rewrite map_length in L. auto. }
  exists src, s. rewrite Ek, Em. split; [|split; [|split]]; auto. unfold sources_of_ids. rewrite (mj_mesh (constructed_made C)), Ek. auto.
Qed.
(** an extraction that went through, taken apart *)
Lemma run_inv MAXPF3 MAXPV2 edges m rcv j X flatten K ids x j' : source_mesh edges m rcv j K -> (forall p, In p ids -> valid j K p) ->
  (forall p fs, In p ids -> sfaces j K p = Ok fs -> length fs <= MAXPV2) -> surface_extracted MAXPF3 MAXPV2 m j X flatten K ids x j' ->
  exists src m' edges' rcv', Forall2 (behind j K) ids src /\ copied_surface m X (flat flatten) src x /\ realises_surface x m' /\ constructed true false true edges' m' rcv' j'.
Proof.
  intros S V L [(src & s & E1 & E2 & <-) (m' & edges' & rcv' & RS & C')]. destruct (@run_ok MAXPF3 MAXPV2 _ _ _ _ X flatten _ ids S V L) as (src' & s' & E1' & E2' & F & CS).
  assert (src' = src) by congruence. subst src'. assert (s' = s) by congruence. subst s'. exists src, m', edges', rcv'. auto.
Qed.
(** C92.  The extraction succeeds for any list of valid ids, and if no id is repeated and no two of the entities use an edge in the same direction - always so for the cells of a
    2D mesh - the result is a mesh again, on which a mesh object can be made. *)
Theorem c92_extraction_succeeds : forall MAXPF3 MAXPV2 edges m rcv j X flatten K ids, source_mesh edges m rcv j K -> (forall p, In p ids -> valid j K p) -> NoDup ids ->
  (forall p fs, In p ids -> sfaces j K p = Ok fs -> length fs <= MAXPV2) ->
  (K = FACE -> forall p1 p2 fs1 fs2 e d, In p1 ids -> In p2 ids -> sfaces j K p1 = Ok fs1 -> sfaces j K p2 = Ok fs2 -> In (e, d) fs1 -> In (e, d) fs2 -> p1 = p2) ->
  exists x j', surface_extracted MAXPF3 MAXPV2 m j X flatten K ids x j'.
Proof.
  intros MAXPF3 MAXPV2 edges m rcv j X flatten K ids S V ND L One. destruct (@run_ok MAXPF3 MAXPV2 _ _ _ _ X flatten _ ids S V L) as (src & s & E1 & E2 & F & CS). destruct S as (W & C & SK & He).
  assert (Is : forall f, In f src -> In f (k_all m MFACE)) by (intros f I; apply (src_in C SK F I)). destruct (skind C SK) as (B & Bf & Em & Ef & Hk & Hf). specialize (Hf He).
  assert (NS : NoDup src).
  { clear - F ND C B Hk. induction F as [|p f ids src H F IH]; constructor; inversion_clear ND as [|? ? N1 N2]; auto. intros I. apply N1. destruct (Forall2_in_r F I) as (p' & Ip & Bp).
    destruct (c85_one_entity_per_id C B Hk) as (_ & _ & _ & U). rewrite (U _ _ _ H Bp). auto. }
  assert (O : forall e d f1 f2, In f1 src -> In f2 src -> In (e, d) (k_fe m f1) -> In (e, d) (k_fe m f2) -> f1 = f2).
  { intros e d f1 f2 I1 I2 H1 H2. destruct (Forall2_in_r F I1) as (p1 & Ip1 & B1), (Forall2_in_r F I2) as (p2 & Ip2 & B2). pose proof SK as SK0. destruct SK0 as [[-> D]|[EK D]]; [apply (mk_2d W D e f1 f2 d); auto|].
    assert (p1 = p2). { eapply (One EK p1 p2 _ _ (id_of j MEDGE e) (dz d) Ip1 Ip2 (sfaces_ok W C SK He B1) (sfaces_ok W C SK He B2)).
      - apply in_map_iff. exists (e, d). auto.
      - apply in_map_iff. exists (e, d). auto. }
    subst p2. apply (behind_fun B1 B2). }
  pose proof (surface_realised W CS Is NS O) as RS. destruct (@c85_construction true false true false (surface_mesh (x_mesh s)) (fun _ _ => (0, 0)) (mk_nodup (rs_mesh RS))) as [[j' Ej]|[Q _]]; [|discriminate].
  exists (x_mesh s), j'. constructor.
  - exists src, s. auto.
  - exists (surface_mesh (x_mesh s)), false, (fun _ _ => (0, 0)). split; auto. split; auto. exact (mk_nodup (rs_mesh RS)).
Qed.
Section Theorems.
Variables (MAXPF3 MAXPV2 : nat) (edges : bool) (m : mstk) (rcv : received) (j : jmesh) (X : nat -> xyz) (flatten : bool) (K : entity_kind) (ids : list nat) (x : xmesh) (j' : jmesh).
Hypothesis (S : source_mesh edges m rcv j K) (V : forall p, In p ids -> valid j K p) (L : forall p fs, In p ids -> sfaces j K p = Ok fs -> length fs <= MAXPV2).
Hypothesis E : surface_extracted MAXPF3 MAXPV2 m j X flatten K ids x j'.
(** C92.  The new mesh has one cell per id of the list, in the order of the list: its parent is that entity; its nodes and its faces (with directions) are copies of the nodes
    and bounding entities of the parent, in the same order. *)
Theorem c92_cells :
  entities j' CELL TYPE_ALL = seq 0 (length ids) /\
  forall i p, nth_error ids i = Some p -> parent j x j' CELL i p /\
     (exists ns' ns, cell_nodes j' i = Ok ns' /\ snodes j K p = Ok ns /\ Forall2 (parent j x j' NODE) ns' ns) /\
     (exists fs' fs, cell_faces j' false i = Ok fs' /\ sfaces j K p = Ok fs /\ Forall2 (fun a b => parent j x j' FACE (fst a) (fst b) /\ snd a = snd b) fs' fs).
Proof. destruct (run_inv S V L E) as (src & m' & edges' & rcv' & F & CS & RS & C'). destruct S as (W & C & SK & He). destruct (surface_ok W C SK He F CS RS C') as (H1 & H2 & _). auto. Qed.
(** C92.  Every face of the new mesh has a parent - a face of a 2D mesh, an edge of a 3D mesh - and its nodes are copies of the parent's, in the same order. *)
Theorem c92_faces : forall f', valid j' FACE f' ->
  exists f ns' ns, parent j x j' FACE f' f /\ face_nodes j' f' = Ok ns' /\ sface_nodes j K f = Ok ns /\ Forall2 (parent j x j' NODE) ns' ns.
Proof. destruct (run_inv S V L E) as (src & m' & edges' & rcv' & F & CS & RS & C'). destruct S as (W & C & SK & He). destruct (surface_ok W C SK He F CS RS C') as (_ & _ & H & _). auto. Qed.
(** C92.  Nothing is copied twice, and exactly the nodes and bounding entities of the chosen entities are copied. *)
Theorem c92_no_more_no_less :
  (forall K' i1 i2 p, K' = NODE \/ K' = FACE -> parent j x j' K' i1 p -> parent j x j' K' i2 p -> i1 = i2) /\
  (forall n, (exists n', valid j' NODE n' /\ parent j x j' NODE n' n) <-> exists p ns, In p ids /\ snodes j K p = Ok ns /\ In n ns) /\
  (forall f, (exists f', valid j' FACE f' /\ parent j x j' FACE f' f) <-> exists p fs, In p ids /\ sfaces j K p = Ok fs /\ In f (map fst fs)).
Proof. destruct (run_inv S V L E) as (src & m' & edges' & rcv' & F & CS & RS & C'). destruct S as (W & C & SK & He). destruct (surface_ok W C SK He F CS RS C') as (_ & _ & _ & H1 & H2 & H3 & _). auto. Qed.
(** C92.  A node of the new mesh lies where its parent lies; if the surface is flattened, at height 0. *)
Theorem c92_coordinates : forall n' n v, parent j x j' NODE n' n -> behind j NODE n v ->
  nth_error (map snd (x_verts x)) n' = Some (if flatten then (fst (X v), 0%R) else X v).
Proof. destruct (run_inv S V L E) as (src & m' & edges' & rcv' & F & CS & RS & C'). destruct S as (W & C & SK & He). destruct (surface_ok W C SK He F CS RS C') as (_ & _ & _ & _ & _ & _ & H). intros n' n v P Bv. rewrite (H n' n v P Bv). reflexivity. Qed.
End Theorems.
(** Finding: a repeated id gives the same cell twice, and the result is not a mesh *)
Theorem c92_repeated_id_refuted : forall MAXPF3 MAXPV2 edges m rcv j X flatten K ids x j', source_mesh edges m rcv j K -> (forall p, In p ids -> valid j K p) ->
  (forall p fs, In p ids -> sfaces j K p = Ok fs -> length fs <= MAXPV2) -> ~ NoDup ids -> ~ surface_extracted MAXPF3 MAXPV2 m j X flatten K ids x j'.
Proof.
  intros MAXPF3 MAXPV2 edges m rcv j X flatten K ids x j' S V L ND E. destruct (run_inv S V L E) as (src & m' & edges' & rcv' & F & CS & RS & C'). destruct S as (W & C & SK & He). apply ND.
  apply NoDup_nth_error. intros i i' Li Q. destruct (nth_error ids i) as [p|] eqn:E1; [|apply nth_error_None in E1; lia]. symmetry in Q.
  destruct (src_at F CS RS E1) as (f & es & E2 & B1 & X1 & F1 & K1), (src_at F CS RS Q) as (f' & es' & E2' & B1' & X1' & F1' & K1'). pose proof (behind_fun B1 B1'). subst f'.
  assert (If : In f (k_all m MFACE)) by (apply (src_in C SK F); eapply nth_error_In; eauto). destruct (mk_fe_nodup W f If) as [_ L3]. destruct (k_fe m f) as [|[e d] r]; [cbn in L3; lia|].
  inversion F1 as [|[a da] ? l ? [A1 A2] F1r]; subst. inversion F1' as [|[b db] ? l' ? [B2 B3] F1r']; subst. cbn [fst snd] in *. assert (a = b). { apply (proj1 (NoDup_nth_error (pe x)) (cs_e_once CS)); [apply (lt_of_nth A1)|congruence]. } subst b.
  apply (mk_2d (rs_mesh RS) (rs_dim RS) a i i' d).
  - rewrite (rs_f RS). apply in_seq. apply lt_of_nth in X1. lia.
  - rewrite (rs_f RS). apply in_seq. apply lt_of_nth in X1'. lia.
  - rewrite <- H. left. congruence.
  - rewrite <- H0. left. congruence.
Qed.
(** C92.  What is refused: extruding, flattening a set of cells of a 3D mesh, extracting edges or nodes.  An id that is not there is undefined. *)
Theorem c92_refused : forall MAXPF3 MAXPV2 m X flatten dim src,
  extract_mstk_mesh MAXPF3 MAXPV2 m X flatten dim true src = Thrown /\ extract_mstk_mesh MAXPF3 MAXPV2 m X true MREGION false src = Thrown /\
  extract_mstk_mesh MAXPF3 MAXPV2 m X flatten MEDGE false src = Thrown /\ extract_mstk_mesh MAXPF3 MAXPV2 m X flatten MVERTEX false src = Thrown.
Proof. intros. split; [reflexivity|]. split; [reflexivity|]. split; destruct flatten; reflexivity. Qed.
Theorem c92_bad_id_refuted : forall edges m rcv j K pre p post, source_mesh edges m rcv j K -> (forall q, In q pre -> valid j K q) -> ~ valid j K p -> sources_of_ids j K (pre ++ p :: post) = UB.
Proof.
  intros edges m rcv j K pre p post (W & C & SK & He) V N. destruct (skind C SK) as (B & _ & _ & _ & Hk & _). assert (Ek : kind_to_mtype m K = mkind_of m K) by (destruct SK as [[-> _]|[-> _]]; auto).
  unfold sources_of_ids. rewrite (mj_mesh (constructed_made C)), Ek. induction pre as [|q pre IH]; cbn [app mapM].
  - rewrite (from_id_none C B Hk N). auto.
  - destruct (c85_one_entity_per_id C B Hk) as (Hv & _). destruct (proj1 (Hv q)) as [h Eh]; [apply V; left; auto|]. rewrite (proj2 (from_id_ok C B Hk q h) Eh). cbn [bind]. rewrite IH; auto. intros; apply V; right; auto.
Qed.

(** ** Witnesses *)
(** two faces of a hexahedron that share an edge; ids 0 and 2 *)
Definition hps_j : jmesh := match construct true false true true hp_mesh hp_rcv with Ok j => j | _ => ex_j end.
Lemma hps_constructed : constructed true false true true hp_mesh hp_rcv hps_j.
Proof. split; [intros []; nodup|]. apply is_ok_eq. vm_compute. reflexivity. Qed.
Lemma hps_source : source_mesh true hp_mesh hp_rcv hps_j FACE.
Proof. split; [exact hp_is_mesh|]. split; [exact hps_constructed|]. split; [right; split; reflexivity|auto]. Qed.
Lemma hps_valid : forall p, In p [0; 2] -> valid hps_j FACE p.
Proof. intros p I. each I; vm_compute; tauto. Qed.
Lemma hps_sfaces : sfaces hps_j FACE 0 = Ok [(3, (-1)%Z); (2, (-1)%Z); (1, (-1)%Z); (0, (-1)%Z)] /\ sfaces hps_j FACE 2 = Ok [(0, (1)%Z); (9, (1)%Z); (4, (-1)%Z); (8, (-1)%Z)].
Proof. split; vm_compute; reflexivity. Qed.
Lemma two_lists (g : nat -> outcome (list (nat * Z))) : g 0 = Ok [(3, (-1)%Z); (2, (-1)%Z); (1, (-1)%Z); (0, (-1)%Z)] -> g 2 = Ok [(0, 1%Z); (9, 1%Z); (4, (-1)%Z); (8, (-1)%Z)] ->
  (forall p fs, In p [0; 2] -> g p = Ok fs -> length fs <= 10) /\
  (forall p1 p2 fs1 fs2 e d, In p1 [0; 2] -> In p2 [0; 2] -> g p1 = Ok fs1 -> g p2 = Ok fs2 -> In (e, d) fs1 -> In (e, d) fs2 -> p1 = p2).
Proof.
  intros E0 E2. split.
  - intros p fs I E. each I; [rewrite E0 in E|rewrite E2 in E]; injection E as <-; cbn; lia.
  - intros p1 p2 fs1 fs2 e d [<- |[<- |[]]] [<- |[<- |[]]] H1 H2 A B; auto; exfalso; [assert (X1 := eq_trans (eq_sym H1) E0); assert (X2 := eq_trans (eq_sym H2) E2)|assert (X1 := eq_trans (eq_sym H1) E2); assert (X2 := eq_trans (eq_sym H2) E0)];
      injection X1 as ->; injection X2 as ->; cbn in A, B; intuition congruence.
Qed.
Example c92_witness : forall X, exists x j', surface_extracted 12 10 hp_mesh hps_j X true FACE [0; 2] x j' /\
  parent hps_j x j' CELL 1 2 /\ (exists ns', cell_nodes j' 1 = Ok ns' /\ Forall2 (parent hps_j x j' NODE) ns' [0; 1; 5; 4]).
Proof.
  intros X. destruct hps_sfaces as [E0 E2]. destruct (@two_lists (sfaces hps_j FACE) E0 E2) as [L One].
  destruct (@c92_extraction_succeeds 12 10 true hp_mesh hp_rcv hps_j X true FACE [0; 2] hps_source hps_valid) as (x & j' & E); [nodup|exact L|intros _; exact One|].
  - exists x, j'. split; auto. destruct (c92_cells hps_source hps_valid L E) as [_ H]. destruct (H 1 2 eq_refl) as (P & (ns' & ns & N1 & N2 & N3) & _). split; auto. exists ns'. split; auto.
    assert (ns = [0; 1; 5; 4]) by (vm_compute in N2; congruence). subst ns. auto.
Qed.
(** the cells of a 2D mesh *)
Definition exs_j : jmesh := match construct true false true false ex_mesh ex_rcv with Ok j => j | _ => ex_j end.
Example c92_witness_2d : source_mesh false ex_mesh ex_rcv exs_j CELL /\ (forall p, In p [1; 0] -> valid exs_j CELL p) /\ sfaces exs_j CELL 1 = Ok [(5, (1)%Z); (4, (1)%Z); (1, (-1)%Z)] /\ snodes exs_j CELL 1 = Ok [3; 4; 1] /\
  forall X, match extract_mstk_mesh 12 10 ex_mesh X false MFACE false [31; 30] with Ok s => map fst (x_sfaces (x_mesh s)) = [31; 30] /\ pv (x_mesh s) = [11; 14; 12; 10; 13] /\ pe (x_mesh s) = [25; 24; 21; 20; 22; 23] | _ => False end.
Proof.
  split; [split; [exact ex_is_mesh|]; split; [split; [intros []; nodup|apply is_ok_eq; vm_compute; reflexivity]|]; split; [left; split; reflexivity|discriminate]|].
  split; [intros p I; each I; vm_compute; tauto|]. split; [vm_compute; reflexivity|]. split; [vm_compute; reflexivity|]. intros X. vm_compute. auto.
Qed.
Print Assumptions c92_extraction_succeeds.
Print Assumptions c92_cells.
Print Assumptions c92_faces.
Print Assumptions c92_no_more_no_less.
Print Assumptions c92_coordinates.
Print Assumptions c92_repeated_id_refuted.
Print Assumptions c92_refused.
Print Assumptions c92_bad_id_refuted.
