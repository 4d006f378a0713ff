(** C86: the upward and same-level adjacency queries of the MSTK framework. *)
From Coq Require Import Permutation.
From Verif Require Import Base Loop Defs MeshSet_proofs Cache Cache_proofs MstkMesh MstkMesh_spec MstkMesh_proofs MstkMesh_examples Props_MstkIds MstkMesh_proofs2.
Set Implicit Arguments. Unset Strict Implicit.

Section Adj.
Variables (serial faces edges : bool) (m : mstk) (rcv : received) (j : jmesh).
Hypothesis W : mstk_mesh m.
Hypothesis C : constructed serial false faces edges m rcv j.
Let M : made serial false faces edges m rcv j := constructed_made C.
Let Jm : j_mesh j = m := mj_mesh M.
Lemma hk_cell : has_kind j CELL. Proof. exact I. Qed.
Lemma hk_node : has_kind j NODE. Proof. exact I. Qed.
Lemma noc n v c h : behind j NODE n v -> behind j CELL c h -> node_of_cell j n c <-> In v (cverts m h).
Proof.
  intros En Ec. unfold node_of_cell. rewrite (cell_nodes_ok C Ec). destruct (behind_in C bk_cell hk_cell Ec) as [Ih _]. destruct (cverts_ok W Ih) as [Hi _].
  pose proof (map_id_In C bk_node hk_node Hi En) as X. cbn [mkind_of] in X. split; [intros (ns & E & In'); injection E as <-; tauto|eauto].
  intros Iv. eexists. split; [reflexivity|]. tauto.
Qed.
Lemma nof n v f h : faces = true -> behind j NODE n v -> behind j FACE f h -> node_of_face j n f <-> In v (fverts m h).
Proof.
  intros Hf En Ef. unfold node_of_face. destruct (face_nodes_ok W C Hf Ef) as (vs & E & P & _). rewrite E.
  destruct (behind_in C bk_face (proj2 (faces_kind C) Hf) Ef) as [Ih _]. destruct (fverts_ok W Ih) as [Hi _].
  assert (Hvs : incl vs (k_all m (mkind_of m NODE))) by (intros x Ix; apply Hi, (Permutation_in _ P); auto).
  pose proof (map_id_In C bk_node hk_node Hvs En) as X. cbn [mkind_of] in X.
  assert (Y : In v vs <-> In v (fverts m h)) by (split; apply Permutation_in; auto using Permutation_sym). split.
  - intros (ns & E' & In'). injection E' as <-. tauto.
  - intros Iv. eexists. split; [reflexivity|]. tauto.
Qed.
Lemma foc f g c h : faces = true -> behind j FACE f g -> behind j CELL c h -> face_of_cell j f c <-> In g (map fst (cfaces_of m h)).
Proof.
  intros Hf Ef Ec. unfold face_of_cell. rewrite (cell_faces_ok W C Hf Ec). destruct (behind_in C bk_cell hk_cell Ec) as [Ih _]. destruct (cfaces_ok W Ih) as [Hi _].
  pose proof (map_id_In C bk_face (proj2 (faces_kind C) Hf) Hi Ef) as X. cbn [mkind_of] in X.
  assert (Y : map fst (map (jface m j) (cfaces_of m h)) = map (id_of j (face_kind m)) (map fst (cfaces_of m h))) by (rewrite !map_map; reflexivity).
  split.
  - intros (fs & E & If). injection E as <-. rewrite Y in If. tauto.
  - intros Ig. eexists. split; [reflexivity|]. rewrite Y. tauto.
Qed.
Lemma cell_behind c : (exists h, behind j CELL c h) <-> valid j CELL c.
Proof. symmetry. apply (valid_behind C _ bk_cell hk_cell). Qed.
Lemma typed_behind K ty i : base_kind K -> has_kind j K -> In i (entities j K ty) -> exists h, behind j K i h.
Proof.
  intros B Hk Hi. pose proof (c85_ids_by_type C B Hk) as (no & ng & nb & A1 & A2 & A3 & A4 & _). apply (valid_behind C _ B Hk). rewrite A4. apply in_seq.
  destruct ty; cbn [entities] in *; rewrite ?A1, ?A2, ?A3, ?A4 in Hi; try (destruct Hi; fail); apply in_seq in Hi; lia.
Qed.
Lemma node_cells_ok n v ty : behind j NODE n v -> node_cells j n ty = Ok (of_type j ty (cell_kind m) (vcells m v)).
Proof.
  intros E. unfold node_cells. pose proof (proj2 (rd_table j NODE n v) E) as R. cbn [table] in R. rewrite R. cbn [bind]. rewrite Jm. unfold cell_kind, vcells. destruct (dim_cases W) as [[-> ->]|[-> ->]]; reflexivity.
Qed.
Lemma node_faces_ok n v ty : faces = true -> behind j NODE n v -> node_faces j n ty = Ok (of_type j ty (face_kind m) (vfaces m v)).
Proof.
  intros Hf E. unfold node_faces, asserting. rewrite (mj_faces M), Hf. pose proof (proj2 (rd_table j NODE n v) E) as R. cbn [table] in R. rewrite R. cbn [bind]. rewrite Jm. unfold face_kind, vfaces. destruct (dim_cases W) as [[-> ->]|[-> ->]]; reflexivity.
Qed.
Lemma face_cells_ok f g ty : faces = true -> behind j FACE f g -> face_cells j f ty = Ok (of_type j ty (cell_kind m) (fcells m g)).
Proof.
  intros Hf E. unfold face_cells, asserting. rewrite (mj_faces M), Hf. pose proof (proj2 (rd_table j FACE f g) E) as R. cbn [table] in R. rewrite R. cbn [bind]. rewrite Jm. unfold cell_kind, fcells. destruct (dim_cases W) as [[-> ->]|[-> ->]]; reflexivity.
Qed.
Lemma face_adj_ok c h ty : faces = true -> behind j CELL c h -> face_adj_cells j c ty = Ok (flat_map (fun fd => of_type j ty (cell_kind m) (filter (fun h2 => negb (h2 =? h)) (fcells m (fst fd)))) (cfaces_of m h)).
Proof.
  intros Hf E. unfold face_adj_cells, asserting. rewrite (mj_faces M), Hf. pose proof (proj2 (rd_table j CELL c h) E) as R. cbn [table] in R. rewrite R. cbn [bind]. rewrite Jm. unfold cell_kind, fcells, cfaces_of. destruct (dim_cases W) as [[-> ->]|[-> ->]]; reflexivity.
Qed.
Lemma node_adj_ok c h ty : behind j CELL c h -> node_adj_cells j c ty = Ok (of_type j ty (cell_kind m) (gather h (map (vcells m) (cverts m h)))).
Proof.
  intros E. unfold node_adj_cells. pose proof (proj2 (rd_table j CELL c h) E) as R. cbn [table] in R. rewrite R. cbn [bind]. rewrite Jm. unfold cell_kind, vcells, cverts. destruct (dim_cases W) as [[-> ->]|[-> ->]]; reflexivity.
Qed.
Lemma node_cell_faces_ok n v c h ty : faces = true -> behind j NODE n v -> behind j CELL c h ->
  node_cell_faces j n c ty = Ok (of_type j ty (face_kind m) (filter (fun f => has (fverts m f) v) (map fst (cfaces_of m h)))).
Proof.
  intros Hf E E2. unfold node_cell_faces, asserting. rewrite (mj_faces M), Hf. pose proof (proj2 (rd_table j NODE n v) E) as R. cbn [table] in R. rewrite R. cbn [bind].
  pose proof (proj2 (rd_table j CELL c h) E2) as R2. cbn [table] in R2. rewrite R2. cbn [bind]. rewrite Jm. unfold face_kind, fverts, cfaces_of. destruct (dim_cases W) as [[-> ->]|[-> ->]]; auto.
  do 2 f_equal. apply filter_ext. intros e. unfold has. simpl. rewrite orb_false_r, !(Nat.eqb_sym v). reflexivity.
Qed.
Lemma has_In l x : has l x = true <-> In x l.
Proof. unfold has. rewrite existsb_exists. split; [intros (y & I & E); apply Nat.eqb_eq in E; subst y; auto|intros I; exists x; rewrite Nat.eqb_refl; auto]. Qed.
Lemma gather_ok h gs : NoDup (gather h gs) /\ forall x, In x (gather h gs) <-> x <> h /\ exists g, In g gs /\ In x g.
Proof.
  unfold gather.
  assert (A : forall g seen, NoDup seen -> let r := fold_left (fun seen h2 => if negb (h2 =? h) && negb (has seen h2) then seen ++ [h2] else seen) g seen in
     NoDup r /\ forall x, In x r <-> In x seen \/ (x <> h /\ In x g)).
  { induction g as [|y g IH]; intros seen N; cbn [fold_left]; [simpl; split; auto; tauto|].
    destruct (negb (y =? h) && negb (has seen y)) eqn:T.
    - apply andb_prop in T as [T1 T2]. apply negb_true_iff in T1, T2. apply Nat.eqb_neq in T1. apply not_true_iff_false in T2. rewrite has_In in T2.
      destruct (IH (seen ++ [y])) as [N' H'].
      { apply NoDup_app_iff. split; auto. split; [repeat constructor; intros []|]. intros x Ix [<-|[]]. auto. }
      split; auto. intros x. rewrite H', in_app_iff. simpl. split; [intuition congruence|]. intuition.
    - destruct (IH seen N) as [N' H']. split; auto. intros x. rewrite H'. simpl. split; [tauto|]. intros [Q|[Q [->|Q2]]]; auto.
      apply andb_false_iff in T as [T|T]; apply negb_false_iff in T; [apply Nat.eqb_eq in T; congruence|]. apply has_In in T. auto. }
  assert (B : forall gs seen, NoDup seen -> let r := fold_left (fun seen g => fold_left (fun seen h2 => if negb (h2 =? h) && negb (has seen h2) then seen ++ [h2] else seen) g seen) gs seen in
     NoDup r /\ forall x, In x r <-> In x seen \/ (x <> h /\ exists g, In g gs /\ In x g)).
  { induction gs0 as [|g gs0 IH]; intros seen N; cbn [fold_left].
    - split; auto. intros x. split; auto. intros [Q|(_ & g & [] & _)]; auto.
    - destruct (A g seen N) as [N1 H1]. destruct (IH _ N1) as [N2 H2]. split; auto. intros x. rewrite H2, H1. split.
      + intros [[Q|[Q1 Q2]]|(Q1 & g' & Q2 & Q3)]; auto; right; split; auto; [exists g|exists g']; simpl; auto.
      + intros [Q|(Q1 & g' & [<-|Q2] & Q3)]; auto. right. eauto. }
  destruct (B gs [] (NoDup_nil _)) as [N H]. split; auto. intros x. rewrite H. simpl. tauto.
Qed.
End Adj.

(** C86.  Cells of a node: exactly the cells of the type that list the node, each once. *)
Theorem c86_node_cells : forall serial faces edges m rcv j n ty, mstk_mesh m -> constructed serial false faces edges m rcv j -> valid j NODE n ->
  exists l, node_cells j n ty = Ok l /\ NoDup l /\ forall c, In c l <-> In c (entities j CELL ty) /\ node_of_cell j n c.
Proof.
  intros serial faces edges m rcv j n ty W C V. apply (valid_behind C _ bk_node I) in V as [v En]. rewrite (node_cells_ok W C ty En).
  destruct (behind_in C bk_node I En) as [Iv _]. destruct (vcells_ok W Iv) as [N H].
  assert (Hi : incl (vcells m v) (k_all m (mkind_of m CELL))) by (intros h Ih; apply H in Ih; tauto).
  eexists. split; [reflexivity|]. split; [apply (of_type_nodup C ty bk_cell I Hi N)|]. intros c. etransitivity; [apply (of_type_In C ty c bk_cell I Hi)|].
  split; intros [T Q]; (split; [exact T|]).
  - destruct Q as (h & E & Ih). apply (noc W C En E). apply H. auto.
  - destruct (typed_behind C bk_cell I T) as [h E]. exists h. split; auto. apply H. split; [apply (behind_in C bk_cell I E)|]. apply (noc W C En E). auto.
Qed.
(** C86.  Faces of a node. *)
Theorem c86_node_faces : forall serial edges m rcv j n ty, mstk_mesh m -> constructed serial false true edges m rcv j -> valid j NODE n ->
  exists l, node_faces j n ty = Ok l /\ NoDup l /\ forall f, In f l <-> In f (entities j FACE ty) /\ node_of_face j n f.
Proof.
  intros serial edges m rcv j n ty W C V. apply (valid_behind C _ bk_node I) in V as [v En]. rewrite (node_faces_ok W C ty eq_refl En).
  pose proof (proj2 (faces_kind C) eq_refl) as Hk.
  destruct (behind_in C bk_node I En) as [Iv _]. destruct (vfaces_ok W Iv) as [N H].
  assert (Hi : incl (vfaces m v) (k_all m (mkind_of m FACE))) by (intros h Ih; apply H in Ih; tauto).
  eexists. split; [reflexivity|]. split; [apply (of_type_nodup C ty bk_face Hk Hi N)|]. intros f. etransitivity; [apply (of_type_In C ty f bk_face Hk Hi)|].
  split; intros [T Q]; (split; [exact T|]).
  - destruct Q as (h & E & Ih). apply (nof W C eq_refl En E). apply H. auto.
  - destruct (typed_behind C bk_face Hk T) as [h E]. exists h. split; auto. apply H. split; [apply (behind_in C bk_face Hk E)|]. apply (nof W C eq_refl En E). auto.
Qed.
(** C86.  Faces of a cell at a node. *)
Theorem c86_node_cell_faces : forall serial edges m rcv j n c ty, mstk_mesh m -> constructed serial false true edges m rcv j -> valid j NODE n -> valid j CELL c ->
  exists l, node_cell_faces j n c ty = Ok l /\ NoDup l /\ forall f, In f l <-> In f (entities j FACE ty) /\ node_of_face j n f /\ face_of_cell j f c.
Proof.
  intros serial edges m rcv j n c ty W C V Vc. apply (valid_behind C _ bk_node I) in V as [v En]. apply (valid_behind C _ bk_cell I) in Vc as [h Ec]. rewrite (node_cell_faces_ok W C ty eq_refl En Ec).
  pose proof (proj2 (faces_kind C) eq_refl) as Hk. destruct (behind_in C bk_cell I Ec) as [Ih _]. destruct (cfaces_ok W Ih) as [Hi N].
  assert (Hi' : incl (filter (fun f => has (fverts m f) v) (map fst (cfaces_of m h))) (k_all m (mkind_of m FACE))) by (intros x Ix; apply filter_In in Ix as [Ix _]; apply Hi; auto).
  eexists. split; [reflexivity|]. split; [apply (of_type_nodup C ty bk_face Hk Hi'), NoDup_filter; auto|]. intros f. etransitivity; [apply (of_type_In C ty f bk_face Hk Hi')|].
  split; intros [T Q]; (split; [exact T|]).
  - destruct Q as (g & E & Ig). apply filter_In in Ig as [Ig Hv]. split; [apply (nof W C eq_refl En E); apply has_In; auto|apply (foc W C eq_refl E Ec); auto].
  - destruct Q as [Q1 Q2]. destruct (typed_behind C bk_face Hk T) as [g E]. exists g. split; auto. apply filter_In. split; [apply (foc W C eq_refl E Ec); auto|]. apply has_In. apply (nof W C eq_refl En E). auto.
Qed.
Lemma three_two A (eqd : forall x y : A, {x = y} + {x <> y}) (l : list A) : NoDup l -> (forall a b c, In a l -> In b l -> In c l -> a = b \/ a = c \/ b = c) -> length l <= 2.
Proof.
  intros N H. destruct l as [|a [|b [|c l]]]; simpl; try lia. exfalso. apply NoDup_cons_iff in N as [N1 N]. apply NoDup_cons_iff in N as [N2 N].
  destruct (H a b c) as [Q|[Q|Q]]; simpl; auto; subst; [apply N1|apply N1|apply N2]; simpl; auto.
Qed.
(** C86.  Cells of a face: at most two. *)
Theorem c86_face_cells : forall serial edges m rcv j f ty, mstk_mesh m -> constructed serial false true edges m rcv j -> valid j FACE f ->
  exists l, face_cells j f ty = Ok l /\ NoDup l /\ length l <= 2 /\ forall c, In c l <-> In c (entities j CELL ty) /\ face_of_cell j f c.
Proof.
  intros serial edges m rcv j f ty W C V. pose proof (proj2 (faces_kind C) eq_refl) as Hk. apply (valid_behind C _ bk_face Hk) in V as [g Ef]. rewrite (face_cells_ok W C ty eq_refl Ef).
  destruct (behind_in C bk_face Hk Ef) as [Ig _]. destruct (fcells_ok W Ig) as [N H].
  assert (Hi : incl (fcells m g) (k_all m (mkind_of m CELL))) by (intros h Ih; apply H in Ih; tauto).
  eexists. split; [reflexivity|]. split; [apply (of_type_nodup C ty bk_cell I Hi N)|]. split.
  { unfold of_type. rewrite map_length. etransitivity; [apply filter_length_le|]. apply (three_two Nat.eq_dec); auto.
    assert (D : forall a, In a (fcells m g) -> exists d, In (g, d) (cfaces_of m a) /\ In a (k_all m (cell_kind m))).
    { intros a Ia. apply H in Ia as [Ia Ib]. apply in_map_iff in Ib as ([x d] & E & Ib). cbn [fst] in E. subst x. eauto. }
    assert (U : forall a b d, In a (k_all m (cell_kind m)) -> In b (k_all m (cell_kind m)) -> In (g, d) (cfaces_of m a) -> In (g, d) (cfaces_of m b) -> a = b).
    { cbn [mkind_of] in Ig. unfold cell_kind, face_kind, cfaces_of in *. destruct (dim_cases W) as [[D3 D2]|[D3 D2]]; rewrite ?D3, ?D2 in *; intros a b d Ia Ib Da Db.
      - pose proof (proj2 (mk_side W g a d Ig) (conj Ia Da)) as X. pose proof (proj2 (mk_side W g b d Ig) (conj Ib Db)) as Y. congruence.
      - apply Nat.eqb_eq in D2. eapply (mk_2d W D2); eauto. }
    intros a b c0 A B C0. destruct (D _ A) as ([] & A1 & A2), (D _ B) as ([] & B1 & B2), (D _ C0) as ([] & C1 & C2); eauto. }
  intros c. etransitivity; [apply (of_type_In C ty c bk_cell I Hi)|].
  split; intros [T Q]; (split; [exact T|]).
  - destruct Q as (h & E & Ih). apply (foc W C eq_refl Ef E). apply H. auto.
  - destruct (typed_behind C bk_cell I T) as [h E]. exists h. split; auto. apply H. split; [apply (behind_in C bk_cell I E)|]. apply (foc W C eq_refl Ef E). auto.
Qed.
Lemma count_flat A (F : A -> list nat) L x : (forall a, In a L -> NoDup (F a)) ->
  count_occ Nat.eq_dec (flat_map F L) x = length (filter (fun a => has (F a) x) L).
Proof.
  induction L as [|a L IH]; intros H; cbn [flat_map filter]; [reflexivity|]. rewrite count_occ_app, IH by (intros b Ib; apply H; right; auto).
  pose proof (proj1 (NoDup_count_occ Nat.eq_dec (F a)) (H a (or_introl eq_refl)) x) as L1.
  pose proof (count_occ_In Nat.eq_dec (F a) x) as L2. destruct (has (F a) x) eqn:E.
  - apply has_In in E. apply L2 in E. simpl. lia.
  - assert (~ In x (F a)) by (rewrite <- has_In; congruence). rewrite (proj1 (count_occ_not_In Nat.eq_dec (F a) x)) by auto. auto.
Qed.
Lemma filter_map_len A B (p : B -> bool) (f : A -> B) l : length (filter p (map f l)) = length (filter (fun a => p (f a)) l).
Proof. induction l as [|a l IH]; simpl; auto. destruct (p (f a)); simpl; auto. Qed.
(** C86.  Cells next to a cell through a face: exactly the other cells of the type that share a face with it, each as often as they share
    faces. *)
Theorem c86_face_adjacent_cells : forall serial edges m rcv j c ty, mstk_mesh m -> constructed serial false true edges m rcv j -> valid j CELL c ->
  exists l, face_adj_cells j c ty = Ok l /\
    (forall c2, In c2 l <-> In c2 (entities j CELL ty) /\ c2 <> c /\ exists f, face_of_cell j f c /\ face_of_cell j f c2) /\
    (forall c2 fs fs2, In c2 (entities j CELL ty) -> c2 <> c -> cell_faces j false c = Ok fs -> cell_faces j false c2 = Ok fs2 ->
       count_occ Nat.eq_dec l c2 = length (filter (has (map fst fs2)) (map fst fs))).
Proof.
  intros serial edges m rcv j c ty W C V. pose proof (proj2 (faces_kind C) eq_refl) as Hk. apply (valid_behind C _ bk_cell I) in V as [h Ec]. rewrite (face_adj_ok W C ty eq_refl Ec).
  destruct (behind_in C bk_cell I Ec) as [Ih Eid]. destruct (cfaces_ok W Ih) as [Hi Nf].
  set (F := fun fd : nat * bool => of_type j ty (cell_kind m) (filter (fun h2 => negb (h2 =? h)) (fcells m (fst fd)))).
  assert (Hin : forall fd, In fd (cfaces_of m h) -> incl (filter (fun h2 => negb (h2 =? h)) (fcells m (fst fd))) (k_all m (mkind_of m CELL)) /\ NoDup (filter (fun h2 => negb (h2 =? h)) (fcells m (fst fd)))).
  { intros fd Ifd. destruct (fcells_ok W (Hi _ (in_map fst _ _ Ifd))) as [N H]. split; [|apply NoDup_filter; auto]. intros x Ix. apply filter_In in Ix as [Ix _]. apply H in Ix. tauto. }
  assert (HF : forall fd c2, In fd (cfaces_of m h) -> In c2 (F fd) <-> In c2 (entities j CELL ty) /\ c2 <> c /\ exists h2, behind j CELL c2 h2 /\ In (fst fd) (map fst (cfaces_of m h2))).
  { intros fd c2 Ifd. destruct (Hin fd Ifd) as [A B]. unfold F. etransitivity; [apply (of_type_In C ty c2 bk_cell I A)|]. destruct (fcells_ok W (Hi _ (in_map fst _ _ Ifd))) as [_ H].
    split; intros [T Q]; (split; [exact T|]).
    - destruct Q as (h2 & E2 & I2). apply filter_In in I2 as [I2 Nq]. apply negb_true_iff, Nat.eqb_neq in Nq. split; [|exists h2; split; [exact E2|apply H; auto]].
      intros ->. apply Nq. eapply behind_fun; eauto.
    - destruct Q as (Nc & h2 & E2 & I2). exists h2. split; [exact E2|]. apply filter_In. split; [apply H; split; [apply (behind_in C bk_cell I E2)|exact I2]|].
      apply negb_true_iff, Nat.eqb_neq. intros ->. apply Nc. destruct (behind_in C bk_cell I E2) as [_ <-]. auto. }
  eexists. split; [reflexivity|]. split.
  - intros c2. fold F. rewrite in_flat_map. split.
    + intros (fd & Ifd & I2). apply (HF _ _ Ifd) in I2 as (T & Nc & h2 & E2 & I2). split; [exact T|]. split; [exact Nc|].
      pose proof (behind_of C bk_face Hk (Hi _ (in_map fst _ _ Ifd))) as Ef. eexists. split; [apply (foc W C eq_refl Ef Ec), in_map; auto|apply (foc W C eq_refl Ef E2); auto].
    + intros (T & Nc & f & A & B). destruct (typed_behind C bk_cell I T) as [h2 E2].
      assert (Vf : exists g, behind j FACE f g /\ In g (map fst (cfaces_of m h))).
      { destruct A as (fs & Ef & If). rewrite (cell_faces_ok W C eq_refl Ec) in Ef. injection Ef as <-. rewrite map_map in If. apply in_map_iff in If as (fd & <- & Ifd). exists (fst fd). split; [apply (behind_of C bk_face Hk (Hi _ (in_map fst _ _ Ifd)))|apply in_map; auto]. }
      destruct Vf as (g & Eg & Ig). apply in_map_iff in Ig as (fd & <- & Ifd). exists fd. split; [exact Ifd|]. apply (HF _ _ Ifd). split; [exact T|]. split; [exact Nc|]. exists h2. split; [exact E2|]. apply (foc W C eq_refl Eg E2). auto.
  - intros c2 fs fs2 T Nc Efs Efs2. fold F. rewrite count_flat.
    2:{ intros fd Ifd. destruct (Hin fd Ifd) as [A B]. apply (of_type_nodup C ty bk_cell I A B). }
    destruct (typed_behind C bk_cell I T) as [h2 E2]. rewrite (cell_faces_ok W C eq_refl Ec) in Efs. injection Efs as <-. rewrite (cell_faces_ok W C eq_refl E2) in Efs2. injection Efs2 as <-.
    rewrite !filter_map_len. f_equal. apply filter_ext_in. intros fd Ifd. apply Bool.eq_iff_eq_true. etransitivity; [apply has_In|]. etransitivity; [|symmetry; apply has_In]. etransitivity; [apply (HF _ _ Ifd)|].
    pose proof (behind_of C bk_face Hk (Hi _ (in_map fst _ _ Ifd))) as Ef.
    destruct (behind_in C bk_cell I E2) as [Ih2 _]. destruct (cfaces_ok W Ih2) as [Hi2 _].
    pose proof (map_id_In C bk_face Hk Hi2 Ef) as X. cbn [mkind_of] in X. rewrite map_map. rewrite map_map in X. cbn [jface fst]. cbn [jface fst] in X.
    transitivity (In (fst fd) (map fst (cfaces_of m h2))); [|symmetry; exact X]. split; [intros (_ & _ & h3 & E3 & Q); replace h2 with h3; auto; eapply behind_fun; eauto|].
    intros Q. split; [exact T|]. split; [exact Nc|]. exists h2. auto.
Qed.
(** C86.  Adjacency through a face is symmetric. *)
Theorem c86_face_adjacency_symmetric : forall serial edges m rcv j c c2 l l2, mstk_mesh m -> constructed serial false true edges m rcv j -> valid j CELL c -> valid j CELL c2 ->
  face_adj_cells j c TYPE_ALL = Ok l -> face_adj_cells j c2 TYPE_ALL = Ok l2 -> In c2 l -> In c l2.
Proof.
  intros serial edges m rcv j c c2 l l2 W C V V2 E E2 H.
  destruct (c86_face_adjacent_cells TYPE_ALL W C V) as (l' & E' & A & _). destruct (c86_face_adjacent_cells TYPE_ALL W C V2) as (l2' & E2' & A2 & _).
  replace l' with l in A by congruence. replace l2' with l2 in A2 by congruence. apply A in H as (T & Nc & f & F1 & F2). apply A2. split; [exact V|]. split; [congruence|]. eauto.
Qed.
(** C86.  Cells next to a cell through a node: exactly the other cells of the type that share a node with it, each once. *)
Theorem c86_node_adjacent_cells : forall serial faces edges m rcv j c ty, mstk_mesh m -> constructed serial false faces edges m rcv j -> valid j CELL c ->
  exists l, node_adj_cells j c ty = Ok l /\ NoDup l /\
    forall c2, In c2 l <-> In c2 (entities j CELL ty) /\ c2 <> c /\ exists n, node_of_cell j n c /\ node_of_cell j n c2.
Proof.
  intros serial faces edges m rcv j c ty W C V. apply (valid_behind C _ bk_cell I) in V as [h Ec]. rewrite (node_adj_ok W C ty Ec).
  destruct (behind_in C bk_cell I Ec) as [Ih Eid]. destruct (cverts_ok W Ih) as [Hi Nv]. destruct (gather_ok h (map (vcells m) (cverts m h))) as [N H].
  assert (Hx : forall x, In x (gather h (map (vcells m) (cverts m h))) <-> x <> h /\ In x (k_all m (cell_kind m)) /\ exists v, In v (cverts m h) /\ In v (cverts m x)).
  { intros x. rewrite H. split; intros [A B]; (split; [exact A|]).
    - destruct B as (g & Ig & Ix). apply in_map_iff in Ig as (v & <- & Iv). apply (vcells_ok W (Hi _ Iv)) in Ix as [I1 I2]. eauto.
    - destruct B as (Ix & v & Iv & Ivx). exists (vcells m v). split; [apply in_map; auto|]. apply (vcells_ok W (Hi _ Iv)). auto. }
  assert (Hg : incl (gather h (map (vcells m) (cverts m h))) (k_all m (mkind_of m CELL))) by (intros x Ix; apply Hx in Ix; tauto).
  eexists. split; [reflexivity|]. split; [apply (of_type_nodup C ty bk_cell I Hg N)|].
  intros c2. etransitivity; [apply (of_type_In C ty c2 bk_cell I Hg)|]. split; intros [T Q]; (split; [exact T|]).
  - destruct Q as (h2 & E2 & I2). apply Hx in I2 as (A & B & v & Iv & Iv2). split; [intros ->; apply A; eapply behind_fun; eauto|].
    pose proof (behind_of C bk_node I (Hi _ Iv)) as En. eexists. split; [apply (noc W C En Ec); auto|apply (noc W C En E2); auto].
  - destruct Q as (Nc & n & A & B). destruct (typed_behind C bk_cell I T) as [h2 E2]. exists h2. split; [exact E2|]. apply Hx.
    split; [intros ->; apply Nc; destruct (behind_in C bk_cell I E2) as [_ <-]; auto|]. split; [apply (behind_in C bk_cell I E2)|].
    assert (Vn : exists v, behind j NODE n v /\ In v (cverts m h)).
    { destruct A as (ns & En & In'). rewrite (cell_nodes_ok C Ec) in En. injection En as <-. apply in_map_iff in In' as (v & <- & Iv). exists v. split; [apply (behind_of C bk_node I (Hi _ Iv))|auto]. }
    destruct Vn as (v & En & Iv). exists v. split; [exact Iv|]. apply (noc W C En E2). auto.
Qed.
(** C86.  What a query gives for ALL is what it gives for PARALLEL_OWNED and PARALLEL_GHOST together. *)
Theorem c86_all_is_owned_and_ghost : forall serial faces edges m rcv j n l o g, mstk_mesh m -> constructed serial false faces edges m rcv j -> valid j NODE n ->
  node_cells j n TYPE_ALL = Ok l -> node_cells j n PARALLEL_OWNED = Ok o -> node_cells j n PARALLEL_GHOST = Ok g -> Permutation l (o ++ g).
Proof.
  intros serial faces edges m rcv j n l o g W C V E Eo Eg. apply (valid_behind C _ bk_node I) in V as [v En].
  rewrite (node_cells_ok W C _ En) in E. rewrite (node_cells_ok W C _ En) in Eo. rewrite (node_cells_ok W C _ En) in Eg. injection E as <-. injection Eo as <-. injection Eg as <-. unfold of_type. rewrite <- map_app. apply Permutation_map.
  induction (vcells m v) as [|x L IH]; simpl; auto. destruct (k_ptype (j_mesh j) (cell_kind m) x); simpl; auto.
  etransitivity; [apply perm_skip; exact IH|]. apply Permutation_middle.
Qed.
(** C86 (the full claim fails when boundary ghosts are requested): the queries know only MSTK's ghost flag; a boundary ghost cell is reported as
    PARALLEL_OWNED, and never as BOUNDARY_GHOST. *)
Theorem c86_boundary_ghosts_refuted : forall serial faces edges m rcv j n c v h, constructed serial true faces edges m rcv j -> (k_dim m = 2 \/ k_dim m = 3) ->
  In c (entities j CELL BOUNDARY_GHOST) -> behind j CELL c h -> behind j NODE n v -> In h (if k_dim m =? 3 then k_vr m v else k_vf m v) ->
  (exists l, node_cells j n PARALLEL_OWNED = Ok l /\ In c l) /\ node_cells j n BOUNDARY_GHOST = Ok [].
Proof.
  intros serial faces edges m rcv j n c v h C D T E En Ih. pose proof (constructed_made C) as M. pose proof (mj_mesh M) as Jm.
  apply (@c85_lists_hold_the_type _ _ _ _ _ _ _ _ BOUNDARY_GHOST _ _ C bk_cell I E) in T; [|simpl; tauto]. destruct T as (Ng & _).
  destruct (c85_one_entity_per_id C bk_cell I) as (_ & _ & Hid & _). destruct (Hid _ _ E) as [_ Ei].
  unfold node_cells. pose proof (proj2 (rd_table j NODE n v) En) as R. cbn [table] in R. rewrite R. cbn [bind]. rewrite Jm. unfold of_type. rewrite Jm.
  assert (Z0 : forall p, wanted BOUNDARY_GHOST p = false) by (intros []; reflexivity).
  assert (Z : forall k L, filter (fun h => wanted BOUNDARY_GHOST (k_ptype m k h)) L = []) by (intros k L; induction L as [|x L IH]; simpl; auto; rewrite Z0; auto).
  rewrite !Z. cbn [map]. split; [|destruct (k_dim m =? 3); auto]. eexists. split; [reflexivity|]. cbn [mkind_of] in Ng, Ei. unfold cell_kind in Ng, Ei.
  destruct D as [D|D]; rewrite D in *; cbn [Nat.eqb] in *; apply in_map_iff; exists h; (split; [exact Ei|]); apply filter_In; (split; [exact Ih|]); destruct (k_ptype m _ h); auto; congruence.
Qed.

(** the mesh of MstkMesh_examples: node 12 (id 1) has the owned quad and the ghost triangle, cells 0 and 1 are adjacent *)
Example c86_example : mstk_mesh ex_mesh /\ node_cells ex_j 1 TYPE_ALL = Ok [1; 0] /\ node_cells ex_j 1 PARALLEL_OWNED = Ok [0] /\ node_faces ex_j 1 PARALLEL_GHOST = Ok [4] /\
  face_adj_cells ex_j 0 TYPE_ALL = Ok [1] /\ node_adj_cells ex_j 1 PARALLEL_OWNED = Ok [0] /\ node_cell_faces ex_j 1 0 TYPE_ALL = Ok [1; 2] /\ face_cells ex_j 1 TYPE_ALL = Ok [0; 1].
Proof. split; [exact ex_is_mesh|]. vm_compute. repeat split. Qed.
(** with boundary ghosts: cell 2 is a boundary ghost, node 10 (id 0) *)
Example c86_bg_example : In 2 (entities ex_jbg CELL BOUNDARY_GHOST) /\ behind ex_jbg CELL 2 40 /\ behind ex_jbg NODE 0 10 /\ node_cells ex_jbg 0 PARALLEL_OWNED = Ok [0; 2].
Proof. vm_compute. auto. Qed.
