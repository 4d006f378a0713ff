(** Numbering in the MSTK layer. *)
From Coq Require Import Permutation.
From Verif Require Import Base Loop Defs Cache Cache_proofs MeshSet_proofs MstkMesh MstkMesh_spec.
Set Implicit Arguments.

Lemma mkind_eqb_eq a b : mkind_eqb a b = true <-> a = b.
Proof. destruct a, b; simpl; split; congruence. Qed.
Lemma upd_same i k h l : upd i k h l k h = l.
Proof. unfold upd. rewrite Nat.eqb_refl, (proj2 (mkind_eqb_eq k k) eq_refl). reflexivity. Qed.
Lemma upd_other i k h l k' h' : (k', h') <> (k, h) -> upd i k h l k' h' = i k' h'.
Proof.
  intros N. unfold upd. destruct (mkind_eqb k' k) eqn:A; cbn [andb]; auto. destruct (h' =? h) eqn:B; auto.
  apply mkind_eqb_eq in A. apply Nat.eqb_eq in B. congruence.
Qed.
Lemma wr_app_mid A (pre : list A) x post y : wr (pre ++ x :: post) (length pre) y = Ok (pre ++ y :: post).
Proof.
  rewrite wr_ok by (rewrite app_length; simpl; lia). f_equal. clear.
  induction pre; simpl; congruence.
Qed.

(** the numbering of one kind: the handles [H] get the ids 1, 2, ... and the table is [H] *)
Lemma set_ids_ok k : forall H i pre, NoDup H -> exists i', set_ids k H (i, pre ++ repeat 0 (length H), S (length pre)) = Ok (i', pre ++ H, S (length pre + length H)) /\
  (forall p h, nth_error H p = Some h -> i' k h = S (length pre + p)) /\ (forall k' h', k' <> k \/ ~ In h' H -> i' k' h' = i k' h').
Proof.
  induction H as [|h H IH]; intros i pre N.
  - exists i. simpl. rewrite !app_nil_r, Nat.add_0_r. split; auto. split; auto. intros [|p] h E; discriminate.
  - inversion N; subst. destruct (IH (upd i k h (S (length pre))) (pre ++ [h]) H3) as (i' & E & P & O).
    exists i'. split; [|split].
    + unfold set_ids in E |- *. cbn [foldM length repeat]. replace (S (length pre) - 1) with (length pre) by lia. rewrite wr_app_mid. cbn [bind].
      rewrite app_length in E. simpl in E. rewrite <- !app_assoc in E. simpl in E.
      replace (S (length pre) + 1) with (S (length pre + 1)) by lia. rewrite E. match goal with |- Ok (_, _, ?a) = Ok (_, _, ?b) => replace a with b by lia end. reflexivity.
    + intros [|p] x Ex; simpl in Ex.
      * injection Ex as <-. rewrite O by (right; auto). rewrite upd_same. lia.
      * rewrite (P _ _ Ex), app_length. simpl. lia.
    + intros k' h' Hn. rewrite O.
      * apply upd_other. intros Q. injection Q as -> ->. destruct Hn as [Hn|Hn]; [congruence|]. apply Hn. left; auto.
      * destruct Hn as [Hn|Hn]; auto. right. intros I. apply Hn. right; auto.
Qed.
Definition numbering (i : mids) (k : mkind) (H : list nat) : Prop := forall p h, nth_error H p = Some h -> i k h = S p.
Lemma id2handle_ok k n groups i : NoDup (concat groups) -> n = length (concat groups) -> exists i', id2handle k n groups i = Ok (i', concat groups) /\
  numbering i' k (concat groups) /\ (forall k' h', k' <> k \/ ~ In h' (concat groups) -> i' k' h' = i k' h').
Proof.
  intros N E. destruct (@set_ids_ok k (concat groups) i [] N) as (i' & Q & P & O). exists i'. split; [|split; auto].
  unfold id2handle, set_ids in *. cbn [app length] in Q. rewrite foldM_flat_map. rewrite (flat_map_concat_map (fun hs => hs)), map_id, E. rewrite Q. reflexivity.
Qed.

Lemma fill_ok (i : nat -> nat) : forall hs pre post, fill i hs (pre ++ repeat 0 (length hs) ++ post) (length pre) =
  Ok (map (fun h => i h - 1) hs, pre ++ map (fun h => i h - 1) hs ++ post, length pre + length hs).
Proof.
  intros hs pre post. unfold fill.
  enough (G : forall hs x pre, foldM hs (fun h s => let '(xs, k, all, j) := s in
         xs <- wr xs k (i h - 1) ;; all <- wr all j (i h - 1) ;; Ok (xs, k + 1, all, j + 1)) (x ++ repeat 0 (length hs), length x, pre ++ repeat 0 (length hs) ++ post, length pre) =
       Ok (x ++ map (fun h => i h - 1) hs, length x + length hs, pre ++ map (fun h => i h - 1) hs ++ post, length pre + length hs)).
  { pose proof (G hs [] pre) as Q. cbn [app length] in Q. rewrite Q. reflexivity. }
  clear. induction hs as [|h hs IH]; intros x pre; simpl.
  - rewrite app_nil_r, !Nat.add_0_r. reflexivity.
  - rewrite !wr_app_mid. cbn [bind]. specialize (IH (x ++ [i h - 1]) (pre ++ [i h - 1])). rewrite !app_length in IH. simpl in IH. rewrite <- !app_assoc in IH. simpl in IH.
    rewrite IH. match goal with |- Ok (_, ?a, _, ?c) = Ok (_, ?b, _, ?d) => replace a with b by lia; replace c with d by lia end. reflexivity.
Qed.
Lemma fill_lists_ok i o g b : let f := map (fun h => i h - 1) in fill_lists i o g b = Ok (IdLists (f o) (f g) (f b) (f (o ++ g ++ b))).
Proof.
  intros f. unfold fill_lists.
  pose proof (@fill_ok i o [] (repeat 0 (length g) ++ repeat 0 (length b))) as A. cbn [app length] in A.
  rewrite !repeat_app, <- app_assoc. rewrite A. cbn [bind fst snd].
  pose proof (@fill_ok i g (map (fun h => i h - 1) o) (repeat 0 (length b))) as B. rewrite map_length in B.
  replace (0 + length o) with (length o) by lia. rewrite B. cbn [bind fst snd].
  pose proof (@fill_ok i b (map (fun h => i h - 1) o ++ map (fun h => i h - 1) g) []) as C. rewrite app_length, !map_length, <- !app_assoc, !app_nil_r in C.
  rewrite C. cbn [bind fst snd]. unfold f. rewrite !map_app. reflexivity.
Qed.
Lemma map_shift_seq A (f : A -> nat) : forall H a, (forall p h, nth_error H p = Some h -> f h = a + p) -> map f H = seq a (length H).
Proof.
  induction H as [|h H IH]; intros a P; simpl; auto. f_equal.
  - rewrite (P 0 h eq_refl). lia.
  - apply IH. intros p x E. rewrite (P (S p) x E). lia.
Qed.
Lemma numbering_seq i k H : numbering i k H -> map (fun h => i k h - 1) H = seq 0 (length H).
Proof. intros P. apply map_shift_seq. intros p h E. rewrite (P _ _ E). lia. Qed.
Lemma numbering_part i k A B : numbering i k (A ++ B) -> map (fun h => i k h - 1) B = seq (length A) (length B).
Proof.
  intros P. apply map_shift_seq. intros p h E. rewrite (P (length A + p) h); [lia|]. rewrite nth_error_app2 by lia. replace (length A + p - length A) with p by lia. auto.
Qed.
Lemma numbering_head i k A B : numbering i k (A ++ B) -> map (fun h => i k h - 1) A = seq 0 (length A).
Proof.
  intros P. apply map_shift_seq. intros p h E. rewrite (P p h); [lia|]. rewrite nth_error_app1; auto. apply nth_error_Some. congruence.
Qed.

(** the groups of a kind are the entities of the mesh *)
Lemma filter_two A (p : A -> bool) l : Permutation (filter (fun x => negb (p x)) l ++ filter p l) l.
Proof.
  induction l as [|x l IH]; simpl; auto. destruct (p x); simpl.
  - etransitivity; [apply Permutation_sym, Permutation_middle|]. auto.
  - auto.
Qed.
Lemma filter_none A (p : A -> bool) l : (forall x, In x l -> p x = false) -> filter p l = [].
Proof. induction l as [|x l IH]; intros H; simpl; auto. rewrite H by (left; auto). apply IH. intros y I; apply H; right; auto. Qed.
Lemma filter_three A (p q : A -> bool) l :
  Permutation (filter (fun x => negb (p x) && negb (q x)) l ++ filter p l ++ filter (fun x => negb (p x) && q x) l) l.
Proof.
  induction l as [|x l IH]; simpl; auto. destruct (p x), (q x); simpl.
  - etransitivity; [apply Permutation_sym, Permutation_middle|]. auto.
  - etransitivity; [apply Permutation_sym, Permutation_middle|]. auto.
  - rewrite app_assoc. etransitivity; [apply Permutation_sym, Permutation_middle|]. rewrite <- app_assoc. auto.
  - auto.
Qed.
Definition groups (m : mstk) (bg : bool) (K : entity_kind) : list nat * list nat * list nat :=
  match K with
  | CELL => (owned_cells m bg, ghost_list m (cell_kind m), if bg then bghost_cells m bg else [])
  | _ => (owned_list m (mkind_of m K), ghost_list m (mkind_of m K), [])
  end.
Definition all_of (g : list nat * list nat * list nat) : list nat := fst (fst g) ++ snd (fst g) ++ snd g.
Lemma groups_perm m bg K : base_kind K -> Permutation (all_of (groups m bg K)) (k_all m (mkind_of m K)).
Proof.
  intros B. unfold all_of. destruct B as [->|[->|[->| ->]]]; cbn [groups fst snd mkind_of]; try (rewrite app_nil_r; apply filter_two).
  unfold owned_cells, ghost_list, bghost_cells. destruct bg.
  - apply filter_three.
  - rewrite app_nil_r. etransitivity; [|apply filter_two]. apply Permutation_app_tail. apply Permutation_refl'. apply filter_ext. intros h. unfold is_bghost. simpl. rewrite andb_true_r. auto.
Qed.
Lemma groups_nodup m bg K : base_kind K -> NoDup (k_all m (mkind_of m K)) -> NoDup (all_of (groups m bg K)).
Proof. intros B N. eapply Permutation_NoDup; [|exact N]. apply Permutation_sym, groups_perm; auto. Qed.

(** what the construction leaves for a kind *)
Record kind_ok (j : jmesh) (K : entity_kind) : Prop := {
  ko_num : numbering (j_ids j) (mkind_of (j_mesh j) K) (all_of (groups (j_mesh j) (j_bg j) K));
  ko_tab : table j K = all_of (groups (j_mesh j) (j_bg j) K);
  ko_lists : let f := map (fun h => j_ids j (mkind_of (j_mesh j) K) h - 1) in let g := groups (j_mesh j) (j_bg j) K in
     list_of j K = IdLists (f (fst (fst g))) (f (snd (fst g))) (f (snd g)) (f (all_of g)) }.
Definition stage (m : mstk) (k : mkind) (i : mids) (g : list nat * list nat * list nat) (tab : list nat) (l : id_lists) : Prop :=
  numbering i k (all_of g) /\ tab = all_of g /\
  l = let f := map (fun h => i k h - 1) in IdLists (f (fst (fst g))) (f (snd (fst g))) (f (snd g)) (f (all_of g)).
Lemma stage_keep m k i i' g tab l : stage m k i g tab l -> (forall h, In h (all_of g) -> i' k h = i k h) -> stage m k i' g tab l.
Proof.
  intros (N & T & L) E. split; [|split]; auto.
  - intros p h Q. rewrite E by (eapply nth_error_In; eauto). auto.
  - rewrite L. cbn zeta. unfold all_of in E |- *. f_equal; apply map_ext_in; intros h I; rewrite E; auto; rewrite !in_app_iff; rewrite ?in_app_iff in I; tauto.
Qed.
Section Construct.
Variables (serial bg faces edges : bool) (m : mstk) (rcv : received).
Hypothesis N : forall k, NoDup (k_all m k).
Lemma groups_len K : base_kind K -> length (k_all m (mkind_of m K)) = length (all_of (groups m bg K)).
Proof. intros B. symmetry. apply Permutation_length, groups_perm; auto. Qed.
Lemma two_ok K i : K = NODE \/ K = EDGE \/ K = FACE -> exists i', id2handle (mkind_of m K) (length (k_all m (mkind_of m K))) [owned_list m (mkind_of m K); ghost_list m (mkind_of m K)] i = Ok (i', all_of (groups m bg K)) /\
  numbering i' (mkind_of m K) (all_of (groups m bg K)) /\
  (forall k' h', k' <> mkind_of m K \/ ~ In h' (all_of (groups m bg K)) -> i' k' h' = i k' h') /\
  exists l, fill_lists (i' (mkind_of m K)) (owned_list m (mkind_of m K)) (ghost_list m (mkind_of m K)) [] = Ok l /\
  stage m (mkind_of m K) i' (groups m bg K) (all_of (groups m bg K)) l.
Proof.
  intros B. assert (BK : base_kind K) by (unfold base_kind; tauto).
  assert (G : all_of (groups m bg K) = concat [owned_list m (mkind_of m K); ghost_list m (mkind_of m K)]) by (destruct B as [->|[->| ->]]; reflexivity).
  destruct (@id2handle_ok (mkind_of m K) (length (k_all m (mkind_of m K))) [owned_list m (mkind_of m K); ghost_list m (mkind_of m K)] i) as (i' & E & P & O).
  { rewrite <- G. apply groups_nodup; auto. } { rewrite <- G. apply groups_len; auto. }
  exists i'. rewrite G. split; [exact E|]. split; [exact P|]. split; [exact O|].
  eexists. split; [apply fill_lists_ok|]. split; [rewrite <- G in P; exact P|]. split; auto.
  destruct B as [->|[->| ->]]; reflexivity.
Qed.
Lemma cells_ok i : exists i' l, init_cells bg m i = Ok (i', all_of (groups m bg CELL), l) /\ stage m (cell_kind m) i' (groups m bg CELL) (all_of (groups m bg CELL)) l /\
  (forall k' h', k' <> cell_kind m \/ ~ In h' (all_of (groups m bg CELL)) -> i' k' h' = i k' h').
Proof.
  assert (BK : base_kind CELL) by (unfold base_kind; tauto).
  assert (G : all_of (groups m bg CELL) = concat ([owned_cells m bg; ghost_list m (cell_kind m)] ++ (if bg then [if bg then bghost_cells m bg else []] else []))).
  { unfold all_of. cbn [groups fst snd]. destruct bg; simpl; rewrite ?app_nil_r; reflexivity. }
  destruct (@id2handle_ok (cell_kind m) (length (k_all m (cell_kind m))) ([owned_cells m bg; ghost_list m (cell_kind m)] ++ (if bg then [if bg then bghost_cells m bg else []] else [])) i) as (i' & E & P & O).
  { rewrite <- G. apply (@groups_nodup m bg CELL BK). apply (N (cell_kind m)). } { rewrite <- G. apply (groups_len BK). }
  unfold init_cells. rewrite E. cbn [bind fst snd]. rewrite fill_lists_ok. cbn [bind].
  eexists _, _. split; [rewrite G; reflexivity|]. split; [|rewrite G; exact O]. split; [rewrite G; exact P|]. split; auto.
Qed.

Lemma numbering_bound k i H h : numbering i k H -> In h H -> i k h - 1 < length H.
Proof. intros P I. apply In_nth_error in I as [p E]. rewrite (P _ _ E). assert (p < length H) by (apply nth_error_Some; congruence). lia. Qed.
Lemma flips_total check k i : (forall h, In h (ghost_list m k) -> i k h - 1 < length (k_all m k)) ->
  (exists fl, init_dirs serial check m rcv i k = Ok fl /\ length fl = length (k_all m k)) \/ (serial = false /\ check = true /\ init_dirs serial check m rcv i k = Thrown).
Proof.
  intros B. unfold init_dirs. destruct serial; [left; eexists; split; [reflexivity|apply repeat_length]|].
  assert (G : forall l fl, (forall h, In h l -> i k h - 1 < length (k_all m k)) -> length fl = length (k_all m k) ->
     (exists fl', foldM l (flip_one check m rcv i k) fl = Ok fl' /\ length fl' = length (k_all m k)) \/ (check = true /\ foldM l (flip_one check m rcv i k) fl = Thrown)).
  { induction l as [|h l IH]; intros fl Hb Hl; cbn [foldM]; [left; eauto|]. unfold flip_one at 1 3. destruct (reversed _ _).
    - rewrite wr_ok by (rewrite Hl; apply Hb; left; auto). cbn [bind]. apply IH; [intros x Ix; apply Hb; right; auto|]. rewrite set_nth_length; auto.
    - destruct (check && mismatch _ _) eqn:C; [right; apply andb_prop in C as [-> _]; auto|]. cbn [bind]. apply IH; auto. intros x Ix; apply Hb; right; auto. }
  destruct (G (ghost_list m k) (repeat false (length (k_all m k))) B (repeat_length _ _)) as [Q|[Q1 Q2]]; [left; auto|right; auto].
Qed.
Lemma in_ghost K h : base_kind K -> In h (ghost_list m (mkind_of m K)) -> In h (all_of (groups m bg K)).
Proof. intros B I. unfold all_of. rewrite !in_app_iff. destruct B as [->|[->|[->| ->]]]; cbn [groups fst snd mkind_of] in *; auto. Qed.
Lemma nodes_ok i : exists i' l, init_nodes m i = Ok (i', all_of (groups m bg NODE), l) /\ stage m MVERTEX i' (groups m bg NODE) (all_of (groups m bg NODE)) l /\
  forall k h, k <> MVERTEX -> i' k h = i k h.
Proof.
  destruct (@two_ok NODE i (or_introl eq_refl)) as (i' & E & P & O & l & L & St). unfold init_nodes. cbn [mkind_of] in *. rewrite E. cbn [bind fst snd]. rewrite L. cbn [bind].
  exists i', l. auto.
Qed.
Lemma edges_ok i : (exists i' fl l, init_edges serial m rcv i = Ok (i', all_of (groups m bg EDGE), fl, l) /\ stage m MEDGE i' (groups m bg EDGE) (all_of (groups m bg EDGE)) l /\
    length fl = length (k_all m MEDGE) /\ init_dirs serial true m rcv i' MEDGE = Ok fl /\ forall k h, k <> MEDGE -> i' k h = i k h) \/
  (serial = false /\ init_edges serial m rcv i = Thrown).
Proof.
  destruct (@two_ok EDGE i (or_intror (or_introl eq_refl))) as (i' & E & P & O & l & L & St). unfold init_edges. cbn [mkind_of] in *. rewrite E. cbn [bind fst snd].
  assert (BK : base_kind EDGE) by (unfold base_kind; tauto).
  destruct (@flips_total true MEDGE i') as [(fl & F & Fl)|(S & _ & F)].
  { intros h I. pose proof (@numbering_bound _ _ _ h P (@in_ghost EDGE h BK I)) as Q. rewrite <- (groups_len BK) in Q. exact Q. }
  - rewrite F. cbn [bind]. rewrite L. cbn [bind]. left. exists i', fl, l. split; [reflexivity|]. split; [exact St|]. split; [exact Fl|]. split; [exact F|]. intros; apply O; auto.
  - rewrite F. right. auto.
Qed.
Lemma faces_ok i : (exists i' fl l, init_faces serial m rcv i = Ok (i', all_of (groups m bg FACE), fl, l) /\ stage m (face_kind m) i' (groups m bg FACE) (all_of (groups m bg FACE)) l /\
    length fl = length (k_all m (face_kind m)) /\ init_dirs serial (k_dim m =? 3) m rcv i' (face_kind m) = Ok fl /\ forall k h, k <> face_kind m -> i' k h = i k h) \/
  (serial = false /\ init_faces serial m rcv i = Thrown).
Proof.
  destruct (@two_ok FACE i (or_intror (or_intror eq_refl))) as (i' & E & P & O & l & L & St). unfold init_faces. cbn [mkind_of] in *. rewrite E. cbn [bind fst snd].
  assert (BK : base_kind FACE) by (unfold base_kind; tauto).
  destruct (@flips_total (k_dim m =? 3) (face_kind m) i') as [(fl & F & Fl)|(S & _ & F)].
  { intros h I. pose proof (@numbering_bound _ _ _ h P (@in_ghost FACE h BK I)) as Q. rewrite <- (groups_len BK) in Q. exact Q. }
  - rewrite F. cbn [bind]. rewrite L. cbn [bind]. left. exists i', fl, l. split; [reflexivity|]. split; [exact St|]. split; [exact Fl|]. split; [exact F|]. intros; apply O; auto.
  - rewrite F. right. auto.
Qed.
Lemma same_numbering i i' k H h : numbering i k H -> numbering i' k H -> In h H -> i' k h = i k h.
Proof. intros P P' I. apply In_nth_error in I as [p E]. rewrite (P _ _ E), (P' _ _ E). auto. Qed.
Lemma kinds_differ : face_kind m <> cell_kind m /\ MVERTEX <> face_kind m /\ MVERTEX <> cell_kind m /\ MEDGE <> cell_kind m.
Proof. unfold face_kind, cell_kind. destruct (k_dim m =? 2); repeat split; discriminate. Qed.

(** the construction: it succeeds, or (in parallel) throws the "mismatch" exception; if it succeeds every kind is numbered *)
Record made (j : jmesh) : Prop := {
  mj_mesh : j_mesh j = m; mj_serial : j_serial j = serial; mj_bg : j_bg j = bg; mj_faces : j_faces j = faces; mj_edges : j_edges j = edges;
  mj_kind : forall K, base_kind K -> has_kind j K -> kind_ok j K;
  mj_ef : edges = true -> init_dirs serial true m rcv (j_ids j) MEDGE = Ok (edgeflip j) /\ length (edgeflip j) = length (k_all m MEDGE);
  mj_ff : faces = true -> init_dirs serial (k_dim m =? 3) m rcv (j_ids j) (face_kind m) = Ok (faceflip j) /\ length (faceflip j) = length (k_all m (face_kind m)) }.
Lemma flip_ids check i i' k : (forall h, In h (ghost_list m k) -> i' k h = i k h) -> init_dirs serial check m rcv i' k = init_dirs serial check m rcv i k.
Proof. intros E. unfold init_dirs. destruct serial; auto. apply foldM_ext. intros h s I. unfold flip_one. rewrite (E _ I). reflexivity. Qed.
Lemma construct_made : (exists j, construct serial bg faces edges m rcv = Ok j /\ made j) \/ (serial = false /\ construct serial bg faces edges m rcv = Thrown).
Proof.
  destruct kinds_differ as (D1 & D2 & D3 & D4).
  unfold construct. destruct (nodes_ok ids0) as (i1 & l1 & E1 & S1 & O1). rewrite E1. cbn [bind fst snd].
  assert (HE : (exists i2 t2 f2 l2, (if edges then init_edges serial m rcv i1 else Ok (i1, [], [], no_ids)) = Ok (i2, t2, f2, l2) /\
     (edges = true -> stage m MEDGE i2 (groups m bg EDGE) t2 l2 /\ length f2 = length (k_all m MEDGE) /\ init_dirs serial true m rcv i2 MEDGE = Ok f2) /\ forall k h, k <> MEDGE -> i2 k h = i1 k h) \/
     (serial = false /\ (if edges then init_edges serial m rcv i1 else Ok (i1, [], [], no_ids)) = Thrown)).
  { destruct edges; [|left; do 4 eexists; split; [reflexivity|split; [discriminate|auto]]].
    destruct (edges_ok i1) as [(i2 & f2 & l2 & A & B & C & D & O)|[A B]]; [left|right; auto]. exists i2, (all_of (groups m bg EDGE)), f2, l2. auto. }
  destruct HE as [(i2 & t2 & f2 & l2 & E2 & S2 & O2)|[A B]]; [|right; rewrite B; auto]. rewrite E2. cbn [bind fst snd].
  assert (HF : (exists i3 t3 f3 l3, (if faces then init_faces serial m rcv i2 else Ok (i2, [], [], no_ids)) = Ok (i3, t3, f3, l3) /\
     (faces = true -> stage m (face_kind m) i3 (groups m bg FACE) t3 l3 /\ length f3 = length (k_all m (face_kind m)) /\ init_dirs serial (k_dim m =? 3) m rcv i3 (face_kind m) = Ok f3) /\
     (forall k h, k <> face_kind m -> i3 k h = i2 k h) /\ (faces = false -> forall k h, i3 k h = i2 k h)) \/
     (serial = false /\ (if faces then init_faces serial m rcv i2 else Ok (i2, [], [], no_ids)) = Thrown)).
  { destruct faces; [|left; do 4 eexists; split; [reflexivity|split; [discriminate|auto]]].
    destruct (faces_ok i2) as [(i3 & f3 & l3 & A & B & C & D & O)|[A B]]; [left|right; auto]. exists i3, (all_of (groups m bg FACE)), f3, l3. split; auto. split; auto. split; auto. discriminate. }
  destruct HF as [(i3 & t3 & f3 & l3 & E3 & S3 & O3 & O3')|[A B]]; [|right; rewrite B; auto]. rewrite E3. cbn [bind fst snd].
  destruct (cells_ok i3) as (i4 & l4 & E4 & S4 & O4). rewrite E4. cbn [bind fst snd].
  left. eexists. split; [reflexivity|].
  assert (K34 : forall k h, k <> cell_kind m -> i4 k h = i3 k h) by (intros; apply O4; auto).
  assert (G1 : stage m MVERTEX i4 (groups m bg NODE) (all_of (groups m bg NODE)) l1).
  { eapply stage_keep; [exact S1|]. intros h _. rewrite K34, O3, O2 by congruence. reflexivity. }
  assert (K24 : edges = true -> forall h, In h (all_of (groups m bg EDGE)) -> i4 MEDGE h = i2 MEDGE h).
  { intros He h I. rewrite K34 by congruence. destruct (S2 He) as ((P2 & _) & _). destruct faces eqn:Ff; [|apply O3'; auto]. destruct (S3 eq_refl) as ((P3 & _) & _).
    destruct (k_dim m =? 2) eqn:Dm.
    - assert (Fk : face_kind m = MEDGE) by (unfold face_kind; rewrite Dm; auto). rewrite Fk in P3. eapply same_numbering; [exact P2| |exact I].
      replace (groups m bg EDGE) with (groups m bg FACE) by (cbn [groups mkind_of]; rewrite Fk; reflexivity). exact P3.
    - apply O3. unfold face_kind. rewrite Dm. discriminate. }
  assert (G2 : edges = true -> stage m MEDGE i4 (groups m bg EDGE) t2 l2).
  { intros He. destruct (S2 He) as (St & _). eapply stage_keep; [exact St|]. auto. }
  assert (G3 : faces = true -> stage m (face_kind m) i4 (groups m bg FACE) t3 l3).
  { intros Hf. destruct (S3 Hf) as (St & _). eapply stage_keep; [exact St|]. intros h _. apply K34. auto. }
  constructor; cbn; auto.
  - intros K B Hk. destruct B as [->|[->|[->| ->]]]; cbn in Hk.
    + destruct G1 as (a & b & c). constructor; cbn; auto.
    + destruct (G2 Hk) as (a & b & c). constructor; cbn; auto.
    + destruct (G3 Hk) as (a & b & c). constructor; cbn; auto.
    + destruct S4 as (a & b & c). constructor; cbn; auto.
  - intros He. destruct (S2 He) as (_ & F & Fd). split; auto. rewrite <- Fd. apply flip_ids. intros h I. apply K24; auto. apply (@in_ghost EDGE); auto. unfold base_kind; tauto.
  - intros Hf. destruct (S3 Hf) as (_ & F & Fd). split; auto. rewrite <- Fd. apply flip_ids. intros h I. apply K34. auto.
Qed.
End Construct.
