(** C87: the standard order of the faces of a cell in the MSTK framework. *)
From Coq Require Import Permutation.
From Verif Require Import Base Loop Defs MeshSet_proofs Cache Cache_proofs MstkMesh MstkMesh_spec MstkMesh_proofs MstkMesh_examples MstkMesh_build Props_MstkIds MstkMesh_proofs2 Props_MstkAdj Geometry_spec.
From Verif Require Geometry_proofs.
Set Implicit Arguments. Unset Strict Implicit.

(** ** cycles *)
Lemma same_cycle_sym A (l l' : list A) : same_cycle l l' -> same_cycle l' l.
Proof. intros (a & b & -> & ->). exists b, a. auto. Qed.
Lemma same_cycle_trans A (l l' l'' : list A) : same_cycle l l' -> same_cycle l' l'' -> same_cycle l l''.
Proof.
  intros (a & b & -> & ->) (c & d & E & ->). destruct (app_eq_app _ _ _ _ E) as (x & [[-> ->]|[-> ->]]).
  - exists (a ++ c), x. rewrite <- !app_assoc. auto.
  - exists x, (d ++ b). rewrite <- !app_assoc. auto.
Qed.
Lemma same_cycle_map A B (f : A -> B) l l' : same_cycle l l' -> same_cycle (map f l) (map f l').
Proof. intros (a & b & -> & ->). exists (map f a), (map f b). rewrite !map_app. auto. Qed.
Lemma same_cycle_rev A (l l' : list A) : same_cycle l l' -> same_cycle (rev l) (rev l').
Proof. intros (a & b & -> & ->). exists (rev b), (rev a). rewrite !rev_app_distr. auto. Qed.
(** a rotation of [map g l] is [map g] of a rotation of [l] *)
Lemma same_cycle_unmap A B (g : A -> B) l k : same_cycle (map g l) k -> exists l', same_cycle l l' /\ k = map g l'.
Proof.
  intros (a & b & E & ->). apply map_eq_app in E as (u & v & -> & <- & <-). exists (v ++ u). split; [exists u, v; auto|]. rewrite map_app. auto.
Qed.
Lemma steps_app2 A (l1 : list A) : forall a b l2 z, steps a (l1 ++ b :: l2) z = steps a l1 b ++ steps b l2 z.
Proof. induction l1 as [|c l1 IH]; intros a b l2 z; simpl; auto. f_equal. apply IH. Qed.
Lemma edges_cycle A (l l' : list A) : same_cycle l l' -> same_cycle (edges l) (edges l').
Proof.
  intros (a & b & -> & ->). destruct a as [|x a]; [rewrite app_nil_r; apply same_cycle_refl|]. destruct b as [|y b]; [rewrite app_nil_r; apply same_cycle_refl|].
  cbn [app edges]. rewrite !steps_app2. exists (steps x a y), (steps y b x). auto.
Qed.
Lemma steps_rev2 A (l : list A) : forall a z, steps a (rev l) z = rev (map swap (steps z l a)).
Proof.
  induction l as [|b l IH]; intros a z; simpl; auto. rewrite steps_app2. cbn [steps]. rewrite IH. reflexivity.
Qed.
Lemma edges_rev2 A (l : list A) : same_cycle (edges (rev l)) (rev (map swap (edges l))).
Proof.
  destruct l as [|a l]; [apply same_cycle_refl|]. apply same_cycle_trans with (edges (a :: rev l)).
  - apply edges_cycle. simpl. exists (rev l), [a]. auto.
  - cbn [edges]. rewrite steps_rev2. apply same_cycle_refl.
Qed.

(** ** the loop over the edges of the base face, without the arrays *)
Section Pure.
Variables (m : mstk) (rf : list (nat * bool)) (f0 : nat).
Definition at_edge (e : nat) (lat : list (nat * bool)) : list (nat * bool) :=
  filter (fun fd => negb (fst fd =? f0) && negb (has (f0 :: map fst lat) (fst fd)) && has (map fst (k_fe m (fst fd))) e) rf.
Definition lats (es : list nat) (lat : list (nat * bool)) : list (nat * bool) := fold_left (fun lat e => lat ++ at_edge e lat) es lat.
Lemma hasI l x : has l x = true <-> In x l.
Proof. apply has_iff. Qed.
Lemma at_edge_In e lat fd : In fd (at_edge e lat) <-> In fd rf /\ fst fd <> f0 /\ ~ In (fst fd) (map fst lat) /\ e_of_f m e (fst fd).
Proof.
  unfold at_edge, e_of_f. rewrite filter_In, !Bool.andb_true_iff, !Bool.negb_true_iff, Nat.eqb_neq, hasI. split.
  - intros (A & (B & D) & E). repeat split; auto. intros I. assert (has (f0 :: map fst lat) (fst fd) = true) by (apply hasI; right; auto). congruence.
  - intros (A & B & D & E). repeat split; auto. destruct (has (f0 :: map fst lat) (fst fd)) eqn:Q; auto. apply hasI in Q as [Q|Q]; congruence.
Qed.
End Pure.

Lemma filter_len A (p : A -> bool) l : length (filter p l) <= length l.
Proof. induction l as [|x l IH]; simpl; auto. destruct (p x); simpl; lia. Qed.

Section Ordered.
Variables (serial edges : bool) (m : mstk) (rcv : received) (j : jmesh).
Hypothesis W : mstk_mesh m.
Hypothesis C : constructed serial false true edges m rcv j.
Hypothesis D3 : k_dim m = 3.
Let M : made serial false true edges m rcv j := constructed_made C.
Let Jm : j_mesh j = m := mj_mesh M.
Variables (c h : nat).
Hypothesis Ec : behind j CELL c h.
Hypothesis Cl : closed_cell m h.
Hypothesis Pl : plain_cell m h.
Let rf := k_rf m h.
Lemma fk3 : face_kind m = MFACE. Proof. unfold face_kind. rewrite D3. auto. Qed.
Lemma ck3 : cell_kind m = MREGION. Proof. unfold cell_kind. rewrite D3. auto. Qed.
Lemma Ih : In h (k_all m MREGION).
Proof. destruct (behind_in C bk_cell I Ec) as [Q _]. cbn [mkind_of] in Q. rewrite ck3 in Q. auto. Qed.
Lemma rf_range fd : In fd rf -> In (fst fd) (k_all m MFACE).
Proof. intros Q. apply (mk_rf W h _ Ih). apply in_map. auto. Qed.
Lemma rf_nodup : NoDup (map fst rf).
Proof. apply (mk_rf_nodup W h Ih). Qed.
Lemma rf_inj fd fd' : In fd rf -> In fd' rf -> fst fd = fst fd' -> fd = fd'.
Proof.
  pose proof rf_nodup as N. revert N. generalize rf. intros l. induction l as [|x l IH]; intros N A B E; [destruct A|]. apply NoDup_cons_iff in N as [N1 N2].
  destruct A as [<-|A], B as [<-|B]; auto; [exfalso; apply N1; rewrite E; apply in_map; auto|exfalso; apply N1; rewrite <- E; apply in_map; auto].
Qed.
Lemma fd_ok fd : In fd rf -> face_dir j MFACE fd = Ok (jface m j fd).
Proof. intros Q. rewrite <- fk3. apply (face_dir_ok C eq_refl). rewrite fk3. apply rf_range; auto. Qed.

(** the inner loop *)
Variable b : nat * bool.
Hypothesis Ib : In b rf.
Let f0 := fst b.
Lemma inner e : forall l lat out nf, incl l rf -> NoDup (map fst l) -> (forall x, In x l -> In (fst x) (map fst lat) -> In x lat) ->
  nf = length lat -> length lat + length (filter (fun fd => negb (fst fd =? f0) && negb (has (f0 :: map fst lat) (fst fd)) && has (map fst (k_fe m (fst fd))) e) l) <= length rf ->
  out = map (jface m j) lat ++ repeat (0, 0%Z) (length rf - length lat) ->
  foldM l (fun fd s => let '(out, nf, don) := s in
    if negb (fst fd =? f0) && negb (has don (fst fd)) then
      if has (map fst (k_fe (j_mesh j) (fst fd))) e then
        x <- face_dir j MFACE fd ;; out <- wr out nf x ;; Ok (out, nf + 1, don ++ [fst fd])
      else Ok s
    else Ok s) (out, nf, f0 :: map fst lat) =
  let lat' := lat ++ filter (fun fd => negb (fst fd =? f0) && negb (has (f0 :: map fst lat) (fst fd)) && has (map fst (k_fe m (fst fd))) e) l in
  Ok (map (jface m j) lat' ++ repeat (0, 0%Z) (length rf - length lat'), length lat', f0 :: map fst lat').
Proof.
  rewrite Jm. induction l as [|fd l IH]; intros lat out nf Hi N Hl -> Hlen ->; cbn [foldM filter]; [rewrite app_nil_r; reflexivity|].
  apply NoDup_cons_iff in N as [N1 N2]. cbn [filter] in Hlen.
  destruct (negb (fst fd =? f0) && negb (has (f0 :: map fst lat) (fst fd))) eqn:Q; cbn [andb].
  - destruct (has (map fst (k_fe m (fst fd))) e) eqn:Q2.
    + rewrite fd_ok by (apply Hi; left; auto). cbn [bind andb] in *. simpl in Hlen.
      assert (X : forall n, length lat < n -> wr (map (jface m j) lat ++ repeat (0, 0%Z) (n - length lat)) (length lat) (jface m j fd) = Ok (map (jface m j) (lat ++ [fd]) ++ repeat (0, 0%Z) (n - length (lat ++ [fd])))).
      { intros n Hn. replace (n - length lat) with (S (n - length (lat ++ [fd]))) by (rewrite app_length; simpl; lia). cbn [repeat]. rewrite <- (map_length (jface m j) lat) at 1. rewrite wr_app_mid, map_app, <- app_assoc. reflexivity. }
      rewrite X by lia. cbn [bind].
      replace (length lat + 1) with (length (lat ++ [fd])) by (rewrite app_length; simpl; lia). replace ((f0 :: map fst lat) ++ [fst fd]) with (f0 :: map fst (lat ++ [fd])) by (rewrite map_app; reflexivity).
      assert (F : filter (fun fd1 => negb (fst fd1 =? f0) && negb (has (f0 :: map fst (lat ++ [fd])) (fst fd1)) && has (map fst (k_fe m (fst fd1))) e) l =
                  filter (fun fd1 => negb (fst fd1 =? f0) && negb (has (f0 :: map fst lat) (fst fd1)) && has (map fst (k_fe m (fst fd1))) e) l).
      { apply filter_ext_in. intros x Ix. do 2 f_equal. f_equal. apply Bool.eq_iff_eq_true. rewrite !hasI, map_app. simpl. rewrite in_app_iff. simpl. split; [|tauto].
        intros [A|[A|[A|[]]]]; auto. exfalso. apply N1. rewrite A. apply in_map. auto. }
      rewrite (IH (lat ++ [fd])); auto.
      * rewrite F. cbv zeta. rewrite <- app_assoc. reflexivity.
      * intros x Ix. apply Hi. right; auto.
      * intros x Ix I2. rewrite map_app, in_app_iff in I2. apply in_app_iff. destruct I2 as [I2|[I2|[]]]; [left; apply Hl; auto; right; auto|]. exfalso. apply N1. rewrite I2. apply in_map; auto.
      * rewrite F, app_length. simpl. lia.
    + cbn [andb] in Hlen. cbn [bind]. rewrite IH; auto; [intros x Ix; apply Hi; right; auto|]. intros x Ix. apply Hl. right; auto.
  - cbn [andb] in Hlen. cbn [bind]. rewrite IH; auto; [intros x Ix; apply Hi; right; auto|]. intros x Ix. apply Hl. right; auto.
Qed.

(** [lat] lists faces of the cell other than the base face, each once *)
Definition good (lat : list (nat * bool)) : Prop := NoDup (map fst (b :: lat)) /\ incl lat rf.
Lemma good_len lat : good lat -> length lat < length rf.
Proof.
  intros [N Hi]. pose proof (fun l' => @NoDup_incl_length _ _ l' N) as L. assert (I2 : incl (map fst (b :: lat)) (map fst rf)).
  { intros x Ix. apply in_map_iff in Ix as (y & <- & Iy). apply in_map. destruct Iy as [<-|Iy]; auto. }
  specialize (L _ I2). rewrite !map_length in L. simpl in L. lia.
Qed.
Lemma good_step e lat : good lat -> good (lat ++ at_edge m rf f0 e lat).
Proof.
  intros [N Hi]. split.
  - rewrite app_comm_cons, map_app. apply NoDup_app_iff. split; [exact N|]. split.
    + unfold at_edge. pose proof rf_nodup as R. revert R. generalize rf. intros l. induction l as [|x l IH]; intros R; [apply NoDup_nil|]. apply NoDup_cons_iff in R as [R1 R2]. cbn [filter]. destruct (_ && _); auto.
      cbn [map]. apply NoDup_cons; auto. intros Q. apply R1. apply in_map_iff in Q as (y & <- & Iy). apply filter_In in Iy as [Iy _]. apply in_map; auto.
    + intros x Ix Iy. apply in_map_iff in Iy as (y & <- & Iy). apply at_edge_In in Iy as (_ & A & B & _). destruct Ix as [Ix|Ix]; [apply A; auto|apply B; auto].
  - intros x Ix. apply in_app_iff in Ix as [Ix|Ix]; auto. apply at_edge_In in Ix. tauto.
Qed.
Lemma outer : forall es lat, good lat -> good (lats m rf f0 es lat) /\
  lateral j rf f0 es (map (jface m j) lat ++ repeat (0, 0%Z) (length rf - length lat), length lat, f0 :: map fst lat) =
  let lat' := lats m rf f0 es lat in Ok (map (jface m j) lat' ++ repeat (0, 0%Z) (length rf - length lat'), length lat', f0 :: map fst lat').
Proof.
  induction es as [|e es IH]; intros lat G; [split; [exact G|reflexivity]|]. destruct (IH _ (good_step e G)) as [A B]. split; [exact A|].
  unfold lateral. cbn [foldM lats fold_left]. pose proof (good_len (good_step e G)) as L. rewrite app_length in L. rewrite (@inner e rf lat); auto.
  - apply incl_refl.
  - apply rf_nodup.
  - intros x Ix I2. apply in_map_iff in I2 as (y & E & Iy). replace x with y; auto. apply rf_inj; auto. apply (proj2 G); auto.
  - unfold at_edge in L. apply Nat.lt_le_incl. exact L.
Qed.

(** in a closed plain cell each edge of the base gives its other face *)
Definition other (e : nat) (fd : nat * bool) : Prop := In fd rf /\ fst fd <> f0 /\ e_of_f m e (fst fd) /\ forall g, In g rf -> e_of_f m e (fst g) -> fst g = f0 \/ g = fd.
Lemma other_ex e : e_of_f m e f0 -> exists fd, other e fd.
Proof.
  intros He. destruct (Cl (f := f0) (e := e)) as (f' & A & B & D & E); auto; [apply in_map; auto|]. apply in_map_iff in B as (fd & <- & B). exists fd. repeat split; auto.
  intros g Ig Eg. destruct (E (fst g)) as [Q|Q]; auto; [apply in_map; auto|]. right. apply rf_inj; auto.
Qed.
Lemma at_edge_other e fd lat : e_of_f m e f0 -> other e fd -> ~ In (fst fd) (map fst lat) -> at_edge m rf f0 e lat = [fd].
Proof.
  intros He (A & B & D & E) N. assert (X : forall x, In x (at_edge m rf f0 e lat) <-> x = fd).
  { intros x. rewrite at_edge_In. split; [intros (X1 & X2 & X3 & X4); destruct (E x X1 X4); [congruence|auto]|intros ->; auto]. }
  assert (ND : NoDup (at_edge m rf f0 e lat)) by (apply NoDup_filter, (NoDup_map_inv fst), rf_nodup).
  destruct (at_edge m rf f0 e lat) as [|x l]; [exfalso; apply (proj2 (X fd) eq_refl)|]. pose proof (proj1 (X x) (or_introl eq_refl)) as ->. f_equal.
  destruct l as [|y l]; auto. pose proof (proj1 (X y) (or_intror (or_introl eq_refl))) as ->. apply NoDup_cons_iff in ND as [ND _]. exfalso; apply ND; left; auto.
Qed.
Lemma lats_other : forall es done lat, NoDup (done ++ es) -> (forall e, In e (done ++ es) -> e_of_f m e f0) -> Forall2 other done lat ->
  exists lat2, lats m rf f0 es lat = lat ++ lat2 /\ Forall2 other es lat2.
Proof.
  induction es as [|e es IH]; intros don lat N H F; [exists []; rewrite app_nil_r; split; [reflexivity|apply Forall2_nil]|].
  assert (He : e_of_f m e f0) by (apply H, in_app_iff; right; left; auto). destruct (other_ex He) as [fd O].
  assert (Q : ~ In (fst fd) (map fst lat)).
  { intros Q. apply in_map_iff in Q as (x & E & Ix). assert (X : exists e', In e' don /\ other e' x).
    { clear - F Ix. revert Ix. induction F as [|e' y don lat A F IH]; intros [].
      - subst. exists e'. split; [left|]; auto. - destruct (IH H) as (e2 & B1 & B2). exists e2. split; [right|]; auto. }
    destruct X as (e' & Ie' & O'). destruct O as (A & B & D & _), O' as (A' & B' & D' & _). rewrite E in D'.
    assert (e = e'). { apply (@Pl f0 (fst fd) e e'); auto; [apply in_map; auto|apply in_map; auto|]. apply H, in_app_iff. left; auto. }
    subst e'. apply NoDup_remove_2 in N. apply N, in_app_iff. left; auto. }
  cbn [lats fold_left]. rewrite (at_edge_other He O Q). destruct (IH (don ++ [e]) (lat ++ [fd])) as (l2 & E & F2).
  - rewrite <- app_assoc. exact N.
  - rewrite <- app_assoc. exact H.
  - apply Forall2_app; auto.
  - exists (fd :: l2). unfold lats in E. rewrite E, <- app_assoc. split; auto.
Qed.

(** the edges of the base in the order in which the code visits them *)
Definition base_edges : list nat := if snd b then k_fe_rev m f0 else map fst (k_fe m f0).
Lemma Ib' : In f0 (k_all m MFACE). Proof. apply rf_range; auto. Qed.
Lemma base_edges_perm : Permutation (map fst (k_fe m f0)) base_edges.
Proof. unfold base_edges. destruct (snd b); auto. etransitivity; [apply Permutation_rev|]. apply same_cycle_perm, (mk_fe_rev W f0 Ib'). Qed.
Lemma base_lats : exists lat, lats m rf f0 base_edges [] = lat /\ Forall2 other base_edges lat /\ length lat = length (k_fe m f0).
Proof.
  pose proof base_edges_perm as P. destruct (@lats_other base_edges [] []) as (lat & E & F).
  - apply (Permutation_NoDup P). apply (mk_fe_nodup W f0 Ib').
  - intros e Ie. apply (Permutation_in _ (Permutation_sym P)). auto.
  - apply Forall2_nil.
  - exists lat. split; [exact E|]. split; auto. apply Permutation_length in P. rewrite map_length in P. rewrite P. clear - F. induction F; simpl; auto.
Qed.
(** a face has as many neighbours as edges *)
Lemma face_size : length (k_fe m f0) < length rf.
Proof.
  destruct base_lats as (lat & E & F & L). rewrite <- L. apply good_len. rewrite <- E. apply (@outer base_edges []). split; [simpl; apply NoDup_cons; [intros []|apply NoDup_nil]|intros x []].
Qed.
Definition laterals := lats m rf f0 base_edges [].
Definition tops : list (nat * bool) := match find (fun fd => negb (fst fd =? f0) && negb (has (f0 :: map fst laterals) (fst fd))) rf with Some fd => [fd] | None => [] end.
Lemma good_laterals : good laterals.
Proof. apply (@outer base_edges []). split; [simpl; apply NoDup_cons; [intros []|apply NoDup_nil]|intros x []]. Qed.
Lemma in_don x : has (f0 :: map fst laterals) x = true <-> In x (map fst (b :: laterals)).
Proof. apply hasI. Qed.
Lemma tops_spec t : tops = [t] -> In t rf /\ ~ In (fst t) (map fst (b :: laterals)).
Proof.
  unfold tops. destruct (find _ rf) as [fd|] eqn:E; [|discriminate]. intros Q. injection Q as ->. apply find_some in E as [A B]. split; auto. apply andb_prop in B as [_ B]. intros Q. apply in_don in Q. rewrite Q in B. discriminate.
Qed.
Lemma no_tops : tops = [] -> incl rf (b :: laterals).
Proof.
  unfold tops. destruct (find _ rf) as [fd|] eqn:E; [discriminate|]. intros _ x Ix. pose proof (find_none _ _ E x Ix) as N. cbn beta in N.
  destruct (fst x =? f0) eqn:Q; [apply Nat.eqb_eq in Q; left; apply rf_inj; auto|]. cbn [negb andb] in N. apply Bool.negb_false_iff in N. apply in_don in N. apply in_map_iff in N as (y & Ey & Iy). replace x with y; auto. apply rf_inj; auto. destruct Iy as [<-|Iy]; auto. apply good_laterals; auto.
Qed.
(** when the counts are right, all faces are listed *)
Lemma assembled n t : length (k_fe m f0) = n -> length rf = n + 1 + t -> t <= 1 -> length tops = t /\ Permutation (laterals ++ b :: tops) rf /\
  (s <- lateral j rf f0 base_edges (repeat (0, 0%Z) (length rf), 0, [f0]) ;;
   let '(out, nf, don) := s in x <- face_dir j MFACE b ;; out <- wr out nf x ;;
   match find (fun fd => negb (fst fd =? f0) && negb (has don (fst fd))) rf with
   | Some fd => x <- face_dir j MFACE fd ;; wr out (nf + 1) x | None => Ok out end) = Ok (map (jface m j) (laterals ++ b :: tops)).
Proof.
  intros En Er Ht. destruct base_lats as (lat & El & F & L). fold laterals in El. rewrite <- El in L. clear F El lat. rewrite En in L. pose proof good_laterals as G.
  assert (Lt : length tops = t).
  { destruct tops as [|x l] eqn:T.
    - pose proof (no_tops T) as Q. apply NoDup_incl_length in Q; [|apply (NoDup_map_inv fst), rf_nodup]. simpl in *. lia.
    - assert (l = []) as -> by (unfold tops in T; destruct (find _ rf); congruence). destruct (tops_spec T) as [A B]. destruct G as [N Hi].
      assert (X : NoDup (map fst (x :: b :: laterals))) by (cbn [map]; apply NoDup_cons; auto). pose proof (fun l' => @NoDup_incl_length _ _ l' X) as Q. assert (Y : incl (map fst (x :: b :: laterals)) (map fst rf)).
      { intros y Iy. apply in_map_iff in Iy as (z & <- & Iz). apply in_map. destruct Iz as [<-|[<-|Iz]]; auto. }
      specialize (Q _ Y). rewrite !map_length in Q. simpl in *. lia. }
  split; [exact Lt|]. split.
  - apply NoDup_Permutation_bis.
    + apply (NoDup_map_inv fst). apply (Permutation_NoDup (l := map fst (tops ++ b :: laterals))).
      * apply Permutation_map. etransitivity; [apply Permutation_app_comm|]. apply Permutation_middle.
      * rewrite map_app. destruct tops as [|x [|y l]] eqn:T; [apply G| |simpl in Lt; lia]. cbn [map app]. apply NoDup_cons; [apply (tops_spec T)|apply G].
    + rewrite app_length. simpl. lia.
    + intros x Ix. apply in_app_iff in Ix as [Ix|[<-|Ix]]; auto; [apply G; auto|]. destruct tops as [|z [|y l]] eqn:T; [destruct Ix| |simpl in Lt; lia]. destruct Ix as [<-|[]]. apply (tops_spec T).
  - assert (G0 : good []) by (split; [simpl; apply NoDup_cons; [intros []|apply NoDup_nil]|intros x []]). destruct (outer base_edges G0) as [_ O]. cbn [map app length] in O. rewrite Nat.sub_0_r in O. rewrite O. cbv zeta. cbn [bind]. fold laterals.
    rewrite (fd_ok Ib). cbn [bind].
    assert (X : forall A (l : list A) k d x, wr (l ++ repeat d (S k)) (length l) x = Ok (l ++ x :: repeat d k)) by (intros; cbn [repeat]; apply wr_app_mid).
    pose proof (X _ (map (jface m j) laterals) t (0, 0%Z) (jface m j b)) as X1. rewrite map_length in X1. replace (length rf - length laterals) with (S t) by lia. rewrite X1. cbn [bind]. fold f0.
    unfold tops in *. destruct (find _ rf) as [fd|] eqn:Fi.
    + simpl in Lt. subst t. apply find_some in Fi as [If _]. rewrite (fd_ok If). cbn [bind repeat].
      pose proof (@wr_app_mid _ (map (jface m j) laterals ++ [jface m j b]) (0, 0%Z) [] (jface m j fd)) as X2. rewrite app_length, map_length in X2. cbn [length] in X2. rewrite <- !app_assoc in X2. cbn [app] in X2. rewrite X2, map_app. reflexivity.
    + simpl in Lt. subst t. cbn [repeat]. rewrite map_app. reflexivity.
Qed.
End Ordered.

(** lateral faces and top faces of the standard cells *)
Definition shape (ct : cell_type) : nat * nat := match ct with TET => (3, 0) | PYRAMID => (4, 0) | PRISM => (3, 1) | _ => (4, 1) end.
Section Ordered2.
Variables (serial edges : bool) (m : mstk) (rcv : received) (j : jmesh).
Hypothesis W : mstk_mesh m.
Hypothesis C : constructed serial false true edges m rcv j.
Hypothesis D3 : k_dim m = 3.
Let M : made serial false true edges m rcv j := constructed_made C.
Let Jm : j_mesh j = m := mj_mesh M.
Variables (c h : nat).
Hypothesis Ec : behind j CELL c h.
Hypothesis Cl : closed_cell m h.
Hypothesis Pl : plain_cell m h.
Lemma size_ge b : In b (k_rf m h) -> 3 <= length (k_fe m (fst b)).
Proof. intros Ib. apply (mk_fe_nodup W). apply (rf_range W C D3 Ec Ib). Qed.
(** the base face exists and has the number of edges of the shape *)
Lemma base_ok ct : region_celltype j h = ct -> In ct [TET; HEX; PYRAMID; PRISM] -> exists b, base_face j ct (k_rf m h) = Ok b /\ In b (k_rf m h) /\
  length (k_fe m (fst b)) = fst (shape ct) /\ length (k_rf m h) = fst (shape ct) + 1 + snd (shape ct).
Proof.
  unfold region_celltype, nquads. rewrite Jm. intros E Hct.
  assert (Hs : forall b, In b (k_rf m h) -> 3 <= length (k_fe m (fst b)) < length (k_rf m h)).
  { intros b Ib. split; [apply size_ge; auto|]. apply (face_size W C D3 Ec Cl Pl Ib). }
  assert (NQ : forall l (p : nat * bool -> bool), length (filter p l) < length l -> exists x, In x l /\ p x = false).
  { clear. induction l as [|x l IH]; intros p H; simpl in H; [lia|]. destruct (p x) eqn:P; [|exists x; split; [left|]; auto]. simpl in H. destruct (IH p) as (y & A & B); [lia|]. exists y. split; [right|]; auto. }
  assert (NQ2 : forall l (p : nat * bool -> bool), 0 < length (filter p l) -> exists x, In x l /\ p x = true).
  { clear. induction l as [|x l IH]; intros p H; simpl in H; [lia|]. destruct (p x) eqn:P; [exists x; split; [left|]; auto|]. destruct (IH p) as (y & A & B); auto. exists y. split; [right|]; auto. }
  assert (NQ3 : forall l (p : nat * bool -> bool), length (filter p l) = length l -> forall x, In x l -> p x = true).
  { clear. induction l as [|x l IH]; intros p H y Iy; simpl in H; [destruct Iy|]. destruct (p x) eqn:P; simpl in H; [|pose proof (filter_len p l); lia]. destruct Iy as [<-|Iy]; auto. }
  assert (F : forall n, length (k_rf m h) = 5 -> (exists x, In x (k_rf m h) /\ length (k_fe m (fst x)) = n) ->
     exists b, match find (fun fd => length (k_fe m (fst fd)) =? n) (firstn 5 (k_rf m h)) with Some fd => Ok fd | None => UB end = Ok b /\ In b (k_rf m h) /\ length (k_fe m (fst b)) = n).
  { intros n L (x & Ix & Lx). rewrite firstn_all2 by lia. destruct (find _ _) as [b|] eqn:Q.
    - apply find_some in Q as [A B]. apply Nat.eqb_eq in B. eauto.
    - pose proof (find_none _ _ Q x Ix) as N. cbn beta in N. apply Nat.eqb_neq in N. congruence. }
  assert (R0 : 0 < length (k_rf m h) -> exists b, rd (k_rf m h) 0 = Ok b /\ In b (k_rf m h)).
  { intros L. destruct (k_rf m h) as [|b l]; [simpl in L; lia|]. exists b. split; [reflexivity|left; auto]. }
  unfold base_face. rewrite Jm.
  destruct (length (k_rf m h)) as [|[|[|[|[|[|[|n]]]]]]] eqn:L; try (exfalso; subst ct; simpl in Hct; intuition discriminate).
  - subst ct. destruct R0 as (b & A & B); [lia|]. exists b. split; [exact A|]. split; [exact B|]. pose proof (Hs b B). simpl. lia.
  - destruct (length (filter (fun fd => length (k_fe m (fst fd)) =? 4) (k_rf m h))) as [|[|[|[|q]]]] eqn:Q; try (exfalso; subst ct; simpl in Hct; intuition discriminate); subst ct; cbn [shape fst snd].
    + destruct (F 4 eq_refl) as (b & A & B & B2); [|exists b; auto]. destruct (NQ2 (k_rf m h) (fun fd => length (k_fe m (fst fd)) =? 4)) as (x & Ix & Ex); [lia|]. exists x. split; auto. apply Nat.eqb_eq; auto.
    + destruct (F 3 eq_refl) as (b & A & B & B2); [|exists b; auto]. destruct (NQ (k_rf m h) (fun fd => length (k_fe m (fst fd)) =? 4)) as (x & Ix & Ex); [lia|]. apply Nat.eqb_neq in Ex. exists x. split; auto. pose proof (Hs x Ix). lia.
  - destruct (length (filter (fun fd => length (k_fe m (fst fd)) =? 4) (k_rf m h)) =? 6) eqn:Q; [|exfalso; subst ct; simpl in Hct; intuition discriminate]. apply Nat.eqb_eq in Q. subst ct. cbn [shape fst snd].
    destruct R0 as (b & A & B); [lia|]. exists b. split; [exact A|]. split; [exact B|]. split; [|reflexivity]. apply Nat.eqb_eq. apply (NQ3 (k_rf m h) (fun fd => length (k_fe m (fst fd)) =? 4)); auto. congruence.
Qed.
Definition idp (p : nat * nat) : nat * nat := (id_of j MVERTEX (fst p), id_of j MVERTEX (snd p)).
(** the edges of the base, in the visiting order, are the steps of the face seen from inside *)
Lemma inside b ns : In b (k_rf m h) -> face_nodes j (id_of j MFACE (fst b)) = Ok ns -> length ns = length (k_fe m (fst b)) /\
  exists ps, same_cycle (Geometry_spec.edges (from_inside (snd (jface m j b)) ns)) ps /\ Forall2 (fun e p => exists a z, p = (id_of j MVERTEX a, id_of j MVERTEX z) /\ v_of_e m a e /\ v_of_e m z e) (base_edges m b) ps.
Proof.
  intros Ib En. pose proof (rf_range W C D3 Ec Ib) as If. pose proof (fk3 D3) as Fk.
  assert (Ef : behind j FACE (id_of j MFACE (fst b)) (fst b)) by (pose proof (@behind_of _ _ _ _ _ _ C FACE (fst b) bk_face (proj2 (faces_kind C) eq_refl)) as Q; cbn [mkind_of] in Q; rewrite Fk in Q; auto).
  destruct (face_nodes_ok W C eq_refl Ef) as (vs & E & P & H1 & H2). rewrite E in En. injection En as En. unfold fverts in *. rewrite D3 in *. cbn [Nat.eqb] in *. destruct (mk_fv W _ If) as [Ee Ne].
  assert (Lf : length (k_fv m (fst b)) = length (k_fe m (fst b))).
  { assert (Q : forall (l : list nat), length (Geometry_spec.edges l) = length l).
    { clear. assert (S0 : forall (l : list nat) a z, length (steps a l z) = S (length l)) by (induction l as [|y l IH]; intros a z; simpl; auto). intros [|a l]; auto. simpl. apply S0. }
    rewrite <- Q, Ee, map_length. auto. }
  split; [rewrite <- En, map_length, <- Lf; apply Permutation_length; exact P|].
  assert (Cy : same_cycle (from_inside (snd (jface m j b)) ns) (map (id_of j MVERTEX) (if snd b then rev (k_fv m (fst b)) else k_fv m (fst b)))).
  { unfold jface. cbn [snd]. rewrite Fk. rewrite <- En. unfold from_inside. destruct (flip j (id_of j MFACE (fst b))) eqn:Fl; unfold dirz; destruct (snd b); cbn.
    - apply same_cycle_map. apply same_cycle_sym. auto.
    - rewrite <- map_rev. apply same_cycle_map. rewrite <- (rev_involutive (k_fv m (fst b))). apply same_cycle_rev. apply same_cycle_sym. auto.
    - rewrite <- map_rev. apply same_cycle_map. rewrite H1 by auto. apply same_cycle_refl.
    - apply same_cycle_map. rewrite H1 by auto. apply same_cycle_refl. }
  apply edges_cycle in Cy. rewrite Geometry_proofs.edges_map in Cy. unfold base_edges.
  assert (Ve : forall ed, v_of_e m (fst (used m ed)) (fst ed) /\ v_of_e m (snd (used m ed)) (fst ed)) by (intros [e []]; unfold used, v_of_e, swap; simpl; auto).
  destruct (snd b).
  - pose proof (mk_fe_rev W _ If) as R. rewrite <- map_rev in R. destruct (same_cycle_unmap R) as (l' & S & ->).
    exists (map (fun ed => idp (swap (used m ed))) l'). split.
    + eapply same_cycle_trans; [exact Cy|]. apply same_cycle_trans with (map idp (rev (map swap (Geometry_spec.edges (k_fv m (fst b)))))).
      * apply same_cycle_map. apply edges_rev2.
      * rewrite Ee, map_map, <- map_rev, map_map. apply same_cycle_map. exact S.
    + clear - Ve. induction l' as [|ed l IH]; simpl; [apply Forall2_nil|apply Forall2_cons; auto]. destruct (Ve ed) as [A B]. unfold idp, swap. cbn [fst snd]. eauto.
  - exists (map (fun ed => idp (used m ed)) (k_fe m (fst b))). split.
    + rewrite Ee, map_map in Cy. exact Cy.
    + clear - Ve. induction (k_fe m (fst b)) as [|ed l IH]; simpl; [apply Forall2_nil|apply Forall2_cons; auto]. destruct (Ve ed) as [A B]. unfold idp. eauto.
Qed.
End Ordered2.

(** C87.  For the standard cells (tetrahedron, hexahedron, prism, pyramid), the ordered call returns the faces of the cell with the directions of
    the unordered call, in this order: the lateral faces, one along each edge of a base face, going round the base in the order seen from inside
    the cell; the base face; and for hexahedra and prisms the face that does not touch the base along an edge. *)
Theorem c87_standard_order_partial : forall serial edges m rcv j c h ct, mstk_mesh m -> constructed serial false true edges m rcv j -> k_dim m = 3 ->
  behind j CELL c h -> closed_cell m h -> plain_cell m h -> cell_get_type j c = Ok ct -> In ct [TET; HEX; PYRAMID; PRISM] ->
  exists lat base top fs ns, cell_faces j true c = Ok (lat ++ base :: top) /\ cell_faces j false c = Ok fs /\ Permutation (lat ++ base :: top) fs /\
    length lat = fst (shape ct) /\ length top = snd (shape ct) /\
    face_nodes j (fst base) = Ok ns /\ length ns = fst (shape ct) /\
    (exists ps, same_cycle (Geometry_spec.edges (from_inside (snd base) ns)) ps /\
       Forall2 (fun p f => node_of_face j (fst p) (fst f) /\ node_of_face j (snd p) (fst f)) ps lat) /\
    (forall t b' t' e, In t top -> behind j FACE (fst base) b' -> behind j FACE (fst t) t' -> ~ (e_of_f m e b' /\ e_of_f m e t')).
Proof.
  intros serial edges m rcv j c h ct W C D3 Ec Cl Pl Ect Hct. pose proof (constructed_made C) as M. pose proof (mj_mesh M) as Jm. pose proof (fk3 D3) as Fk.
  pose proof (proj2 (rd_table j CELL c h) Ec) as R. cbn [table] in R.
  assert (Er : region_celltype j h = ct) by (unfold cell_get_type in Ect; rewrite R in Ect; cbn [bind] in Ect; rewrite Jm, D3 in Ect; cbn in Ect; injection Ect as Ect; auto).
  destruct (base_ok W C D3 Ec Cl Pl Er Hct) as (b & Eb & Ib & Ln & Lr).
  assert (Lt : snd (shape ct) <= 1) by (destruct ct; simpl; lia).
  destruct (assembled W C D3 Ec Cl Pl Ib Ln Lr Lt) as (Lto & Pe & As).
  destruct (base_lats W C D3 Ec Cl Pl Ib) as (lat & El & Fo & Ll).
  assert (Ef : forall fd, In fd (k_rf m h) -> behind j FACE (fst (jface m j fd)) (fst fd)).
  { intros fd Ifd. unfold jface. cbn [fst]. pose proof (@behind_of _ _ _ _ _ _ C FACE (fst fd) bk_face (proj2 (faces_kind C) eq_refl)) as Q. cbn [mkind_of] in Q. apply Q. rewrite Fk. apply (rf_range W C D3 Ec Ifd). }
  destruct (face_nodes_ok W C eq_refl (Ef b Ib)) as (vs & En & _).
  assert (En' : face_nodes j (id_of j MFACE (fst b)) = Ok (map (id_of j MVERTEX) vs)) by (unfold jface in En; cbn [fst] in En; rewrite Fk in En; exact En).
  destruct (inside W C D3 Ec Ib En') as (Lns & ps & Cy & F2).
  exists (map (jface m j) (laterals m h b)), (jface m j b), (map (jface m j) (tops m h b)). do 2 eexists. split; [|split; [apply (cell_faces_ok W C eq_refl Ec)|]].
  { unfold cell_faces, asserting. rewrite (mj_faces M). unfold cell_faces_ordered. rewrite Jm, D3, Ect. cbn [Nat.eqb bind]. rewrite map_app in As. cbn [map] in As.
    assert (X : (h0 <- rd (cell_h j) c;; (let rf := k_rf m h0 in b0 <- base_face j ct rf;; (let es := if snd b0 then k_fe_rev m (fst b0) else map fst (k_fe m (fst b0)) in
        s <- lateral j rf (fst b0) es (repeat (0, 0%Z) (length rf), 0, [fst b0]);; (let '(out, nf, don) := s in x <- face_dir j MFACE b0;; out0 <- wr out nf x;;
        match find (fun fd => negb (fst fd =? fst b0) && negb (has don (fst fd))) rf with Some fd => x0 <- face_dir j MFACE fd;; wr out0 (nf + 1) x0 | None => Ok out0 end)))) = Ok (map (jface m j) (laterals m h b) ++ jface m j b :: map (jface m j) (tops m h b))).
    { rewrite R. cbn [bind]. cbv zeta. rewrite Eb. cbn [bind]. exact As. }
    simpl in Hct. destruct Hct as [<-|[<-|[<-|[<-|[]]]]]; exact X. }
  split; [|split; [|split; [|split; [exact En|split; [|split]]]]].
  - rewrite <- (map_cons (jface m j) b), <- map_app. unfold cfaces_of. rewrite D3. cbn [Nat.eqb]. apply Permutation_map. exact Pe.
  - rewrite map_length. unfold laterals. rewrite El, Ll. exact Ln.
  - rewrite map_length. exact Lto.
  - rewrite Lns. exact Ln.
  - exists ps. split; [exact Cy|]. unfold laterals. rewrite El. clear - W C D3 Ec F2 Fo Ef Fk. revert ps F2. induction Fo as [|e fd es lat O Fo IH]; intros ps F2; inversion F2; subst; [apply Forall2_nil|]. cbn [map]. apply Forall2_cons; [|apply IH; auto].
    match goal with H : exists a z, _ |- _ => destruct H as (a & z & -> & Va & Vz) end. cbn [fst snd]. destruct O as (If & _ & Oe & _).
    assert (X : forall v, v_of_e m v e -> node_of_face j (id_of j MVERTEX v) (fst (jface m j fd))).
    { intros v Hv. assert (Iv : In v (k_fv m (fst fd))) by (apply (fv_used W (rf_range W C D3 Ec If)); eauto).
      assert (En : behind j NODE (id_of j MVERTEX v) v) by (apply (@behind_of _ _ _ _ _ _ C NODE v bk_node I); apply (fv_range W (rf_range W C D3 Ec If) Iv)).
      apply (nof W C eq_refl En (Ef fd If)). unfold fverts. rewrite D3. exact Iv. }
    auto.
  - intros t b' t' e It Eb' Et' [A B]. apply in_map_iff in It as (t0 & <- & It). pose proof (behind_fun Eb' (Ef b Ib)) as ->.
    destruct (tops m h b) as [|x [|y l]] eqn:T; [destruct It| |rewrite <- Lto in Lt; simpl in Lt; lia]. destruct It as [->|[]].
    destruct (tops_spec T) as [Ix Nx]. pose proof (behind_fun Et' (Ef t0 Ix)) as ->.
    destruct (other_ex W C D3 Ec Cl Ib A) as (fd & O).
    assert (Il : In fd (laterals m h b)).
    { unfold laterals. rewrite El. pose proof (Permutation_in _ (base_edges_perm W C D3 Ec Ib) A) as Ie. clear - Fo Ie O W C D3 Ec. induction Fo as [|e' fd' es lat O' Fo IH]; [destruct Ie|]. destruct Ie as [->|Ie]; [left|right; auto].
      destruct O' as (A1 & A2 & A3 & A4), O as (B1 & B2 & B3 & B4). destruct (A4 fd B1 B3); congruence. }
    destruct O as (O1 & O2 & O3 & O4). destruct (O4 t0 Ix B) as [Q| ->].
    + apply Nx. left. auto.
    + apply Nx. right. apply in_map. auto.
Qed.
(** C87.  In 2D, and for other cells, the ordered call is the unordered one. *)
Theorem c87_other_cells : forall serial bg faces edges m rcv j c, constructed serial bg faces edges m rcv j ->
  k_dim m <> 3 \/ (exists ct, cell_get_type j c = Ok ct /\ ~ In ct [TET; HEX; PYRAMID; PRISM]) -> cell_faces j true c = cell_faces j false c.
Proof.
  intros serial bg faces edges m rcv j c C H. pose proof (mj_mesh (constructed_made C)) as Jm. unfold cell_faces, cell_faces_ordered. rewrite Jm. f_equal. destruct (k_dim m =? 3) eqn:D; auto. apply Nat.eqb_eq in D.
  destruct H as [H|(ct & E & N)]; [congruence|]. rewrite E. cbn [bind]. destruct ct; auto; exfalso; apply N; simpl; tauto.
Qed.
(** C87 (the full claim fails when faces of the cell meet along more than one edge, as next to hanging nodes): a cell of five faces, three of them
    quadrilaterals, counts as a prism; if neither of the other two is a triangle, the ordered call works with a null base face. *)
Theorem c87_no_triangle_refuted : forall serial bg edges m rcv j c h, constructed serial bg true edges m rcv j -> k_dim m = 3 -> behind j CELL c h ->
  length (k_rf m h) = 5 -> length (filter (fun fd => length (k_fe m (fst fd)) =? 4) (k_rf m h)) = 3 -> (forall fd, In fd (k_rf m h) -> length (k_fe m (fst fd)) <> 3) ->
  cell_get_type j c = Ok PRISM /\ cell_faces j true c = UB.
Proof.
  intros serial bg edges m rcv j c h C D3 Ec L5 Q N. pose proof (constructed_made C) as M. pose proof (mj_mesh M) as Jm. pose proof (proj2 (rd_table j CELL c h) Ec) as R. cbn [table] in R.
  assert (T : cell_get_type j c = Ok PRISM) by (unfold cell_get_type; rewrite R; cbn [bind]; unfold region_celltype, nquads; rewrite Jm, D3; cbn [Nat.eqb]; rewrite L5, Q; reflexivity).
  split; [exact T|]. unfold cell_faces, asserting. rewrite (mj_faces M). unfold cell_faces_ordered. rewrite Jm, D3, T. cbn [Nat.eqb bind]. rewrite R. cbn [bind]. unfold base_face. rewrite Jm, firstn_all2 by lia.
  destruct (find _ _) as [b|] eqn:F; auto. apply find_some in F as [Ib Eb]. apply Nat.eqb_eq in Eb. exfalso. apply (N b Ib Eb).
Qed.

(** the hexahedron (cell 0, owned) and the prism (cell 1, ghost, one of its faces flipped) of MstkMesh_build *)
Definition hp_j : jmesh := match construct false false true true hp_mesh hp_rcv with Ok j => j | _ => ex_j end.
Lemma is_ok_eq (o : outcome jmesh) (d : jmesh) : match o with Ok _ => true | _ => false end = true -> o = Ok (match o with Ok j => j | _ => d end).
Proof. destruct o; try discriminate. auto. Qed.
Lemma hp_constructed : constructed false false true true hp_mesh hp_rcv hp_j.
Proof. split; [intros []; nodup|]. apply is_ok_eq. vm_compute. reflexivity. Qed.
Example c87_hexahedron : behind hp_j CELL 0 1 /\ closed_cell hp_mesh 1 /\ plain_cell hp_mesh 1 /\ cell_get_type hp_j 0 = Ok HEX /\
  cell_faces hp_j true 0 = Ok [(2, 1%Z); (3, 1%Z); (4, 1%Z); (5, 1%Z); (0, 1%Z); (1, 1%Z)].
Proof. split; [reflexivity|]. split; [apply closed_check_ok; vm_compute; reflexivity|]. split; [apply plain_check_ok; vm_compute; reflexivity|]. split; vm_compute; reflexivity. Qed.
Example c87_prism : behind hp_j CELL 1 2 /\ closed_cell hp_mesh 2 /\ plain_cell hp_mesh 2 /\ cell_get_type hp_j 1 = Ok PRISM /\
  cell_faces hp_j false 1 = Ok [(3, (-1)%Z); (8, (-1)%Z); (7, (1)%Z); (6, (1)%Z); (9, (1)%Z)] /\ cell_faces hp_j true 1 = Ok [(3, (-1)%Z); (9, (1)%Z); (8, (-1)%Z); (7, (1)%Z); (6, (1)%Z)].
Proof. split; [reflexivity|]. split; [apply closed_check_ok; vm_compute; reflexivity|]. split; [apply plain_check_ok; vm_compute; reflexivity|]. repeat split; vm_compute; reflexivity. Qed.
(** the prism with hanging nodes is a closed cell of a well-formed mesh *)
Definition sp_j : jmesh := match construct true false true true sp_mesh (fun _ _ => (0, 0)) with Ok j => j | _ => ex_j end.
Example c87_hanging_nodes : mstk_mesh sp_mesh /\ constructed true false true true sp_mesh (fun _ _ => (0, 0)) sp_j /\ behind sp_j CELL 0 1 /\ closed_cell sp_mesh 1 /\
  length (k_rf sp_mesh 1) = 5 /\ length (filter (fun fd => length (k_fe sp_mesh (fst fd)) =? 4) (k_rf sp_mesh 1)) = 3 /\ (forall fd, In fd (k_rf sp_mesh 1) -> length (k_fe sp_mesh (fst fd)) <> 3) /\
  cell_faces sp_j true 0 = UB.
Proof.
  split; [exact sp_is_mesh|]. split; [split; [intros []; nodup|apply is_ok_eq; vm_compute; reflexivity]|]. split; [reflexivity|]. split; [apply closed_check_ok; vm_compute; reflexivity|]. split; [reflexivity|]. split; [reflexivity|]. split; [|vm_compute; reflexivity].
  intros fd I. each I; discriminate.
Qed.
